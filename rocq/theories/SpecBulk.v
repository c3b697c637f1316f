(** How much a document holds (C81). *)
From Verif Require Import Base Value.

(** What a value weighs if every value (the members and elements, at any depth,
    and the value itself) weighs [a], and every byte of a string, of a member name
    and of the text of a number weighs [c]. *)
Fixpoint weight (a c : nat) (v : V) : nat :=
  a + match v with
      | VStr s => c * List.length s
      | VNum _ lit => c * List.length lit
      | VArr l => list_sum (map (weight a c) l)
      | VObj _ kvs _ => list_sum (map (fun e : kv => let '(k, (_, x)) := e in c * List.length k + weight a c x) kvs)
      | _ => 0
      end%nat.

(** The number of values, and the number of bytes in them. *)
Definition values (v : V) : nat := weight 1 0 v.
Definition content (v : V) : nat := weight 0 1 v.
