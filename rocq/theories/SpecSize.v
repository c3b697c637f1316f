(** C74: how long the output of Marshal gets. *)
From Verif Require Import Base Float64 Value SpecJson.

(** The bytes of content: names, strings and texts of numbers, and what no text can do
    without: quotes, brackets, colons.  Separating commas are not counted. *)
Fixpoint mass (v : V) : nat :=
  match v with
  | VStr s => (2 + List.length s)%nat
  | VNum _ src => List.length src
  | VBool _ | VNull => 4%nat
  | VArr l => (2 + fold_right (fun x n => mass x + n) 0 l)%nat
  | VObj _ kvs _ => (2 + fold_right (fun kx n => List.length (fst kx) + 3 + mass (snd (snd kx)) + n) 0 kvs)%nat
  | _ => 1%nat
  end.

(** Every number has a text.  Only NaN and the infinities have none. *)
Fixpoint spelled (v : V) : Prop :=
  match v with
  | VNum _ src => src <> []
  | VArr l => fold_right (fun x P => spelled x /\ P) True l
  | VObj _ kvs _ => fold_right (fun kx P => spelled (snd (snd kx)) /\ P) True kvs
  | _ => True
  end.

(** How deep arrays and objects are inside each other. *)
Fixpoint stories (v : V) : nat :=
  match v with
  | VArr l => S (fold_right (fun x n => Nat.max (stories x) n) 0%nat l)
  | VObj _ kvs _ => S (fold_right (fun kx n => Nat.max (stories (snd (snd kx))) n) 0%nat kvs)
  | _ => 0%nat
  end.
