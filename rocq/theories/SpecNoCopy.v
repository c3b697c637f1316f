(** Windows onto a buffer, written on their own. *)
From Verif Require Import Base Float64 Value NoCopy.

(** Between [lo] and [hi]. *)
Definition inside (lo hi : nat) (w : window) : Prop := (lo <= fst w /\ fst w <= snd w /\ snd w <= hi)%nat.
(** No byte in common. *)
Definition apart (w w' : window) : Prop := (snd w <= fst w' \/ snd w' <= fst w)%nat.
(** The byte at [p] is seen through [w]. *)
Definition shows (w : window) (p : nat) : Prop := (fst w <= p < snd w)%nat.

(** The same document up to the bytes of keys, strings and number texts: the same kinds and
    sizes, the same insertion numbers, the same numeric values and truth values. *)
Inductive same_but_texts : V -> V -> Prop :=
| sbt_str s s' : same_but_texts (VStr s) (VStr s')
| sbt_num n t t' : same_but_texts (VNum n t) (VNum n t')
| sbt_bool b : same_but_texts (VBool b) (VBool b)
| sbt_null : same_but_texts VNull VNull
| sbt_arr l l' : Forall2 same_but_texts l l' -> same_but_texts (VArr l) (VArr l')
| sbt_obj i kvs kvs' x :
    Forall2 (fun e e' => fst (snd e) = fst (snd e') /\ same_but_texts (snd (snd e)) (snd (snd e'))) kvs kvs' ->
    same_but_texts (VObj i kvs x) (VObj i kvs' x).
