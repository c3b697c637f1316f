(** Examples for SpecLess.v. *)
From Verif Require Import Base Float64 Value Opt Marshal SpecOrder SpecOut SpecLess ExampleWorld.

(** Shorter names first in the outermost object, longer ones first in the objects inside. *)
Definition by_size (R : nat -> nat -> bool) (x y : bytes * V) : bool := R (List.length (fst x)) (List.length (fst y)).
Definition zigzag : less_func := fun pi k1 k2 v1 v2 =>
  match pi with None => by_size Nat.ltb (k1, v1) (k2, v2) | Some _ => by_size (fun n m => Nat.ltb m n) (k1, v1) (k2, v2) end.

Lemma zigzag_weak : less_weak zigzag.
Proof.
  intros [p|]; [exists (by_size (fun n m => Nat.ltb m n))|exists (by_size Nat.ltb)]; (split; [|reflexivity]); unfold by_size; repeat split; intros *;
    rewrite ?Nat.ltb_lt, ?Nat.ltb_ge; try apply Nat.ltb_irrefl; lia.
Qed.

Definition zz_doc : V := VObj 3 [(bs "ccc", (1, VBool true)); (bs "a", (2, VObj 2 [(bs "x", (1, VNull)); (bs "yy", (2, VNull))] None)); (bs "bb", (3, VBool false))] None.
