(** C73: how deep the calls of Unmarshal go.  [X_opens r n]: in the rest [r] of an X, some
    place is reached at which [n] containers that were opened in [r] are still open.  What
    comes behind that place does not matter: the text need not be a document. *)
From Verif Require Import Base Float64 Value SpecJson SpecLax.

Inductive val_opens : bytes -> nat -> Prop :=
| VO_arr r n : arr_opens r n -> val_opens (91 :: r) (S n)
| VO_obj r n : obj_opens r n -> val_opens (123 :: r) (S n)
(** The rest of an array. *)
with arr_opens : bytes -> nat -> Prop :=
| AO_none r : arr_opens r 0
| AO_value w r n : lblanks w -> val_opens r n -> arr_opens (w ++ r) n
| AO_comma w r n : lblanks w -> arr_opens r n -> arr_opens (w ++ 44 :: r) n
| AO_later w t j r n :
    lblanks w -> lval t j -> after_num j r -> arr_opens r n -> arr_opens (w ++ t ++ r) n
(** The rest of an object. *)
with obj_opens : bytes -> nat -> Prop :=
| OO_none r : obj_opens r 0
| OO_value w1 tk k w2 w3 r n :
    lblanks w1 -> lstr tk k -> lblanks w2 -> lblanks w3 -> val_opens r n ->
    obj_opens (w1 ++ 34 :: tk ++ 34 :: w2 ++ 58 :: w3 ++ r) n
| OO_comma w r n : lblanks w -> obj_opens r n -> obj_opens (w ++ 44 :: r) n
| OO_later w1 tk k w2 w3 t j r n :
    lblanks w1 -> lstr tk k -> lblanks w2 -> lblanks w3 -> lval t j -> after_num j r -> obj_opens r n ->
    obj_opens (w1 ++ 34 :: tk ++ 34 :: w2 ++ 58 :: w3 ++ t ++ r) n.

Scheme val_opens_mut := Minimality for val_opens Sort Prop
with arr_opens_mut := Minimality for arr_opens Sort Prop
with obj_opens_mut := Minimality for obj_opens Sort Prop.
Combined Scheme opens_mutind from val_opens_mut, arr_opens_mut, obj_opens_mut.

Inductive doc_opens : bytes -> nat -> Prop :=
| DO w r n : lblanks w -> val_opens r n -> doc_opens (w ++ r) n.

(** Nesting of a tree. *)
Fixpoint nesting (j : jv) : nat :=
  match j with
  | JArr l => S (fold_right (fun x n => Nat.max (nesting x) n) 0%nat l)
  | JObj l => S (fold_right (fun kx n => Nat.max (nesting (snd kx)) n) 0%nat l)
  | _ => 0
  end.

(** The opening brackets in a text. *)
Definition brackets (b : bytes) : nat :=
  List.length (filter (fun c => (c =? 91) || (c =? 123)) b).
