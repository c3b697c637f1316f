(** Objects sorted by a less function that is told the key path (OptKeySequenceWithLessFunc). *)
From Coq Require Import Permutation.
From Verif Require Import Base Float64 Value Opt SpecOrder SpecOut.

(** The less function is a strict weak order on the members of each object. *)
Definition less_weak (f : less_func) : Prop := forall pi, exists lt : bytes * V -> bytes * V -> bool,
  strict_weak_order lt /\ forall k1 k2 v1 v2, k1 <> k2 -> f pi k1 k2 v1 v2 = lt (k1, v1) (k2, v2).

(** [arranged f p v v']: [v'] is the value [v], which is found at the path [p], with the members of every
    object in it in such an order that none stands behind one that [f], told the path of the object, calls
    greater. *)
Section Arranged.
Variable f : less_func.

Definition none_greater (pi : option pinfo) (x y : bytes * (Z * V)) : Prop :=
  f pi (fst y) (fst x) (snd (snd y)) (snd (snd x)) = false.

Inductive arranged : list step -> V -> V -> Prop :=
| AR_same p v : (forall i kvs lo, v <> VObj i kvs lo) -> (forall l, v <> VArr l) -> arranged p v v
| AR_arr p l l' : List.length l = List.length l' ->
    (forall n x y, nth_error l n = Some x -> nth_error l' n = Some y -> arranged (p ++ [SIdx n]) x y) ->
    arranged p (VArr l) (VArr l')
| AR_obj p pi i kvs lo kvs1 kvs' :
    Permutation kvs kvs1 -> info_of p pi -> ForallOrdPairs (none_greater pi) kvs1 ->
    Forall2 (fun x y => fst x = fst y /\ fst (snd x) = fst (snd y) /\ arranged (p ++ [SKey (fst x)]) (snd (snd x)) (snd (snd y))) kvs1 kvs' ->
    arranged p (VObj i kvs lo) (VObj i kvs' lo).
End Arranged.
