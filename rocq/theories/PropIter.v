(** Properties of iteration (C36) and SortArray (C39). *)
From Verif Require Import Base Float64 Value Scan Unmarshal Opt Marshal Access Path Edit Iter SpecValue SpecOrder SpecPath SpecHistory SpecIter
  IterProof ExampleWorld.

(** C36: an array is visited from the first to the last element, with positions. *)
Theorem C36_array : forall S (cb : S -> Z * V -> S * bool) l s, exists es s',
  range_array (VArr l) (Some cb) s = Ok s' /\ positions l es /\ visits cb es s s' /\
  iter_array (VArr l) = Ok es /\ for_range_arr (VArr l) = Ok l.
Proof. exact @range_array_visits. Qed.
Print Assumptions C36_array.

(** Every member of an object is visited once, in some order. *)
Theorem C36_object : forall S (W : World) path (cb : S -> bytes * V -> S * bool) i kvs lo s, exists es s',
  range_objects W path (VObj i kvs lo) (Some cb) s = Ok s' /\ Permutation es (members kvs) /\ visits cb es s s' /\
  iter_objects W path (VObj i kvs lo) = Ok es /\
  (NoDup (map fst kvs) -> for_range_obj W path (VObj i kvs lo) = Ok es).
Proof. exact @range_objects_visits. Qed.
Print Assumptions C36_object.

(** The last part of C36 is false, as C23: the counter has 32 bits. *)
Theorem C36_refuted : forall E : Env, exists n v, set_history E n v [bs "a"; bs "b"] /\
  forall W path, range_objects_by_set W path v (Some (fun s x => (s ++ [x], true))) [] =
    Ok [(bs "b", VBool false); (bs "a", VBool true)].
Proof. exact wrapped_sequence. Qed.
Print Assumptions C36_refuted.

(** In the order in which the names were last set, for objects in which fewer
    than 2^32 times a member was set. *)
Theorem C36_set_sequence_partial : forall S (E : Env) (W : World) path (cb : S -> bytes * V -> S * bool) n v ks s,
  set_history E n v ks -> Z.of_nat n < two32 ->
  exists i kvs lo es s', v = VObj i kvs lo /\ range_objects_by_set W path v (Some cb) s = Ok s' /\
    Permutation es (members kvs) /\ map fst es = ks /\ visits cb es s s'.
Proof. exact @range_by_set_visits. Qed.
Print Assumptions C36_set_sequence_partial.

(** In any object every member is visited once, and in the order of the numbers
    given at setting if these are different. *)
Theorem C36_set_sequence_any : forall S (W : World) path (cb : S -> bytes * V -> S * bool) i kvs lo s, exists kvs' s',
  range_objects_by_set W path (VObj i kvs lo) (Some cb) s = Ok s' /\ Permutation kvs' kvs /\
  visits cb (members kvs') s s' /\
  (NoDup (map (fun e => fst (snd e)) kvs) -> ForallOrdPairs (fun x y => fst (snd x) < fst (snd y)) kvs').
Proof. exact @range_by_set_any. Qed.
Print Assumptions C36_set_sequence_any.

(** Values of other types have no entries, and a nil callback is not called. *)
Theorem C36_nothing : forall S (W : World) path v (f : S -> bytes * V -> S * bool) (g : S -> Z * V -> S * bool) s, v <> VNil ->
  ((forall i kvs lo, v <> VObj i kvs lo) ->
     range_objects W path v (Some f) s = Ok s /\ range_objects_by_set W path v (Some f) s = Ok s /\
     iter_objects W path v = Ok [] /\ for_range_obj W path v = Ok []) /\
  ((forall l, v <> VArr l) -> range_array v (Some g) s = Ok s /\ iter_array v = Ok [] /\ for_range_arr v = Ok []) /\
  range_objects W path v None s = Ok s /\ range_objects_by_set W path v None s = Ok s /\ range_array v None s = Ok s.
Proof. exact @range_nothing. Qed.
Print Assumptions C36_nothing.

(** What is visited determines what the callback has gathered. *)
Theorem C36_determined : forall S A (cb : S -> A -> S * bool) es s s1 s2, visits cb es s s1 -> visits cb es s s2 -> s1 = s2.
Proof. exact @visits_determined. Qed.
Print Assumptions C36_determined.

(** A callback that gathers what it sees and stops at null. *)
Definition until_null {A} (s : list (A * V)) (x : A * V) : list (A * V) * bool :=
  (s ++ [x], match snd x with VNull => false | _ => true end).

Example C36_instance :
  range_array (VArr [VBool true; VNull; VBool false]) (Some until_null) [] = Ok [(0, VBool true); (1, VNull)] /\
  range_objects world2 [] (VObj 3 [(bs "a", (3, VNull)); (bs "b", (1, VBool true)); (bs "c", (2, VBool false))] None)
    (Some until_null) [] = Ok [(bs "c", VBool false); (bs "b", VBool true); (bs "a", VNull)] /\
  range_objects_by_set world2 [] (VObj 3 [(bs "a", (3, VNull)); (bs "b", (1, VBool true)); (bs "c", (2, VBool false))] None)
    (Some until_null) [] = Ok [(bs "b", VBool true); (bs "c", VBool false); (bs "a", VNull)] /\
  range_objects_by_set world2 [] (VObj 3 [(bs "a", (1, VNull)); (bs "b", (2, VBool true))] None)
    (Some until_null) [] = Ok [(bs "a", VNull)].
Proof. repeat split; vm_compute; reflexivity. Qed.

(** C39: SortArray permutes, and sorts if the function is a strict weak order on
    the elements.  (It may answer anything if asked about one element twice.) *)
Theorem C39_sorts : forall (W : World) l less, exists l',
  sort_array W (VArr l) (Some less) = Ok (VArr l') /\ Permutation l' l /\
  forall R, strict_weak_order R ->
    (forall i j x y, i <> j -> nth_error l i = Some x -> nth_error l j = Some y -> less x y = R x y) ->
    ForallOrdPairs (fun x y => R y x = false) l'.
Proof. exact sort_array_sorts. Qed.
Print Assumptions C39_sorts.

Theorem C39_other : forall (W : World) v less, sort_array W v None = Ok v /\
  ((forall l, v <> VArr l) -> v <> VNil -> sort_array W v less = Ok v).
Proof. exact sort_array_other. Qed.
Print Assumptions C39_other.

Definition text_len (x : V) : nat := match x with VStr s => List.length s | _ => 0%nat end.
Definition longer (x y : V) : bool := (text_len y <? text_len x)%nat.
Example C39_instance :
  sort_array world1 (VArr [VStr (bs "a"); VStr (bs "ccc"); VStr (bs "bb")]) (Some longer) =
    Ok (VArr [VStr (bs "ccc"); VStr (bs "bb"); VStr (bs "a")]) /\
  sort_array world1 (VStr (bs "x")) (Some longer) = Ok (VStr (bs "x")) /\ strict_weak_order longer.
Proof.
  split; [vm_compute; reflexivity|]. split; [reflexivity|]. split; [|split].
  - intros x. apply Nat.ltb_irrefl.
  - intros x y z. unfold longer. rewrite !Nat.ltb_lt. lia.
  - intros x y z. unfold longer. rewrite !Nat.ltb_ge. lia.
Qed.
