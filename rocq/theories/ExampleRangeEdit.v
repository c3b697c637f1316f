(** Concrete runs of iterations that edit. *)
From Verif Require Import Base Utf8 Float64 Value Scan Opt Marshal Access Path Edit Iter RangeEdit SpecRangeEdit ExampleWorld ExampleDoc.

Definition vb (s : string) : V := VStr (bs s).
Definition tight (l : list V) : mem * slice := ([l], Slice 0 (List.length l)).
Definition roomy (l : list V) : mem * slice := ([l ++ repeat VNil 2], Slice 0 (List.length l)).
Definition g0 : nat -> nat := fun n => n.

(** Deletes everything it is given. *)
Example delete_all :
  let '(t, ms) := range_array_live g0 (deleting (fun _ => true)) tt (tight [vb "a"; vb "b"; vb "c"]) in
  (map (fun r => (snd (fst r), snd r)) t, view (fst ms) (snd ms)) =
  ([(0%Z, vb "a"); (1%Z, vb "c"); (2%Z, vb "c")], [vb "b"]).
Proof. reflexivity. Qed.

(** Deletes the last element when it is given the first. *)
Definition drop_last : acallback unit := fun _ _ i _ => (tt, if i =? 0 then [ADelete (-1)] else [], true).
Example nil_delivered :
  let '(t, ms) := range_array_live g0 drop_last tt (tight [vb "a"; vb "b"]) in
  (delivered t, view (fst ms) (snd ms)) = ([vb "a"; VNil], [vb "a"]).
Proof. reflexivity. Qed.

(** Puts an element in front when it is given the first. *)
Definition push_front : acallback unit := fun _ _ i _ => (tt, if i =? 0 then [ABegin (vb "n")] else [], true).
Example capacity :
  delivered (fst (range_array_live g0 push_front tt (tight [vb "a"; vb "b"]))) = [vb "a"; vb "b"] /\
  delivered (fst (range_array_live g0 push_front tt (roomy [vb "a"; vb "b"]))) = [vb "a"; vb "a"].
Proof. split; reflexivity. Qed.
Example capacity_for_range :
  delivered (fst (for_range_arr_live g0 push_front tt (tight [vb "a"; vb "b"]))) = [vb "a"; vb "b"] /\
  delivered (fst (for_range_arr_live g0 push_front tt (roomy [vb "a"; vb "b"]))) = [vb "a"; vb "b"].
Proof. split; reflexivity. Qed.

(** Appends each element again. *)
Definition double : acallback unit := fun _ _ i x => (tt, [AEnd x], true).
Example doubled :
  let '(t, ms) := range_array_live g0 double tt (tight [vb "a"; vb "b"]) in
  (delivered t, view (fst ms) (snd ms)) = ([vb "a"; vb "b"], [vb "a"; vb "b"; vb "a"; vb "b"]).
Proof. reflexivity. Qed.
Example doubles : only_appends double.
Proof. intros st w i x. cbn. constructor; [eauto|constructor]. Qed.

(** Sorts when it is given the first element. *)
Definition by_text (a b : V) : bool := match a, b with VStr x, VStr y => bltb x y | _, _ => false end.
Example sorted_meanwhile :
  let '(t, ms) := range_array_live g0 (sorting_at 0 world1 by_text) tt (roomy [vb "b"; vb "c"; vb "a"]) in
  (delivered t, view (fst ms) (snd ms)) = ([vb "b"; vb "b"; vb "c"], [vb "a"; vb "b"; vb "c"]).
Proof. reflexivity. Qed.
Example sorted_meanwhile_for_range :
  let '(t, ms) := for_range_arr_live g0 (sorting_at 0 world1 by_text) tt (roomy [vb "b"; vb "c"; vb "a"]) in
  (delivered t, view (fst ms) (snd ms)) = ([vb "b"; vb "c"; vb "a"], [vb "a"; vb "b"; vb "c"]).
Proof. reflexivity. Qed.

(** *** Objects *)
Definition ob : V := VObj 2 [(bs "a", (1, VBool true)); (bs "b", (2, VBool false))] None.
Example ob_object : object ob.
Proof. split; [eexists _, _, _; reflexivity|]. repeat constructor; cbn; intuition discriminate. Qed.

(** Makes a new member when it is given "a". *)
Definition maker : ocallback unit := fun _ _ k _ => (tt, if beqb k (bs "a") then [OSet (bs "c") VNull] else [], true).
Definition ob' : V := VObj 3 [(bs "a", (1, VBool true)); (bs "b", (2, VBool false)); (bs "c", (3, VNull))] None.
Example made_missed : range_objects_live env0 world1 maker tt ob [(ob, bs "a", VBool true); (ob', bs "b", VBool false)] ob' true.
Proof.
  eapply RM_go with (k := bs "a"); [left; now left|reflexivity|reflexivity|reflexivity|].
  eapply RM_go with (k := bs "b"); [left; now left|reflexivity|reflexivity|reflexivity|]. apply RM_end.
Qed.
Example made_told :
  range_objects_live env0 world1 maker tt ob [(ob, bs "a", VBool true); (ob', bs "c", VNull); (ob', bs "b", VBool false)] ob' true.
Proof.
  eapply RM_go with (k := bs "a"); [left; now left|reflexivity|reflexivity|reflexivity|].
  eapply RM_go with (k := bs "c"); [right; now left|reflexivity|reflexivity|reflexivity|].
  eapply RM_go with (k := bs "b"); [left; now left|reflexivity|reflexivity|reflexivity|]. apply RM_end.
Qed.

(** By the sequence of setting: "b", deleted when "a" is told, is told all the same. *)
Definition dropper : ocallback unit := fun _ _ k _ => (tt, if beqb k (bs "a") then [ODelete (bs "b")] else [], true).
Example by_set_stale : told (fst (range_by_set_live env0 world1 [] dropper tt ob)) = [(bs "a", VBool true); (bs "b", VBool false)].
Proof. reflexivity. Qed.
