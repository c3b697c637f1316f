(** Edits made by the callback during an iteration (C67). *)
From Verif Require Import Base Utf8 Float64 Value Scan Opt Marshal Access Path Edit Iter RangeEdit SpecRangeEdit
  RangeEditClaims ExampleWorld ExampleRangeEdit.

(** C67 is false: RangeArray with a callback that deletes what it is given tells some
    elements twice, others not at all, and those stay. *)
Theorem C67_refuted : exists m s, slice_ok m s /\ NoDup (view m s) /\
  let '(t, ms') := range_array_live (fun n => n) (deleting (fun _ => true)) tt (m, s) in
  ~ NoDup (delivered t) /\ (exists x, In x (view m s) /\ ~ In x (delivered t)) /\ view (fst ms') (snd ms') <> [].
Proof.
  exists [[vb "a"; vb "b"; vb "c"]], (Slice 0 3). split; [split; cbn; lia|]. split.
  { repeat constructor; cbn; intuition discriminate. }
  cbn. split; [|split; [exists (vb "b"); cbn; intuition discriminate|discriminate]].
  intros H. inversion H as [|? ? _ H']; subst. inversion H' as [|? ? Hn _]; subst. apply Hn. now left.
Qed.
Print Assumptions C67_refuted.

(** It may tell a nil *V although the array has none. *)
Theorem C67_nil_refuted : exists m s (cb : acallback unit), slice_ok m s /\ ~ In VNil (view m s) /\
  let '(t, ms') := range_array_live (fun n => n) cb tt (m, s) in
  In VNil (delivered t) /\ ~ In VNil (view (fst ms') (snd ms')).
Proof.
  exists [[vb "a"; vb "b"]], (Slice 0 2), drop_last. split; [split; cbn; lia|]. split; [cbn; intros [H|[H|[]]]; discriminate H|].
  cbn. split; [right; now left|intros [H|[]]; discriminate H].
Qed.
Print Assumptions C67_nil_refuted.

(** SortArray: an element told twice, another not at all. *)
Theorem C67_sort_refuted : exists m s (cb : acallback unit), slice_ok m s /\ only_sorts cb /\
  let '(t, ms') := range_array_live (fun n => n) cb tt (m, s) in
  delivered t = [vb "b"; vb "b"] /\ view (fst ms') (snd ms') = [vb "a"; vb "b"].
Proof.
  exists [[vb "b"; vb "a"]], (Slice 0 2), (sorting_at 0 world1 by_text). split; [split; cbn; lia|]. split.
  { intros st w i x. unfold sorting_at. cbn [fst snd]. destruct (_ =? _); repeat constructor. eauto. }
  vm_compute. split; reflexivity.
Qed.
Print Assumptions C67_sort_refuted.

(** What is told may depend on the unseen capacity. *)
Theorem C67_capacity_refuted : exists m s m' s' (cb : acallback unit), slice_ok m s /\ slice_ok m' s' /\ view m s = view m' s' /\
  delivered (fst (range_array_live (fun n => n) cb tt (m, s))) <> delivered (fst (range_array_live (fun n => n) cb tt (m', s'))).
Proof.
  exists [[vb "a"; vb "b"]], (Slice 0 2), [[vb "a"; vb "b"; VNil; VNil]], (Slice 0 2), push_front.
  split; [split; cbn; lia|]. split; [split; cbn; lia|]. split; [reflexivity|]. cbn. discriminate.
Qed.
Print Assumptions C67_capacity_refuted.

(** A member made during RangeObjects is told in one run and not in another. *)
Theorem C67_new_member_refuted : exists E W v (cb : ocallback unit) t t' v', object v /\
  range_objects_live E W cb tt v t v' true /\ range_objects_live E W cb tt v t' v' true /\
  ~ Permutation (told t) (told t').
Proof.
  exists env0, world1, ob, maker. eexists _, _, _. split; [exact ob_object|]. split; [exact made_missed|]. split; [exact made_told|].
  intros H. apply Permutation_length in H. discriminate H.
Qed.
Print Assumptions C67_new_member_refuted.

(** The calls, made on the memory where the children lie, are those of the tree. *)
Theorem C67_calls : forall E W g m s a, slice_ok m s ->
  let ms' := a_exec g (m, s) a in
  slice_ok (fst ms') (snd ms') /\ view (fst ms') (snd ms') = edited (view m s) a /\
  VArr (view (fst ms') (snd ms')) =
  fst (match a with
       | ASet x p => set_at E (VArr (view m s)) (arg_v x) (PInt p) []
       | ABefore x p => insert_before E W (VArr (view m s)) (arg_v x) (PInt p) []
       | AAfter x p => insert_after E W (VArr (view m s)) (arg_v x) (PInt p) []
       | ABegin x => append_beginning E W (VArr (view m s)) (arg_v x) []
       | AEnd x => append_end E W (VArr (view m s)) (arg_v x) []
       | ADelete p => let '(v, _) := delete_at E W false (VArr (view m s)) (PInt p) [] in (v, Ok VNull)
       | ASort W' less => (match sort_array W' (VArr (view m s)) (Some less) with Ok v => v | _ => VNil end, Ok VNull)
       end).
Proof. exact calls_agree. Qed.
Print Assumptions C67_calls.

(** What holds of RangeArray, whatever the callback does: it is called with the
    positions 0, 1, … in turn, as many as there were elements at the beginning (fewer if it
    stops), the array shows at every call what the calls before have made of it, and in
    the end what all of them have. *)
Theorem C67_array_partial : forall S g (cb : acallback S) st m s t ms', slice_ok m s ->
  range_array_live g cb st (m, s) = (t, ms') ->
  replay cb st (view m s) t (view (fst ms') (snd ms')) /\ in_turn t /\
  (List.length t <= List.length (view m s))%nat /\
  (never_stops cb -> List.length t = List.length (view m s)) /\ slice_ok (fst ms') (snd ms').
Proof. exact array_live. Qed.
Print Assumptions C67_array_partial.

(** With deletions, replacements and sorting only: the child told is the one that stands at the
    position then, if there is one. *)
Theorem C67_in_place_partial : forall S g (cb : acallback S) st m s t ms', slice_ok m s -> needs_no_room cb ->
  range_array_live g cb st (m, s) = (t, ms') ->
  forall w i x, In (w, i, x) t -> i < Z.of_nat (List.length w) -> nth_error w (Z.to_nat i) = Some x.
Proof. exact array_in_place. Qed.
Print Assumptions C67_in_place_partial.

(** SortArray, any number of times: every child told is one of the array and stands at its position then; some
    may be told twice and others not at all. *)
Theorem C67_sorts_partial : forall S g (cb : acallback S) st m s t ms', slice_ok m s -> only_sorts cb ->
  range_array_live g cb st (m, s) = (t, ms') ->
  Permutation (view (fst ms') (snd ms')) (view m s) /\
  (forall w i x, In (w, i, x) t -> Permutation w (view m s) /\ nth_error w (Z.to_nat i) = Some x) /\ incl (delivered t) (view m s).
Proof. exact array_sorts. Qed.
Print Assumptions C67_sorts_partial.

(** SortArray called at position [k]: the elements told, and when these are all. *)
Theorem C67_sorting_partial : forall g W less k m s t ms', slice_ok m s -> (k < List.length (view m s))%nat ->
  range_array_live g (sorting_at k W less) tt (m, s) = (t, ms') ->
  let l := view m s in let l' := view (fst ms') (snd ms') in
  l' = go_sort W less l /\ delivered t = firstn (S k) l ++ skipn (S k) l' /\
  (Permutation (delivered t) l <-> Permutation (firstn (S k) l) (firstn (S k) l')).
Proof. exact array_sorting. Qed.
Print Assumptions C67_sorting_partial.

(** With additions at the end only: the children told are the old ones. *)
Theorem C67_appends_partial : forall S g (cb : acallback S) st m s t ms', slice_ok m s -> only_appends cb ->
  range_array_live g cb st (m, s) = (t, ms') -> delivered t = firstn (List.length t) (view m s).
Proof. exact array_appends. Qed.
Print Assumptions C67_appends_partial.

(** The loop that deletes the elements with [p] deletes them all exactly if no two of
    them are neighbours. *)
Theorem C67_deleting_partial : forall g p m s t ms', slice_ok m s ->
  range_array_live g (deleting p) tt (m, s) = (t, ms') ->
  view (fst ms') (snd ms') = every_other p (view m s) /\
  (view (fst ms') (snd ms') = filter (fun x => negb (p x)) (view m s) <-> ~ neighbours p (view m s)).
Proof. exact array_deleting. Qed.
Print Assumptions C67_deleting_partial.

(** [range v.ForRangeArr()] tells the old children, whatever is done to v meanwhile. *)
Theorem C67_for_range_arr : forall S g (cb : acallback S) st m s t ms', slice_ok m s ->
  for_range_arr_live g cb st (m, s) = (t, ms') ->
  replay cb st (view m s) t (view (fst ms') (snd ms')) /\ in_turn t /\
  delivered t = firstn (List.length t) (view m s) /\
  (never_stops cb -> delivered t = view m s).
Proof. exact for_range_arr. Qed.
Print Assumptions C67_for_range_arr.

(** *** Objects *)

(** RangeObjects, whatever the callback does: the child told is the member's value
    then. *)
Theorem C67_object_partial : forall S E W (cb : ocallback S) st v t v' all, object v ->
  range_objects_live E W cb st v t v' all ->
  object v' /\ Forall (fun r => let '(w, k, x) := r in member w k = Some x) t /\
  exists f', oreplay cb st (member v) t f' /\ is_members v' f'.
Proof. exact object_live. Qed.
Print Assumptions C67_object_partial.

(** If nothing is deleted, no member is told twice and every old one is told. *)
Theorem C67_object_sets_partial : forall S E W (cb : ocallback S) st v t v' all, object v -> never_deletes cb ->
  range_objects_live E W cb st v t v' all ->
  NoDup (map fst (told t)) /\ (all = true -> forall k, In k (names v) -> In k (map fst (told t))).
Proof. exact object_sets. Qed.
Print Assumptions C67_object_sets_partial.

(** If no member is made, none is told twice, and an old one that is not told is gone. *)
Theorem C67_object_deletes_partial : forall S E W (cb : ocallback S) st v t v' all, object v -> makes_no_new cb ->
  range_objects_live E W cb st v t v' all ->
  NoDup (map fst (told t)) /\ (forall k, In k (map fst (told t)) -> In k (names v)) /\
  (all = true -> forall k, In k (names v) -> In k (map fst (told t)) \/ ~ In k (names v')).
Proof. exact object_no_new. Qed.
Print Assumptions C67_object_deletes_partial.

(** The loop that deletes members with [p] tells all and deletes exactly those, in
    whatever order, and any order can occur. *)
Theorem C67_object_deleting : forall E W p v t v' all, object v ->
  range_objects_live E W (deleting_members p) tt v t v' all ->
  Permutation (told t) (entries (object_of v)) /\
  forall k, member v' k = match member v k with Some x => if p k x then None else Some x | None => None end.
Proof. exact object_deleting. Qed.
Print Assumptions C67_object_deleting.

Theorem C67_object_deleting_runs : forall E W p v ks, object v -> Permutation ks (names v) ->
  exists t v', range_objects_live E W (deleting_members p) tt v t v' true /\ map fst (told t) = ks.
Proof. exact object_deleting_runs. Qed.
Print Assumptions C67_object_deleting_runs.

(** RangeObjectsBySetSequence tells the old members, in the same order as without edits. *)
Theorem C67_by_set : forall S E W path (cb : ocallback S) st v t v', object v ->
  range_by_set_live E W path cb st v = (t, v') ->
  exists es, range_objects_by_set W path v (Some (fun s e => (s ++ [e], true))) [] = Ok es /\
  Permutation es (entries (object_of v)) /\ told t = firstn (List.length t) es /\
  ((forall st w k x, snd (cb st w k x) = true) -> told t = es) /\
  object v' /\ exists f', oreplay cb st (member v) t f' /\ is_members v' f'.
Proof. exact object_by_set. Qed.
Print Assumptions C67_by_set.
