(** A document that shares nothing is its contents (C47). *)
From Verif Require Import Base Utf8 Float64 Value Scan Unmarshal Opt Marshal Access Path Edit Iter Heap SpecHeap SpecShare HeapReload HeapShare
  GoValue Import ExampleWorld.

(** *** One call *)

(** The functions on memory (Heap.v) do to an unshared document what the functions on
    trees (Path.v, Edit.v) do to its contents: the same error or the same value, the
    document afterwards is the tree they give, and it is unshared again. *)
Theorem C47_get : forall (E : Env) (W : World) h p v s caseless first others, unshared h p v s ->
  forall h' r v' r', h_get E W caseless h p first others = (h', r) -> get E W caseless v first others = (v', r') ->
  turned h h' p s [] v' /\ same_result (shows h') r r'.
Proof. exact share_get. Qed.
Print Assumptions C47_get.

Theorem C47_set : forall (E : Env) h p v s c w t first others,
  unshared h p v s -> unshared h c w t -> (forall a, In a s -> ~ In a t) ->
  forall h' r v' r', h_set E h p c first others = (h', r) -> set_at E v (arg_v w) first others = (v', r') ->
  turned h h' p s t v' /\ same_result (fun q x => q = c /\ x = w) r r'.
Proof. exact share_set. Qed.
Print Assumptions C47_set.

Theorem C47_insert : forall (E : Env) (W : World) h p v s c w t (after : bool) first others,
  unshared h p v s -> unshared h c w t -> (forall a, In a s -> ~ In a t) ->
  forall h' r v' r', h_insert E W after h p c first others = (h', r) ->
  (if after then insert_after E W v (arg_v w) first others else insert_before E W v (arg_v w) first others) = (v', r') ->
  turned h h' p s t v' /\ same_result (fun q x => q = c /\ x = w) r r'.
Proof. exact share_insert. Qed.
Print Assumptions C47_insert.

Theorem C47_append : forall (E : Env) (W : World) h p v s c w t (front : bool) params,
  unshared h p v s -> unshared h c w t -> (forall a, In a s -> ~ In a t) ->
  forall h' r v' r', h_append E W front h p c params = (h', r) ->
  (if front then append_beginning E W v (arg_v w) params else append_end E W v (arg_v w) params) = (v', r') ->
  turned h h' p s t v' /\ same_result (fun q x => q = c /\ x = w) r r'.
Proof. exact share_append. Qed.
Print Assumptions C47_append.

Theorem C47_delete : forall (E : Env) (W : World) h p v s caseless first others, unshared h p v s ->
  forall h' r v' r', h_delete E W caseless h p first others = (h', r) -> delete_at E W caseless v first others = (v', r') ->
  turned h h' p s [] v' /\ same_result eq r r'.
Proof. exact share_delete. Qed.
Print Assumptions C47_delete.

(** SortArray, with a function that compares elements by what they show. *)
Theorem C47_sort : forall (W : World) h p v s f g, unshared h p v s ->
  (forall x y vx vy, shows h x vx -> shows h y vy -> f h x y = g vx vy) ->
  forall h' r, h_sort W h p (Some f) = (h', r) ->
  match sort_array W v (Some g) with
  | Ok v' => r = Ok None /\ turned h h' p s [] v'
  | o => h' = h /\ same_result (fun _ _ => False) r o
  end.
Proof. exact share_sort. Qed.
Print Assumptions C47_sort.

(** UnmarshalJSON and UnmarshalBinary. *)
Theorem C47_load : forall (E : Env) h p v s b, unshared h p v s ->
  forall h' r v' r', h_load E h p b = (h', r) -> unmarshal_json E v b = (v', r') ->
  turned h h' p s [] v' /\ same_result (fun q _ => q = None) r r'.
Proof. exact share_load. Qed.
Print Assumptions C47_load.

(** *** Series of calls *)

(** A series of requests, each with a new value: the results and the document in the
    end are those of the trees. *)
Theorem C47_series : forall (E : Env) (W : World) qs h p v s, unshared h p v s ->
  exists h2, tells E W p h qs (snd (answers E W v qs)) h2 /\ exists s2, unshared h2 p (fst (answers E W v qs)) s2.
Proof. exact tells_answers. Qed.
Print Assumptions C47_series.

(** Two documents with the same contents, wherever they lie, give the same results and
    have the same contents in the end. *)
Theorem C47_contents_decide : forall (E : Env) (W : World) h p h' p' v s s' qs ws ws' h2 h2',
  unshared h p v s -> unshared h' p' v s' -> tells E W p h qs ws h2 -> tells E W p' h' qs ws' h2' ->
  ws = ws' /\ exists v2, shows h2 p v2 /\ shows h2' p' v2.
Proof. exact contents_decide. Qed.
Print Assumptions C47_contents_decide.

(** *** Examples *)

(** {"a":[1]} at 2; [null] is appended to the missing array "b", then inserted in front
    of the element of "a" by Insert, then "a" is deleted. *)
Example C47_instance :
  let E := env0 in let W := world1 in
  let v := VObj 1 [(bs "a", (1, VArr [new_int64 1]))] None in
  let h := fst (h_build [] v) in
  let q1 := RAppend false VNull [PStr (bs "b")] in
  let q2 := RInsert false (VBool true) (PStr (bs "a")) [PInt 0] in
  let q3 := RGet false (PStr (bs "a")) [] in
  let q4 := RDelete false (PStr (bs "a")) [] in
  unshared h (Some 2%nat) v [2; 1; 0]%nat /\
  answers E W v [q1; q2; q3; q4; q3] =
    (VObj 2 [(bs "b", (2, VArr [VNull]))] None,
     [Ok VNull; Ok (VBool true); Ok (VArr [VBool true; new_int64 1]); Ok VNil; Err ErrNotFound]).
Proof.
  split; [|vm_compute; reflexivity]. split.
  - eapply reads_obj; [reflexivity|]. apply (reads_member _ _ _ _ _ [1; 0]%nat [] [] []); [|constructor].
    eapply reads_arr; [reflexivity|]. apply (reads_elem _ _ _ [0]%nat [] [] []); [|constructor]. eapply reads_leaf; reflexivity.
  - repeat constructor; cbn; intuition lia.
Qed.

(** [3,1,2] is sorted by integers, given another element, and overwritten. *)
Example C47_sort_instance :
  let E := env0 in let W := world1 in
  let v := VArr [new_int64 3; new_int64 1; new_int64 2] in
  let int (x : V) : Z := match api_int64 E x with Ok n => n | _ => 0 end in
  let q1 := RSort (Some (fun x y => int x <? int y)) in
  let q2 := RAppend false VNull [] in
  let q3 := RLoad (bs "{") in
  let q4 := RLoad (bs "{""a"":true}") in
  let q5 := RGet false (PStr (bs "a")) [] in
  answers E W v [q1; q2] = (VArr [new_int64 1; new_int64 2; new_int64 3; VNull], [Ok VNil; Ok VNull]) /\
  answers E W v [q3; q4; q1; q5] =
    (VObj 1 [(bs "a", (1, VBool true))] None, [Err ErrNotObjectValue; Ok VNil; Ok VNil; Ok (VBool true)]).
Proof. vm_compute. split; reflexivity. Qed.

(** With sharing it is otherwise: the array 1 is at "a" and at "b"; appended to "a", the
    value is in "b" as well. *)
Example C47_shared :
  let h := [CNull; CArr [Some 0%nat]; CObj 2 [(bs "a", (1, Some 1%nat)); (bs "b", (2, Some 1%nat))] None] in
  let v := VObj 2 [(bs "a", (1, VArr [VNull])); (bs "b", (2, VArr [VNull]))] None in
  let h2 := fst (h_append env0 world1 false h (Some 2%nat) (Some 0%nat) [PStr (bs "a")]) in
  shows h (Some 2%nat) v /\
  shows h2 (Some 2%nat) (VObj 2 [(bs "a", (1, VArr [VNull; VNull])); (bs "b", (2, VArr [VNull; VNull]))] None) /\
  fst (append_end env0 world1 v (arg_v VNull) [PStr (bs "a")]) =
    VObj 2 [(bs "a", (1, VArr [VNull; VNull])); (bs "b", (2, VArr [VNull]))] None.
Proof.
  split; [|split; [|vm_compute; reflexivity]].
  - eexists. eapply reads_obj; [reflexivity|].
    repeat first [eapply reads_member | eapply reads_elem | eapply reads_no_elem | eapply reads_no_member | eapply reads_arr; [reflexivity|] | eapply reads_leaf; reflexivity].
  - eexists. eapply reads_obj; [vm_compute; reflexivity|].
    repeat first [eapply reads_member | eapply reads_elem | eapply reads_no_elem | eapply reads_no_member | eapply reads_arr; [vm_compute; reflexivity|] | eapply reads_leaf; vm_compute; reflexivity].
Qed.
