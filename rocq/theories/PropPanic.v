(** Exactly which calls panic (C64). *)
From Verif Require Import Base Utf8 Float64 Value Scan Unmarshal Opt Marshal Access Path Edit Iter Compare Contain Base64
  SpecPath SpecGet SpecNil SpecPanic PanicProof PanicMore ExampleWorld.
Open Scope Z_scope.

(** *** Get and the getters *)

(** Get panics exactly when the path leads to a nil *V before its end. *)
Theorem C64_get : forall (E : Env) (W : World) cl ps v p, Forall plain (p :: ps) ->
  (snd (get E W cl v p ps) = Panic <-> nil_on_way E W cl v (p :: ps)).
Proof. exact get_panics. Qed.
Print Assumptions C64_get.

Theorem C64_getters : forall (E : Env) (W : World),
  number_panics E W (get_int E W) /\ number_panics E W (get_uint E W) /\
  number_panics E W (get_int64 E W) /\ number_panics E W (get_uint64 E W) /\
  number_panics E W (get_int32 E W) /\ number_panics E W (get_uint32 E W) /\
  number_panics E W (get_float64 E W) /\ number_panics E W (get_float32 E W) /\
  other_panics E W (get_bool E W) /\ other_panics E W (get_string E W) /\ other_panics E W (get_bytes E W) /\
  other_panics E W (get_null E W) /\ other_panics E W (get_object E W) /\ other_panics E W (get_array E W).
Proof. exact getters_panic. Qed.
Print Assumptions C64_getters.

Theorem C64_accessors : forall (E : Env) v,
  (api_int E v = Panic <-> v = VNil \/ long_blank v) /\ (api_uint E v = Panic <-> v = VNil \/ long_blank v) /\
  (api_int64 E v = Panic <-> v = VNil \/ long_blank v) /\ (api_uint64 E v = Panic <-> v = VNil \/ long_blank v) /\
  (api_int32 E v = Panic <-> v = VNil \/ long_blank v) /\ (api_uint32 E v = Panic <-> v = VNil \/ long_blank v) /\
  (api_float64 E v = Panic <-> v = VNil \/ long_blank v) /\ (api_float32 E v = Panic <-> v = VNil \/ long_blank v) /\
  (api_bool v = Panic <-> v = VNil) /\ (api_bytes v = Panic <-> v = VNil) /\
  (api_len v = Panic <-> v = VNil) /\ (value_type v = Panic <-> v = VNil).
Proof. exact accessors_panic. Qed.
Print Assumptions C64_accessors.

(** *** Edits *)

(** Set never panics. *)
Theorem C64_set : forall (E : Env) v x p o, snd (set_at E v x p o) <> Panic.
Proof. exact set_no_panic. Qed.
Print Assumptions C64_set.

Theorem C64_insert_before : forall (E : Env) (W : World) v c p ps, Forall plain (p :: ps) ->
  (snd (insert_before E W v (arg_v c) p ps) = Panic <-> nil_on_way E W false v (p :: ps)).
Proof. exact insert_before_panics. Qed.
Print Assumptions C64_insert_before.

(** After and InTheBeginning test the receiver. *)
Theorem C64_insert_after : forall (E : Env) (W : World) v c p ps, Forall plain (p :: ps) ->
  (snd (insert_after E W v (arg_v c) p ps) = Panic <-> v <> VNil /\ nil_on_way E W false v (p :: ps)).
Proof. exact insert_after_panics. Qed.
Print Assumptions C64_insert_after.

Theorem C64_append_beginning : forall (E : Env) (W : World) v x ps, Forall plain ps ->
  (snd (append_beginning E W v x ps) = Panic <-> v <> VNil /\ nil_met E W false v ps).
Proof. exact append_beginning_panics. Qed.
Print Assumptions C64_append_beginning.

Theorem C64_append_end : forall (E : Env) (W : World) v x ps, Forall plain ps ->
  (snd (append_end E W v x ps) = Panic <-> nil_met E W false v ps).
Proof. exact append_end_panics. Qed.
Print Assumptions C64_append_end.

Theorem C64_delete : forall (E : Env) (W : World) cl v p ps, Forall plain (p :: ps) ->
  (snd (delete_at E W cl v p ps) = Panic <-> nil_on_way E W cl v (p :: ps)).
Proof. exact delete_panics. Qed.
Print Assumptions C64_delete.

Theorem C64_caseless : forall (E : Env) (W : World) v p ps, Forall plain (p :: ps) ->
  (snd (caseless_get E W v p ps) = Panic <-> nil_on_way E W true v (p :: ps)) /\
  (snd (caseless_delete E W v p ps) = Panic <-> nil_on_way E W true v (p :: ps)).
Proof. exact caseless_panics. Qed.
Print Assumptions C64_caseless.

Theorem C64_must : forall (E : Env) (W : World) v x p o ps cl,
  snd (must_set_at E v x p o) <> Panic /\
  (snd (must_insert_before E W v x p o) = Panic <-> snd (insert_before E W v x p o) = Panic) /\
  (snd (must_insert_after E W v x p o) = Panic <-> snd (insert_after E W v x p o) = Panic) /\
  (snd (must_append_beginning E W v x ps) = Panic <-> snd (append_beginning E W v x ps) = Panic) /\
  (snd (must_append_end E W v x ps) = Panic <-> snd (append_end E W v x ps) = Panic) /\
  (snd (must_delete E W cl v p o) = Panic <-> snd (delete_at E W cl v p o) = Panic) /\
  (snd (must_get E W cl v p o) = Panic <-> snd (get E W cl v p o) = Panic).
Proof. exact must_panics. Qed.
Print Assumptions C64_must.

(** *** Comparison, containment, iteration, sorting *)

Theorem C64_compare : forall l r,
  let bad := l = VNil \/ (exists n s, l = VNum n s) /\ r = VNil in
  (greater_than l r = Panic <-> bad) /\ (greater_or_equal l r = Panic <-> bad) /\
  (less_than l r = Panic <-> bad) /\ (less_or_equal l r = Panic <-> bad).
Proof. exact compare_panics. Qed.
Print Assumptions C64_compare.

Theorem C64_contains : forall (E : Env) (W : World) v sub ps, ~ nil_at sub -> Forall plain ps ->
  (contains E W v sub ps = Panic <-> v <> VNil /\ ps <> [] /\ nil_met E W false v ps).
Proof. exact contains_panics. Qed.
Print Assumptions C64_contains.

Theorem C64_iteration : forall (W : World) S path v (f : option (callback S (bytes * V))) (g : option (callback S (Z * V))) s,
  (range_objects W path v f s = Panic <-> v = VNil) /\ (range_objects_by_set W path v f s = Panic <-> v = VNil) /\
  (range_array v g s = Panic <-> v = VNil) /\ (iter_objects W path v = Panic <-> v = VNil) /\
  (for_range_obj W path v = Panic <-> v = VNil) /\
  (iter_array v = Panic <-> v = VNil) /\ (for_range_arr v = Panic <-> v = VNil).
Proof. exact iteration_panics. Qed.
Print Assumptions C64_iteration.

Theorem C64_sort : forall (W : World) v less, sort_array W v less = Panic <-> v = VNil /\ less <> None.
Proof. exact sort_panics. Qed.
Print Assumptions C64_sort.

(** *** Examples *)

(** {"a":[nil],"b":"  "} *)
Definition ex64 : V := VObj 2 [(bs "a", (1, VArr [VNil])); (bs "b", (2, VStr [32; 32]))] None.
Example C64_instance : forall E W,
  snd (get E W false ex64 (PStr (bs "a")) [PInt 0]) = Ok VNil /\
  snd (get E W false ex64 (PStr (bs "a")) [PInt 0; PInt 0]) = Panic /\
  nil_on_way E W false ex64 [PStr (bs "a"); PInt 0; PInt 0] /\
  get_string E W false ex64 (PStr (bs "a")) [PInt 0] = Panic /\
  get_string E W false ex64 (PStr (bs "b")) [] = Ok ([32; 32], None) /\
  get_int E W false ex64 (PStr (bs "b")) [] = Panic /\
  snd (set_at E ex64 (arg_v VNull) (PStr (bs "a")) [PInt 0; PInt 0]) = Err ErrValueUninitialized /\
  snd (delete_at E W false ex64 (PStr (bs "a")) [PInt 0]) = Ok tt /\
  snd (delete_at E W false ex64 (PStr (bs "a")) [PInt 0; PStr []]) = Panic /\
  snd (append_end E W ex64 (arg_v VNull) [PStr (bs "a"); PInt 0]) = Panic /\
  snd (insert_after E W VNil (arg_v VNull) (PInt 0) []) = Err ErrValueUninitialized /\
  snd (insert_before E W VNil (arg_v VNull) (PInt 0) []) = Panic.
Proof.
  intros E W. repeat split; try reflexivity. exists [PStr (bs "a"); PInt 0], (PInt 0), []. split; reflexivity.
Qed.
Example C64_instance_contains :
  contains env0 world1 ex64 VNull [PStr (bs "a"); PInt 0] = Panic /\ contains env0 world1 ex64 VNull [PStr (bs "a"); PInt 1] = Ok false.
Proof. split; reflexivity. Qed.
