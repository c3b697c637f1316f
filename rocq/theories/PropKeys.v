(** Properties of the ParentInfo handed to the less function (C44, C48, C49). *)
From Verif Require Import Base Float64 Value Opt Marshal SpecOut KeyMem SpecKeys KeyProof ParentProof KeyExamples ExampleWorld MarshalExamples.

(** C44, with key paths as slices that share memory: however append allocates
    (any capacities [g]), Marshal does what the model with key paths as plain
    lists does, and every path handed to the less function shows at that time
    the keys that lead to the object. *)
Theorem C44_shared_memory : forall (g : nat -> nat) (E : Env) (W : World) (o : opt) (v : V),
  (forall n, (n < g n)%nat) -> no_store (s_marshal_opt g E W o v) = marshal_opt E W o v.
Proof. exact memory_same. Qed.
Print Assumptions C44_shared_memory.

Theorem C44_told : forall (g : nat -> nat) (E : Env) (W : World) (o : opt) (v : V) st b,
  (forall n, (n < g n)%nat) -> s_marshal_opt g E W o v = Ok (st, b) ->
  Forall (fun e => told_right v (snd e)) (st_told st).
Proof. exact told_paths. Qed.
Print Assumptions C44_told.

(** C48.  The full statement: after Marshal has returned, a KeyPath [s] that
    the less function kept shows the keys [ks] that it showed at the call,
      s_marshal_opt g E W o v = Ok (st, b) -> In (s, ks) (st_told st) -> shows (st_mem st) s = ks.
    It is false already with the capacities of the Go runtime: the path may in
    the end lead to no object at all. *)
Theorem C48_kept_refuted : exists v, forall E, exists st b s ks,
  s_marshal_opt go_grow E world1 opt_by_name v = Ok (st, b) /\ In (s, ks) (st_told st) /\
  told_right v ks /\ ~ told_right v (shows (st_mem st) s).
Proof. exact kept_refuted. Qed.
Print Assumptions C48_kept_refuted.

(** What stays: the number of keys, and the keys up to the last length at
    which append allocated an array. *)
Theorem C48_kept_partial : forall (g : nat -> nat) (E : Env) (W : World) (o : opt) (v : V) st b s ks,
  (forall n, (n < g n)%nat) -> s_marshal_opt g E W o v = Ok (st, b) -> In (s, ks) (st_told st) ->
  List.length (shows (st_mem st) s) = List.length ks /\
  forall n, fresh_length g n -> (n <= List.length ks)%nat -> firstn n (shows (st_mem st) s) = firstn n ks.
Proof. exact kept_paths. Qed.
Print Assumptions C48_kept_partial.

(** With the capacities 1, 2, 4, 8, ...: paths of up to three keys stay. *)
Theorem C48_short : forall (E : Env) (W : World) (o : opt) (v : V) st b s ks,
  s_marshal_opt go_grow E W o v = Ok (st, b) -> In (s, ks) (st_told st) ->
  (List.length ks <= 3)%nat -> shows (st_mem st) s = ks.
Proof. exact kept_short. Qed.
Print Assumptions C48_short.

Example C48_instance : forall E, exists st,
  s_marshal_opt go_grow E world1 opt_by_name ex_deep
    = Ok (st, bs "{""a"":{""b"":{""c"":{""d"":{""a"":null,""b"":null},""e"":{""a"":null,""b"":null}}}}}") /\
  map snd (st_told st) = [keys_of ["a"; "b"; "c"]; keys_of ["a"; "b"; "c"; "d"]; keys_of ["a"; "b"; "c"; "e"]]%string /\
  map (fun e => shows (st_mem st) (fst e)) (st_told st)
    = [keys_of ["a"; "b"; "c"]; keys_of ["a"; "b"; "c"; "e"]; keys_of ["a"; "b"; "c"; "e"]]%string.
Proof. exact ex_deep_told. Qed.
Example C48_fresh : fresh_length go_grow 1 /\ fresh_length go_grow 2 /\ fresh_length go_grow 3 /\ fresh_length go_grow 5 /\ ~ fresh_length go_grow 4.
Proof. exact go_fresh. Qed.

(** C49.  The full statement: the Parent told with a call is the value that
    contains the object whose members are compared ([true_parent]), so that
    less functions which agree on such calls give the same output.  False. *)
Theorem C49_parent_refuted : exists v f f',
  (forall pi k1 k2 v1 v2, call_with true_parent v pi k1 k2 v1 v2 -> f pi k1 k2 v1 v2 = f' pi k1 k2 v1 v2) /\
  forall E, marshal_opt E world1 (with_less opt0 f) v <> marshal_opt E world1 (with_less opt0 f') v.
Proof. exact parent_refuted. Qed.
Print Assumptions C49_parent_refuted.

(** What Parent is: for an element of an array the array, for a member of an
    object the member itself. *)
Theorem C49_parent_partial : forall (E : Env) (W : World) (o : opt) (f f' : less_func) (v : V),
  (forall pi k1 k2 v1 v2, call_with given_parent v pi k1 k2 v1 v2 -> f pi k1 k2 v1 v2 = f' pi k1 k2 v1 v2) ->
  marshal_opt E W (with_less o f) v = marshal_opt E W (with_less o f') v.
Proof. exact parent_calls. Qed.
Print Assumptions C49_parent_partial.

Example C49_instance : forall E,
  call_with given_parent ex_child (Some (PInfo ex_pair [string_key (bs "o")])) (bs "a") (bs "b") VNull VNull /\
  marshal_opt E world1 (with_less opt0 backwards_below_pair) ex_child = Ok (bs "{""o"":{""b"":null,""a"":null}}").
Proof. exact ex_parent_given. Qed.
