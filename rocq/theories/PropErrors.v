(** C70: which error a call along a path gives. *)
From Verif Require Import Base Float64 Value Opt Marshal Path SpecPath Edit SpecErrors ErrorsProof ExampleErrors.

(** Get fails with [e] exactly when the path, followed from the value, gets stuck with [e]. *)
Theorem C70_get : forall (E : Env) (W : World) (v : V) (p : param) (ps : list param) (e : err),
  maps_ok v -> Forall plain (p :: ps) ->
  (snd (get E W false v p ps) = Err e <-> fails stuck v (p :: ps) e).
Proof. exact get_error. Qed.
Print Assumptions C70_get.

(** So does Delete. *)
Theorem C70_delete : forall (E : Env) (W : World) (v : V) (p : param) (ps : list param) (e : err),
  maps_ok v -> Forall plain (p :: ps) ->
  (snd (delete_at E W false v p ps) = Err e <-> fails stuck v (p :: ps) e).
Proof. exact delete_error. Qed.
Print Assumptions C70_delete.

(** Set fails exactly where nothing can be written or built, with that error. *)
Theorem C70_set : forall (E : Env) (v c : V) (p : param) (ps : list param) (e : err),
  maps_ok v -> Forall plain (p :: ps) -> c <> VNil -> c <> VNotExist ->
  (snd (set_at E v (arg_v c) p ps) = Err e <-> fails set_stuck v (p :: ps) e).
Proof. exact set_error. Qed.
Print Assumptions C70_set.

(** An uninitialised argument. *)
Theorem C70_set_arg : forall (E : Env) (v c : V) (p : param) (ps : list param),
  Forall plain (p :: ps) -> c = VNil \/ c = VNotExist ->
  set_at E v (arg_v c) p ps = (v, Err ErrValueUninitialized).
Proof. exact set_error_arg. Qed.
Print Assumptions C70_set_arg.

(** Insert.Before and Insert.After. *)
Theorem C70_insert : forall (E : Env) (W : World) (af : bool) (v c : V) (first : param) (others ps : list param) (p : param) (e : err),
  maps_ok v -> Forall plain (first :: others) -> first :: others = ps ++ [p] -> v <> VNil ->
  (snd (if af then insert_after E W v (arg_v c) first others else insert_before E W v (arg_v c) first others) = Err e <->
   insert_fails v ps p e).
Proof. exact insert_error. Qed.
Print Assumptions C70_insert.

(** Append.InTheBeginning and Append.InTheEnd. *)
Theorem C70_append : forall (E : Env) (W : World) (fr : bool) (v c : V) (ps : list param) (e : err),
  maps_ok v -> Forall plain ps -> v <> VNil ->
  (snd (append_at E W fr v (arg_v c) ps) = Err e <-> append_fails v ps e).
Proof. exact append_error. Qed.
Print Assumptions C70_append.

(** ErrNotFound is a missing member and nothing else ... *)
Theorem C70_not_found : forall (E : Env) (W : World) (v : V) (p : param) (ps : list param),
  maps_ok v -> Forall plain (p :: ps) ->
  (snd (get E W false v p ps) = Err ErrNotFound <-> missing_member v (p :: ps)) /\
  (snd (delete_at E W false v p ps) = Err ErrNotFound <-> missing_member v (p :: ps)).
Proof. exact not_found_class. Qed.
Print Assumptions C70_not_found.

(** ... and no answer of Set or Append. *)
Theorem C70_never : forall (E : Env) (W : World) (v c : V), maps_ok v ->
  (forall p ps, Forall plain (p :: ps) -> snd (set_at E v (arg_v c) p ps) <> Err ErrNotFound) /\
  (forall fr ps, Forall plain ps -> v <> VNil -> snd (append_at E W fr v (arg_v c) ps) <> Err ErrNotFound).
Proof. exact never_not_found. Qed.
Print Assumptions C70_never.

(** ErrOutOfRange of Get and Delete is a missing element and nothing else. *)
Theorem C70_out_of_range : forall (E : Env) (W : World) (v : V) (p : param) (ps : list param),
  maps_ok v -> Forall plain (p :: ps) ->
  let missing_element := exists ps1 q ps2 hs l i, p :: ps = ps1 ++ q :: ps2 /\ leads v ps1 hs (VArr l) /\
    index_value q = Some i /\ (i < - Z.of_nat (List.length l) \/ i >= Z.of_nat (List.length l)) in
  (snd (get E W false v p ps) = Err ErrOutOfRange <-> missing_element) /\
  (snd (delete_at E W false v p ps) = Err ErrOutOfRange <-> missing_element).
Proof. exact out_of_range_class. Qed.
Print Assumptions C70_out_of_range.

(** A parameter of the wrong kind is not always ErrParameterError: what is no index of an
    array is an error of no class, nil apart. *)
Theorem C70_kind_refuted : exists l p, no_index p /\ p <> PNil /\
  (forall E W, snd (get E W false (VArr l) p []) = Err EOther) /\
  (forall E c, c <> VNil -> c <> VNotExist -> snd (set_at E (VArr l) (arg_v c) p []) = Err EOther) /\
  (forall E W, snd (get E W false (VArr l) PNil []) = Err ErrParameterError).
Proof. exact er_kind_refuted. Qed.
Print Assumptions C70_kind_refuted.

(** The same parameter fails otherwise where Set would have to build first. *)
Theorem C70_new_refuted : exists v p q, maps_ok v /\
  (forall E c, c <> VNil -> c <> VNotExist -> snd (set_at E v (arg_v c) p [q]) = Err EOther) /\
  (forall E c w, c <> VNil -> c <> VNotExist -> (w = VArr [] \/ w = VObj 0 [] None) -> snd (set_at E w (arg_v c) q []) = Err ErrParameterError).
Proof. exact er_new_refuted. Qed.
Print Assumptions C70_new_refuted.

(** A target that is no array has another error as the root than at the end of a path. *)
Theorem C70_target_refuted : exists d k, (forall l, d <> VArr l) /\ forall E W c,
  snd (append_end E W d (arg_v c) []) = Err ErrNotArrayValue /\
  snd (append_end E W (VObj 1 [(k, (0, d))] None) (arg_v c) [PStr k]) = Err ErrTypeNotMatch /\
  snd (insert_before E W d (arg_v c) (PInt 0) []) = Err ErrNotArrayValue /\
  snd (insert_before E W (VObj 1 [(k, (0, d))] None) (arg_v c) (PStr k) [PInt 0]) = Err ErrTypeNotMatch.
Proof. exact er_target_refuted. Qed.
Print Assumptions C70_target_refuted.

(** An index out of range that ends the path of Set is ErrOutOfRange; with a name after it
    the call succeeds. *)
Theorem C70_range_refuted : exists l i, ~ within i l /\ i <> Z.of_nat (List.length l) /\
  (forall E c, c <> VNil -> c <> VNotExist -> set_at E (VArr l) (arg_v c) (PInt i) [] = (VArr l, Err ErrOutOfRange)) /\
  (forall E c k, c <> VNil -> c <> VNotExist -> snd (set_at E (VArr l) (arg_v c) (PInt i) [PStr k]) = Ok c).
Proof. exact er_range_refuted. Qed.
Print Assumptions C70_range_refuted.

Example C70_instance : forall (E : Env) (W : World),
  let get_err ps := match ps with p :: r => snd (get E W false er_doc p r) | [] => Panic end in
  let set_err ps := match ps with p :: r => snd (set_at E er_doc (arg_v VNull) p r) | [] => Panic end in
  get_err [PStr (bs "z")] = Err ErrNotFound /\ get_err [PStr (bs "a"); PInt 2] = Err ErrOutOfRange /\
  get_err [PInt 0] = Err ErrParameterError /\ get_err [PStr (bs "a"); PStr (bs "b")] = Err EOther /\
  get_err [PStr (bs "a"); PNil] = Err ErrParameterError /\ get_err [PStr (bs "a"); PInt 0; PInt 0] = Err EOther /\
  get_err [PStr (bs "a"); PInt (-1); PStr (bs "c"); PNil] = Err ErrNotFound /\
  set_err [PStr (bs "a"); PInt 3] = Err ErrOutOfRange /\ set_err [PStr (bs "a"); PInt 2] = Ok VNull /\
  set_err [PStr (bs "z"); PInt 0; PInt 1] = Err ErrOutOfRange /\
  set_err [PStr (bs "a"); PInt 9; PStr (bs "n"); PNil; PInt 4] = Err EOther /\
  set_err [PStr (bs "a"); PInt 0; PStr (bs "n")] = Err EOther /\
  snd (insert_before E W er_doc (arg_v VNull) (PStr (bs "a")) []) = Err ErrNotArrayValue /\
  snd (insert_after E W er_doc (arg_v VNull) (PStr (bs "a")) [PInt 0; PInt 0]) = Err ErrTypeNotMatch /\
  snd (append_end E W er_doc (arg_v VNull) [PStr (bs "z"); PInt 2]) = Err ErrOutOfRange /\
  snd (delete_at E W false er_doc (PStr (bs "a")) [PInt (-3)]) = Err ErrOutOfRange.
Proof. exact er_instance. Qed.
