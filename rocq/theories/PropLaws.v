(** Edits in sequence (C62). *)
From Verif Require Import Base Utf8 Float64 Value Opt Marshal Compare Access Path Edit SpecValue SpecText SpecOrder
  SpecPath SpecReach SpecLaws ExampleWorld LawsProof LawsClaims LawsText LawsExamples.

(** C62.  Writing twice at one path should be writing the second value only, and
    writes at unrelated paths should not depend on their order.  Both fail where
    Set appends because an index is beyond the end, ... *)
Theorem C62_set_twice_refuted : exists v1 v2 v2' x y z,
  set_at env0 one_null (arg_v (VBool true)) (PInt 5) five_k = (v1, Ok x) /\
  set_at env0 v1 (arg_v (VBool false)) (PInt 5) five_k = (v2, Ok y) /\
  set_at env0 one_null (arg_v (VBool false)) (PInt 5) five_k = (v2', Ok z) /\
  ~ same_doc v2 v2'.
Proof. exact twice_no. Qed.
Print Assumptions C62_set_twice_refuted.

Theorem C62_commute_refuted : exists v1 v2 v12 v21 x1 x2 x12 x21,
  unrelated (place_of (PInt 5 :: five_k)) (place_of (PInt 7 :: five_k)) /\
  set_at env0 one_null (arg_v (VBool true)) (PInt 5) five_k = (v1, Ok x1) /\
  set_at env0 one_null (arg_v (VBool false)) (PInt 7) five_k = (v2, Ok x2) /\
  set_at env0 v1 (arg_v (VBool false)) (PInt 7) five_k = (v12, Ok x12) /\
  set_at env0 v2 (arg_v (VBool true)) (PInt 5) five_k = (v21, Ok x21) /\
  ~ same_doc v12 v21.
Proof. exact commute_no. Qed.
Print Assumptions C62_commute_refuted.

(** ... and hold on paths that Get reads where Set writes them ([reach_ok], C14). *)
Theorem C62_set_twice : forall (E : Env) (v c d : V) (p : param) (ps : list param) (v1 x : V),
  maps_ok v -> maps_ok c -> maps_ok d -> d <> VNil -> d <> VNotExist ->
  Forall plain (p :: ps) -> reach_ok v (p :: ps) -> set_at E v (arg_v c) p ps = (v1, Ok x) ->
  exists v2 v2', set_at E v1 (arg_v d) p ps = (v2, Ok d) /\ set_at E v (arg_v d) p ps = (v2', Ok d) /\ same_doc v2 v2'.
Proof. exact set_twice. Qed.
Print Assumptions C62_set_twice.

Theorem C62_commute : forall (E : Env) (v c d : V) (p : param) (ps : list param) (q : param) (qs : list param) (v1 v2 v12 x1 x2 x12 : V),
  maps_ok v -> maps_ok c -> maps_ok d ->
  Forall plain (p :: ps) -> Forall plain (q :: qs) -> Forall from_start (p :: ps) -> Forall from_start (q :: qs) ->
  unrelated (place_of (p :: ps)) (place_of (q :: qs)) -> reach_ok v (p :: ps) -> reach_ok v (q :: qs) ->
  set_at E v (arg_v c) p ps = (v1, Ok x1) -> set_at E v (arg_v d) q qs = (v2, Ok x2) ->
  set_at E v1 (arg_v d) q qs = (v12, Ok x12) ->
  exists v21, set_at E v2 (arg_v c) p ps = (v21, Ok c) /\ same_doc v12 v21.
Proof. exact sets_commute. Qed.
Print Assumptions C62_commute.

(** Writing what is there changes nothing, unless it is the zero Value. *)
Theorem C62_set_back : forall (E : Env) (W : World) (v c : V) (p : param) (ps : list param),
  maps_ok v -> Forall plain (p :: ps) -> c <> VNil -> c <> VNotExist ->
  get E W false v p ps = (v, Ok c) -> exists v', set_at E v (arg_v c) p ps = (v', Ok c) /\ same_doc v' v.
Proof. exact set_there. Qed.
Print Assumptions C62_set_back.

Theorem C62_set_back_refuted : exists v',
  get env0 world1 false (VArr [VNotExist]) (PInt 0) [] = (VArr [VNotExist], Ok VNotExist) /\
  set_at env0 (VArr [VNotExist]) (arg_v VNotExist) (PInt 0) [] = (v', Err ErrValueUninitialized).
Proof. exact set_back_no. Qed.
Print Assumptions C62_set_back_refuted.

(** Delete takes back what Insert put, to the identical value. *)
Theorem C62_insert_delete : forall (E : Env) (W : World) (af : bool) (v c : V) (ps : list param) (p first : param)
  (others : list param) (q first' : param) (others' : list param) (i : Z) (v' x : V),
  maps_ok v -> maps_ok c ->
  Forall plain (first :: others) -> first :: others = ps ++ [p] -> first' :: others' = ps ++ [q] ->
  index_value p = Some i -> index_value q = Some (new_index af i) ->
  (if af then insert_after E W v (arg_v c) first others else insert_before E W v (arg_v c) first others) = (v', Ok x) ->
  delete_at E W false v' first' others' = (v, Ok tt).
Proof. exact insert_delete. Qed.
Print Assumptions C62_insert_delete.

(** ... and what Append put into an array.  Where Append created the array, the
    empty array stays. *)
Theorem C62_append_delete : forall (E : Env) (W : World) (front : bool) (v c : V) (ps : list param) (hs : list hop) (l : list V)
  (q first : param) (others : list param) (v' x : V),
  maps_ok v -> maps_ok c -> Forall plain ps ->
  leads v ps hs (VArr l) -> append_at E W front v (arg_v c) ps = (v', Ok x) ->
  first :: others = ps ++ [q] -> index_value q = Some (if front then 0 else -1) ->
  delete_at E W false v' first others = (v, Ok tt).
Proof. exact append_delete. Qed.
Print Assumptions C62_append_delete.

Theorem C62_append_delete_refuted : exists v' v'' x,
  append_end env0 world1 (VObj 0 [] None) (arg_v (VBool true)) [PStr (bs "list")] = (v', Ok x) /\
  delete_at env0 world1 false v' (PStr (bs "list")) [PInt (-1)] = (v'', Ok tt) /\
  ~ same_doc v'' (VObj 0 [] None).
Proof. exact append_delete_no. Qed.
Print Assumptions C62_append_delete_refuted.

(** A deleted element is put back by Insert next to one of its neighbours, or by
    Append if it was at an end. *)
Theorem C62_delete_insert : forall (E : Env) (W : World) (v : V) (ps : list param) (p first : param) (others : list param) (i : Z)
  (hs : list hop) (a : list V) (e : V) (b : list V) (v' : V),
  maps_ok v -> Forall plain (first :: others) ->
  first :: others = ps ++ [p] -> index_value p = Some i -> leads v ps hs (VArr (a ++ e :: b)) -> refers i a b ->
  delete_at E W false v first others = (v', Ok tt) ->
  (forall q first' others', first' :: others' = ps ++ [q] -> b <> [] ->
     index_value q = Some (if i <? 0 then i + 1 else i) -> insert_before E W v' (arg_v e) first' others' = (v, Ok e)) /\
  (forall q first' others', first' :: others' = ps ++ [q] -> a <> [] ->
     index_value q = Some (if i <? 0 then i else i - 1) -> insert_after E W v' (arg_v e) first' others' = (v, Ok e)) /\
  (b = [] -> append_end E W v' (arg_v e) ps = (v, Ok e)) /\
  (a = [] -> append_beginning E W v' (arg_v e) ps = (v, Ok e)).
Proof. exact delete_insert. Qed.
Print Assumptions C62_delete_insert.

(** The same for members and Set. *)
Theorem C62_set_delete : forall (E : Env) (W : World) (v : V) (ps : list param) (hs : list hop) (i : Z) (kvs : list (bytes * (Z * V)))
  (lo : option (list (bytes * list bytes))) (k : bytes) (c : V) (first : param) (others : list param) (v' x : V),
  maps_ok v -> maps_ok c -> Forall plain ps ->
  leads v ps hs (VObj i kvs lo) -> ~ In k (map fst kvs) -> first :: others = ps ++ [PStr k] ->
  set_at E v (arg_v c) first others = (v', Ok x) ->
  exists v'', delete_at E W false v' first others = (v'', Ok tt) /\ same_doc v'' v.
Proof. exact set_delete. Qed.
Print Assumptions C62_set_delete.

Theorem C62_delete_set : forall (E : Env) (W : World) (v : V) (ps : list param) (hs : list hop) (i : Z) (kvs : list (bytes * (Z * V)))
  (lo : option (list (bytes * list bytes))) (k : bytes) (id : Z) (c : V) (first : param) (others : list param) (v' : V),
  maps_ok v -> Forall plain ps -> c <> VNil -> c <> VNotExist ->
  leads v ps hs (VObj i kvs lo) -> In (k, (id, c)) kvs -> first :: others = ps ++ [PStr k] ->
  delete_at E W false v first others = (v', Ok tt) ->
  exists v'', set_at E v' (arg_v c) first others = (v'', Ok c) /\ same_doc v'' v.
Proof. exact delete_set. Qed.
Print Assumptions C62_delete_set.

(** What [same_doc] documents share: every Get, Equal, and the text of Marshal
    with an order of the names. *)
Theorem C62_same_reads : forall (E : Env) (W : World) (v v' : V) (p : param) (ps : list param),
  maps_ok v -> maps_ok v' -> Forall plain (p :: ps) -> same_doc v v' ->
  (forall c, get E W false v p ps = (v, Ok c) -> exists c', get E W false v' p ps = (v', Ok c') /\ same_doc c c').
Proof. exact same_reads. Qed.
Print Assumptions C62_same_reads.

Theorem C62_same_equal : forall (W : World) path v v', json_typed v -> json_typed v' -> same_doc v v' -> equal W path v v' = true.
Proof. exact same_equal. Qed.
Print Assumptions C62_same_equal.

Theorem C62_same_text : forall (E : Env) (W W' : World) (o : opt) (v v' : V), maps_ok v -> maps_ok v' -> same_doc v v' ->
  o_less o = Some default_string_sequence \/ (o_less o = None /\ o_keyseq o <> []) ->
  marshal_opt E W o v = marshal_opt E W' o v'.
Proof. exact same_text. Qed.
Print Assumptions C62_same_text.

Theorem C62_same_equivalence : (forall v, same_doc v v) /\ (forall v w, same_doc v w -> same_doc w v) /\
  (forall u v w, same_doc u v -> same_doc v w -> same_doc u w).
Proof. exact (conj same_refl (conj same_sym same_trans)). Qed.
Print Assumptions C62_same_equivalence.

(** Concrete edits of {"b":[null,true],"a":null}. *)
Definition ex62 : V := VObj 2 [(bs "b", (1, VArr [VNull; VBool true])); (bs "a", (2, VNull))] None.
Example C62_instance :
  reach_ok (VArr [VNull]) [PInt 1] /\ ~ reach_ok one_null (PInt 5 :: five_k) /\
  maps_ok ex62 /\
  fst (set_at env0 ex62 (arg_v VNull) (PStr (bs "a")) []) = VObj 3 [(bs "b", (1, VArr [VNull; VBool true])); (bs "a", (3, VNull))] None /\
  insert_after env0 world1 ex62 (arg_v (VStr (bs "x"))) (PStr (bs "b")) [PInt (-2)] =
    (VObj 2 [(bs "b", (1, VArr [VNull; VStr (bs "x"); VBool true])); (bs "a", (2, VNull))] None, Ok (VStr (bs "x"))) /\
  new_index true (-2) = -2 /\ new_index false (-2) = -3 /\ new_index true 0 = 1 /\
  delete_at env0 world1 false ex62 (PStr (bs "b")) [PInt (-1)] =
    (VObj 2 [(bs "b", (1, VArr [VNull])); (bs "a", (2, VNull))] None, Ok tt).
Proof.
  split; [|split; [|split]].
  - intros ps1 p ps2 hs l i Hs Hl Hi. destruct ps1 as [|p0 r]; [|destruct r; discriminate Hs]. injection Hs as <- <-. injection Hi as <-.
    inversion Hl; subst. left. cbn. lia.
  - intros H. destruct (H [] (PInt 5) five_k [] [VNull] 5 eq_refl (leads_here _) eq_refl) as [K|(K & _)]; cbn in K; lia.
  - cbn. repeat split; repeat constructor; cbn; intuition discriminate.
  - repeat split; vm_compute; reflexivity.
Qed.
