(** Properties of parsing (C01, C02, C03). *)
From Verif Require Import Base Float64 Value Scan Unmarshal Pure SpecJson SpecValue
  UnmarshalProof ValueLemmas ParseComplete ParseMore ExampleDoc.

(** C01.  [unmarshal], [unmarshal_string] and [unmarshal_nocopy] return a
    (value, error) pair on every input: never [Panic] (index out of range),
    never [Fuel] (more steps than the input has bytes). *)
Theorem C01_parse_total : forall (E : Env) (b : bytes),
  (exists v e, unmarshal E b = Ok (v, e) /\
     match e with
     | None => json_typed v
     | Some _ => v = VNotExist \/ (b = [] /\ v = VNil)
     end) /\
  (exists v e, unmarshal_nocopy E b = Ok (v, e) /\
     match e with None => json_typed v | Some _ => v = VNotExist end) /\
  (exists v e, unmarshal_string E b = Ok (v, e) /\
     match e with None => json_typed v | Some _ => v = VNotExist end).
Proof. exact C01_proof. Qed.
Print Assumptions C01_parse_total.

Example C01_success : forall E, exists v, unmarshal E doc_text = Ok (v, None).
Proof. exact C01_success_proof. Qed.
Example C01_failure : forall E,
  unmarshal E (bs "{""a"":[1,") = Ok (VNotExist, Some ErrNotArrayValue) /\
  unmarshal E (bs """\ud800\u") = Ok (VNotExist, Some EOther).
Proof. exact C01_failure_proof. Qed.

(** C02 is false: a valid, finite number literal is rejected. *)
Theorem C02_refuted : exists b j,
  json_doc b j /\ all_lits lit_fits j /\
  forall E, exists e, unmarshal E b = Ok (VNotExist, Some e).
Proof. exact C02_refuted_proof. Qed.
Print Assumptions C02_refuted.

(** C02 without such literals ([lit_ok]): every RFC 8259 text is accepted and
    read as its tree. *)
Theorem C02_complete_partial : forall (E : Env) (b : bytes) (j : jv),
  json_doc b j -> all_lits lit_ok j ->
  exists v, unmarshal E b = Ok (v, None) /\ unmarshal_string E b = Ok (v, None) /\ denotes j v.
Proof. exact unmarshal_complete. Qed.
Print Assumptions C02_complete_partial.

Example C02_document : json_doc doc_text doc_tree /\ all_lits lit_ok doc_tree.
Proof. exact (conj doc_ok doc_lits). Qed.

(** C03.  The parser works in the buffer that holds the input and writes into
    it.  [p_log] lists every slice (start, end, content when handed out).  At
    the end the buffer has its length, every slice handed out still has its
    content, and the result is that of a parser that never writes and copies
    everything ([q_unmarshal], Pure.v). *)
Theorem C03_in_place : forall (E : Env) (b : bytes) (v : V) (s : pst),
  run_unmarshal E b = POk v s ->
  List.length (p_buf s) = List.length b /\
  (forall i j c, In (i, j, c) (p_log s) ->
     (i <= j <= List.length b)%nat /\ firstn (j - i) (skipn i (p_buf s)) = c) /\
  q_unmarshal E b = Ok v.
Proof. exact C03_proof. Qed.
Print Assumptions C03_in_place.

Example C03_rewrites_buffer : forall E, exists v s,
  run_unmarshal E doc_text = POk v s /\ p_buf s <> doc_text /\ List.length (p_log s) = 7%nat.
Proof. exact C03_example_proof. Qed.
