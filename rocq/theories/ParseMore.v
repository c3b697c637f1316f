(** Proofs of the statements in PropParse.v from the parser lemmas. *)
From Verif Require Import Base Float64 Value Scan Unmarshal Pure ListLemmas SpecJson SpecValue SpecFacts
  PureProof UnmarshalProof ValueLemmas ParseComplete ExampleDoc.

Lemma C01_proof (E : Env) (b : bytes) :
  (exists v e, unmarshal E b = Ok (v, e) /\
     match e with
     | None => json_typed v
     | Some _ => v = VNotExist \/ (b = [] /\ v = VNil)
     end) /\
  (exists v e, unmarshal_nocopy E b = Ok (v, e) /\
     match e with None => json_typed v | Some _ => v = VNotExist end) /\
  (exists v e, unmarshal_string E b = Ok (v, e) /\
     match e with None => json_typed v | Some _ => v = VNotExist end).
Proof.
  split; [apply unmarshal_total|]. split; apply unmarshal_nocopy_total.
Qed.

Lemma C01_success_proof E : exists v, unmarshal E doc_text = Ok (v, None).
Proof.
  destruct (unmarshal_complete E _ _ doc_ok doc_lits) as (v & H & _). exists v. exact H.
Qed.

Lemma C01_failure_proof E :
  unmarshal E (bs "{""a"":[1,") = Ok (VNotExist, Some ErrNotArrayValue) /\
  unmarshal E (bs """\ud800\u") = Ok (VNotExist, Some EOther).
Proof. split; reflexivity. Qed.

Lemma C02_refuted_proof : exists b j,
  json_doc b j /\ all_lits lit_fits j /\
  forall E, exists e, unmarshal E b = Ok (VNotExist, Some e).
Proof.
  exists bad_lit, (JNum bad_lit). split; [exact bad_doc|]. split; [exact bad_fits|].
  intros E. exists EOther. apply bad_rejected.
Qed.

Lemma C03_proof (E : Env) (b : bytes) (v : V) (s : pst) :
  run_unmarshal E b = POk v s ->
  List.length (p_buf s) = List.length b /\
  (forall i j c, In (i, j, c) (p_log s) ->
     (i <= j <= List.length b)%nat /\ firstn (j - i) (skipn i (p_buf s)) = c) /\
  q_unmarshal E b = Ok v.
Proof.
  intros H. pose proof (run_unmarshal_spec E b) as R.
  destruct (q_unmarshal E b) as [w|e| |] eqn:Q0; try contradiction;
    destruct R as (s' & R & X); rewrite R in H; [|discriminate].
  inversion H; subst. destruct X as (Fr & (new & Hl & Hn) & _). cbn [pst0 p_log] in Hl.
  rewrite app_nil_r in Hl. split; [|split; [|reflexivity]].
  - destruct Fr as (Hlen & _). cbn in Hlen. congruence.
  - intros i j c Hin. rewrite Hl in Hin. rewrite Forall_forall in Hn. specialize (Hn _ Hin).
    unfold log_ok in Hn. destruct Hn as (h1 & h2 & h3 & h4). auto with arith.
Qed.

Lemma C03_example_proof E : exists v s,
  run_unmarshal E doc_text = POk v s /\ p_buf s <> doc_text /\ List.length (p_log s) = 7%nat.
Proof.
  do 2 eexists. split; [vm_compute; reflexivity|]. split; [vm_compute; discriminate|reflexivity].
Qed.
