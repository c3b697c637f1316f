(** Statements about the accepted language in the form of the properties. *)
From Verif Require Import Base Utf8 Float64 Value Scan Unmarshal Pure ListLemmas
  SpecJson SpecValue SpecLax SpecText SpecOpts
  ValueLemmas ParseComplete LaxNum LaxParse RoundTrip NumFacts LaxFacts ParseMore MarshalClaims.

Theorem accepted_language E b : Forall is_byte b ->
  (forall v, unmarshal E b = Ok (v, None) -> exists j, lax_doc b j /\ tree_of lax_value j v) /\
  (forall j, lax_doc b j -> exists v, unmarshal E b = Ok (v, None) /\ tree_of lax_value j v).
Proof. intros Hb. split; [now apply unmarshal_accepts|apply unmarshal_lax_tree]. Qed.

Theorem not_only_json : exists b, Forall is_byte b /\ (forall E, exists v, unmarshal E b = Ok (v, None)) /\
  forall j, ~ json_doc b j.
Proof.
  exists (bs "[1 2]"). split; [|split].
  - change (Forall is_byte [91; 49; 32; 50; 93]). repeat (apply Forall_cons; [unfold is_byte; lia|]). apply Forall_nil.
  - intros E. eexists. vm_compute. reflexivity.
  - exact not_json_missing_comma.
Qed.

Lemma accepted_examples : Forall (fun b => forall E, exists v, unmarshal E b = Ok (v, None))
  [ bs "[,,1]"; bs "{""a"":1 ""b"":2}"; 8 :: bs "null"; bs """\'"""; 34 :: 10 :: [34]; 34 :: 195 :: 97 :: [34];
    bs "-01"; bs "-.5"; bs "01.5" ].
Proof. repeat constructor; intros E; eexists; vm_compute; reflexivity. Qed.

Theorem int_wrap : exists lit, int_part lit /\ two64 <= digits_val lit /\
  forall E, exists n, unmarshal E lit = Ok (VNum n lit, None) /\ n_flt n = false /\ n_u64 n <> digits_val lit.
Proof.
  exists (bs "28446744073709551616"). split; [|split].
  - apply (IP_pos 50 (bs "8446744073709551616")); [lia|]. match goal with |- Forall ?P ?t => let t' := eval vm_compute in t in change (Forall P t') end.
    repeat (apply Forall_cons; [unfold digit; lia|]). apply Forall_nil.
  - vm_compute. discriminate.
  - intros E. eexists. split; [vm_compute; reflexivity|]. split; [reflexivity|]. vm_compute. discriminate.
Qed.

(** C42 *)
Theorem failed_parse E b v e : unmarshal E b = Ok (v, Some e) ->
  (b <> [] -> v = VNotExist) /\ (b = [] -> v = VNil /\ e = ErrNilParameter).
Proof.
  intros H. split.
  - intros Hb. destruct (ParseMore.C01_proof E b) as [H0 _]. destruct H0 as (v' & e' & H' & Hc). rewrite H in H'. injection H' as <- <-.
    destruct Hc as [?|[? _]]; [assumption|contradiction].
  - intros ->. cbn in H. injection H as <- <-. auto.
Qed.
