(** Texts under OmitNull (C83, C31): proofs. *)
From Verif Require Import Base Utf8 Float64 Value Scan Unmarshal Pure Opt Marshal Compare SpecJson SpecValue SpecLax SpecText SpecOrder SpecOpts SpecPath SpecLaws SpecApart SpecOmit SpecOut
  ListLemmas ValueLemmas RoundTrip MarshalFacts MarshalProof MarshalClaims CanonProof LaxSame LaxNum LawsProof LawsText LawsClaims ContainProof ApartProof OmitCanonProof.

Lemma shows_kept_by (NT : num -> bytes -> jv -> Prop) (o : opt) v j :
  shows NT (o_omit_null o) any_order v j -> shows NT false any_order (kept_by o v) j.
Proof.
  unfold kept_by. destruct (o_omit_null o); [|auto]. intros H.
  assert (T : forall kvs : list (bytes * (Z * V)), ForallOrdPairs (fun _ _ => True) kvs).
  { induction kvs as [|e l IH]; constructor; [|exact IH]. now apply Forall_forall. }
  eapply shows_impl in H; [|intros n src j0 H0; exact H0|intros kvs _; exact (T kvs)].
  apply (shows_without (fun _ _ => True)) in H; [|auto].
  eapply shows_impl; [| |exact H]; [auto|]. intros kvs _. exact I.
Qed.
Lemma kept_by_typed o v : json_typed v -> json_typed (kept_by o v).
Proof. unfold kept_by. destruct (o_omit_null o); auto using without_typed. Qed.
Lemma kept_by_text o PS PN v : all_text PS PN v -> all_text PS PN (kept_by o v).
Proof. unfold kept_by. destruct (o_omit_null o); auto using without_text. Qed.

Theorem omit_apart (E : Env) (W W' : World) (o o' : opt) v w b :
  opt_ws o -> opt_ws o' -> json_typed v -> json_typed w ->
  all_text (Forall is_byte) (fun _ src => lax_num src) v -> all_text (Forall is_byte) (fun _ src => lax_num src) w ->
  marshal_opt E W o v = Ok b -> marshal_opt E W' o' w = Ok b -> same_shown (kept_by o v) (kept_by o' w).
Proof.
  intros H1 H2 T1 T2 A1 A2 M1 M2.
  destruct (marshal_accepted E W o (fun _ src => lax_num src) v H1 T1 ltac:(auto) A1) as (b1 & j1 & M1' & D1 & S1).
  destruct (marshal_accepted E W' o' (fun _ src => lax_num src) w H2 T2 ltac:(auto) A2) as (b2 & j2 & M2' & D2 & S2).
  rewrite M1 in M1'. injection M1' as <-. rewrite M2 in M2'. injection M2' as <-. pose proof (lax_doc_same _ _ _ D1 D2) as <-.
  apply shows_kept_by in S1. apply shows_kept_by in S2. eapply shows_shown; [| |exact S1|exact S2]; now intros n src j (-> & _).
Qed.

Theorem omit_equal (E : Env) (W W' : World) (o o' : opt) b1 j1 b2 j2 v w b :
  Forall is_byte b1 -> Forall is_byte b2 -> json_doc b1 j1 -> unmarshal E b1 = Ok (v, None) -> json_doc b2 j2 -> unmarshal E b2 = Ok (w, None) ->
  opt_ws o -> opt_ws o' ->
  marshal_opt E W o v = Ok b -> marshal_opt E W' o' w = Ok b ->
  same_doc (kept_by o v) (kept_by o' w) /\ forall X path, equal X path (kept_by o v) (kept_by o' w) = true.
Proof.
  intros Y1 Y2 J1 U1 J2 U2 Ho Ho' M1 M2. destruct (json_parsed_wf E _ _ _ Y1 J1 U1) as (T1 & A1 & B1). destruct (json_parsed_wf E _ _ _ Y2 J2 U2) as (T2 & A2 & B2).
  assert (S : same_doc (kept_by o v) (kept_by o' w)).
  { apply (shown_doc (fun n src => q_number E src = Ok (VNum n src, []))); auto using kept_by_typed, kept_by_text; [intros n n' src Q Q'; congruence|].
    exact (omit_apart E W W' o o' v w b Ho Ho' T1 T2 B1 B2 M1 M2). }
  split; [exact S|]. intros X path. apply same_equal; auto using kept_by_typed.
Qed.

Theorem policy_omit E W o v :
  json_env E -> policy_set o -> Forall str_ok (opt_strings o) -> opt_ws o -> json_typed v ->
  all_text str_ok (fun n src => rfc_lit src \/ (src = [] /\ ~ finite_float (n_f64 n))) v -> all_objs (omit_guard (o_omit_null o)) v ->
  exists b j, marshal_opt E W o v = Ok b /\ json_doc b j /\ shows (num_policy E o) false any_order (kept_by o v) j.
Proof.
  intros HE Hp Hs Hw Ht Ha Hg.
  destruct (rfc_output E W o (num_policy E o) any_order v Hw Ht) as (b & j & H1 & H2 & H3).
  - eapply all_text_impl; [| |exact Ha]; [auto|]. intros n src [H|[-> _]]; [|now apply policy_written].
    destruct (rfc_written E o n src H) as (b & j & H1 & H2 & H3). exists b, j. split; [assumption|]. split; [assumption|].
    destruct H as (neg & ip & fd & e & i & H). apply num_lit_cons in H as (c & r & ->). exact H3.
  - eapply all_objs_impl2; [|exact Hg]. intros kvs H. split; [exact H|apply in_any_order].
  - exists b, j. split; [exact H1|]. split; [exact H2|]. now apply shows_kept_by.
Qed.
