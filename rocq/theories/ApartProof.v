(** Different documents have different texts: proofs. *)
From Verif Require Import Base Utf8 Float64 Value Scan Unmarshal Pure Opt Marshal Compare SpecJson SpecValue SpecLax SpecText SpecOrder SpecOpts SpecPath SpecLaws SpecApart
  ListLemmas ValueLemmas SpecFacts ParseComplete LaxFacts LaxParse JsonLax LaxSame LaxNum RoundTrip EscapeProof MarshalFacts MarshalProof MarshalClaims CanonProof LitExact LawsProof LawsText LawsClaims ContainProof ExportProof ExportImport ExampleWorld.

Lemma shows_shown (NT NT' : num -> bytes -> jv -> Prop) v : (forall n src j, NT n src j -> j = JNum src) -> (forall n src j, NT' n src j -> j = JNum src) ->
  forall w j, shows NT false any_order v j -> shows NT' false any_order w j -> same_shown v w.
Proof.
  intros HN HN'. induction v as [| s | n src | i kvs lo IH | l IH | b | | | ] using V_ind'; intros w j Hv Hw; inversion Hv; subst.
  - inversion Hw as [| |? ? ? X| | |]; subst; [apply HN' in X; discriminate|]. constructor. eexists. eauto.
  - match goal with H : NT _ _ _ |- _ => apply HN in H; subst end. inversion Hw as [| |? ? ? X| | |]; subst.
    apply HN' in X. injection X as <-. constructor.
  - rename kvs' into l1. inversion Hw as [| |? ? ? X| | |i' kvs' lo' l2 ms' P2 _ F2]; subst; [apply HN' in X; discriminate|].
    match goal with H : Permutation kvs l1 |- _ => rename H into P1 end. match goal with H : Forall2 _ (kept false l1) _ |- _ => rename H into F1 end.
    apply (SS_obj _ _ _ _ _ _ l1 l2 P1 P2). apply (Permutation_Forall P1) in IH. clear P1 P2 Hv Hw. unfold kept in *. clear -F1 F2 IH.
    revert l2 F2. induction F1 as [|x m l1 ms (A1 & A2) _ IHF]; intros l2 F2; inversion F2 as [|y ? ? ? (B1 & B2)]; subst; constructor.
    + inversion IH; subst. split; [eexists; eauto|eauto].
    + inversion IH; subst. apply IHF; auto.
  - inversion Hw as [| |? ? ? X| |l2 ms' F2|]; subst; [apply HN' in X; discriminate|].
    match goal with H : Forall2 _ l _ |- _ => rename H into F1 end. constructor. clear Hv Hw.
    revert l2 F2. induction F1 as [|x m l1 ms A _ IHF]; intros l2 F2; inversion F2; subst; constructor; inversion IH; subst; eauto.
  - inversion Hw as [| |? ? ? X| | |]; subst; [constructor|apply HN' in X; discriminate].
  - inversion Hw as [| |? ? ? X| | |]; subst; [constructor|apply HN' in X; discriminate].
Qed.

(** C83 *)
Theorem texts_apart (E : Env) (W W' : World) (o o' : opt) v w b :
  opt_ws o -> opt_ws o' -> o_omit_null o = false -> o_omit_null o' = false -> json_typed v -> json_typed w ->
  all_text (Forall is_byte) (fun _ src => lax_num src) v -> all_text (Forall is_byte) (fun _ src => lax_num src) w ->
  marshal_opt E W o v = Ok b -> marshal_opt E W' o' w = Ok b -> same_shown v w.
Proof.
  intros H1 H2 N1 N2 T1 T2 A1 A2 M1 M2.
  destruct (marshal_accepted E W o (fun _ src => lax_num src) v H1 T1 ltac:(auto) A1) as (b1 & j1 & M1' & D1 & S1).
  destruct (marshal_accepted E W' o' (fun _ src => lax_num src) w H2 T2 ltac:(auto) A2) as (b2 & j2 & M2' & D2 & S2).
  rewrite M1 in M1'. injection M1' as <-. rewrite M2 in M2'. injection M2' as <-. pose proof (lax_doc_same _ _ _ D1 D2) as <-.
  rewrite N1 in S1. rewrite N2 in S2. eapply shows_shown; [| |exact S1|exact S2]; now intros n src j (-> & _).
Qed.

Lemma Forall2_in_l {A B} (P : A -> B -> Prop) l l' x : Forall2 P l l' -> In x l -> exists y, In y l' /\ P x y.
Proof. induction 1 as [|a b l l' Hab _ IH]; intros []; subst; [exists b; split; [now left|exact Hab]|]. destruct (IH H) as (y & Hy & HP). exists y. split; [now right|exact HP]. Qed.

(** With strings in UTF-8 and numbers that their text determines, showing the same is being the same. *)
Lemma same_wf s s' : well_formed s -> well_formed s' -> same_fixed s s' -> s = s'.
Proof. intros H H' (t & F & F'). rewrite (wf_fixed _ _ H F). symmetry. exact (wf_fixed _ _ H' F'). Qed.

Lemma shown_doc (PN : num -> bytes -> Prop) v : (forall n n' src, PN n src -> PN n' src -> n = n') -> forall w,
  json_typed v -> json_typed w -> all_text well_formed PN v -> all_text well_formed PN w -> same_shown v w -> same_doc v w.
Proof.
  intros HP. induction v as [| s | n src | i kvs lo IH | l IH | b | | | ] using V_ind'; intros w T T' A A' S; inversion S; subst.
  - rewrite (same_wf s s') by assumption. now constructor.
  - cbn in A, A'. rewrite (HP n n' src A A'). now constructor.
  - match goal with H : Permutation kvs ?l1 |- _ => rename H into P1 end. match goal with H : Permutation kvs' ?l2 |- _ => rename H into P2 end.
    match goal with H : Forall2 _ _ _ |- _ => rename H into F end.
    apply json_typed_obj in T as (_ & T). apply json_typed_obj in T' as (_ & T'). apply all_text_obj in A. apply all_text_obj in A'.
    rewrite Forall_forall in T, T', A, A', IH.
    assert (G : forall x y, In x kvs -> In y kvs' -> same_fixed (fst x) (fst y) /\ same_shown (snd (snd x)) (snd (snd y)) -> fst x = fst y /\ same_doc (snd (snd x)) (snd (snd y))).
    { intros x y Hx Hy (F1 & F2). specialize (A _ Hx). specialize (A' _ Hy). split; [apply same_wf; tauto|]. apply (IH x Hx); auto; tauto. }
    constructor.
    + intros k id x Hx. pose proof (Permutation_in _ P1 Hx) as Hl. destruct (Forall2_in_l _ _ _ _ F Hl) as ((k', (id', y)) & Hy & HS).
      apply (Permutation_in _ (Permutation_sym P2)) in Hy. destruct (G _ _ Hx Hy HS) as (Ek & D). cbn in Ek. subst k'. eauto.
    + intros k id' y Hy. pose proof (Permutation_in _ P2 Hy) as Hl. destruct (Forall2_in_r _ _ _ _ F Hl) as ((k', (id, x)) & Hx & HS).
      apply (Permutation_in _ (Permutation_sym P1)) in Hx. destruct (G _ _ Hx Hy HS) as (Ek & D). cbn in Ek. subst k'. eauto.
  - constructor. apply json_typed_arr in T. apply json_typed_arr in T'. apply all_text_arr in A. apply all_text_arr in A'. clear S.
    match goal with H : Forall2 _ _ _ |- _ => rename H into F end.
    induction F as [|x y l l' Hxy _ IHF]; constructor; inversion IH; inversion T; inversion T'; inversion A; inversion A'; subst; auto.
  - now constructor.
  - now constructor.
Qed.

(** The strings of a JSON text are in UTF-8. *)
Inductive jwf : jv -> Prop :=
| jw_null : jwf JNull
| jw_bool b : jwf (JBool b)
| jw_num lit : jwf (JNum lit)
| jw_str s : well_formed s -> jwf (JStr s)
| jw_arr l : Forall jwf l -> jwf (JArr l)
| jw_obj l : Forall (fun x => well_formed (fst x) /\ jwf (snd x)) l -> jwf (JObj l).

Lemma wf_utf8 cp : scalar cp -> well_formed (utf8 cp).
Proof. intros H. exists [cp]. split; [now constructor|]. unfold utf8_enc. cbn. now rewrite app_nil_r. Qed.
Lemma body_wf t s : str_body t s -> well_formed s.
Proof.
  induction 1; [exists []; split; [constructor|reflexivity]| | | |].
  - apply wf_app; [now apply wf_utf8|assumption].
  - change (d :: s) with ([d] ++ s). apply wf_app; [|assumption].
    assert (D : 0 <= d < 128) by (destruct H; lia).
    replace [d] with (utf8 d); [apply wf_utf8; unfold scalar; lia|]. unfold utf8. destruct (d <? 128) eqn:Ed; [reflexivity|lia].
  - apply wf_app; [now apply wf_utf8|assumption].
  - apply wf_app; [apply wf_utf8; unfold scalar; lia|assumption].
Qed.
Lemma json_wf_all :
  (forall t j, jval t j -> jwf j) /\ (forall t l, jelems t l -> Forall jwf l) /\
  (forall t l, jmembers t l -> Forall (fun x => well_formed (fst x) /\ jwf (snd x)) l).
Proof.
  apply json_mutind; intros; try (now constructor); try (constructor; eauto using body_wf; fail).
Qed.

Lemma to_V_wf E j : jwf j -> all_lits lax_num j -> all_text well_formed (fun n src => q_number E src = Ok (VNum n src, [])) (to_V E j).
Proof.
  induction j as [ |b|lit|s|l IH|l IH] using jv_ind'; intros Hw Hl; try exact I.
  - cbn [all_lits] in Hl. destruct (lax_number E lit Hl) as (n & Hn). cbn [to_V]. rewrite Hn. exact Hn.
  - now inversion Hw.
  - apply all_lits_arr in Hl. inversion Hw as [| | | |l' HW|]; subst. cbn [to_V]. apply all_text_arr, Forall_map.
    rewrite Forall_forall in *. auto.
  - apply all_lits_obj in Hl. inversion Hw as [| | | | |l' HW]; subst. cbn [to_V].
    change (fold_left _ l new_object) with (put_all E l (VObj 0 [] None)).
    apply all_text_put_all; [|exact I]. rewrite Forall_forall in *.
    intros x Hx. destruct (HW x Hx) as (W1 & W2). split; [exact W1|]. apply IH; auto.
Qed.

Lemma json_parsed_wf E b j v : Forall is_byte b -> json_doc b j -> unmarshal E b = Ok (v, None) ->
  json_typed v /\ all_text well_formed (fun n src => q_number E src = Ok (VNum n src, [])) v /\ all_text (Forall is_byte) (fun _ src => lax_num src) v.
Proof.
  intros Hb Hj Hu. destruct (parsed_text E b v Hb Hu) as (T & A). split; [exact T|].
  split; [|revert A; apply all_text_impl; [auto|intros n src Q; now apply q_number_lax in Q]].
  pose proof Hu as Hx. apply unmarshal_lax in Hx as (j' & D & ->); [|exact Hb]. pose proof (doc_same _ _ _ Hj D) as <-.
  destruct D as (w1 & t & w2 & -> & _ & D & _). apply to_V_wf; [|now apply (proj1 lax_lits t)].
  destruct Hj as (u1 & t' & u2 & _ & _ & Hj & _). now apply (proj1 json_wf_all t').
Qed.

Theorem texts_exactly (E : Env) (W W' : World) (o : opt) b1 j1 b2 j2 v w :
  Forall is_byte b1 -> Forall is_byte b2 -> json_doc b1 j1 -> unmarshal E b1 = Ok (v, None) -> json_doc b2 j2 -> unmarshal E b2 = Ok (w, None) ->
  opt_ws o -> o_omit_null o = false -> o_less o = Some default_string_sequence \/ (o_less o = None /\ o_keyseq o <> []) ->
  (marshal_opt E W o v = marshal_opt E W' o w <-> same_doc v w).
Proof.
  intros Y1 Y2 J1 U1 J2 U2 Ho N L. destruct (json_parsed_wf E _ _ _ Y1 J1 U1) as (T1 & A1 & B1). destruct (json_parsed_wf E _ _ _ Y2 J2 U2) as (T2 & A2 & B2). split.
  - intros M. destruct (marshal_accepted E W o (fun _ src => lax_num src) v Ho T1 ltac:(auto) B1) as (b & j & Mv & _). rewrite Mv in M.
    apply (shown_doc (fun n src => q_number E src = Ok (VNum n src, []))); auto; [intros n n' src Q Q'; congruence|].
    exact (texts_apart E W W' o o v w b Ho Ho N N T1 T2 B1 B2 Mv (eq_sym M)).
  - intros S. apply same_text; auto using typed_maps.
Qed.

(** Documents with the same text are Equal. *)
Theorem texts_equal (E : Env) (W W' : World) (o o' : opt) b1 j1 b2 j2 v w b :
  Forall is_byte b1 -> Forall is_byte b2 -> json_doc b1 j1 -> unmarshal E b1 = Ok (v, None) -> json_doc b2 j2 -> unmarshal E b2 = Ok (w, None) ->
  opt_ws o -> opt_ws o' -> o_omit_null o = false -> o_omit_null o' = false ->
  marshal_opt E W o v = Ok b -> marshal_opt E W' o' w = Ok b -> forall X path, equal X path v w = true.
Proof.
  intros Y1 Y2 J1 U1 J2 U2 Ho Ho' N N' M1 M2 X path. destruct (json_parsed_wf E _ _ _ Y1 J1 U1) as (T1 & A1 & B1). destruct (json_parsed_wf E _ _ _ Y2 J2 U2) as (T2 & A2 & B2).
  apply same_equal; auto. apply (shown_doc (fun n src => q_number E src = Ok (VNum n src, []))); auto; [intros n n' src Q Q'; congruence|].
  exact (texts_apart E W W' o o' v w b Ho Ho' N N' T1 T2 B1 B2 M1 M2).
Qed.
