(** When the output is JSON: claims. *)
From Verif Require Import Base Float64 Value Opt Marshal ListLemmas SpecJson SpecValue SpecLax SpecText SpecOpts SpecOrder SpecOut SpecSpell
  Utf8 EscapeProof UnmarshalProof ValueLemmas SortProof MarshalProof OrderProof MarshalClaims RoundTrip OutSpell OutExact.

Definition order_only (ORD : list (bytes * (Z * V)) -> Prop) : Prop :=
  forall a b, map fst a = map fst b -> map (fun x : bytes * (Z * V) => fst (snd x)) a = map (fun x : bytes * (Z * V) => fst (snd x)) b -> ORD a -> ORD b.

Lemma any_only : order_only any_order.
Proof. intros a b _ _ _. exact I. Qed.
Lemma fop_map {A B} (f : A -> B) (R : B -> B -> Prop) l :
  ForallOrdPairs (fun x y => R (f x) (f y)) l <-> ForallOrdPairs R (map f l).
Proof.
  induction l as [|x l IH]; [split; constructor|]. cbn [map]. split; intros H; inversion H as [|? ? H1 H2]; subst; constructor.
  - now apply Forall_map.
  - now apply IH.
  - now rewrite Forall_map in H1.
  - now apply IH.
Qed.
Lemma key_only lt : order_only (by_key lt).
Proof. intros a b E _. unfold by_key. rewrite !(fop_map fst lt), E. auto. Qed.
Lemma id_only : order_only by_id.
Proof.
  intros a b _ E. unfold by_id. rewrite !(fop_map (fun x : bytes * (Z * V) => fst (snd x)) Z.lt), E. auto.
Qed.

Lemma rearr_text_back PS PN v v' : rearranged v v' -> all_text PS PN v' -> all_text PS PN v.
Proof.
  revert v'. induction v as [| s | n src | i kvs lo IH | l IH | b | | | ] using V_ind'; intros v' H;
    inversion H as [x N1 N2|l0 l' F|i0 kvs0 lo0 kvs1 kvs' P F]; subst; auto.
  - rewrite !all_text_obj. intros T. apply (Permutation_Forall (Permutation_sym P)). apply (Permutation_Forall P) in IH.
    revert IH T. clear -F. induction F as [|x y l l' (H1 & _ & H2) _ IHl]; intros IH T; [constructor|].
    inversion IH; subst. inversion T as [|? ? [T1 T2] T3]; subst. constructor; [|auto]. rewrite H1. eauto.
  - rewrite !all_text_arr. intros T. revert IH T. clear -F.
    induction F as [|x y l l' H1 _ IHl]; intros IH T; [constructor|]. inversion IH; subst. inversion T; subst. constructor; eauto.
Qed.

Lemma written_all PS PN v : json_typed v -> written_text false PS PN v <-> all_text PS PN v.
Proof.
  induction v as [| s | n src | i kvs lo IH | l IH | b | | | ] using V_ind'; intros Ht; try contradiction;
    try (split; intros H; [now inversion H|now constructor]).
  - rewrite all_text_obj. apply json_typed_obj in Ht as [_ Ht]. rewrite Forall_forall in IH, Ht. split; intros H.
    + inversion H as [| | | | |? ? ? F]; subst. rewrite Forall_forall in *. intros x Hx. destruct (F x Hx) as [[X _]|[X1 X2]]; [discriminate|].
      split; [exact X1|]. apply (IH x Hx); auto.
    + constructor. rewrite Forall_forall in *. intros x Hx. destruct (H x Hx) as [X1 X2]. right. split; [exact X1|]. apply (IH x Hx); auto.
  - rewrite all_text_arr. apply json_typed_arr in Ht. rewrite Forall_forall in IH, Ht. split; intros H.
    + inversion H as [| | | |? F|]; subst. rewrite Forall_forall in *. intros x Hx. apply (IH x Hx); auto.
    + constructor. rewrite Forall_forall in *. intros x Hx. apply (IH x Hx); auto.
Qed.
Lemma contiguous_all kvs : contiguous false kvs.
Proof.
  exists [], kvs, []. rewrite app_nil_r. split; [reflexivity|]. split; [constructor|]. split; [|constructor].
  apply Forall_forall. intros x _ [H _]. discriminate.
Qed.
Lemma all_contiguous v : all_objs (contiguous false) v.
Proof.
  induction v as [| s | n src | i kvs lo IH | l IH | b | | | ] using V_ind'; try exact I.
  - apply all_objs_obj. split; [apply contiguous_all|exact IH].
  - apply all_objs_arr. exact IH.
Qed.

Lemma spelled_shows om ORD : order_only ORD -> forall v v' j,
  rearranged v v' -> all_objs ORD v' -> spelled om v' j -> shows num_text om ORD v j.
Proof.
  intros HO. induction v as [| s | n src | i kvs lo IH | l IH | b | | | ] using V_ind'; intros v' j H Ho Hs;
    inversion H as [x N1 N2|l0 l' F|i0 kvs0 lo0 kvs1 kvs' P F]; subst; try (inversion Hs; subst; now constructor).
  - exfalso. now apply (N1 i kvs lo).
  - inversion Hs as [| | | | |? ? ? ms HM]; subst. apply all_objs_obj in Ho as [Hord Ho].
    apply SH_obj with (kvs' := kvs1); [exact P| |].
    + revert Hord. apply HO.
      * clear -F. induction F as [|x y l l' (H1 & _) _ IHl]; [reflexivity|]. cbn [map]. now rewrite IHl, H1.
      * clear -F. induction F as [|x y l l' (_ & H1 & _) _ IHl]; [reflexivity|]. cbn [map]. now rewrite IHl, H1.
    + apply (Permutation_Forall P) in IH. clear P Hord Hs H.
      assert (K : Forall2 (fun x y => fst x = fst y /\ forall j, spelled om (snd (snd y)) j -> shows num_text om ORD (snd (snd x)) j) (kept om kvs1) (kept om kvs')).
      { clear HM. unfold kept. destruct om.
        - induction F as [|x y l l' (H1 & H2 & H3) _ IHl]; [constructor|]. inversion IH as [|? ? Hx Hl]; subst. inversion Ho as [|? ? Hoy Hol]; subst.
          cbn [filter]. rewrite (rearranged_null _ _ H3). destruct (is_null (snd (snd y))); cbn [negb]; [auto|].
          constructor; [split; [exact H1|]; intros j Hj; eapply Hx; eauto|auto].
        - induction F as [|x y l l' (H1 & H2 & H3) _ IHl]; [constructor|]. inversion IH as [|? ? Hx Hl]; subst. inversion Ho as [|? ? Hoy Hol]; subst.
          constructor; [split; [exact H1|]; intros j Hj; eapply Hx; eauto|auto]. }
      clear F IH Ho. revert ms HM. induction K as [|x y l l' [K1 K2] _ IHl]; intros ms HM; inversion HM as [|? m ? ms' [M1 M2] HM']; subst; constructor; auto.
      rewrite K1. auto.
  - exfalso. now apply (N2 l).
  - inversion Hs as [| | | |? js HM|]; subst. apply all_objs_arr in Ho. constructor. clear H Hs.
    revert js HM. induction F as [|x y l l' H1 _ IHl]; intros js HM; inversion HM as [|? j ? js' M1 HM']; subst; constructor.
    + inversion IH; subst. inversion Ho; subst. eauto.
    + inversion IH; subst. inversion Ho; subst. auto.
Qed.

(** C04 *)
Theorem json_exactly E W o v : o_omit_null o = false -> opt_ws o -> json_typed v -> all_text (Forall is_byte) num_bytes v ->
  exists b, marshal_opt E W o v = Ok b /\
    ((exists j, json_doc b j) <-> all_text (fun s => ~ In 11 s) (fun _ src => rfc_lit src) v) /\
    forall j, json_doc b j -> shows_text v j.
Proof.
  intros Hom Hw Ht Ha.
  destruct (output_exact E W o any_order v Hw any_only Ht Ha) as (v' & b & Hra & Ho & Hm & HX & HY).
  { eapply all_objs_impl2; [|apply typed_nodup, Ht]. intros kvs _ pi path kvs' _ _. exact I. }
  exists b. split; [exact Hm|]. rewrite Hom in *. split.
  - rewrite HX, (written_all _ _ v' (rearr_typed _ _ Hra Ht)). split.
    + intros [H _]. revert H. now apply rearr_text_back.
    + intros H. split; [revert H; now apply rearr_text|apply all_contiguous].
  - intros j Hj. eapply spelled_shows; eauto using any_only.
Qed.

(** C30 *)
Theorem omit_exactly E W o (ORD : list (bytes * (Z * V)) -> Prop) v : order_only ORD ->
  all_objs (in_order E W o ORD) v -> opt_ws o -> json_typed v -> all_text (Forall is_byte) num_bytes v ->
  exists v' b, rearranged v v' /\ all_objs ORD v' /\ marshal_opt E W o v = Ok b /\
    ((exists j, json_doc b j) <->
     written_text (o_omit_null o) (fun s => ~ In 11 s) (fun _ src => rfc_lit src) v' /\ all_objs (contiguous (o_omit_null o)) v') /\
    forall j, json_doc b j -> shows num_text (o_omit_null o) ORD v j.
Proof.
  intros HO Hord Hw Ht Ha. destruct (output_exact E W o ORD v Hw HO Ht Ha Hord) as (v' & b & Hra & Ho & Hm & HX & HY).
  exists v', b. do 4 (split; [assumption|]). intros j Hj. eapply spelled_shows; eauto.
Qed.
Theorem omit_any E W o v : opt_ws o -> json_typed v -> all_text (Forall is_byte) num_bytes v ->
  exists v' b, rearranged v v' /\ marshal_opt E W o v = Ok b /\
    ((exists j, json_doc b j) <->
     written_text (o_omit_null o) (fun s => ~ In 11 s) (fun _ src => rfc_lit src) v' /\ all_objs (contiguous (o_omit_null o)) v') /\
    forall j, json_doc b j -> shows num_text (o_omit_null o) any_order v j.
Proof.
  intros Hw Ht Ha. destruct (omit_exactly E W o any_order v any_only) as (v' & b & Hra & Ho & Hm & HX); try assumption.
  { eapply all_objs_impl2; [|apply typed_nodup, Ht]. intros kvs _ pi path kvs' _ _. exact I. }
  exists v', b. auto.
Qed.
Theorem omit_default E W o v : o_less o = Some default_string_sequence ->
  opt_ws o -> json_typed v -> all_text (Forall is_byte) num_bytes v ->
  exists v' b, rearranged v v' /\ all_objs (by_key blt) v' /\ marshal_opt E W o v = Ok b /\
    ((exists j, json_doc b j) <->
     written_text (o_omit_null o) (fun s => ~ In 11 s) (fun _ src => rfc_lit src) v' /\ all_objs (contiguous (o_omit_null o)) v') /\
    forall j, json_doc b j -> shows num_text (o_omit_null o) (by_key blt) v j.
Proof.
  intros Hl Hw Ht Ha. apply omit_exactly; try assumption; [apply key_only|].
  eapply all_objs_impl2; [|apply typed_nodup, Ht]. intros kvs Hn. now apply in_order_default.
Qed.
Theorem omit_keyseq E W o v : o_less o = None -> o_keyseq o <> [] ->
  opt_ws o -> json_typed v -> all_text (Forall is_byte) num_bytes v ->
  exists v' b, rearranged v v' /\ all_objs (by_key (seq_before (o_keyseq o))) v' /\ marshal_opt E W o v = Ok b /\
    ((exists j, json_doc b j) <->
     written_text (o_omit_null o) (fun s => ~ In 11 s) (fun _ src => rfc_lit src) v' /\ all_objs (contiguous (o_omit_null o)) v') /\
    forall j, json_doc b j -> shows num_text (o_omit_null o) (by_key (seq_before (o_keyseq o))) v j.
Proof.
  intros Hl Hs Hw Ht Ha. apply omit_exactly; try assumption; [apply key_only|].
  eapply all_objs_impl2; [|apply typed_nodup, Ht]. intros kvs Hn. now apply in_order_keyseq.
Qed.
Theorem omit_setseq E W o v : o_less o = None -> o_keyseq o = [] -> o_setseq o = true ->
  all_objs (fun kvs => NoDup (map (fun x => fst (snd x)) kvs)) v ->
  opt_ws o -> json_typed v -> all_text (Forall is_byte) num_bytes v ->
  exists v' b, rearranged v v' /\ all_objs by_id v' /\ marshal_opt E W o v = Ok b /\
    ((exists j, json_doc b j) <->
     written_text (o_omit_null o) (fun s => ~ In 11 s) (fun _ src => rfc_lit src) v' /\ all_objs (contiguous (o_omit_null o)) v') /\
    forall j, json_doc b j -> shows num_text (o_omit_null o) by_id v j.
Proof.
  intros Hl Hs Hq Hid Hw Ht Ha. apply omit_exactly; try assumption; [apply id_only|].
  eapply all_objs_impl2; [|apply all_objs_conj; [apply typed_nodup, Ht|exact Hid]]. intros kvs [Hn H]. now apply in_order_setseq.
Qed.

(** C06, C07 *)
Section Vt.
Variable o : opt.
Hypothesis Hw : opt_ws o.
Notation om := (o_omit_null o).
Definition no_vt (s : bytes) : Prop := ~ In 11 s.

Lemma not_in_app (a b : bytes) : ~ In 11 (a ++ b) <-> ~ In 11 a /\ ~ In 11 b.
Proof. rewrite in_app_iff. tauto. Qed.
Lemma ws_no_vt w : ws w -> ~ In 11 w.
Proof. intros H Hi. apply (proj1 (Forall_forall _ _) H) in Hi. unfold is_ws in Hi. lia. Qed.
Lemma nl_no_vt cnt : ~ In 11 (nl_indent o cnt).
Proof. apply ws_no_vt. destruct Hw. now apply ws_nl_indent. Qed.
Lemma quoted_vt s : Forall is_byte s -> ~ In 11 (quoted (o_esc o) s) <-> no_vt s.
Proof.
  intros Hb. unfold quoted. change (34 :: escape_string (o_esc o) s ++ [34]) with ([34] ++ escape_string (o_esc o) s ++ [34]).
  rewrite !not_in_app. split.
  - intros (_ & H & _) Hi. apply H. now apply escape_vt.
  - intros H. split; [intros [X|[]]; discriminate|]. split; [|intros [X|[]]; discriminate].
    eapply body_no_vt. now apply escape_string_body.
Qed.
Lemma colon_vt : ~ In 11 (colon o).
Proof. unfold colon. destruct (o_indent o); cbn; intuition discriminate. Qed.
Lemma comma_vt (first : bool) : ~ In 11 (if first then [] else [44]).
Proof. destruct first; cbn; intuition discriminate. Qed.

Lemma spell_vt v : json_typed v -> all_text (Forall is_byte) num_bytes v -> forall cnt,
  ~ In 11 (spell o v cnt) <-> written_text om no_vt (fun _ _ => True) v.
Proof.
  induction v as [| s | n src | i kvs lo IH | l IH | b | | | ] using V_ind'; intros Ht Ha cnt; try contradiction.
  - cbn [spell]. cbn in Ha. rewrite quoted_vt by exact Ha. split; [now constructor|now inversion 1].
  - destruct Ha as [_ Hn]. split; [now constructor|]. intros _ Hi. cbn [spell] in Hi. apply (proj1 (Forall_forall _ _) Hn) in Hi.
    unfold number_byte, digit in Hi. lia.
  - apply json_typed_obj in Ht as [_ Ht]. apply all_text_obj in Ha.
    assert (X : forall cnt first, ~ In 11 (sp_members o (spell o) cnt first kvs) <->
       Forall (fun x => left_out om x \/ no_vt (fst x) /\ written_text om no_vt (fun _ _ => True) (snd (snd x))) kvs).
    { clear cnt. intros cnt. revert IH Ht Ha. induction kvs as [|[k [id x]] kvs IHk]; intros IH Ht Ha first; [split; [constructor|intros _ []]|].
      inversion IH as [|? ? I1 I2]; subst. inversion Ht as [|? ? T1 T2]; subst. inversion Ha as [|? ? [A0 A1] A2]; subst. cbn [fst snd] in *.
      cbn [sp_members]. fold (sp_members o (spell o) cnt). destruct (out o x) eqn:Eo.
      - rewrite (IHk I2 T2 A2 true). split; intros H.
        + constructor; [left; now apply out_left|exact H].
        + now inversion H.
      - rewrite !not_in_app, (quoted_vt k A0), (I1 T1 A1 cnt), (IHk I2 T2 A2 false).
        pose proof (nl_no_vt cnt) as Hnl. pose proof colon_vt as Hc. pose proof (comma_vt first) as Hcm. split.
        + intros (_ & _ & H1 & _ & H2 & H3). constructor; [right; now split|exact H3].
        + intros H. inversion H as [|? ? [H1|[H1 H2]] H3]; subst.
          * apply out_left in H1. cbn [snd] in H1. congruence.
          * auto 10. }
    assert (Y : ~ In 11 (spell o (VObj i kvs lo) cnt) <-> ~ In 11 (sp_members o (spell o) (S cnt) true kvs)).
    { pose proof (nl_no_vt cnt) as Hnl. destruct kvs as [|kv kvs]; [split; intros _ H; cbn in H; intuition discriminate|].
      change (spell o (VObj i (kv :: kvs) lo) cnt) with ([123] ++ sp_members o (spell o) (S cnt) true (kv :: kvs) ++ nl_indent o cnt ++ [125]).
      rewrite !not_in_app. split; [intros (_ & H & _); exact H|]. intros H. split; [intros [Z|[]]; discriminate|].
      split; [exact H|]. split; [exact Hnl|intros [Z|[]]; discriminate]. }
    rewrite Y, X. split; [now constructor|now inversion 1].
  - apply json_typed_arr in Ht. apply all_text_arr in Ha.
    assert (X : forall cnt first, ~ In 11 (sp_elems o (spell o) cnt first l) <-> Forall (written_text om no_vt (fun _ _ => True)) l).
    { clear cnt. intros cnt. revert IH Ht Ha. induction l as [|x l IHk]; intros IH Ht Ha first; [split; [constructor|intros _ []]|].
      inversion IH as [|? ? I1 I2]; subst. inversion Ht as [|? ? T1 T2]; subst. inversion Ha as [|? ? A1 A2]; subst.
      cbn [sp_elems]. fold (sp_elems o (spell o) cnt). rewrite !not_in_app, (I1 T1 A1 cnt), (IHk I2 T2 A2 false).
      pose proof (nl_no_vt cnt) as Hnl. pose proof (comma_vt first) as Hcm. split.
      - intros (_ & _ & H1 & H2). now constructor.
      - intros H. inversion H; subst. auto. }
    assert (Y : ~ In 11 (spell o (VArr l) cnt) <-> ~ In 11 (sp_elems o (spell o) (S cnt) true l)).
    { pose proof (nl_no_vt cnt) as Hnl. destruct l as [|kv kvs]; [split; intros _ H; cbn in H; intuition discriminate|].
      change (spell o (VArr (kv :: kvs)) cnt) with ([91] ++ sp_elems o (spell o) (S cnt) true (kv :: kvs) ++ nl_indent o cnt ++ [93]).
      rewrite !not_in_app. split; [intros (_ & H & _); exact H|]. intros H. split; [intros [Z|[]]; discriminate|].
      split; [exact H|]. split; [exact Hnl|intros [Z|[]]; discriminate]. }
    rewrite Y, X. split; [now constructor|now inversion 1].
  - split; [constructor|]. intros _ H. destruct b; cbn in H; intuition discriminate.
  - split; [constructor|]. intros _ H. cbn in H. intuition discriminate.
Qed.
End Vt.

Theorem vt_exactly E W o v : o_omit_null o = false -> opt_ws o -> json_typed v -> all_text (Forall is_byte) num_bytes v ->
  exists b, marshal_opt E W o v = Ok b /\ (~ In 11 b <-> all_text (fun s => ~ In 11 s) (fun _ _ => True) v).
Proof.
  intros Hom Hw Ht Ha.
  destruct (marshal_runs o E W any_order any_only v Ht) as [Hn Hr].
  { eapply all_text_impl; [| |exact Ha]; [auto|]. intros n src [H _]. now left. }
  { eapply all_objs_impl2; [|apply typed_nodup, Ht]. intros kvs _ pi path kvs' _ _. exact I. }
  destruct (Hr None [] 0%nat) as (v' & er & Hra & Hov & Hrun & Her).
  assert (er = None) by (destruct Her as [Her|(n & ->)]; [exact Her|cbn in Ha; destruct Ha; congruence]). subst er. exists (spell o v' 0).
  pose proof (rearr_typed _ _ Hra Ht) as Ht'. pose proof (rearr_text _ _ _ _ Hra Ha) as Ha'.
  split; [unfold marshal_opt; destruct v; try contradiction; rewrite Hrun; reflexivity|].
  rewrite (spell_vt o Hw v' Ht' Ha' 0), Hom, (written_all _ _ v' Ht'). split; [now apply rearr_text_back|now apply rearr_text].
Qed.
Theorem alphabet_exactly E W o v : plain_env E -> Forall str_ok (opt_strings o) ->
  o_omit_null o = false -> opt_ws o -> json_typed v -> all_text (Forall is_byte) num_bytes v ->
  exists b, marshal_opt E W o v = Ok b /\
    (Forall (fun c => 32 <= c /\ c <> 127 \/ indentation o c) b <-> all_text (fun s => ~ In 11 s) (fun _ _ => True) v) /\
    (~ utf8_on o ->
     (Forall (fun c => printable c \/ indentation o c) b <-> all_text (fun s => ~ In 11 s) (fun _ _ => True) v)).
Proof.
  intros HE Hs Hom Hw Ht Ha. destruct (vt_exactly E W o v Hom Hw Ht Ha) as (b & Hm & HX). exists b. split; [exact Hm|].
  assert (H11 : ~ indentation o 11).
  { destruct Hw as [H1 H2]. unfold indentation. pose proof (ws_no_vt _ H1) as N1. pose proof (ws_no_vt _ H2) as N2. intuition lia. }
  assert (S1 : Forall (Forall is_byte) (opt_strings o)) by (revert Hs; apply Forall_impl; intros s [H _]; exact H).
  assert (S2 : Forall (fun s => ~ In 11 s) (opt_strings o)) by (revert Hs; apply Forall_impl; intros s [_ H]; exact H).
  destruct (alphabet E W o v b HE Hm) as (A1 & A2 & _); [|exact S1|].
  { eapply all_text_impl; [| |exact Ha]; [auto|]. intros n src [_ H]. exact H. }
  assert (WF : forall w, ws w -> well_formed w).
  { intros w Hws. exists w. split.
    - revert Hws. apply Forall_impl. intros c Hc. unfold is_ws in Hc. unfold scalar. lia.
    - unfold utf8_enc. induction Hws as [|c w Hc _ IH]; [reflexivity|]. cbn [flat_map]. rewrite <- IH.
      assert (U : utf8 c = [c]) by (unfold is_ws in Hc; unfold utf8; destruct (Z.ltb_spec c 128); [reflexivity|lia]). now rewrite U. }
  destruct Hw as [W1 W2]. split.
  - split.
    + intros H. apply HX. intros Hi. apply (proj1 (Forall_forall _ _) H) in Hi. destruct Hi as [[Hi _]|Hi]; [lia|auto].
    + intros H. apply A2; auto.
  - intros Hu. split.
    + intros H. apply HX. intros Hi. apply (proj1 (Forall_forall _ _) H) in Hi. unfold printable in Hi. destruct Hi as [Hi|Hi]; [lia|auto].
    + intros H. now apply A1.
Qed.
