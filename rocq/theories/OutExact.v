(** When the output is JSON: proofs. *)
From Verif Require Import Base Float64 Value Opt Marshal ListLemmas SpecJson SpecValue SpecLax SpecText SpecOpts SpecOrder SpecSpell
  Utf8 EscapeProof UnmarshalProof ValueLemmas SortProof MarshalProof LaxParse RoundTrip JsonLax OutSpell.
From Verif Require Import LaxFacts.

Lemma rearr_text PS PN v v' : rearranged v v' -> all_text PS PN v -> all_text PS PN v'.
Proof.
  revert v'. induction v as [| s | n src | i kvs lo IH | l IH | b | | | ] using V_ind'; intros v' H;
    inversion H as [x N1 N2|l0 l' F|i0 kvs0 lo0 kvs1 kvs' P F]; subst; auto.
  - rewrite !all_text_obj. intros T. apply (Permutation_Forall P) in T. apply (Permutation_Forall P) in IH.
    revert IH T. clear -F. induction F as [|x y l l' (H1 & _ & H2) _ IHl]; intros IH T; [constructor|].
    inversion IH; subst. inversion T as [|? ? [T1 T2] T3]; subst. constructor; [|auto]. rewrite <- H1. auto.
  - rewrite !all_text_arr. intros T. revert IH T. clear -F.
    induction F as [|x y l l' H1 _ IHl]; intros IH T; [constructor|]. inversion IH; subst. inversion T; subst. constructor; auto.
Qed.

Lemma rearr_typed v v' : rearranged v v' -> json_typed v -> json_typed v'.
Proof.
  revert v'. induction v as [| s | n src | i kvs lo IH | l IH | b | | | ] using V_ind'; intros v' H;
    inversion H as [x N1 N2|l0 l' F|i0 kvs0 lo0 kvs1 kvs' P F]; subst; auto.
  - rewrite !json_typed_obj. intros [Hd T]. split.
    + assert (Ek : akeys kvs' = akeys kvs1).
      { unfold akeys. clear -F. induction F as [|x y l l' (H1 & _) _ IHl]; [reflexivity|]. cbn [map]. now rewrite IHl, H1. }
      rewrite Ek. eapply Permutation_NoDup; [|exact Hd]. unfold akeys. now apply Permutation_map.
    + apply (Permutation_Forall P) in T. apply (Permutation_Forall P) in IH.
      revert IH T. clear -F. induction F as [|x y l l' (H1 & _ & H2) _ IHl]; intros IH T; [constructor|].
      inversion IH; subst. inversion T; subst. constructor; auto.
  - rewrite !json_typed_arr. intros T. revert IH T. clear -F.
    induction F as [|x y l l' H1 _ IHl]; intros IH T; [constructor|]. inversion IH; subst. inversion T; subst. constructor; auto.
Qed.

Section Exact.
Variable o : opt.
Hypothesis Hpre : ws (o_prefix o).
Hypothesis Hind : ws (o_indent_str o).
Notation om := (o_omit_null o).

Lemma out_left x : out o (snd (snd x)) = true <-> left_out om x.
Proof.
  unfold out, left_out. split; intros H.
  - apply andb_true_iff in H as [H1 H2]. split; [exact H1|]. destruct (snd (snd x)); try discriminate H2. reflexivity.
  - destruct H as [-> ->]. reflexivity.
Qed.
Lemma not_out x : ~ left_out om x <-> out o (snd (snd x)) = false.
Proof. rewrite <- out_left. destruct (out o (snd (snd x))); split; congruence. Qed.

Lemma skip_all f cnt first l r : Forall (left_out om) l -> l <> [] -> sp_members o f cnt first (l ++ r) = sp_members o f cnt true r.
Proof.
  intros H. revert first. induction H as [|[k [id x]] l Hx Hl IH]; intros first Hn; [congruence|].
  apply out_left in Hx. cbn [fst snd] in Hx. cbn [app sp_members]. rewrite Hx. fold (sp_members o f cnt).
  destruct l as [|y l]; [reflexivity|]. apply IH. discriminate.
Qed.
Lemma skip_true f cnt l r : Forall (left_out om) l -> sp_members o f cnt true (l ++ r) = sp_members o f cnt true r.
Proof. intros H. destruct l; [reflexivity|]. apply skip_all; [exact H|discriminate]. Qed.
Lemma skip_end f cnt first l : Forall (left_out om) l -> sp_members o f cnt first l = [].
Proof.
  intros H. destruct l as [|x l]; [reflexivity|]. rewrite <- (app_nil_r (x :: l)), skip_all; [reflexivity|exact H|discriminate].
Qed.

Definition to_json (v : V) : Prop := forall cnt, exists j, jval (spell o v cnt) j /\ spelled om v j.

Lemma colon_eq k t : quoted (o_esc o) k ++ colon o ++ t =
  34 :: escape_string (o_esc o) k ++ 34 :: [] ++ 58 :: (if o_indent o then [32] else []) ++ t.
Proof. unfold quoted, colon. cbn [app]. rewrite <- app_assoc. cbn [app]. destruct (o_indent o); reflexivity. Qed.
Lemma colon_ws : ws (if o_indent o then [32] else []).
Proof. destruct (o_indent o); constructor; [unfold is_ws; lia|constructor]. Qed.

Lemma members_json cnt c : Forall (left_out om) c -> forall b, b <> [] ->
  Forall (fun x => ~ left_out om x /\ Forall is_byte (fst x) /\ ~ In 11 (fst x) /\ to_json (snd (snd x))) b ->
  exists T ms, (forall first, sp_members o (spell o) cnt first (b ++ c) = (if first then [] else [44]) ++ T) /\
    (forall w, ws w -> jmembers (T ++ w) ms) /\
    Forall2 (fun x m => fixed (fst x) (fst m) /\ spelled om (snd (snd x)) (snd m)) b ms.
Proof.
  intros Hc. induction b as [|[k [id x]] b IH]; intros Hn Hb; [congruence|].
  inversion Hb as [|? ? (H1 & H2 & H3 & H4) Hb']; subst. cbn [fst snd] in *. apply not_out in H1. cbn [snd] in H1.
  destruct (H4 cnt) as (j & Hj & Hs). pose proof (ws_nl_indent o cnt Hpre Hind) as Hnl.
  assert (Hk : str_body (escape_string (o_esc o) k) (fix_utf8 k)) by now apply escape_string_body.
  cbn [app sp_members]. rewrite H1. fold (sp_members o (spell o) cnt).
  destruct b as [|y b].
  - cbn [app]. exists (nl_indent o cnt ++ quoted (o_esc o) k ++ colon o ++ spell o x cnt), [(fix_utf8 k, j)]. split; [|split].
    + intros first. rewrite (skip_end _ _ _ _ Hc), app_nil_r. reflexivity.
    + intros w Hw. rewrite colon_eq.
      replace (_ ++ w) with (nl_indent o cnt ++ 34 :: escape_string (o_esc o) k ++ 34 :: [] ++ 58 :: (if o_indent o then [32] else []) ++ spell o x cnt ++ w)
        by (repeat (rewrite <- app_assoc || cbn [app]); reflexivity).
      apply JM_one; auto using ws_nil, colon_ws.
    + constructor; [|constructor]. split; [now apply fix_fixed|exact Hs].
  - destruct (IH ltac:(discriminate) Hb') as (T & ms & HT & Hm & HF).
    exists (nl_indent o cnt ++ quoted (o_esc o) k ++ colon o ++ spell o x cnt ++ 44 :: T), ((fix_utf8 k, j) :: ms). split; [|split].
    + intros first. rewrite HT. reflexivity.
    + intros w Hw. rewrite colon_eq.
      replace (_ ++ w) with (nl_indent o cnt ++ 34 :: escape_string (o_esc o) k ++ 34 :: [] ++ 58 :: (if o_indent o then [32] else []) ++ spell o x cnt ++ [] ++ 44 :: T ++ w)
        by (repeat (rewrite <- app_assoc || cbn [app]); reflexivity).
      apply JM_cons; auto using ws_nil, colon_ws.
    + constructor; [|exact HF]. split; [now apply fix_fixed|exact Hs].
Qed.

Lemma elems_json cnt : forall l, l <> [] -> Forall to_json l ->
  exists T js, (forall first, sp_elems o (spell o) cnt first l = (if first then [] else [44]) ++ T) /\
    (forall w, ws w -> jelems (T ++ w) js) /\ Forall2 (spelled om) l js.
Proof.
  pose proof (ws_nl_indent o cnt Hpre Hind) as Hnl.
  induction l as [|x l IH]; intros Hn Hl; [congruence|]. inversion Hl as [|? ? Hx Hl']; subst.
  destruct (Hx cnt) as (j & Hj & Hs). cbn [sp_elems]. fold (sp_elems o (spell o) cnt). destruct l as [|y l].
  - exists (nl_indent o cnt ++ spell o x cnt), [j]. split; [|split].
    + intros first. cbn [sp_elems]. now rewrite app_nil_r.
    + intros w Hw. rewrite <- app_assoc. now apply JE_one.
    + constructor; [exact Hs|constructor].
  - destruct (IH ltac:(discriminate) Hl') as (T & js & HT & Hm & HF).
    exists (nl_indent o cnt ++ spell o x cnt ++ 44 :: T), (j :: js). split; [|split].
    + intros first. rewrite HT. reflexivity.
    + intros w Hw. replace (_ ++ w) with (nl_indent o cnt ++ spell o x cnt ++ [] ++ 44 :: T ++ w)
        by (repeat (rewrite <- app_assoc || cbn [app]); reflexivity).
      apply JE_cons; auto using ws_nil.
    + constructor; assumption.
Qed.

Lemma kept_parts a b c : Forall (left_out om) a -> Forall (fun x => ~ left_out om x) b -> Forall (left_out om) c ->
  kept om (a ++ b ++ c) = b.
Proof.
  intros Ha Hb Hc. unfold kept. destruct (o_omit_null o) eqn:Eo.
  - rewrite !filter_app.
    assert (X : forall l, Forall (left_out true) l -> filter (fun x : bytes * (Z * V) => negb (is_null (snd (snd x)))) l = []).
    { induction 1 as [|x l [_ Hx] _ IH]; [reflexivity|]. cbn [filter]. rewrite Hx. exact IH. }
    rewrite (X _ Ha), (X _ Hc), app_nil_r. cbn [app]. apply filter_all_true. revert Hb. apply Forall_impl.
    intros x Hx. destruct (snd (snd x)) eqn:Ex; try reflexivity. exfalso. apply Hx. split; [reflexivity|exact Ex].
  - assert (X : forall l : list (bytes * (Z * V)), Forall (left_out false) l -> l = []).
    { intros [|x l] H; [reflexivity|]. inversion H as [|? ? [H1 _] _]. discriminate. }
    rewrite (X _ Ha), (X _ Hc), app_nil_r. reflexivity.
Qed.

Lemma spell_json : forall v, all_text (Forall is_byte) num_bytes v ->
  written_text om (fun s => ~ In 11 s) (fun _ src => rfc_lit src) v -> all_objs (contiguous om) v -> to_json v.
Proof.
  induction v as [| s | n src | i kvs lo IH | l IH | b | | | ] using V_ind'; intros Ha Hw Ho cnt; inversion Hw; subst; clear Hw.
  - exists (JStr (fix_utf8 s)). split; [constructor; now apply escape_string_body|constructor; now apply fix_fixed].
  - match goal with H : rfc_lit src |- _ => destruct H as (neg & ip & fd & e & i & H); exists (JNum src); split; [econstructor; exact H|constructor] end.
  - match goal with H : Forall _ kvs |- _ => rename H into Hw end.
    apply all_text_obj in Ha. apply all_objs_obj in Ho as [(a & b & c & Ek & Hl1 & Hl2 & Hl3) Ho].
    assert (HB : Forall (fun x => ~ left_out om x /\ Forall is_byte (fst x) /\ ~ In 11 (fst x) /\ to_json (snd (snd x))) b).
    { rewrite Forall_forall in *. intros x Hx. assert (Hin : In x kvs) by (rewrite Ek; apply in_or_app; right; apply in_or_app; now left).
      specialize (Hl2 x Hx). destruct (Hw x Hin) as [HO|[HO1 HO2]]; [contradiction|]. destruct (Ha x Hin) as [A1 A2].
      split; [exact Hl2|]. split; [exact A1|]. split; [exact HO1|]. apply (IH x Hin); auto. }
    pose proof (ws_nl_indent o cnt Hpre Hind) as Hnl.
    assert (HX : exists j, jval (123 :: sp_members o (spell o) (S cnt) true kvs ++ nl_indent o cnt ++ [125]) j /\ spelled om (VObj i kvs lo) j).
    { rewrite Ek. rewrite (skip_true _ _ _ _ Hl1). destruct b as [|y b].
      - cbn [app]. rewrite (skip_end _ _ _ _ Hl3). cbn [app]. exists (JObj []). split; [now apply JT_obj0|].
        constructor. pose proof (kept_parts a [] c Hl1 Hl2 Hl3) as K. cbn [app] in K. rewrite K. constructor.
      - destruct (members_json (S cnt) c Hl3 (y :: b) ltac:(discriminate) HB) as (T & ms & HT & Hm & HF).
        rewrite HT. cbn [app]. rewrite app_assoc. exists (JObj ms). split; [apply JT_obj, Hm, Hnl|].
        constructor. pose proof (kept_parts a (y :: b) c Hl1 Hl2 Hl3) as K. cbn [app] in K. rewrite K. exact HF. }
    destruct kvs as [|kv0 kvs]; [|exact HX]. exists (JObj []). split; [apply (JT_obj0 []), ws_nil|].
    constructor. unfold kept. destruct om; constructor.
  - match goal with H : Forall _ l |- _ => rename H into Hw end.
    apply all_text_arr in Ha. apply all_objs_arr in Ho. destruct l as [|x l].
    + exists (JArr []). split; [apply (JT_arr0 []), ws_nil|repeat constructor].
    + destruct (elems_json (S cnt) (x :: l)) as (T & js & HT & Hm & HF); [discriminate| |].
      { rewrite Forall_forall in *. intros y Hy. auto. }
      exists (JArr js). split; [|now constructor]. cbn [spell]. rewrite HT. cbn [app]. rewrite app_assoc. apply JT_arr, Hm.
      now apply ws_nl_indent.
  - exists (JBool b). split; [destruct b; constructor|constructor].
  - exists JNull. split; constructor.
Qed.

(** *** The other direction *)
Lemma jval_num_inv c t j : jval (c :: t) j -> number_byte c -> rfc_lit (c :: t) /\ j = JNum (c :: t).
Proof.
  intros H N. inversion H as [| | |lit neg ip fd e i HL| | | | |]; subst; try (exfalso; unfold number_byte, digit in N; lia).
  split; [|reflexivity]. exists neg, ip, fd, e, i. exact HL.
Qed.
Lemma num_lit_first c t neg ip fd e i : num_lit (c :: t) neg ip fd e i -> number_byte c.
Proof. intros H. apply num_lit_head in H. unfold number_byte. tauto. Qed.
Lemma jval_str_inv t j : jval (34 :: t) j -> exists t0 s, t = t0 ++ [34] /\ str_body t0 s /\ j = JStr s.
Proof.
  intros H. inversion H as [| | |lit neg ip fd e i HL|t0 s Hs| | | |]; subst; eauto 6.
  exfalso. apply num_lit_first in HL. unfold number_byte, digit in HL. lia.
Qed.
Lemma jval_arr_inv t j : jval (91 :: t) j -> exists t0 l, t = t0 ++ [93] /\ j = JArr l /\ (ws t0 /\ l = [] \/ jelems t0 l).
Proof.
  intros H. inversion H as [| | |lit neg ip fd e i HL| | | | |]; subst; eauto 7.
  exfalso. apply num_lit_first in HL. unfold number_byte, digit in HL. lia.
Qed.
Lemma jval_obj_inv t j : jval (123 :: t) j -> exists t0 l, t = t0 ++ [125] /\ j = JObj l /\ (ws t0 /\ l = [] \/ jmembers t0 l).
Proof.
  intros H. inversion H as [| | |lit neg ip fd e i HL| | | | |]; subst; eauto 7.
  exfalso. apply num_lit_first in HL. unfold number_byte, digit in HL. lia.
Qed.
Lemma jval_word (w : bytes) c t j r r' : w = c :: t -> c = 110 \/ c = 116 \/ c = 102 -> forall t', jval t' j -> w ++ r = t' ++ r' ->
  (w = bs "null" \/ w = bs "true" \/ w = bs "false") -> t' = w.
Proof.
  intros Ew Hc t' H E Hw. destruct (jval_first t' j H) as (d & t0 & -> & _). rewrite Ew in E. cbn in E. injection E as -> E.
  inversion H as [| | |lit neg ip fd e i HL| | | | |]; subst; try lia.
  - destruct Hw as [Hw|[Hw|Hw]]; [now symmetry|discriminate Hw|discriminate Hw].
  - destruct Hw as [Hw|[Hw|Hw]]; [discriminate Hw|now symmetry|discriminate Hw].
  - destruct Hw as [Hw|[Hw|Hw]]; [discriminate Hw|discriminate Hw|now symmetry].
  - exfalso. apply num_lit_first in HL. unfold number_byte, digit in HL. lia.
Qed.

Definition after_v (v : V) (r : bytes) : Prop := match v, r with VNum _ _, c :: _ => ~ number_byte c | _, _ => True end.
Definition ok (v : V) : Prop :=
  written_text om (fun s => ~ In 11 s) (fun _ src => rfc_lit src) v /\ all_objs (contiguous om) v.
Definition of_json (v : V) : Prop := forall cnt t j r r', jval t j -> after_num j r' -> after_v v r ->
  spell o v cnt ++ r = t ++ r' -> t = spell o v cnt /\ r = r' /\ ok v /\ spelled om v j.

Lemma body_no_vt t s : str_body t s -> ~ In 11 t.
Proof.
  intros H HI. assert (HJ : json_doc (34 :: t ++ [34]) (JStr s)).
  { exists [], (34 :: t ++ [34]), []. rewrite app_nil_r. repeat split; try constructor. exact H. }
  apply (not_json_byte (34 :: t ++ [34]) 11) in HJ; [exact HJ| |unfold text_byte, is_ws; lia].
  right. apply in_or_app. now left.
Qed.
Lemma utf8_vt cp : scalar cp -> In 11 (utf8 cp) -> cp = 11.
Proof.
  intros Hs. unfold scalar in Hs. unfold utf8. destruct (Z.ltb_spec cp 128); [intros [H1|[]]; exact H1|].
  destruct (Z.ltb_spec cp 2048); [|destruct (Z.ltb_spec cp 65536)]; intros X; repeat (destruct X as [X|X]; [exfalso; lia|]); destruct X.
Qed.
Lemma runes_vt_in s : Forall is_byte s -> In 11 s -> In 11 (runes s).
Proof.
  intros Hs. pose proof (runes_read s Hs) as R. induction R as [|cp s l Hc R IH|b s l Hbad R IH]; [intros []| |].
  - apply Forall_app in Hs as [_ Hs]. intros H. apply in_app_or in H as [H|H]; [|right; auto].
    apply utf8_vt in H; [|exact Hc]. now left.
  - inversion Hs; subst. intros [->|H]; [|right; auto]. exfalso. apply (Hbad 11 s); [unfold scalar; lia|reflexivity].
Qed.
Lemma escape_vt esc s : Forall is_byte s -> In 11 s -> In 11 (escape_string esc s).
Proof.
  intros Hb Hi. unfold escape_string. apply in_flat_map. exists 11. split; [now apply runes_vt_in|rewrite esc_rune_vt; now left].
Qed.
Lemma str_of_json s t0 s0 r r' : Forall is_byte s -> str_body t0 s0 ->
  escape_string (o_esc o) s ++ 34 :: r = t0 ++ 34 :: r' -> t0 = escape_string (o_esc o) s /\ r = r' /\ ~ In 11 s /\ fixed s s0.
Proof.
  intros Hb Hs E. destruct (str_same t0 s0 _ _ r' r Hs (escape_string_lstr (o_esc o) s Hb) (eq_sym E)) as (-> & -> & ->).
  split; [reflexivity|]. split; [reflexivity|]. split; [|now apply fix_fixed]. intros H. apply (body_no_vt _ _ Hs). now apply escape_vt.
Qed.

Lemma spell_first v cnt : json_typed v -> all_text (Forall is_byte) num_bytes v -> exists c t, spell o v cnt = c :: t /\
  ~ is_lblank c /\ c <> 93 /\ c <> 44 /\ c <> 125.
Proof.
  destruct v as [| s | n src | i kvs lo | l | b | | |]; intros Ht Ha; try contradiction.
  - eexists. eexists. split; [reflexivity|]. unfold is_lblank, is_ws. lia.
  - destruct Ha as [H1 H2]. cbn [spell]. destruct src as [|c src]; [congruence|]. exists c, src. split; [reflexivity|].
    inversion H2; subst. unfold number_byte, digit, is_lblank, is_ws in *. lia.
  - exists 123. destruct kvs; eexists; (split; [reflexivity|]); unfold is_lblank, is_ws; lia.
  - exists 91. destruct l; eexists; (split; [reflexivity|]); unfold is_lblank, is_ws; lia.
  - destruct b; [exists 116|exists 102]; eexists; (split; [reflexivity|]); unfold is_lblank, is_ws; lia.
  - exists 110; eexists; (split; [reflexivity|]); unfold is_lblank, is_ws; lia.
Qed.

Definition good (v : V) : Prop := json_typed v /\ all_text (Forall is_byte) num_bytes v /\ of_json v.

Lemma after_v_ws v w c r : ws w -> c = 44 \/ c = 93 \/ c = 125 -> after_v v (w ++ c :: r).
Proof.
  intros Hw Hc. destruct v; try exact I. destruct w as [|d w]; cbn; [unfold number_byte, digit; lia|].
  inversion Hw; subst. unfold number_byte, digit, is_ws in *. lia.
Qed.

Lemma elems_of cnt w r : ws w -> forall l, l <> [] -> Forall good l -> forall te js r', jelems te js ->
  sp_elems o (spell o) cnt true l ++ w ++ 93 :: r = te ++ 93 :: r' ->
  te = sp_elems o (spell o) cnt true l ++ w /\ r = r' /\ Forall ok l /\ Forall2 (spelled om) l js.
Proof.
  intros Hw. pose proof (ws_nl_indent o cnt Hpre Hind) as Hnl.
  induction l as [|x l IH]; intros Hn Hg te js r' Hj E; [congruence|].
  inversion Hg as [|? ? (Gt & Ga & Gj) Hg']; subst. cbn [sp_elems app] in E. fold (sp_elems o (spell o) cnt) in E.
  assert (L : l = [] \/ sp_elems o (spell o) cnt false l = 44 :: sp_elems o (spell o) cnt true l)
    by (destruct l; [now left|right; reflexivity]).
  destruct (spell_first x cnt Gt Ga) as (c & t & Es & N1 & _).
  assert (AV : after_v x (sp_elems o (spell o) cnt false l ++ w ++ 93 :: r)).
  { destruct L as [->| ->]; [apply (after_v_ws x w); auto|]. destruct x; try exact I. cbn. unfold number_byte, digit. lia. }
  destruct Hj as [w1 t1 w2 j H1 Hj H2|w1 t1 w2 j te l' H1 Hj H2 He].
  - destruct (jval_first _ _ Hj) as (d & t2 & -> & N2 & _). rewrite Es in E. repeat (rewrite <- app_assoc in E; cbn [app] in E). 
    destruct (blanks_eq _ _ c d _ _ (ws_blanks _ Hnl) (ws_blanks _ H1) N1 N2 E) as (<- & <- & E').
    destruct (Gj cnt (c :: t2) j (sp_elems o (spell o) cnt false l ++ w ++ 93 :: r) (w2 ++ 93 :: r') Hj) as (E2 & E3 & Hok & Hsp);
      [apply nn; [auto|now apply ws_blanks]|exact AV|rewrite Es; cbn [app]; now rewrite E'|].
    destruct L as [->|L].
    + cbn [sp_elems app] in E3.
      destruct (blanks_eq _ _ 93 93 _ _ (ws_blanks _ Hw) (ws_blanks _ H2) (nb 93 ltac:(auto)) (nb 93 ltac:(auto)) E3) as (<- & _ & <-).
      rewrite E2. cbn [sp_elems app]. rewrite app_nil_r, <- app_assoc. auto 10.
    + exfalso. rewrite L in E3. cbn [app] in E3. 
      destruct (blanks_eq [] _ 44 93 _ _ ltac:(constructor) (ws_blanks _ H2) (nb 44 ltac:(auto)) (nb 93 ltac:(auto)) E3) as (_ & X & _). discriminate.
  - destruct (jval_first _ _ Hj) as (d & t2 & -> & N2 & _). rewrite Es in E. repeat (rewrite <- app_assoc in E; cbn [app] in E).
    destruct (blanks_eq _ _ c d _ _ (ws_blanks _ Hnl) (ws_blanks _ H1) N1 N2 E) as (<- & <- & E').
    destruct (Gj cnt (c :: t2) j (sp_elems o (spell o) cnt false l ++ w ++ 93 :: r) (w2 ++ 44 :: te ++ 93 :: r') Hj) as (E2 & E3 & Hok & Hsp);
      [apply nn; [auto|now apply ws_blanks]|exact AV|rewrite Es; cbn [app]; now rewrite E'|].
    destruct L as [->|L].
    + exfalso. cbn [sp_elems app] in E3.
      destruct (blanks_eq _ _ 93 44 _ _ (ws_blanks _ Hw) (ws_blanks _ H2) (nb 93 ltac:(auto)) (nb 44 ltac:(auto)) E3) as (_ & X & _). discriminate.
    + rewrite L in E3. cbn [app] in E3.
      destruct (blanks_eq [] _ 44 44 _ _ ltac:(constructor) (ws_blanks _ H2) (nb 44 ltac:(auto)) (nb 44 ltac:(auto)) E3) as (<- & _ & E4).
      assert (Hnl0 : l <> []) by (intros ->; discriminate L).
      destruct (IH Hnl0 Hg' _ _ _ He E4) as (-> & -> & Hoks & Hsps).
      rewrite E2. cbn [sp_elems app]. fold (sp_elems o (spell o) cnt). rewrite L. repeat (rewrite <- app_assoc; cbn [app]). auto 10.
Qed.

(** Members. *)
Lemma members_shape cnt l : (Forall (left_out om) l /\ forall first, sp_members o (spell o) cnt first l = []) \/
  exists T, sp_members o (spell o) cnt true l = nl_indent o cnt ++ 34 :: T.
Proof.
  induction l as [|[k [id x]] l IH]; [left; split; [constructor|reflexivity]|].
  cbn [sp_members]. fold (sp_members o (spell o) cnt). destruct (out o x) eqn:Eo.
  - destruct IH as [[H1 H2]|H]; [left|right; exact H]. split; [constructor; [now apply out_left|exact H1]|auto].
  - right. cbn [app]. unfold quoted. cbn [app]. eexists. reflexivity.
Qed.
Lemma left_out_dec x : {left_out om x} + {~ left_out om x}.
Proof. destruct (out o (snd (snd x))) eqn:E; [left; now apply out_left|right; now apply not_out]. Qed.

Lemma contiguous_out x l : left_out om x -> contiguous om l -> contiguous om (x :: l).
Proof. intros H (a & b & c & -> & H1 & H2 & H3). exists (x :: a), b, c. auto. Qed.
Lemma contiguous_in x y l : ~ left_out om x -> ~ left_out om y -> contiguous om (y :: l) -> contiguous om (x :: y :: l).
Proof.
  intros H Hy (a & b & c & E & H1 & H2 & H3). destruct a as [|z a].
  - destruct b as [|z b].
    + cbn in E. subst c. inversion H3; contradiction.
    + exists [], (x :: z :: b), c. cbn in *. injection E as <- ->. auto 10.
  - cbn in E. injection E as <- _. inversion H1; contradiction.
Qed.
Lemma contiguous_last x l : ~ left_out om x -> Forall (left_out om) l -> contiguous om (x :: l).
Proof. intros H Hl. exists [], [x], l. auto. Qed.

Definition okm (x : bytes * (Z * V)) : Prop :=
  (left_out om x \/ ~ In 11 (fst x) /\ written_text om (fun s => ~ In 11 s) (fun _ src => rfc_lit src) (snd (snd x))) /\
  all_objs (contiguous om) (snd (snd x)).
Lemma okm_out x : left_out om x -> okm x.
Proof. intros H. split; [now left|]. destruct H as [_ ->]. exact I. Qed.

Definition shown (l : list (bytes * (Z * V))) (ms : list (bytes * jv)) : Prop :=
  Forall2 (fun x m => fixed (fst x) (fst m) /\ spelled om (snd (snd x)) (snd m)) (kept om l) ms.
Lemma kept_out x l : left_out om x -> kept om (x :: l) = kept om l.
Proof. intros [H1 H2]. unfold kept. rewrite H1. cbn [filter]. rewrite H2. reflexivity. Qed.
Lemma kept_in x l : ~ left_out om x -> kept om (x :: l) = x :: kept om l.
Proof.
  intros H. unfold kept. destruct om eqn:Eo; [|reflexivity]. cbn [filter].
  destruct (snd (snd x)) eqn:Ex; try reflexivity. exfalso. apply H. split; [first [exact Eo|reflexivity]|exact Ex].
Qed.
Lemma kept_none l : Forall (left_out om) l -> kept om l = [].
Proof. induction 1 as [|x l Hx _ IH]; [unfold kept; destruct om; reflexivity|]. now rewrite kept_out. Qed.

Lemma members_of cnt w r : ws w -> forall l, Forall (fun x => Forall is_byte (fst x) /\ good (snd (snd x))) l -> forall tm ms r', jmembers tm ms ->
  sp_members o (spell o) cnt true l ++ w ++ 125 :: r = tm ++ 125 :: r' ->
  tm = sp_members o (spell o) cnt true l ++ w /\ r = r' /\ contiguous om l /\ Forall okm l /\ shown l ms.
Proof.
  intros Hw. pose proof (ws_nl_indent o cnt Hpre Hind) as Hnl.
  induction l as [|[k [id x]] l IH]; intros Hg tm ms r' Hm E.
  - exfalso. cbn [sp_members app] in E.
    destruct Hm as [w1 tk k w2 w3 t w4 j H1 Hk H2 H3 Hj H4|w1 tk k w2 w3 t w4 j tm l H1 Hk H2 H3 Hj H4 Hm];
      repeat (rewrite <- app_assoc in E; cbn [app] in E);
      destruct (blanks_eq _ _ 125 34 _ _ (ws_blanks _ Hw) (ws_blanks _ H1) (nb 125 ltac:(auto)) (nb 34 ltac:(auto)) E) as (_ & X & _); discriminate.
  - inversion Hg as [|? ? [Gb (Gt & Ga & Gj)] Hg']; subst. cbn [fst snd] in Gb, Gt, Ga, Gj.
    cbn [sp_members] in E |- *. fold (sp_members o (spell o) cnt) in E |- *.
    destruct (out o x) eqn:Eo.
    { assert (LO : left_out om (k, (id, x))) by now apply out_left.
      destruct (IH Hg' _ _ _ Hm E) as (-> & -> & HC & HO & HS). split; [reflexivity|]. split; [reflexivity|].
      split; [now apply contiguous_out|]. split; [constructor; [now apply okm_out|exact HO]|]. unfold shown. now rewrite kept_out. }
    assert (LO : ~ left_out om (k, (id, x))) by now apply not_out.
    cbn [app] in E |- *.
    (* what follows the member *)
    assert (L : (Forall (left_out om) l /\ sp_members o (spell o) cnt false l = []) \/
                (exists T, sp_members o (spell o) cnt false l = nl_indent o cnt ++ 34 :: T) \/
                (exists y l', l = y :: l' /\ ~ left_out om y /\ sp_members o (spell o) cnt false l = 44 :: sp_members o (spell o) cnt true l)).
    { destruct l as [|[k' [id' y]] l']; [left; split; [constructor|reflexivity]|].
      cbn [sp_members]. fold (sp_members o (spell o) cnt). destruct (out o y) eqn:Ey.
      - destruct (members_shape cnt l') as [[H1 H2]|H]; [left|right; left; exact H].
        split; [constructor; [now apply out_left|exact H1]|apply H2].
      - right. right. exists (k', (id', y)), l'. split; [reflexivity|]. split; [now apply not_out|reflexivity]. }
    rewrite colon_eq. repeat (rewrite <- app_assoc in E; cbn [app] in E).
    assert (EQ : nl_indent o cnt ++ 34 :: escape_string (o_esc o) k ++ 34 :: 58 :: (if o_indent o then [32] else []) ++ spell o x cnt ++
                 sp_members o (spell o) cnt false l ++ w ++ 125 :: r = tm ++ 125 :: r').
    { rewrite <- E. unfold quoted, colon. repeat (rewrite <- app_assoc || cbn [app]). destruct (o_indent o); reflexivity. }
    clear E. destruct (spell_first x cnt Gt Ga) as (c & t0 & Es & N1 & _).
    assert (AV : after_v x (sp_members o (spell o) cnt false l ++ w ++ 125 :: r)).
    { destruct L as [[_ ->]|[(T & ->)|(y & l' & _ & _ & ->)]].
      - apply (after_v_ws x w); auto.
      - rewrite <- app_assoc. cbn [app]. destruct x; try exact I. unfold nl_indent.
        destruct (o_indent o); cbn; unfold number_byte, digit; lia.
      - destruct x; try exact I. cbn. unfold number_byte, digit. lia. }
    destruct Hm as [w1 tk k0 w2 w3 t w4 j H1 Hk H2 H3 Hj H4|w1 tk k0 w2 w3 t w4 j tm ms H1 Hk H2 H3 Hj H4 Hm];
      repeat (rewrite <- app_assoc in EQ; cbn [app] in EQ);
      destruct (blanks_eq _ _ 34 34 _ _ (ws_blanks _ Hnl) (ws_blanks _ H1) (nb 34 ltac:(auto)) (nb 34 ltac:(auto)) EQ) as (<- & _ & E1);
      destruct (str_of_json k _ _ _ _ Gb Hk E1) as (-> & E2 & H11 & HF);
      destruct (blanks_eq [] _ 58 58 _ _ ltac:(constructor) (ws_blanks _ H2) (nb 58 ltac:(auto)) (nb 58 ltac:(auto)) E2) as (<- & _ & E3);
      destruct (jval_first _ _ Hj) as (d & t2 & -> & N2 & _); rewrite Es in E3; cbn [app] in E3;
      destruct (blanks_eq _ _ c d _ _ (ws_blanks _ colon_ws) (ws_blanks _ H3) N1 N2 E3) as (<- & <- & E4).
    + destruct (Gj cnt (c :: t2) j (sp_members o (spell o) cnt false l ++ w ++ 125 :: r) (w4 ++ 125 :: r') Hj) as (E5 & E6 & [K1 K2] & K3);
        [apply nn; [auto|now apply ws_blanks]|exact AV|rewrite Es; cbn [app]; now rewrite E4|].
      destruct L as [[HL L]|[(T & L)|(y & l' & _ & _ & L)]].
      * rewrite L in E6 |- *. cbn [app] in E6.
        destruct (blanks_eq _ _ 125 125 _ _ (ws_blanks _ Hw) (ws_blanks _ H4) (nb 125 ltac:(auto)) (nb 125 ltac:(auto)) E6) as (<- & _ & <-).
        rewrite E5. repeat (rewrite <- app_assoc; cbn [app]). split; [reflexivity|]. split; [reflexivity|].
        split; [now apply contiguous_last|]. split; [|unfold shown; rewrite kept_in by exact LO; rewrite (kept_none _ HL); constructor; [split; assumption|constructor]].
        constructor; [split; [right; auto|exact K2]|]. revert HL. apply Forall_impl. intros z. apply okm_out.
      * exfalso. rewrite L in E6. rewrite <- app_assoc in E6. cbn [app] in E6.
        destruct (blanks_eq _ _ 34 125 _ _ (ws_blanks _ Hnl) (ws_blanks _ H4) (nb 34 ltac:(auto)) (nb 125 ltac:(auto)) E6) as (_ & X & _). discriminate.
      * exfalso. rewrite L in E6. cbn [app] in E6.
        destruct (blanks_eq [] _ 44 125 _ _ ltac:(constructor) (ws_blanks _ H4) (nb 44 ltac:(auto)) (nb 125 ltac:(auto)) E6) as (_ & X & _). discriminate.
    + destruct (Gj cnt (c :: t2) j (sp_members o (spell o) cnt false l ++ w ++ 125 :: r) (w4 ++ 44 :: tm ++ 125 :: r') Hj) as (E5 & E6 & [K1 K2] & K3);
        [apply nn; [auto|now apply ws_blanks]|exact AV|rewrite Es; cbn [app]; now rewrite E4|].
      destruct L as [[HL L]|[(T & L)|(y & l' & El & Hy & L)]].
      * exfalso. rewrite L in E6. cbn [app] in E6.
        destruct (blanks_eq _ _ 125 44 _ _ (ws_blanks _ Hw) (ws_blanks _ H4) (nb 125 ltac:(auto)) (nb 44 ltac:(auto)) E6) as (_ & X & _). discriminate.
      * exfalso. rewrite L in E6. rewrite <- app_assoc in E6. cbn [app] in E6.
        destruct (blanks_eq _ _ 34 44 _ _ (ws_blanks _ Hnl) (ws_blanks _ H4) (nb 34 ltac:(auto)) (nb 44 ltac:(auto)) E6) as (_ & X & _). discriminate.
      * rewrite L in E6 |- *. cbn [app] in E6.
        destruct (blanks_eq [] _ 44 44 _ _ ltac:(constructor) (ws_blanks _ H4) (nb 44 ltac:(auto)) (nb 44 ltac:(auto)) E6) as (<- & _ & E7).
        destruct (IH Hg' _ _ _ Hm E7) as (-> & -> & HC & HO & HS).
        rewrite E5. repeat (rewrite <- app_assoc; cbn [app]). split; [reflexivity|]. split; [reflexivity|].
        split; [rewrite El in HC |- *; now apply contiguous_in|]. split; [constructor; [split; [right; auto|exact K2]|exact HO]|].
        unfold shown. rewrite kept_in by exact LO. constructor; [split; assumption|exact HS].
Qed.

Lemma spell_of : forall v, json_typed v -> all_text (Forall is_byte) num_bytes v -> of_json v.
Proof.
  induction v as [| s | n src | i kvs lo IH | l IH | b | | | ] using V_ind'; intros Ht Ha; try contradiction.
  - intros cnt t j r r' Hj _ _ E. cbn [spell] in E |- *. unfold quoted in E |- *. cbn in Ha.
    destruct (jval_first _ _ Hj) as (c & t0 & -> & _). cbn [app] in E. injection E as <- E.
    destruct (jval_str_inv _ _ Hj) as (t1 & s1 & -> & Hs & ->). rewrite <- !app_assoc in E. cbn [app] in E.
    destruct (str_of_json s _ _ _ _ Ha Hs E) as (-> & -> & H11 & HF). split; [reflexivity|]. split; [reflexivity|].
    split; [split; [now constructor|exact I]|now constructor].
  - intros cnt t j r r' Hj A A' E. cbn [spell] in E |- *. destruct Ha as [Hn Hb].
    destruct (jval_first _ _ Hj) as (c & t0 & -> & _). destruct src as [|d src]; [congruence|]. cbn [app] in E.
    injection E as -> E. assert (Nc : number_byte c) by now inversion Hb.
    destruct (jval_num_inv _ _ _ Hj Nc) as [HR ->].
    destruct HR as (neg & ip & fd & e & i & HL). pose proof (num_lit_bytes _ _ _ _ _ _ HL) as HB.
    assert (A0 : match r' with [] => True | x :: _ => ~ number_byte x end) by (destruct r'; [exact I|exact A]).
    assert (A1 : match r with [] => True | x :: _ => ~ number_byte x end) by (destruct r; [exact I|exact A']).
    destruct (run_eq (c :: src) (c :: t0) r r' Hb HB A1 A0) as [X ->]; [cbn; now rewrite E|].
    injection X as ->. split; [reflexivity|]. split; [reflexivity|]. split; [|constructor]. split; [|exact I]. constructor. exists neg, ip, fd, e, i. exact HL.
  - apply json_typed_obj in Ht as [_ Ht]. apply all_text_obj in Ha.
    intros cnt t j r r' Hj _ _ E. pose proof (ws_nl_indent o cnt Hpre Hind) as Hnl.
    destruct (jval_first _ _ Hj) as (c & t0 & -> & _).
    assert (Hc : c = 123) by (destruct kvs; cbn in E; injection E; auto). subst c.
    destruct (jval_obj_inv _ _ Hj) as (t1 & ms & -> & -> & HT).
    assert (Hg : Forall (fun x => Forall is_byte (fst x) /\ good (snd (snd x))) kvs).
    { rewrite Forall_forall in *. intros x Hx. destruct (Ha x Hx) as [B1 B2]. split; [exact B1|].
      split; [auto|]. split; [exact B2|]. apply (IH x Hx); auto. }
    assert (X : forall kvs0 w, kvs0 = kvs -> ws w -> sp_members o (spell o) (S cnt) true kvs0 ++ w ++ 125 :: r = t1 ++ 125 :: r' ->
      t1 = sp_members o (spell o) (S cnt) true kvs0 ++ w /\ r = r' /\ contiguous om kvs /\ Forall okm kvs /\ shown kvs ms).
    { intros kvs0 w -> Hw E0. destruct HT as [[HT ->]|HT]; [|eapply members_of; eauto].
      destruct (members_shape (S cnt) kvs) as [[H1 H2]|[T H2]]; rewrite H2 in E0 |- *.
      - cbn [app] in *.
        destruct (blanks_eq _ _ 125 125 _ _ (ws_blanks _ Hw) (ws_blanks _ HT) (nb 125 ltac:(auto)) (nb 125 ltac:(auto)) E0) as (<- & _ & <-).
        split; [reflexivity|]. split; [reflexivity|]. split; [exists kvs, [], []; rewrite app_nil_r; auto|].
        split; [revert H1; apply Forall_impl; apply okm_out|]. unfold shown. rewrite (kept_none _ H1). constructor.
      - exfalso. rewrite <- app_assoc in E0. cbn [app] in E0.
        destruct (blanks_eq _ _ 34 125 _ _ (ws_blanks _ (ws_nl_indent o (S cnt) Hpre Hind)) (ws_blanks _ HT) (nb 34 ltac:(auto)) (nb 125 ltac:(auto)) E0) as (_ & X & _). discriminate. }
    assert (Y : contiguous om kvs /\ Forall okm kvs /\ shown kvs ms -> ok (VObj i kvs lo) /\ spelled om (VObj i kvs lo) (JObj ms)).
    { intros (H1 & H2 & H3). split; [split|now constructor].
      - constructor. revert H2. apply Forall_impl. intros x [H _]. exact H.
      - apply all_objs_obj. split; [exact H1|]. revert H2. apply Forall_impl. intros x [_ H]. exact H. }
    cbn [app] in E. rewrite <- app_assoc in E. cbn [app] in E.
    destruct kvs as [|kv0 kvs].
    + cbn [spell app] in E |- *. injection E as E. destruct (X [] [] eq_refl ltac:(constructor)) as (-> & <- & H); [exact E|].
      split; [reflexivity|]. split; [reflexivity|]. now apply Y.
    + cbn [spell] in E |- *. cbn [app] in E. injection E as E. rewrite <- !app_assoc in E. cbn [app] in E.
      destruct (X (kv0 :: kvs) _ eq_refl Hnl E) as (-> & <- & H). rewrite <- app_assoc.
      split; [reflexivity|]. split; [reflexivity|]. now apply Y.
  - apply json_typed_arr in Ht. apply all_text_arr in Ha.
    intros cnt t j r r' Hj _ _ E. pose proof (ws_nl_indent o cnt Hpre Hind) as Hnl.
    destruct (jval_first _ _ Hj) as (c & t0 & -> & _).
    assert (Hc : c = 91) by (destruct l; cbn in E; injection E; auto). subst c.
    destruct (jval_arr_inv _ _ Hj) as (t1 & js & -> & -> & HT).
    assert (Y : Forall ok l -> Forall2 (spelled om) l js -> ok (VArr l) /\ spelled om (VArr l) (JArr js)).
    { intros H H'. split; [split|now constructor].
      - constructor. revert H. apply Forall_impl. intros x [H _]. exact H.
      - apply all_objs_arr. revert H. apply Forall_impl. intros x [_ H]. exact H. }
    cbn [app] in E. rewrite <- app_assoc in E. cbn [app] in E.
    destruct l as [|x l].
    + cbn [spell app] in E |- *. injection E as E. destruct HT as [[HT ->]|HT].
      * destruct (blanks_eq [] _ 93 93 _ _ ltac:(constructor) (ws_blanks _ HT) (nb 93 ltac:(auto)) (nb 93 ltac:(auto)) E) as (<- & _ & <-). auto.
      * exfalso. destruct HT as [w1 t w2 j0 H1 Hj0 H2|w1 t w2 j0 te l' H1 Hj0 H2 He];
          destruct (jval_first _ _ Hj0) as (d & t2 & -> & N2 & N93 & _); repeat (rewrite <- app_assoc in E; cbn [app] in E);
          destruct (blanks_eq [] _ 93 d _ _ ltac:(constructor) (ws_blanks _ H1) (nb 93 ltac:(auto)) N2 E) as (_ & X & _); congruence.
    + cbn [spell] in E |- *. cbn [app] in E. injection E as E. rewrite <- !app_assoc in E. cbn [app] in E.
      assert (Hg : Forall good (x :: l)).
      { rewrite Forall_forall in *. intros y Hy. split; [auto|]. split; auto. }
      destruct HT as [[HT ->]|HT].
      * exfalso. inversion Hg as [|? ? (Gt & Ga & _) _]; subst. destruct (spell_first x (S cnt) Gt Ga) as (c & t & Es & N1 & N93 & _).
        cbn [sp_elems] in E. rewrite Es in E. repeat (rewrite <- app_assoc in E; cbn [app] in E).
        destruct (blanks_eq _ _ c 93 _ _ (ws_blanks _ (ws_nl_indent o (S cnt) Hpre Hind)) (ws_blanks _ HT) N1 (nb 93 ltac:(auto)) E) as (_ & X & _). congruence.
      * assert (E1 : sp_elems o (spell o) (S cnt) true (x :: l) ++ nl_indent o cnt ++ 93 :: r = t1 ++ 93 :: r')
          by (cbn [sp_elems app]; rewrite <- !app_assoc; exact E).
        destruct (elems_of (S cnt) _ r Hnl (x :: l) ltac:(discriminate) Hg _ _ _ HT E1) as (-> & <- & H & H').
        rewrite <- app_assoc. auto.
  - intros cnt t j r r' Hj _ _ E.
    assert (Hok : ok (VBool b)) by repeat constructor.
    destruct b.
    + pose proof (jval_word (bs "true") 116 (bs "rue") j r r' eq_refl ltac:(auto) t Hj E ltac:(auto)) as ->.
      apply app_inv_head in E. split; [reflexivity|]. split; [exact E|]. split; [exact Hok|].
      inversion Hj as [| | |lit neg ip fd e i HL| | | | |]; subst; try constructor;
      apply num_lit_first in HL; cbn in HL; exfalso; unfold number_byte, digit in HL; lia.
    + pose proof (jval_word (bs "false") 102 (bs "alse") j r r' eq_refl ltac:(auto) t Hj E ltac:(auto)) as ->.
      apply app_inv_head in E. split; [reflexivity|]. split; [exact E|]. split; [exact Hok|].
      inversion Hj as [| | |lit neg ip fd e i HL| | | | |]; subst; try constructor;
      apply num_lit_first in HL; cbn in HL; exfalso; unfold number_byte, digit in HL; lia.
  - intros cnt t j r r' Hj _ _ E.
    pose proof (jval_word (bs "null") 110 (bs "ull") j r r' eq_refl ltac:(auto) t Hj E ltac:(auto)) as ->.
    apply app_inv_head in E. split; [reflexivity|]. split; [exact E|]. split; [repeat constructor|].
    inversion Hj as [| | |lit neg ip fd e i HL| | | | |]; subst; try constructor;
      apply num_lit_first in HL; cbn in HL; exfalso; unfold number_byte, digit in HL; lia.
Qed.

Theorem spell_exact v : json_typed v -> all_text (Forall is_byte) num_bytes v ->
  ((exists j, json_doc (spell o v 0) j) <-> ok v) /\ forall j, json_doc (spell o v 0) j -> spelled om v j.
Proof.
  intros Ht Ha.
  assert (X : forall j, json_doc (spell o v 0) j -> ok v /\ spelled om v j).
  { intros j (w1 & t & w2 & E & H1 & Hj & H2). destruct (spell_first v 0 Ht Ha) as (c & t0 & Es & N1 & _).
    destruct (jval_first _ _ Hj) as (d & t2 & -> & N2 & _). rewrite Es in E. cbn [app] in E.
    destruct (blanks_eq [] _ c d _ _ ltac:(constructor) (ws_blanks _ H1) N1 N2 E) as (<- & <- & E').
    destruct (spell_of v Ht Ha 0%nat (c :: t2) j [] w2 Hj) as (_ & _ & H); [apply blank_tail; now apply ws_blanks|destruct v; exact I| |exact H].
    rewrite app_nil_r, Es. cbn [app]. now rewrite E'. }
  split; [|intros j Hj; now apply X]. split.
  - intros [j Hj]. now apply (X j).
  - intros [H1 H2]. destruct (spell_json v Ha H1 H2 0%nat) as (j & Hj & _). exists j, [], (spell o v 0), [].
    rewrite app_nil_r. repeat split; try constructor. exact Hj.
Qed.
End Exact.

(** C04, C30 *)
Theorem output_exact E W o (ORD : list (bytes * (Z * V)) -> Prop) v : opt_ws o ->
  (forall a b, map fst a = map fst b -> map (fun x : bytes * (Z * V) => fst (snd x)) a = map (fun x : bytes * (Z * V) => fst (snd x)) b -> ORD a -> ORD b) ->
  json_typed v -> all_text (Forall is_byte) num_bytes v -> all_objs (in_order E W o ORD) v ->
  exists v' b, rearranged v v' /\ all_objs ORD v' /\ marshal_opt E W o v = Ok b /\
    ((exists j, json_doc b j) <->
     written_text (o_omit_null o) (fun s => ~ In 11 s) (fun _ src => rfc_lit src) v' /\ all_objs (contiguous (o_omit_null o)) v') /\
    (forall j, json_doc b j -> spelled (o_omit_null o) v' j).
Proof.
  intros [Hp Hi] HO Ht Ha Hord.
  destruct (marshal_runs o E W ORD HO v Ht) as [Hn Hr]; [|exact Hord|].
  { eapply all_text_impl; [| |exact Ha]; [auto|]. intros n src [H _]. now left. }
  destruct (Hr None [] 0%nat) as (v' & er & Hra & Hov & Hrun & Her).
  assert (er = None) by (destruct Her as [Her|(n & ->)]; [exact Her|cbn in Ha; destruct Ha; congruence]). subst er. exists v', (spell o v' 0).
  pose proof (rearr_typed _ _ Hra Ht) as Ht'. pose proof (rearr_text _ _ _ _ Hra Ha) as Ha'.
  destruct (spell_exact o Hp Hi v' Ht' Ha') as [HX HY].
  split; [exact Hra|]. split; [exact Hov|]. split; [|split; [exact HX|exact HY]].
  unfold marshal_opt. destruct v; try contradiction; rewrite Hrun; reflexivity.
Qed.
