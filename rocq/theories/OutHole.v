(** Numbers without text under the default policy. *)
From Verif Require Import Base Float64 Value Opt Marshal ListLemmas SpecJson SpecValue SpecLax SpecText SpecOpts SpecOrder SpecSpell SpecHole
  Utf8 EscapeProof UnmarshalProof ValueLemmas SortProof MarshalProof MarshalClaims LaxParse RoundTrip JsonLax OutSpell OutExact OutClaims.
From Verif Require Import LaxFacts.

Definition num_text_or_none (n : num) (src : bytes) : Prop := Forall number_byte src.
Definition hole (v : V) : Prop := exists n, v = VNum n [].
Lemma hole_dec v : {hole v} + {~ hole v}.
Proof.
  destruct v as [| | n [|c src] | | | | | |]; try (right; intros [m H]; discriminate). left. now exists n.
Qed.
Lemma emptied_arr l : (exists x, hole x /\ l = [x] /\ emptied (VArr l) = VArr []) \/
  ((forall x, hole x -> l <> [x]) /\ emptied (VArr l) = VArr (map emptied l)).
Proof.
  destruct l as [|x [|y l]].
  - right. split; [discriminate|reflexivity].
  - destruct (hole_dec x) as [[n ->]|H].
    + left. exists (VNum n []). split; [now exists n|]. split; reflexivity.
    + right. split; [intros y Hy E; congruence|]. destruct x as [| | n [|c src] | | | | | |]; try reflexivity. exfalso. apply H. now exists n.
  - right. split; [discriminate|]. destruct x as [| | n [|c src] | | | | | |]; reflexivity.
Qed.

Section Hole.
Variable o : opt.
Hypothesis Hpre : ws (o_prefix o).
Hypothesis Hind : ws (o_indent_str o).
Hypothesis Hom : o_omit_null o = false.

Lemma no_out x : out o x = false.
Proof. unfold out. now rewrite Hom. Qed.

Definition okh (v : V) : Prop := all_text (fun s => ~ In 11 s) (fun _ src => rfc_lit src) (emptied v).
Definition to_jsonh (v : V) : Prop := forall cnt, exists j, jval (spell o v cnt) j /\ spelled false (emptied v) j.

Lemma members_jsonh cnt : forall b, b <> [] ->
  Forall (fun x : bytes * (Z * V) => Forall is_byte (fst x) /\ ~ In 11 (fst x) /\ to_jsonh (snd (snd x))) b ->
  exists T ms, (forall first, sp_members o (spell o) cnt first b = (if first then [] else [44]) ++ T) /\
    (forall w, ws w -> jmembers (T ++ w) ms) /\
    Forall2 (fun x m => fixed (fst x) (fst m) /\ spelled false (emptied (snd (snd x))) (snd m)) b ms.
Proof.
  induction b as [|[k [id x]] b IH]; intros Hn Hb; [congruence|].
  inversion Hb as [|? ? (H2 & H3 & H4) Hb']; subst. cbn [fst snd] in *.
  destruct (H4 cnt) as (j & Hj & Hs). pose proof (ws_nl_indent o cnt Hpre Hind) as Hnl.
  assert (Hk : str_body (escape_string (o_esc o) k) (fix_utf8 k)) by now apply escape_string_body.
  cbn [app sp_members]. rewrite no_out. fold (sp_members o (spell o) cnt).
  destruct b as [|y b].
  - exists (nl_indent o cnt ++ quoted (o_esc o) k ++ colon o ++ spell o x cnt), [(fix_utf8 k, j)]. split; [|split].
    + intros first. cbn [sp_members]. rewrite app_nil_r. reflexivity.
    + intros w Hw. rewrite colon_eq.
      replace (_ ++ w) with (nl_indent o cnt ++ 34 :: escape_string (o_esc o) k ++ 34 :: [] ++ 58 :: (if o_indent o then [32] else []) ++ spell o x cnt ++ w)
        by (repeat (rewrite <- app_assoc || cbn [app]); reflexivity).
      apply JM_one; auto using ws_nil, colon_ws.
    + constructor; [|constructor]. split; [now apply fix_fixed|exact Hs].
  - destruct (IH ltac:(discriminate) Hb') as (T & ms & HT & Hm & HF).
    exists (nl_indent o cnt ++ quoted (o_esc o) k ++ colon o ++ spell o x cnt ++ 44 :: T), ((fix_utf8 k, j) :: ms). split; [|split].
    + intros first. rewrite HT. reflexivity.
    + intros w Hw. rewrite colon_eq.
      replace (_ ++ w) with (nl_indent o cnt ++ 34 :: escape_string (o_esc o) k ++ 34 :: [] ++ 58 :: (if o_indent o then [32] else []) ++ spell o x cnt ++ [] ++ 44 :: T ++ w)
        by (repeat (rewrite <- app_assoc || cbn [app]); reflexivity).
      apply JM_cons; auto using ws_nil, colon_ws.
    + constructor; [|exact HF]. split; [now apply fix_fixed|exact Hs].
Qed.

Lemma elems_jsonh cnt : forall l, l <> [] -> Forall to_jsonh l ->
  exists T js, (forall first, sp_elems o (spell o) cnt first l = (if first then [] else [44]) ++ T) /\
    (forall w, ws w -> jelems (T ++ w) js) /\ Forall2 (spelled false) (map emptied l) js.
Proof.
  pose proof (ws_nl_indent o cnt Hpre Hind) as Hnl.
  induction l as [|x l IH]; intros Hn Hl; [congruence|]. inversion Hl as [|? ? Hx Hl']; subst.
  destruct (Hx cnt) as (j & Hj & Hs). cbn [sp_elems]. fold (sp_elems o (spell o) cnt). destruct l as [|y l].
  - exists (nl_indent o cnt ++ spell o x cnt), [j]. split; [|split].
    + intros first. cbn [sp_elems]. now rewrite app_nil_r.
    + intros w Hw. rewrite <- app_assoc. now apply JE_one.
    + constructor; [exact Hs|constructor].
  - destruct (IH ltac:(discriminate) Hl') as (T & js & HT & Hm & HF).
    exists (nl_indent o cnt ++ spell o x cnt ++ 44 :: T), (j :: js). split; [|split].
    + intros first. rewrite HT. reflexivity.
    + intros w Hw. replace (_ ++ w) with (nl_indent o cnt ++ spell o x cnt ++ [] ++ 44 :: T ++ w)
        by (repeat (rewrite <- app_assoc || cbn [app]); reflexivity).
      apply JE_cons; auto using ws_nil.
    + cbn [map]. constructor; assumption.
Qed.

Lemma map_shown kvs ms : Forall2 (fun (x : bytes * (Z * V)) m => fixed (fst x) (fst m) /\ spelled false (emptied (snd (snd x))) (snd m)) kvs ms ->
  Forall2 (fun x m => fixed (fst x) (fst m) /\ spelled false (snd (snd x)) (snd m))
    (kept false (map (fun x => (fst x, (fst (snd x), emptied (snd (snd x))))) kvs)) ms.
Proof. unfold kept. induction 1; cbn [map]; constructor; assumption. Qed.

Lemma spell_jsonh : forall v, json_typed v -> all_text (Forall is_byte) num_text_or_none v -> okh v -> to_jsonh v.
Proof.
  induction v as [| s | n src | i kvs lo IH | l IH | b | | | ] using V_ind'; intros Ht Ha Hw cnt; try contradiction.
  - exists (JStr (fix_utf8 s)). split; [constructor; now apply escape_string_body|constructor; now apply fix_fixed].
  - destruct Hw as (neg & ip & fd & e & i & H). exists (JNum src). split; [econstructor; exact H|constructor].
  - unfold okh in Hw. cbn [emptied] in Hw. apply all_text_obj in Ha, Hw. apply json_typed_obj in Ht as [_ Ht]. rewrite Forall_map in Hw. cbn [fst snd] in Hw.
    assert (HB : Forall (fun x : bytes * (Z * V) => Forall is_byte (fst x) /\ ~ In 11 (fst x) /\ to_jsonh (snd (snd x))) kvs).
    { rewrite Forall_forall in *. intros x Hx. destruct (Ha x Hx) as [A1 A2]. destruct (Hw x Hx) as [W1 W2].
      split; [exact A1|]. split; [exact W1|]. apply (IH x Hx); auto. }
    pose proof (ws_nl_indent o cnt Hpre Hind) as Hnl.
    destruct kvs as [|kv kvs].
    + exists (JObj []). split; [apply (JT_obj0 []), ws_nil|]. constructor. constructor.
    + destruct (members_jsonh (S cnt) (kv :: kvs) ltac:(discriminate) HB) as (T & ms & HT & Hm & HF).
      exists (JObj ms). cbn [spell]. rewrite HT. cbn [app]. rewrite app_assoc. split; [apply JT_obj, Hm, Hnl|].
      cbn [emptied]. constructor. now apply map_shown.
  - apply all_text_arr in Ha. apply json_typed_arr in Ht. pose proof (ws_nl_indent o cnt Hpre Hind) as Hnl.
    destruct (emptied_arr l) as [(x & [n ->] & -> & E)|[Hl E]].
    + exists (JArr []). rewrite E. split; [|constructor; constructor]. cbn [spell sp_elems app].
      rewrite app_nil_r, app_assoc. apply JT_arr0. apply Forall_app. split; [now apply ws_nl_indent|exact Hnl].
    + unfold okh in Hw. rewrite E in Hw |- *. apply all_text_arr in Hw. rewrite Forall_map in Hw. destruct l as [|x l].
      * exists (JArr []). split; [apply (JT_arr0 []), ws_nil|repeat constructor].
      * destruct (elems_jsonh (S cnt) (x :: l)) as (T & js & HT & Hm & HF); [discriminate| |].
        { rewrite Forall_forall in *. intros y Hy. apply IH; auto. apply Hw, Hy. }
        exists (JArr js). split; [|now constructor]. cbn [spell]. rewrite HT. cbn [app]. rewrite app_assoc. apply JT_arr, Hm, Hnl.
  - exists (JBool b). split; [destruct b; constructor|constructor].
  - exists JNull. split; constructor.
Qed.

Definition of_jsonh (v : V) : Prop := forall cnt t j r r', jval t j -> after_num j r' -> after_v v r ->
  spell o v cnt ++ r = t ++ r' -> t = spell o v cnt /\ r = r' /\ okh v /\ spelled false (emptied v) j.

Lemma spell_firsth v cnt : ~ hole v -> json_typed v -> all_text (Forall is_byte) num_text_or_none v -> exists c t, spell o v cnt = c :: t /\
  ~ is_lblank c /\ c <> 93 /\ c <> 44 /\ c <> 125.
Proof.
  destruct v as [| s | n src | i kvs lo | l | b | | |]; intros Hh Ht Ha; try contradiction.
  - eexists. eexists. split; [reflexivity|]. unfold is_lblank, is_ws. lia.
  - cbn [spell]. destruct src as [|c src]; [exfalso; apply Hh; now exists n|]. exists c, src. split; [reflexivity|].
    inversion Ha; subst. unfold number_byte, digit, is_lblank, is_ws in *. lia.
  - exists 123. destruct kvs; eexists; (split; [reflexivity|]); unfold is_lblank, is_ws; lia.
  - exists 91. destruct l; eexists; (split; [reflexivity|]); unfold is_lblank, is_ws; lia.
  - destruct b; [exists 116|exists 102]; eexists; (split; [reflexivity|]); unfold is_lblank, is_ws; lia.
  - exists 110; eexists; (split; [reflexivity|]); unfold is_lblank, is_ws; lia.
Qed.

Definition goodh (v : V) : Prop := hole v \/ ~ hole v /\ json_typed v /\ all_text (Forall is_byte) num_text_or_none v /\ of_jsonh v.

Lemma hole_first t j w c r r0 : jval t j -> ws w -> c = 93 \/ c = 44 \/ c = 125 -> forall w', ws w' -> w ++ c :: r <> w' ++ t ++ r0.
Proof.
  intros Hj Hw Hc w' Hw' E. destruct (jval_first _ _ Hj) as (d & t2 & -> & N2 & N3 & N4 & N5). cbn [app] in E.
  destruct (blanks_eq _ _ c d _ _ (ws_blanks _ Hw) (ws_blanks _ Hw') (nb c ltac:(tauto)) N2 E) as (_ & X & _). lia.
Qed.

Lemma elems_ofh cnt w r : ws w -> forall l, l <> [] -> Forall goodh l -> forall te js r', jelems te js ->
  sp_elems o (spell o) cnt true l ++ w ++ 93 :: r = te ++ 93 :: r' ->
  te = sp_elems o (spell o) cnt true l ++ w /\ r = r' /\ Forall (fun x => ~ hole x /\ okh x) l /\ Forall2 (spelled false) (map emptied l) js.
Proof.
  intros Hw. pose proof (ws_nl_indent o cnt Hpre Hind) as Hnl.
  induction l as [|x l IH]; intros Hn Hg te js r' Hj E; [congruence|].
  cbn [sp_elems app] in E. fold (sp_elems o (spell o) cnt) in E.
  assert (L : l = [] \/ sp_elems o (spell o) cnt false l = 44 :: sp_elems o (spell o) cnt true l)
    by (destruct l; [now left|right; reflexivity]).
  inversion Hg as [|? ? [[n ->]|(Gh & Gt & Ga & Gj)] Hg']; subst.
  { exfalso. cbn [spell app] in E. rewrite <- !app_assoc in E. cbn [app] in E.
    assert (X : exists t0 j0 w1 r0, jval t0 j0 /\ ws w1 /\ te ++ 93 :: r' = w1 ++ t0 ++ r0).
    { destruct Hj as [w1 t1 w2 j H1 Hj H2|w1 t1 w2 j te l' H1 Hj H2 He].
      - exists t1, j, w1, (w2 ++ 93 :: r'). split; [exact Hj|]. split; [exact H1|]. now rewrite <- !app_assoc.
      - exists t1, j, w1, (w2 ++ 44 :: te ++ 93 :: r'). split; [exact Hj|]. split; [exact H1|]. repeat (rewrite <- app_assoc; cbn [app]). reflexivity. }
    destruct X as (t0 & j0 & w1 & r0 & Hj0 & Hw1 & E0). rewrite E0 in E. destruct L as [->|L].
    - cbn [sp_elems app] in E. rewrite app_assoc in E. revert E. apply (hole_first t0 j0); auto. apply Forall_app. now split.
    - rewrite L in E. cbn [app] in E. revert E. apply (hole_first t0 j0); auto. }
  destruct (spell_firsth x cnt Gh Gt Ga) as (c & t & Es & N1 & _).
  assert (AV : after_v x (sp_elems o (spell o) cnt false l ++ w ++ 93 :: r)).
  { destruct L as [->| ->]; [apply (after_v_ws x w); auto|]. destruct x; try exact I. cbn. unfold number_byte, digit. lia. }
  destruct Hj as [w1 t1 w2 j H1 Hj H2|w1 t1 w2 j te l' H1 Hj H2 He].
  - destruct (jval_first _ _ Hj) as (d & t2 & -> & N2 & _). rewrite Es in E. repeat (rewrite <- app_assoc in E; cbn [app] in E). 
    destruct (blanks_eq _ _ c d _ _ (ws_blanks _ Hnl) (ws_blanks _ H1) N1 N2 E) as (<- & <- & E').
    destruct (Gj cnt (c :: t2) j (sp_elems o (spell o) cnt false l ++ w ++ 93 :: r) (w2 ++ 93 :: r') Hj) as (E2 & E3 & Hok & Hsp);
      [apply nn; [auto|now apply ws_blanks]|exact AV|rewrite Es; cbn [app]; now rewrite E'|].
    destruct L as [->|L].
    + cbn [sp_elems app] in E3.
      destruct (blanks_eq _ _ 93 93 _ _ (ws_blanks _ Hw) (ws_blanks _ H2) (nb 93 ltac:(auto)) (nb 93 ltac:(auto)) E3) as (<- & _ & <-).
      rewrite E2. cbn [sp_elems app map]. rewrite app_nil_r, <- app_assoc. auto 10.
    + exfalso. rewrite L in E3. cbn [app] in E3. 
      destruct (blanks_eq [] _ 44 93 _ _ ltac:(constructor) (ws_blanks _ H2) (nb 44 ltac:(auto)) (nb 93 ltac:(auto)) E3) as (_ & X & _). discriminate.
  - destruct (jval_first _ _ Hj) as (d & t2 & -> & N2 & _). rewrite Es in E. repeat (rewrite <- app_assoc in E; cbn [app] in E).
    destruct (blanks_eq _ _ c d _ _ (ws_blanks _ Hnl) (ws_blanks _ H1) N1 N2 E) as (<- & <- & E').
    destruct (Gj cnt (c :: t2) j (sp_elems o (spell o) cnt false l ++ w ++ 93 :: r) (w2 ++ 44 :: te ++ 93 :: r') Hj) as (E2 & E3 & Hok & Hsp);
      [apply nn; [auto|now apply ws_blanks]|exact AV|rewrite Es; cbn [app]; now rewrite E'|].
    destruct L as [->|L].
    + exfalso. cbn [sp_elems app] in E3.
      destruct (blanks_eq _ _ 93 44 _ _ (ws_blanks _ Hw) (ws_blanks _ H2) (nb 93 ltac:(auto)) (nb 44 ltac:(auto)) E3) as (_ & X & _). discriminate.
    + rewrite L in E3. cbn [app] in E3.
      destruct (blanks_eq [] _ 44 44 _ _ ltac:(constructor) (ws_blanks _ H2) (nb 44 ltac:(auto)) (nb 44 ltac:(auto)) E3) as (<- & _ & E4).
      assert (Hnl0 : l <> []) by (intros ->; discriminate L).
      destruct (IH Hnl0 Hg' _ _ _ He E4) as (-> & -> & Hoks & Hsps).
      rewrite E2. cbn [sp_elems app map]. fold (sp_elems o (spell o) cnt). rewrite L. repeat (rewrite <- app_assoc; cbn [app]). auto 10.
Qed.

Definition okmh (x : bytes * (Z * V)) : Prop := ~ In 11 (fst x) /\ okh (snd (snd x)).
Lemma members_ofh cnt w r : ws w -> forall l, Forall (fun x : bytes * (Z * V) => Forall is_byte (fst x) /\ goodh (snd (snd x))) l -> forall tm ms r', jmembers tm ms ->
  sp_members o (spell o) cnt true l ++ w ++ 125 :: r = tm ++ 125 :: r' ->
  tm = sp_members o (spell o) cnt true l ++ w /\ r = r' /\ Forall okmh l /\
  Forall2 (fun x m => fixed (fst x) (fst m) /\ spelled false (emptied (snd (snd x))) (snd m)) l ms.
Proof.
  intros Hw. pose proof (ws_nl_indent o cnt Hpre Hind) as Hnl.
  induction l as [|[k [id x]] l IH]; intros Hg tm ms r' Hm E.
  - exfalso. cbn [sp_members app] in E.
    destruct Hm as [w1 tk k w2 w3 t w4 j H1 Hk H2 H3 Hj H4|w1 tk k w2 w3 t w4 j tm l H1 Hk H2 H3 Hj H4 Hm];
      repeat (rewrite <- app_assoc in E; cbn [app] in E);
      destruct (blanks_eq _ _ 125 34 _ _ (ws_blanks _ Hw) (ws_blanks _ H1) (nb 125 ltac:(auto)) (nb 34 ltac:(auto)) E) as (_ & X & _); discriminate.
  - cbn [sp_members] in E |- *. fold (sp_members o (spell o) cnt) in E |- *. rewrite no_out in E |- *.
    cbn [app] in E |- *.
    assert (L : (l = [] /\ sp_members o (spell o) cnt false l = []) \/
                (l <> [] /\ sp_members o (spell o) cnt false l = 44 :: sp_members o (spell o) cnt true l)).
    { destruct l as [|[k' [id' y]] l']; [left; split; [constructor|reflexivity]|]. right. split; [discriminate|].
      cbn [sp_members]. rewrite no_out. reflexivity. }
    rewrite colon_eq. repeat (rewrite <- app_assoc in E; cbn [app] in E).
    assert (EQ : nl_indent o cnt ++ 34 :: escape_string (o_esc o) k ++ 34 :: 58 :: (if o_indent o then [32] else []) ++ spell o x cnt ++
                 sp_members o (spell o) cnt false l ++ w ++ 125 :: r = tm ++ 125 :: r').
    { rewrite <- E. unfold quoted, colon. repeat (rewrite <- app_assoc || cbn [app]). destruct (o_indent o); reflexivity. }
    clear E. inversion Hg as [|? ? [Gb [[n Ex]|(Gh & Gt & Ga & Gj)]] Hg']; subst; cbn [fst snd] in *.
    { exfalso. subst x. cbn [spell app] in EQ.
      destruct Hm as [w1 tk k0 w2 w3 t w4 j H1 Hk H2 H3 Hj H4|w1 tk k0 w2 w3 t w4 j tm ms H1 Hk H2 H3 Hj H4 Hm];
      repeat (rewrite <- app_assoc in EQ; cbn [app] in EQ);
      destruct (blanks_eq _ _ 34 34 _ _ (ws_blanks _ Hnl) (ws_blanks _ H1) (nb 34 ltac:(auto)) (nb 34 ltac:(auto)) EQ) as (<- & _ & E1);
      destruct (str_of_json o k _ _ _ _ Gb Hk E1) as (-> & E2 & H11 & HF);
      destruct (blanks_eq [] _ 58 58 _ _ ltac:(constructor) (ws_blanks _ H2) (nb 58 ltac:(auto)) (nb 58 ltac:(auto)) E2) as (<- & _ & E3);
      (destruct L as [[_ L]|[_ L]]; rewrite L in E3; cbn [app] in E3;
       [rewrite app_assoc in E3; revert E3; apply (hole_first t j); auto; apply Forall_app; split; [apply colon_ws|exact Hw]
       |revert E3; apply (hole_first t j); auto using colon_ws]). }
    destruct (spell_firsth x cnt Gh Gt Ga) as (c & t0 & Es & N1 & _).
    assert (AV : after_v x (sp_members o (spell o) cnt false l ++ w ++ 125 :: r)).
    { destruct L as [[_ ->]|[_ ->]].
      - apply (after_v_ws x w); auto.
      - destruct x; try exact I. cbn. unfold number_byte, digit. lia. }
    destruct Hm as [w1 tk k0 w2 w3 t w4 j H1 Hk H2 H3 Hj H4|w1 tk k0 w2 w3 t w4 j tm ms H1 Hk H2 H3 Hj H4 Hm];
      repeat (rewrite <- app_assoc in EQ; cbn [app] in EQ);
      destruct (blanks_eq _ _ 34 34 _ _ (ws_blanks _ Hnl) (ws_blanks _ H1) (nb 34 ltac:(auto)) (nb 34 ltac:(auto)) EQ) as (<- & _ & E1);
      destruct (str_of_json o k _ _ _ _ Gb Hk E1) as (-> & E2 & H11 & HF);
      destruct (blanks_eq [] _ 58 58 _ _ ltac:(constructor) (ws_blanks _ H2) (nb 58 ltac:(auto)) (nb 58 ltac:(auto)) E2) as (<- & _ & E3);
      destruct (jval_first _ _ Hj) as (d & t2 & -> & N2 & _); rewrite Es in E3; cbn [app] in E3;
      destruct (blanks_eq _ _ c d _ _ (ws_blanks _ (colon_ws o)) (ws_blanks _ H3) N1 N2 E3) as (<- & <- & E4).
    + destruct (Gj cnt (c :: t2) j (sp_members o (spell o) cnt false l ++ w ++ 125 :: r) (w4 ++ 125 :: r') Hj) as (E5 & E6 & K1 & K3);
        [apply nn; [auto|now apply ws_blanks]|exact AV|rewrite Es; cbn [app]; now rewrite E4|].
      destruct L as [[-> L]|[_ L]].
      * rewrite L in E6 |- *. cbn [app] in E6.
        destruct (blanks_eq _ _ 125 125 _ _ (ws_blanks _ Hw) (ws_blanks _ H4) (nb 125 ltac:(auto)) (nb 125 ltac:(auto)) E6) as (<- & _ & <-).
        rewrite E5. repeat (rewrite <- app_assoc; cbn [app]). split; [reflexivity|]. split; [reflexivity|].
        split; (constructor; [|constructor]); split; assumption.
      * exfalso. rewrite L in E6. cbn [app] in E6.
        destruct (blanks_eq [] _ 44 125 _ _ ltac:(constructor) (ws_blanks _ H4) (nb 44 ltac:(auto)) (nb 125 ltac:(auto)) E6) as (_ & X & _). discriminate.
    + destruct (Gj cnt (c :: t2) j (sp_members o (spell o) cnt false l ++ w ++ 125 :: r) (w4 ++ 44 :: tm ++ 125 :: r') Hj) as (E5 & E6 & K1 & K3);
        [apply nn; [auto|now apply ws_blanks]|exact AV|rewrite Es; cbn [app]; now rewrite E4|].
      destruct L as [[-> L]|[_ L]].
      * exfalso. rewrite L in E6. cbn [app] in E6.
        destruct (blanks_eq _ _ 125 44 _ _ (ws_blanks _ Hw) (ws_blanks _ H4) (nb 125 ltac:(auto)) (nb 44 ltac:(auto)) E6) as (_ & X & _). discriminate.
      * rewrite L in E6 |- *. cbn [app] in E6.
        destruct (blanks_eq [] _ 44 44 _ _ ltac:(constructor) (ws_blanks _ H4) (nb 44 ltac:(auto)) (nb 44 ltac:(auto)) E6) as (<- & _ & E7).
        destruct (IH Hg' _ _ _ Hm E7) as (-> & -> & HO & HS).
        rewrite E5. repeat (rewrite <- app_assoc; cbn [app]). split; [reflexivity|]. split; [reflexivity|].
        split; (constructor; [split; assumption|assumption]).
Qed.

Lemma spell_ofh : forall v, ~ hole v -> json_typed v -> all_text (Forall is_byte) num_text_or_none v -> of_jsonh v.
Proof.
  induction v as [| s | n src | i kvs lo IH | l IH | b | | | ] using V_ind'; intros Hh Ht Ha; try contradiction.
  - intros cnt t j r r' Hj A A' E. destruct (spell_of o Hpre Hind (VStr s) I Ha cnt t j r r' Hj A A' E) as (H1 & H2 & [H3 _] & H4).
    rewrite Hom in *. split; [exact H1|]. split; [exact H2|]. split; [now inversion H3|exact H4].
  - intros cnt t j r r' Hj A A' E. destruct (spell_of o Hpre Hind (VNum n src) I) with (cnt := cnt) (t := t) (j := j) (r := r) (r' := r') as (H1 & H2 & [H3 _] & H4); try assumption.
    { split; [|exact Ha]. intros ->. apply Hh. now exists n. }
    rewrite Hom in *. split; [exact H1|]. split; [exact H2|]. split; [now inversion H3|exact H4].
  - apply json_typed_obj in Ht as [_ Ht]. apply all_text_obj in Ha.
    intros cnt t j r r' Hj _ _ E. pose proof (ws_nl_indent o cnt Hpre Hind) as Hnl.
    destruct (jval_first _ _ Hj) as (c & t0 & -> & _).
    assert (Hc : c = 123) by (destruct kvs; cbn in E; injection E; auto). subst c.
    destruct (jval_obj_inv _ _ Hj) as (t1 & ms & -> & -> & HT).
    assert (Hg : Forall (fun x : bytes * (Z * V) => Forall is_byte (fst x) /\ goodh (snd (snd x))) kvs).
    { rewrite Forall_forall in *. intros x Hx. destruct (Ha x Hx) as [B1 B2]. split; [exact B1|].
      destruct (hole_dec (snd (snd x))) as [HH|HH]; [now left|right]. split; [exact HH|].
      split; [auto|]. split; [exact B2|]. apply (IH x Hx); auto. }
    assert (Y : Forall okmh kvs -> Forall2 (fun x m => fixed (fst x) (fst m) /\ spelled false (emptied (snd (snd x))) (snd m)) kvs ms ->
      okh (VObj i kvs lo) /\ spelled false (emptied (VObj i kvs lo)) (JObj ms)).
    { intros H2 H3. split; [|cbn [emptied]; constructor; now apply map_shown].
      unfold okh. cbn [emptied]. apply all_text_obj. rewrite Forall_map. exact H2. }
    cbn [app] in E. rewrite <- app_assoc in E. cbn [app] in E.
    destruct kvs as [|kv0 kvs].
    + cbn [spell app] in E |- *. injection E as E. destruct HT as [[HT ->]|HT].
      * destruct (blanks_eq [] _ 125 125 _ _ ltac:(constructor) (ws_blanks _ HT) (nb 125 ltac:(auto)) (nb 125 ltac:(auto)) E) as (<- & _ & <-).
        split; [reflexivity|]. split; [reflexivity|]. apply Y; constructor.
      * destruct (members_ofh 0%nat [] r ltac:(constructor) [] ltac:(constructor) _ _ _ HT E) as (-> & <- & H1 & H2).
        split; [reflexivity|]. split; [reflexivity|]. now apply Y.
    + cbn [spell] in E |- *. cbn [app] in E. injection E as E. rewrite <- !app_assoc in E. cbn [app] in E.
      destruct HT as [[HT ->]|HT].
      * exfalso. destruct kv0 as [k0 [id0 x0]]. cbn [sp_members] in E. rewrite no_out in E. unfold quoted in E. repeat (rewrite <- app_assoc in E; cbn [app] in E).
        destruct (blanks_eq _ _ 34 125 _ _ (ws_blanks _ (ws_nl_indent o (S cnt) Hpre Hind)) (ws_blanks _ HT) (nb 34 ltac:(auto)) (nb 125 ltac:(auto)) E) as (_ & X & _). discriminate.
      * destruct (members_ofh (S cnt) _ r Hnl (kv0 :: kvs) Hg _ _ _ HT E) as (-> & <- & H1 & H2). rewrite <- app_assoc.
        split; [reflexivity|]. split; [reflexivity|]. now apply Y.
  - apply json_typed_arr in Ht. apply all_text_arr in Ha.
    intros cnt t j r r' Hj _ _ E. pose proof (ws_nl_indent o cnt Hpre Hind) as Hnl.
    destruct (jval_first _ _ Hj) as (c & t0 & -> & _).
    assert (Hc : c = 91) by (destruct l; cbn in E; injection E; auto). subst c.
    destruct (jval_arr_inv _ _ Hj) as (t1 & js & -> & -> & HT).
    cbn [app] in E. rewrite <- app_assoc in E. cbn [app] in E.
    assert (Hg : Forall goodh l).
    { rewrite Forall_forall in *. intros y Hy. destruct (hole_dec y) as [HH|HH]; [now left|right]. split; [exact HH|]. split; [auto|]. split; auto. }
    destruct (emptied_arr l) as [(x & [n ->] & -> & E0)|[Hl E0]].
    { unfold okh. rewrite E0. cbn [spell sp_elems app] in E |- *. rewrite app_nil_r in E |- *. injection E as E. repeat (rewrite <- app_assoc in E; cbn [app] in E).
      destruct HT as [[HT ->]|HT].
      - rewrite app_assoc in E.
        assert (Hww : ws (nl_indent o (S cnt) ++ nl_indent o cnt)) by (apply Forall_app; split; [now apply ws_nl_indent|exact Hnl]).
        destruct (blanks_eq _ _ 93 93 _ _ (ws_blanks _ Hww) (ws_blanks _ HT) (nb 93 ltac:(auto)) (nb 93 ltac:(auto)) E) as (<- & _ & <-).
        rewrite <- app_assoc. repeat split; constructor. constructor.
      - exfalso.
        assert (E1 : sp_elems o (spell o) (S cnt) true [VNum n []] ++ nl_indent o cnt ++ 93 :: r = t1 ++ 93 :: r')
          by (cbn [sp_elems app spell]; rewrite app_nil_r; exact E).
        destruct (elems_ofh (S cnt) _ r Hnl [VNum n []] ltac:(discriminate) Hg _ _ _ HT E1) as (_ & _ & H & _).
        inversion H as [|? ? [H1 _] _]; subst. apply H1. now exists n. }
    assert (Y : Forall (fun x => ~ hole x /\ okh x) l -> Forall2 (spelled false) (map emptied l) js -> okh (VArr l) /\ spelled false (emptied (VArr l)) (JArr js)).
    { intros H H'. unfold okh. rewrite E0. split; [|now constructor].
      apply all_text_arr. rewrite Forall_map. revert H. apply Forall_impl. intros x [_ H]. exact H. }
    destruct l as [|x l].
    + cbn [spell app] in E |- *. injection E as E. destruct HT as [[HT ->]|HT].
      * destruct (blanks_eq [] _ 93 93 _ _ ltac:(constructor) (ws_blanks _ HT) (nb 93 ltac:(auto)) (nb 93 ltac:(auto)) E) as (<- & _ & <-).
        split; [reflexivity|]. split; [reflexivity|]. apply Y; constructor.
      * exfalso. destruct HT as [w1 t w2 j0 H1 Hj0 H2|w1 t w2 j0 te l' H1 Hj0 H2 He];
          destruct (jval_first _ _ Hj0) as (d & t2 & -> & N2 & N93 & _); repeat (rewrite <- app_assoc in E; cbn [app] in E);
          destruct (blanks_eq [] _ 93 d _ _ ltac:(constructor) (ws_blanks _ H1) (nb 93 ltac:(auto)) N2 E) as (_ & X & _); congruence.
    + cbn [spell] in E |- *. cbn [app] in E. injection E as E. rewrite <- !app_assoc in E. cbn [app] in E.
      destruct HT as [[HT ->]|HT].
      * exfalso. cbn [sp_elems] in E. fold (sp_elems o (spell o) (S cnt)) in E. repeat (rewrite <- app_assoc in E; cbn [app] in E).
        pose proof (ws_nl_indent o (S cnt) Hpre Hind) as HnS.
        inversion Hg as [|? ? [[n ->]|(Gh & Gt & Ga & _)] _]; subst.
        -- destruct l as [|y l]; [apply (Hl (VNum n [])); [now exists n|reflexivity]|]. cbn [spell sp_elems app] in E.
           destruct (blanks_eq _ _ 44 93 _ _ (ws_blanks _ HnS) (ws_blanks _ HT) (nb 44 ltac:(auto)) (nb 93 ltac:(auto)) E) as (_ & X & _). discriminate.
        -- destruct (spell_firsth x (S cnt) Gh Gt Ga) as (c & t & Es & N1 & N93 & _). rewrite Es in E. cbn [app] in E.
           destruct (blanks_eq _ _ c 93 _ _ (ws_blanks _ HnS) (ws_blanks _ HT) N1 (nb 93 ltac:(auto)) E) as (_ & X & _). congruence.
      * assert (E1 : sp_elems o (spell o) (S cnt) true (x :: l) ++ nl_indent o cnt ++ 93 :: r = t1 ++ 93 :: r')
          by (cbn [sp_elems app]; rewrite <- !app_assoc; exact E).
        destruct (elems_ofh (S cnt) _ r Hnl (x :: l) ltac:(discriminate) Hg _ _ _ HT E1) as (-> & <- & H & H').
        rewrite <- app_assoc. split; [reflexivity|]. split; [reflexivity|]. now apply Y.
  - intros cnt t j r r' Hj A A' E. destruct (spell_of o Hpre Hind (VBool b) I I cnt t j r r' Hj A A' E) as (H1 & H2 & [H3 _] & H4).
    rewrite Hom in *. split; [exact H1|]. split; [exact H2|]. split; [exact I|exact H4].
  - intros cnt t j r r' Hj A A' E. destruct (spell_of o Hpre Hind VNull I I cnt t j r r' Hj A A' E) as (H1 & H2 & [H3 _] & H4).
    rewrite Hom in *. split; [exact H1|]. split; [exact H2|]. split; [exact I|exact H4].
Qed.

Theorem spell_exacth v : ~ hole v -> json_typed v -> all_text (Forall is_byte) num_text_or_none v ->
  ((exists j, json_doc (spell o v 0) j) <-> okh v) /\ forall j, json_doc (spell o v 0) j -> spelled false (emptied v) j.
Proof.
  intros Hh Ht Ha.
  assert (X : forall j, json_doc (spell o v 0) j -> okh v /\ spelled false (emptied v) j).
  { intros j (w1 & t & w2 & E & H1 & Hj & H2). destruct (spell_firsth v 0 Hh Ht Ha) as (c & t0 & Es & N1 & _).
    destruct (jval_first _ _ Hj) as (d & t2 & -> & N2 & _). rewrite Es in E. cbn [app] in E.
    destruct (blanks_eq [] _ c d _ _ ltac:(constructor) (ws_blanks _ H1) N1 N2 E) as (<- & <- & E').
    destruct (spell_ofh v Hh Ht Ha 0%nat (c :: t2) j [] w2 Hj) as (_ & _ & H); [apply blank_tail; now apply ws_blanks|destruct v; exact I| |exact H].
    rewrite app_nil_r, Es. cbn [app]. now rewrite E'. }
  split; [|intros j Hj; now apply X]. split.
  - intros [j Hj]. now apply (X j).
  - intros H1. destruct (spell_jsonh v Ht Ha H1 0%nat) as (j & Hj & _). exists j, [], (spell o v 0), [].
    rewrite app_nil_r. repeat split; try constructor. exact Hj.
Qed.
End Hole.

Lemma rearr_hole v v' : rearranged v v' -> hole v <-> hole v'.
Proof.
  intros []; try reflexivity; split; intros [n X]; discriminate.
Qed.
Lemma rearr_emptied : forall v v', rearranged v v' -> rearranged (emptied v) (emptied v').
Proof.
  induction v as [| s | n src | i kvs lo IH | l IH | b | | | ] using V_ind'; intros v' H;
    inversion H as [x N1 N2|l0 l' F|i0 kvs0 lo0 kvs1 kvs' P F]; subst; try exact H.
  - exfalso. now apply (N1 i kvs lo).
  - cbn [emptied]. apply RA_obj with (kvs1 := map (fun x => (fst x, (fst (snd x), emptied (snd (snd x))))) kvs1); [now apply Permutation_map|].
    apply (Permutation_Forall P) in IH. clear P H. induction F as [|x y l l' (H1 & H2 & H3) _ IHl]; cbn [map]; constructor.
    + cbn [fst snd]. inversion IH; subst. auto.
    + inversion IH; subst. auto.
  - exfalso. now apply (N2 l).
  - clear H. assert (X : Forall2 rearranged (map emptied l) (map emptied l')).
    { induction F as [|x y l l' H1 _ IHl]; cbn [map]; constructor; inversion IH; subst; auto. }
    destruct (emptied_arr l) as [(x & Hx & -> & E)|[Hl E]]; destruct (emptied_arr l') as [(y & Hy & Ey & E')|[Hl' E']]; rewrite E, E'.
    + apply RA_arr. constructor.
    + exfalso. inversion F as [|? z ? l2 F1 F2]; subst. inversion F2; subst. apply (Hl' z); [now apply (rearr_hole _ _ F1)|reflexivity].
    + exfalso. rewrite Ey in F. inversion F as [|z ? l2 ? F1 F2]; subst. inversion F2; subst. apply (Hl z); [now apply (rearr_hole _ _ F1)|reflexivity].
    + now apply RA_arr.
Qed.

Lemma all_any v : all_objs any_order v.
Proof.
  induction v as [| s | n src | i kvs lo IH | l IH | b | | | ] using V_ind'; try exact I.
  - apply all_objs_obj. split; [exact I|exact IH].
  - apply all_objs_arr. exact IH.
Qed.

Theorem textless_exactly E W o v : o_nan o = 0 -> o_inf o = 0 -> o_omit_null o = false -> opt_ws o ->
  json_typed v -> all_text (Forall is_byte) (fun _ src => Forall number_byte src) v -> (forall n, v <> VNum n []) ->
  exists b, marshal_opt E W o v = Ok b /\
    ((exists j, json_doc b j) <-> all_text (fun s => ~ In 11 s) (fun _ src => rfc_lit src) (emptied v)) /\
    forall j, json_doc b j -> shows_text (emptied v) j.
Proof.
  intros Hnan Hinf Hom [Hp Hi] Ht Ha Hh.
  assert (NH : ~ hole v) by (intros [n X]; exact (Hh n X)).
  destruct (marshal_runs o E W any_order any_only v Ht) as [Hn Hr].
  { eapply all_text_impl; [| |exact Ha]; [auto|]. intros n src _. right. now split. }
  { eapply all_objs_impl2; [|apply typed_nodup, Ht]. intros kvs _ pi path kvs' _ _. exact I. }
  destruct (Hr None [] 0%nat) as (v' & er & Hra & Hov & Hrun & Her).
  assert (er = None) by (destruct Her as [Her|(n & ->)]; [exact Her|exfalso; now apply (Hh n)]). subst er.
  exists (spell o v' 0).
  pose proof (rearr_typed _ _ Hra Ht) as Ht'. pose proof (rearr_text _ _ _ _ Hra Ha) as Ha'.
  assert (NH' : ~ hole v') by (intros X; apply NH; now apply (rearr_hole _ _ Hra)).
  destruct (spell_exacth o Hp Hi Hom v' NH' Ht' Ha') as [HX HY].
  split; [unfold marshal_opt; destruct v; try contradiction; rewrite Hrun; reflexivity|].
  pose proof (rearr_emptied _ _ Hra) as He. split.
  - rewrite HX. unfold okh. split; [now apply rearr_text_back|now apply rearr_text].
  - intros j Hj. eapply (spelled_shows false any_order any_only); [exact He|apply all_any|auto].
Qed.

(** A document never shows a number without text. *)
Inductive empty_in : jv -> Prop :=
| EI_num : empty_in (JNum [])
| EI_arr x l : In x l -> empty_in x -> empty_in (JArr l)
| EI_obj m ms : In m ms -> empty_in (snd m) -> empty_in (JObj ms).

Lemma textless_empty v : textless_in v -> forall j, shows_text v j -> empty_in j.
Proof.
  induction 1 as [n|x l Hx _ IH|i k id x kvs lo Hx _ IH]; intros j H.
  - inversion H as [| |? ? ? HN| | |]; subst. rewrite HN. constructor.
  - inversion H as [| | | |? l' F|]; subst. clear H. induction F as [|y m l l' Hy _ IHl]; [destruct Hx|].
    destruct Hx as [->|Hx]; [apply (EI_arr m); [now left|auto]|]. specialize (IHl Hx). inversion IHl; subst. eapply EI_arr; [right; eassumption|assumption].
  - inversion H as [| | | | |? ? ? kvs' ms P _ F]; subst. clear H. apply (Permutation_in _ P) in Hx. clear P. cbn [kept] in F.
    unfold kept in F. induction F as [|y m l l' [_ Hy] _ IHl]; [destruct Hx|].
    destruct Hx as [->|Hx]; [apply (EI_obj m); [now left|auto]|]. specialize (IHl Hx). inversion IHl; subst. eapply EI_obj; [right; eassumption|assumption].
Qed.
Lemma jval_not_empty : (forall t j, jval t j -> ~ empty_in j) /\
  (forall t l, jelems t l -> Forall (fun j => ~ empty_in j) l) /\ (forall t ms, jmembers t ms -> Forall (fun m => ~ empty_in (snd m)) ms).
Proof.
  apply json_mutind; try (intros; intros X; inversion X; fail).
  - intros lit neg ip fd e i H X. inversion X; subst. destruct (jval_first _ _ (JT_num _ _ _ _ _ _ H)) as (c & r & E & _). discriminate.
  - intros w _ X. inversion X; subst. contradiction.
  - intros t l _ H X. inversion X; subst. rewrite Forall_forall in H. now apply (H x).
  - intros w _ X. inversion X; subst. contradiction.
  - intros t l _ H X. inversion X; subst. rewrite Forall_forall in H. now apply (H m).
  - intros. constructor; [assumption|constructor].
  - intros. constructor; assumption.
  - intros. constructor; [assumption|constructor].
  - intros. constructor; assumption.
Qed.
Theorem textless_never b v j : textless_in v -> json_doc b j -> ~ shows_text v j.
Proof.
  intros Hv (w1 & t & w2 & _ & _ & Hj & _) Hs. apply (proj1 jval_not_empty _ _ Hj). now apply (textless_empty v).
Qed.

Definition nan : V := VNum (Num false false 0 0 S754_nan) [].
Example textless_example : forall E W,
  marshal_opt E W opt0 (VArr [VArr [nan]; VStr []]) = Ok (bs "[[],""""]") /\ emptied (VArr [VArr [nan]; VStr []]) = VArr [VArr []; VStr []] /\
  marshal_opt E W opt0 (VArr [nan; VBool true]) = Ok (bs "[,true]") /\ (forall j, ~ json_doc (bs "[,true]") j).
Proof.
  intros E W. split; [reflexivity|]. split; [reflexivity|]. split; [reflexivity|].
  destruct (textless_exactly E W opt0 (VArr [nan; VBool true]) eq_refl eq_refl eq_refl) as (b & H1 & H2 & _).
  - split; constructor.
  - split; [exact I|]. split; exact I.
  - split; [constructor|]. split; exact I.
  - discriminate.
  - change (Ok (bs "[,true]") = Ok b) in H1. injection H1 as <-. intros j Hj.
    destruct (proj1 H2 (ex_intro _ j Hj)) as [(neg & ip & fd & e & i & X) _].
    destruct (jval_first _ _ (JT_num _ _ _ _ _ _ X)) as (c & r & E0 & _). discriminate.
Qed.
