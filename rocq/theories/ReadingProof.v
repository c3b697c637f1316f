(** C89: Unmarshal part by part. *)
From Verif Require Import Base Float64 Value Scan Unmarshal Path Edit SpecJson SpecValue SpecLax SpecPath SpecPieces SpecCut SpecReading ListLemmas
  UnmarshalProof ValueLemmas NumProof ParseComplete LaxNum LaxParse MarshalProof LaxFacts JsonLax LaxSame CutProof PathProof PartsProof.

Section Reading.
Variable E : Env.

Lemma filler_cons c w : filler (c :: w) -> (is_lblank c \/ c = 44) /\ filler w.
Proof. intros H. inversion H; auto. Qed.
Lemma blanks_filler w : lblanks w -> filler w.
Proof. unfold filler, lblanks. apply Forall_impl. auto. Qed.
Lemma filler_split w : filler w -> lblanks w \/ exists w1 w2, w = w1 ++ 44 :: w2 /\ lblanks w1 /\ filler w2.
Proof.
  induction 1 as [|c w Hc Hw IH]; [left; constructor|]. destruct Hc as [Hc| ->].
  - destruct IH as [IH|(w1 & w2 & -> & H1 & H2)]; [left; now constructor|]. right. exists (c :: w1), w2. split; [reflexivity|]. split; [now constructor|exact H2].
  - right. exists [], w. split; [reflexivity|]. split; [constructor|exact Hw].
Qed.

(** *** In the grammar *)
Lemma blank_elems w t l : lblanks w -> lelems t l -> lelems (w ++ t) l.
Proof.
  intros Hw H. inversion H; subst.
  - apply LE_end. now apply lblanks_app.
  - rewrite app_assoc. apply LE_comma; [now apply lblanks_app|assumption].
  - rewrite app_assoc. apply LE_cons; auto. now apply lblanks_app.
Qed.
Lemma filler_elems t l : lelems t l -> forall w, filler w -> lelems (w ++ t) l.
Proof.
  intros H w Hw. remember (List.length w) as n eqn:En. revert w En Hw. induction n as [n IH] using (well_founded_induction Wf_nat.lt_wf).
  intros w En Hw. destruct (filler_split w Hw) as [Hb|(w1 & w2 & -> & H1 & H2)]; [now apply blank_elems|].
  rewrite <- app_assoc. cbn [app]. apply LE_comma; [exact H1|]. apply (IH (List.length w2)); [|reflexivity|exact H2].
  subst n. rewrite app_length. cbn. lia.
Qed.
Lemma blank_members w t l : lblanks w -> lmembers t l -> lmembers (w ++ t) l.
Proof.
  intros Hw H. inversion H; subst.
  - apply LM_end. now apply lblanks_app.
  - rewrite app_assoc. apply LM_comma; [now apply lblanks_app|assumption].
  - rewrite app_assoc. apply LM_cons; auto. now apply lblanks_app.
Qed.
Lemma filler_members t l : lmembers t l -> forall w, filler w -> lmembers (w ++ t) l.
Proof.
  intros H w Hw. remember (List.length w) as n eqn:En. revert w En Hw. induction n as [n IH] using (well_founded_induction Wf_nat.lt_wf).
  intros w En Hw. destruct (filler_split w Hw) as [Hb|(w1 & w2 & -> & H1 & H2)]; [now apply blank_members|].
  rewrite <- app_assoc. cbn [app]. apply LM_comma; [exact H1|]. apply (IH (List.length w2)); [|reflexivity|exact H2].
  subst n. rewrite app_length. cbn. lia.
Qed.

(** *** In terms of Unmarshal *)
Lemma filler_elements w m vs : filler w -> elements E m vs -> elements E (w ++ m) vs.
Proof.
  intros Hw H. inversion H; subst.
  - apply EL_end. apply Forall_app. now split.
  - rewrite app_assoc. apply EL_next; auto. apply Forall_app. now split.
Qed.
Lemma filler_members' w m o o' : filler w -> members E m o o' -> members E (w ++ m) o o'.
Proof.
  intros Hw H. inversion H; subst.
  - apply ME_end. apply Forall_app. now split.
  - rewrite app_assoc. eapply ME_next; eauto. apply Forall_app. now split.
Qed.
Lemma comma_filler w : lblanks w -> filler (w ++ [44]).
Proof. intros H. apply Forall_app. split; [now apply blanks_filler|]. constructor; [now right|constructor]. Qed.

Lemma val_accepted w t w' j : Forall is_byte (w ++ t ++ w') -> lblanks w -> lblanks w' -> lval t j -> unmarshal E (w ++ t ++ w') = Ok (to_V E j, None).
Proof. intros Hb Hw Hw' Hj. apply unmarshal_lax; [exact Hb|]. exists j. split; [|reflexivity]. exists w, t, w'. auto. Qed.

Lemma val_cleanly w t j r : lval t j -> after_num j r -> cleanly (to_V E j) (w ++ t) r.
Proof.
  intros Hj Ha. unfold cleanly. destruct (to_V E j) eqn:Ev; try exact I. destruct r as [|c r]; [exact I|]. intros _.
  destruct j; cbn in Ev; try discriminate; try exact Ha.
  exfalso. assert (Ho : is_obj (put_all E l new_object)).
  { assert (G : forall l o, is_obj o -> is_obj (put_all E l o)); [|apply G; repeat eexists].
    clear. induction l as [|[k x] l IH]; intros o Ho; [exact Ho|]. cbn [put_all fold_left]. apply IH. now apply oput_set. }
  unfold put_all in Ho. rewrite Ev in Ho. destruct Ho as (? & ? & ? & Ho). discriminate Ho.
Qed.

Lemma cleanly_after j w1 t w2 r : lval t j -> lblanks w2 -> cleanly (to_V E j) (w1 ++ t ++ w2) r -> after_num j (w2 ++ r).
Proof.
  intros Hj Hw Hc. destruct j as [| |lit| | |]; try exact I. inversion Hj as [| | |? HL| | |]; subst.
  destruct (to_V_num E lit HL) as (n & En). rewrite En in Hc. cbn [cleanly] in Hc.
  destruct w2 as [|c w2].
  - cbn [app]. destruct r as [|c r]; [exact I|]. cbn. apply Hc. exists w1. now rewrite app_nil_r.
  - cbn. inversion Hw as [|? ? Hx _]; subst. unfold is_lblank, is_ws, number_byte, digit in *. lia.
Qed.

Lemma elems_elements m l : Forall is_byte m -> lelems m l -> elements E m (map (to_V E) l).
Proof.
  intros Hb H. induction H as [w Hw|w t l Hw _ IH|w t j te l Hw Hv Ha _ IH]; cbn [map].
  - apply EL_end. now apply blanks_filler.
  - apply Forall_app in Hb as [_ Hb]. inversion Hb; subst. change (w ++ 44 :: t) with (w ++ [44] ++ t). rewrite app_assoc.
    apply filler_elements; [now apply comma_filler|auto].
  - apply Forall_app in Hb as [_ Hb]. apply Forall_app in Hb as [Hb1 Hb2].
    apply EL_next; [now apply blanks_filler| |exact (val_cleanly [] t j te Hv Ha)|auto].
    rewrite <- (app_nil_r t). apply (val_accepted [] t [] j); try constructor; [now rewrite app_nil_r|exact Hv].
Qed.

Lemma elements_elems m vs : Forall is_byte m -> elements E m vs -> exists l, lelems m l /\ vs = map (to_V E) l.
Proof.
  intros Hb H. induction H as [w Hw|w t v r vs Hw Hu Hc _ IH].
  - exists []. split; [|reflexivity]. rewrite <- (app_nil_r w). apply filler_elems; [|exact Hw]. apply LE_end. constructor.
  - apply Forall_app in Hb as [_ Hb]. apply Forall_app in Hb as [Hb1 Hb2]. destruct (IH Hb2) as (l & Hl & ->).
    apply unmarshal_lax in Hu; [|exact Hb1]. destruct Hu as (j & (w1 & t0 & w2 & -> & H1 & Hj & H2) & ->).
    exists (j :: l). split; [|reflexivity]. apply filler_elems; [|exact Hw]. rewrite <- !app_assoc.
    apply LE_cons; [exact H1|exact Hj|exact (cleanly_after _ _ _ _ _ Hj H2 Hc)|]. now apply blank_elems.
Qed.

Lemma to_V_ready j : (forall lit, j = JNum lit -> lax_num lit) -> uninitialized (to_V E j) = false.
Proof.
  intros HL. destruct j; try reflexivity.
  - destruct (to_V_num E lit (HL _ eq_refl)) as (n & ->). reflexivity.
  - cbn [to_V]. assert (G : forall l o, is_obj o -> is_obj (put_all E l o)).
    { clear. induction l as [|[k x] l IH]; intros o Ho; [exact Ho|]. cbn [put_all fold_left]. apply IH. now apply oput_set. }
    destruct (G l new_object) as (? & ? & ? & Ho); [repeat eexists|]. unfold put_all in Ho. now rewrite Ho.
Qed.
Lemma lval_lit t j : lval t j -> forall lit, j = JNum lit -> lax_num lit.
Proof. intros H lit ->. now inversion H. Qed.

Lemma set_oput o k v : is_obj o -> uninitialized v = false -> fst (set_at E o (arg_v v) (PStr k) []) = oput E o k v.
Proof. intros (i & kvs & lo & ->) Hv. unfold set_at, arg_v. cbn [fst snd]. destruct v; try discriminate Hv; reflexivity. Qed.

Lemma lmembers_members m l : Forall is_byte m -> lmembers m l -> forall o, is_obj o -> members E m o (put_all E l o).
Proof.
  intros Hb H. induction H as [w Hw|w t l Hw _ IH|w1 tk k w2 w3 t j tm l H1 Hk H2 H3 Hv Ha _ IH]; intros o Ho.
  - apply ME_end. now apply blanks_filler.
  - apply Forall_app in Hb as [_ Hb]. inversion Hb; subst. change (w ++ 44 :: t) with (w ++ [44] ++ t). rewrite app_assoc.
    apply filler_members'; [now apply comma_filler|auto].
  - apply Forall_app in Hb as [_ Hb].
    replace (w1 ++ 34 :: tk ++ 34 :: w2 ++ 58 :: w3 ++ t ++ tm) with (w1 ++ (34 :: tk ++ 34 :: w2) ++ 58 :: (w3 ++ t) ++ tm)
      by (cbn [app]; rewrite <- !app_assoc; reflexivity).
    assert (Hb1 : Forall is_byte (34 :: tk ++ 34 :: w2) /\ Forall is_byte (w3 ++ t) /\ Forall is_byte tm).
    { replace (34 :: tk ++ 34 :: w2 ++ 58 :: w3 ++ t ++ tm) with ((34 :: tk ++ 34 :: w2) ++ 58 :: (w3 ++ t) ++ tm) in Hb
        by (cbn [app]; rewrite <- !app_assoc; reflexivity).
      apply Forall_app in Hb as [Hx Hb]. inversion Hb as [|? ? _ Hb']; subst. apply Forall_app in Hb' as [? ?]. auto. }
    destruct Hb1 as (B1 & B2 & B3).
    apply (ME_next E w1 _ k _ (to_V E j)).
    + now apply blanks_filler.
    + replace (34 :: tk ++ 34 :: w2) with ([] ++ (34 :: tk ++ [34]) ++ w2) in * by (cbn [app]; rewrite <- app_assoc; reflexivity).
      apply (val_accepted [] _ w2 (JStr k)); [exact B1|constructor|exact H2|now constructor].
    + replace (w3 ++ t) with (w3 ++ t ++ []) in * by now rewrite app_nil_r.
      apply val_accepted; [exact B2|exact H3|constructor|exact Hv].
    + now apply val_cleanly.
    + rewrite set_oput by (try assumption; apply to_V_ready; now apply (lval_lit t)).
      apply (IH B3). now apply oput_set.
Qed.

Lemma members_lmembers m o o' : Forall is_byte m -> members E m o o' -> is_obj o -> exists l, lmembers m l /\ o' = put_all E l o.
Proof.
  intros Hb H. induction H as [w o Hw|w tk k t v r o o' Hw Hk Hu Hc _ IH]; intros Ho.
  - exists []. split; [|reflexivity]. rewrite <- (app_nil_r w). apply filler_members; [|exact Hw]. apply LM_end. constructor.
  - apply Forall_app in Hb as [_ Hb]. apply Forall_app in Hb as [B1 Hb]. inversion Hb as [|? ? _ Hb']; subst. apply Forall_app in Hb' as [B2 B3].
    apply unmarshal_lax in Hk; [|exact B1]. destruct Hk as (jk & (u1 & t1 & u2 & -> & G1 & Hjk & G2) & Ek).
    apply unmarshal_lax in Hu; [|exact B2]. destruct Hu as (j & (w1 & t0 & w2 & -> & H1 & Hj & H2) & ->).
    pose proof (to_V_ready j (lval_lit _ _ Hj)) as Hr. rewrite (set_oput o k _ Ho Hr) in IH.
    destruct (IH B3 (proj2 (oput_set E o k _ Ho))) as (l & Hl & ->).
    exists ((k, j) :: l). split; [|reflexivity].
    assert (Hs : exists tk', t1 = 34 :: tk' ++ [34] /\ lstr tk' k).
    { destruct jk as [| |lit|s| |l0]; cbn [to_V] in Ek; try discriminate Ek.
      - destruct (to_V_num E lit (lval_lit _ _ Hjk _ eq_refl)) as (n & En). cbn [to_V] in En. rewrite En in Ek. discriminate Ek.
      - injection Ek as ->. inversion Hjk; subst. eauto.
      - exfalso. assert (G : forall l o, is_obj o -> is_obj (put_all E l o)).
        { clear. induction l as [|[k x] l IH]; intros o Ho; [exact Ho|]. cbn [put_all fold_left]. apply IH. now apply oput_set. }
        destruct (G l0 new_object) as (? & ? & ? & Hx); [repeat eexists|]. unfold put_all in Hx. rewrite Hx in Ek. discriminate Ek. }
    destruct Hs as (tk' & -> & Hs).
    apply filler_members; [|exact Hw].
    replace ((u1 ++ (34 :: tk' ++ [34]) ++ u2) ++ 58 :: (w1 ++ t0 ++ w2) ++ r)
      with (u1 ++ 34 :: tk' ++ 34 :: u2 ++ 58 :: w1 ++ t0 ++ (w2 ++ r)) by (repeat (rewrite <- app_assoc; cbn [app]); reflexivity).
    apply LM_cons; auto; [exact (cleanly_after _ _ _ _ _ Hj H2 Hc)|]. now apply blank_members.
Qed.

Theorem array_read b vs : Forall is_byte b ->
  unmarshal E b = Ok (VArr vs, None) <->
  exists w m w', b = w ++ 91 :: m ++ 93 :: w' /\ lblanks w /\ lblanks w' /\ elements E m vs.
Proof.
  intros Hb. split.
  - intros H. apply unmarshal_lax in H; [|exact Hb]. destruct H as (j & (w & t & w' & -> & Hw & Hj & Hw') & Ev).
    destruct j as [| |lit|s|l|l0]; cbn [to_V] in Ev; try discriminate Ev.
    + destruct (to_V_num E lit (lval_lit _ _ Hj _ eq_refl)) as (n & En). cbn [to_V] in En. rewrite En in Ev. discriminate Ev.
    + injection Ev as ->. inversion Hj as [| | | | |m l' Hm|]; subst. exists w, m, w'. split; [|split; [exact Hw|split; [exact Hw'|]]].
      * cbn [app]. rewrite <- app_assoc. reflexivity.
      * apply elems_elements; [|exact Hm]. apply Forall_app in Hb as [_ Hb]. cbn [app] in Hb. inversion Hb as [|? ? _ Hb']; subst.
        rewrite <- app_assoc in Hb'. apply Forall_app in Hb' as [? _]. assumption.
    + exfalso. assert (G : forall l o, is_obj o -> is_obj (put_all E l o)).
      { clear. induction l as [|[k x] l IH]; intros o Ho; [exact Ho|]. cbn [put_all fold_left]. apply IH. now apply oput_set. }
      destruct (G l0 new_object) as (? & ? & ? & Hx); [repeat eexists|]. unfold put_all in Hx. rewrite Hx in Ev. discriminate Ev.
  - intros (w & m & w' & -> & Hw & Hw' & Hm). apply unmarshal_lax; [exact Hb|].
    apply Forall_app in Hb as [_ Hb]. inversion Hb as [|? ? _ Hb']; subst. apply Forall_app in Hb' as [Hb1 _].
    destruct (elements_elems m vs Hb1 Hm) as (l & Hl & ->). exists (JArr l). split; [|reflexivity].
    exists w, (91 :: m ++ [93]), w'. split; [cbn [app]; now rewrite <- app_assoc|]. split; [exact Hw|]. split; [now constructor|exact Hw'].
Qed.

Theorem object_read b i kvs lo : Forall is_byte b ->
  unmarshal E b = Ok (VObj i kvs lo, None) <->
  exists w m w', b = w ++ 123 :: m ++ 125 :: w' /\ lblanks w /\ lblanks w' /\ members E m new_object (VObj i kvs lo).
Proof.
  assert (Hno : is_obj new_object) by repeat eexists.
  intros Hb. split.
  - intros H. apply unmarshal_lax in H; [|exact Hb]. destruct H as (j & (w & t & w' & -> & Hw & Hj & Hw') & Ev).
    destruct j as [| |lit|s|l|l0]; cbn [to_V] in Ev; try discriminate Ev.
    + destruct (to_V_num E lit (lval_lit _ _ Hj _ eq_refl)) as (n & En). cbn [to_V] in En. rewrite En in Ev. discriminate Ev.
    + inversion Hj as [| | | | | |m l' Hm]; subst. exists w, m, w'. split; [|split; [exact Hw|split; [exact Hw'|]]].
      * cbn [app]. rewrite <- app_assoc. reflexivity.
      * rewrite Ev. apply lmembers_members; [|exact Hm|exact Hno]. apply Forall_app in Hb as [_ Hb]. cbn [app] in Hb. inversion Hb as [|? ? _ Hb']; subst.
        rewrite <- app_assoc in Hb'. apply Forall_app in Hb' as [? _]. assumption.
  - intros (w & m & w' & -> & Hw & Hw' & Hm). apply unmarshal_lax; [exact Hb|].
    apply Forall_app in Hb as [_ Hb]. inversion Hb as [|? ? _ Hb']; subst. apply Forall_app in Hb' as [Hb1 _].
    destruct (members_lmembers m _ _ Hb1 Hm Hno) as (l & Hl & Ev). exists (JObj l). split; [|exact Ev].
    exists w, (123 :: m ++ [125]), w'. split; [cbn [app]; now rewrite <- app_assoc|]. split; [exact Hw|]. split; [now constructor|exact Hw'].
Qed.

(** *** The usual spelling *)
Lemma cleanly_comma v t r : cleanly v t (44 :: r).
Proof. destruct v; try exact I. intros _. unfold number_byte, digit. lia. Qed.

Theorem array_joined bs vs : Forall (Forall is_byte) bs -> Forall2 (fun b v => unmarshal E b = Ok (v, None)) bs vs ->
  unmarshal E (91 :: commas bs ++ [93]) = Ok (VArr vs, None).
Proof.
  intros Hb H.
  assert (Hc : Forall is_byte (commas bs)).
  { clear H. induction Hb as [|b bs Hx Hb IH]; [constructor|]. destruct bs as [|b' bs]; [exact Hx|].
    change (commas (b :: b' :: bs)) with (b ++ 44 :: commas (b' :: bs)). apply Forall_app. split; [exact Hx|]. constructor; [split; lia|exact IH]. }
  apply array_read.
  { constructor; [split; lia|]. apply Forall_app. split; [exact Hc|]. constructor; [split; lia|constructor]. }
  exists [], (commas bs), []. split; [reflexivity|]. split; [constructor|]. split; [constructor|]. clear Hb Hc.
  induction H as [|b v bs vs Hx H IH]; [apply EL_end; constructor|]. inversion H as [|b' v' bs' vs' Hx' H' E1 E2]; subst.
  - replace (commas [b]) with ([] ++ b ++ []) by (cbn; now rewrite app_nil_r). apply EL_next; [constructor|exact Hx|destruct v; exact I|apply EL_end; constructor].
  - change (commas (b :: b' :: bs')) with ([] ++ b ++ 44 :: commas (b' :: bs')). apply EL_next; [constructor|exact Hx|apply cleanly_comma|].
    change (44 :: commas (b' :: bs')) with ([44] ++ commas (b' :: bs')). apply filler_elements; [|exact IH]. constructor; [now right|constructor].
Qed.

Theorem object_joined (l : list ((bytes * bytes) * (bytes * V))) :
  Forall (fun x => Forall is_byte (fst (fst x)) /\ Forall is_byte (snd (fst x)) /\
                   unmarshal E (fst (fst x)) = Ok (VStr (fst (snd x)), None) /\ unmarshal E (snd (fst x)) = Ok (snd (snd x), None)) l ->
  unmarshal E (123 :: commas (map (fun x => fst (fst x) ++ 58 :: snd (fst x)) l) ++ [125]) =
  Ok (fold_left (fun o x => fst (set_at E o (arg_v (snd (snd x))) (PStr (fst (snd x))) [])) l new_object, None).
Proof.
  intros H. set (parts := map _ l).
  assert (Hb : Forall is_byte (commas parts)).
  { unfold parts. clear parts. induction H as [|x l (B1 & B2 & _) H IH]; [constructor|].
    assert (Hp : Forall is_byte (fst (fst x) ++ 58 :: snd (fst x))) by (apply Forall_app; split; [exact B1|]; constructor; [split; lia|exact B2]).
    destruct l as [|y l]; [exact Hp|]. cbn [map] in *. 
    change (commas (?a :: ?b :: ?r)) with (a ++ 44 :: commas (b :: r)). cbn [commas] in *. apply Forall_app. split; [exact Hp|]. constructor; [split; lia|exact IH]. }
  assert (Hm : forall o, members E (commas parts) o (fold_left (fun o x => fst (set_at E o (arg_v (snd (snd x))) (PStr (fst (snd x))) [])) l o)).
  { unfold parts. clear parts Hb. induction H as [|[[kb vb] [k v]] l (B1 & B2 & U1 & U2) H IH]; intros o; [apply ME_end; constructor|].
    cbn [fst snd] in *. cbn [fold_left map fst snd]. destruct l as [|y l].
    - cbn [map commas]. replace (kb ++ 58 :: vb) with ([] ++ kb ++ 58 :: vb ++ []) by (now rewrite app_nil_r).
      eapply ME_next; [constructor|exact U1|exact U2|destruct v; exact I|]. apply (IH _).
    - specialize (IH (fst (set_at E o (arg_v v) (PStr k) []))).
      match goal with |- members E ?m _ _ => replace m with ([] ++ kb ++ 58 :: vb ++ ([44] ++ commas (map (fun x => fst (fst x) ++ 58 :: snd (fst x)) (y :: l)))) end.
      + eapply ME_next; [constructor|exact U1|exact U2|apply cleanly_comma|]. apply filler_members'; [|exact IH]. constructor; [now right|constructor].
      + exact (app_assoc kb (58 :: vb) (44 :: commas (map (fun x => fst (fst x) ++ 58 :: snd (fst x)) (y :: l)))). }
  specialize (Hm new_object).
  assert (Ho : forall l o, is_obj o -> is_obj (fold_left (fun o (x : (bytes * bytes) * (bytes * V)) => fst (set_at E o (arg_v (snd (snd x))) (PStr (fst (snd x))) [])) l o)).
  { clear. induction l as [|[q [k v]] l IH]; intros o Ho; [exact Ho|]. cbn [fold_left fst snd]. apply IH. destruct Ho as (i & kvs & lo & ->).
    unfold set_at, arg_v. cbn [fst snd]. destruct v; repeat eexists. }
  specialize (Ho l new_object). destruct Ho as (i & kvs & lo & Ho); [repeat eexists|]. rewrite Ho in *.
  apply object_read.
  { constructor; [split; lia|]. apply Forall_app. split; [exact Hb|]. constructor; [split; lia|constructor]. }
  exists [], (commas parts), []. split; [reflexivity|]. split; [constructor|]. split; [constructor|exact Hm].
Qed.
(** *** A part replaced *)
Lemma number_end src : lax_num src -> exists q c, src = q ++ [c] /\ number_byte c.
Proof.
  intros H. pose proof (lax_num_bytes _ H) as B. destruct (lax_num_head _ H) as (c & t & E0 & _).
  destruct (@exists_last _ src) as (q & d & ->); [rewrite E0; discriminate|]. exists q, d. split; [reflexivity|].
  apply Forall_app in B as [_ B]. now inversion B.
Qed.

Lemma accepted_num t n src : Forall is_byte t -> unmarshal E t = Ok (VNum n src, None) -> lax_num src.
Proof.
  intros Hb H. apply unmarshal_lax in H; [|exact Hb]. destruct H as (j & (w & t0 & w' & -> & Hw & Hj & Hw') & Ev).
  destruct j as [| |lit|s|l|l0]; cbn [to_V] in Ev; try discriminate Ev.
  - pose proof (lval_lit _ _ Hj _ eq_refl) as HL. destruct (to_V_num E lit HL) as (m & En). cbn [to_V] in En. rewrite En in Ev.
    injection Ev as -> ->. exact HL.
  - exfalso. pose proof (to_V_ready (JObj l0)) as _. assert (G : forall l o, is_obj o -> is_obj (put_all E l o)).
    { clear. induction l as [|[k x] l IH]; intros o Ho; [exact Ho|]. cbn [put_all fold_left]. apply IH. now apply oput_set. }
    destruct (G l0 new_object) as (? & ? & ? & Hx); [repeat eexists|]. unfold put_all in Hx. rewrite Hx in Ev. discriminate Ev.
Qed.

Definition safe (v : V) (t : bytes) : Prop := no_number v \/ exists q, t = 32 :: q ++ [32].

Lemma safe_clean v t r : Forall is_byte t -> unmarshal E t = Ok (v, None) -> safe v t -> cleanly v t r.
Proof.
  intros Hb Hu Hs. destruct v; try exact I. destruct r as [|c r]; [exact I|]. intros (t' & Et). exfalso.
  destruct Hs as [Hs|(q & ->)]; [now apply (Hs n src)|].
  destruct (number_end _ (accepted_num _ _ _ Hb Hu)) as (q' & d & -> & Hd). rewrite app_assoc in Et.
  change (32 :: q ++ [32]) with ((32 :: q) ++ [32]) in Et. apply app_inj_tail in Et as [_ <-]. unfold number_byte, digit in Hd. lia.
Qed.

Lemma safe_first v t : Forall is_byte t -> unmarshal E t = Ok (v, None) -> safe v t -> exists c q, t = c :: q /\ ~ number_byte c.
Proof.
  intros Hb Hu [Hs|(q & ->)]; [|exists 32, (q ++ [32]); split; [reflexivity|unfold number_byte, digit; lia]].
  apply unmarshal_lax in Hu; [|exact Hb]. destruct Hu as (j & (w & t0 & w' & -> & Hw & Hj & Hw') & ->).
  destruct w as [|c w].
  - destruct (lval_head _ _ Hj) as (c & r & -> & Hst & Hk). exists c, (r ++ w'). split; [reflexivity|].
    destruct j as [|[]|lit|s|l|l0]; try (unfold number_byte, digit in *; lia).
    exfalso. destruct (to_V_num E lit (lval_lit _ _ Hj _ eq_refl)) as (n & En). exact (Hs _ _ En).
  - exists c, (w ++ t0 ++ w'). split; [reflexivity|]. inversion Hw as [|? ? Hc _]; subst. unfold is_lblank, is_ws, number_byte, digit in *. lia.
Qed.

Lemma cleanly_front v t m1 c q r0 r : cleanly v t (m1 ++ r0) -> ~ number_byte c -> cleanly v t (m1 ++ (c :: q) ++ r).
Proof. intros H Hc. destruct v; try exact I. destruct m1 as [|d m1]; cbn [app cleanly] in *; auto. Qed.

Lemma elements_part m vs a x b : elements E m vs -> vs = a ++ x :: b ->
  exists m1 t r, m = m1 ++ t ++ r /\ unmarshal E t = Ok (x, None) /\
  forall t' x', Forall is_byte t' -> unmarshal E t' = Ok (x', None) -> safe x' t' -> elements E (m1 ++ t' ++ r) (a ++ x' :: b).
Proof.
  intros H. revert a. induction H as [w Hw|w t v r vs Hw Hu Hc Hr IH]; intros a Ev; [destruct a; discriminate|].
  destruct a as [|y a]; cbn [app] in Ev; injection Ev as -> ->.
  - exists w, t, r. split; [reflexivity|]. split; [exact Hu|]. intros t' x' Hb' Hu' Hs. cbn [app]. apply EL_next; auto. now apply safe_clean.
  - destruct (IH a eq_refl) as (m1 & t1 & r1 & -> & Hu1 & Hrep). exists (w ++ t ++ m1), t1, r1. split; [now rewrite <- !app_assoc|].
    split; [exact Hu1|]. intros t' x' Hb' Hu' Hs. rewrite <- !app_assoc. cbn [app]. apply EL_next; auto.
    destruct (safe_first _ _ Hb' Hu' Hs) as (c & q & -> & Hn). eapply cleanly_front; eauto.
Qed.

Definition put_member (k : bytes) (y : V) (o : V) : V :=
  match o with
  | VObj i kvs lo => match alookup k kvs with Some (id, _) => VObj i (aset k (id, y) kvs) lo | None => o end
  | _ => o
  end.
Definition has (k : bytes) (o : V) (e : Z * V) : Prop := exists i kvs lo, o = VObj i kvs lo /\ alookup k kvs = Some e.

Lemma aset_swap {A} k k' (a b : A) l : k <> k' -> alookup k l <> None -> aset k' b (aset k a l) = aset k a (aset k' b l).
Proof.
  intros Hne. induction l as [|[k1 x] l IH]; intros Hl; [now cbn in Hl|]. cbn [alookup aset] in *.
  destruct (beqb k k1) eqn:E1; cbn [aset].
  - destruct (beqb k' k1) eqn:E2.
    + apply beqb_eq in E1, E2. congruence.
    + cbn [aset]. now rewrite E1.
  - destruct (beqb k' k1) eqn:E2; cbn [aset]; rewrite E1; [reflexivity|]. now rewrite IH.
Qed.

Lemma aset_over {A} k (x y : A) l : aset k x (aset k y l) = aset k x l.
Proof. induction l as [|[k1 z] l IH]; cbn; [now rewrite beqb_refl|]. destruct (beqb k k1) eqn:E1; cbn; rewrite E1; [reflexivity|]. now rewrite IH. Qed.

Lemma set_obj o k v : is_obj o -> is_obj (fst (set_at E o (arg_v v) (PStr k) [])).
Proof. intros (i & kvs & lo & ->). unfold set_at, arg_v. cbn [fst snd]. destruct v; repeat eexists. Qed.

Lemma members_part m o o' : members E m o o' -> Forall is_byte m -> is_obj o -> forall k id x, has k o' (id, x) ->
  (has k o (id, x) /\ forall y, members E m (put_member k y o) (put_member k y o')) \/
  (exists m1 t r, m = m1 ++ t ++ r /\ unmarshal E t = Ok (x, None) /\
   forall t' x', Forall is_byte t' -> unmarshal E t' = Ok (x', None) -> safe x' t' -> members E (m1 ++ t' ++ r) o (put_member k x' o')).
Proof.
  intros H. induction H as [w o Hw|w tk k0 t v r o o' Hw Hk Hu Hc Hr IH]; intros Hb Ho k id x Hx.
  - left. split; [exact Hx|]. intros y. now apply ME_end.
  - apply Forall_app in Hb as [_ Hb]. apply Forall_app in Hb as [B1 Hb]. inversion Hb as [|? ? _ Hb']; subst. apply Forall_app in Hb' as [B2 B3].
    assert (Hready : forall t v, Forall is_byte t -> unmarshal E t = Ok (v, None) -> uninitialized v = false).
    { intros t0 v0 Hbt Ht0. apply unmarshal_lax in Ht0; [|exact Hbt]. destruct Ht0 as (j & (u1 & t1 & u2 & _ & _ & Hj & _) & ->).
      apply to_V_ready. now apply (lval_lit t1). }
    pose proof (Hready _ _ B2 Hu) as Hv.
    destruct (IH B3 (set_obj o k0 v Ho) k id x Hx) as [[Hold Hall]|(m1 & t1 & r1 & -> & Hu1 & Hrep)].
    + destruct (beqb k k0) eqn:Ek.
      * apply beqb_eq in Ek. subst k0. right. exists (w ++ tk ++ [58]), t, r. split; [rewrite <- !app_assoc; reflexivity|].
        rewrite (set_oput o k v Ho Hv) in *. destruct Ho as (i & kvs & lo & ->). destruct Hold as (i1 & kvs1 & lo1 & E1 & El).
        cbn [oput set_to_object] in E1. injection E1 as <- <- <-. rewrite alookup_aset_same in El. injection El as <- <-.
        split; [exact Hu|]. intros t' x' Hb' Hu' Hs. rewrite <- !app_assoc. cbn [app].
        apply (ME_next E w tk k t' x'); auto; [now apply safe_clean|].
        rewrite set_oput by (try (repeat eexists; fail); eauto). specialize (Hall x'). cbn [oput set_to_object put_member] in *.
        rewrite alookup_aset_same in Hall. now rewrite aset_over in Hall.
      * assert (Hne : k <> k0) by (intros ->; now rewrite beqb_refl in Ek). left. rewrite (set_oput o k0 v Ho Hv) in *.
        destruct Ho as (i & kvs & lo & ->). destruct Hold as (i1 & kvs1 & lo1 & E1 & El). cbn [oput set_to_object] in E1. injection E1 as <- <- <-.
        rewrite alookup_aset_other in El by exact Hne. split; [exists i, kvs, lo; auto|].
        intros y. specialize (Hall y). apply (ME_next E w tk k0 t v); auto. cbn [put_member] in *. rewrite El. rewrite set_oput by (try (repeat eexists; fail); eauto).
        cbn [oput set_to_object put_member] in *. rewrite alookup_aset_other in Hall by exact Hne. rewrite El in Hall.
        rewrite aset_swap; [exact Hall|exact Hne|congruence].
    + right. exists (w ++ tk ++ 58 :: t ++ m1), t1, r1. split; [rewrite <- !app_assoc; cbn [app]; rewrite <- !app_assoc; reflexivity|]. split; [exact Hu1|].
      intros t' x' Hb' Hu' Hs.
      replace ((w ++ tk ++ 58 :: t ++ m1) ++ t' ++ r1) with (w ++ tk ++ 58 :: t ++ (m1 ++ t' ++ r1)) by (rewrite <- !app_assoc; cbn [app]; rewrite <- !app_assoc; reflexivity).
      apply (ME_next E w tk k0 t v); auto.
      destruct (safe_first _ _ Hb' Hu' Hs) as (c & q & -> & Hn). eapply cleanly_front; eauto.
Qed.

Lemma members_names m o o' : members E m o o' -> forall i kvs lo, o = VObj i kvs lo -> NoDup (map fst kvs) ->
  exists i' kvs' lo', o' = VObj i' kvs' lo' /\ NoDup (map fst kvs').
Proof.
  induction 1 as [w o Hw|w tk k0 t v r o o' Hw Hk Hu Hc Hr IH]; intros i kvs lo -> Hn; [eauto|].
  unfold set_at, arg_v in IH. cbn [fst snd] in IH.
  destruct v; try (eapply IH; [reflexivity|exact Hn]); (eapply IH; [reflexivity|now apply aset_names]).
Qed.

Lemma part_replaced_safe : forall v ps hs x, leads v ps hs x -> forall b, Forall is_byte b -> unmarshal E b = Ok (v, None) ->
  exists pre t post, b = pre ++ t ++ post /\ unmarshal E t = Ok (x, None) /\
  forall t' x', Forall is_byte t' -> unmarshal E t' = Ok (x', None) -> safe x' t' ->
    exists v', unmarshal E (pre ++ t' ++ post) = Ok (v', None) /\ changed (fun d d' => d = x /\ d' = x') hs v v' /\ safe v' (pre ++ t' ++ post).
Proof.
  intros v ps hs x Hl.
  induction Hl as [v|i kvs lo k id x ps hs c Hin Hl IH|a x bb p i ps hs c Hp Hr Hl IH]; intros b Hb Hu.
  - exists [], b, []. split; [cbn; now rewrite app_nil_r|]. split; [exact Hu|]. intros t' x' Hb' Hu' Hs. exists x'.
    cbn. rewrite app_nil_r. split; [exact Hu'|]. split; [now constructor|exact Hs].
  - apply object_read in Hu; [|exact Hb]. destruct Hu as (w & m & w' & -> & Hw & Hw' & Hm).
    assert (Hbm : Forall is_byte m /\ Forall is_byte w /\ Forall is_byte w').
    { apply Forall_app in Hb as [? Hb]. inversion Hb as [|? ? _ Hb']; subst. apply Forall_app in Hb' as [? Hb']. inversion Hb'; subst. auto. }
    destruct Hbm as (Hbm & Hbw & Hbw').
    destruct (members_names _ _ _ Hm 0 [] None eq_refl (NoDup_nil _)) as (i' & kvs' & lo' & E1 & Hn). injection E1 as <- <- <-.
    pose proof (alookup_NoDup_In _ _ _ Hn Hin) as El.
    destruct (members_part _ _ _ Hm Hbm) with (k := k) (id := id) (x := x) as [[(? & ? & ? & E1 & E2) _]|(m1 & t & r & -> & Hut & Hrep)];
      [repeat eexists|repeat eexists; exact El|injection E1 as <- <- <-; discriminate E2|].
    apply Forall_app in Hbm as [Bm1 Hbm]. apply Forall_app in Hbm as [Bt Br].
    destruct (IH t Bt Hut) as (pre & t1 & post & -> & Hu1 & Hr1).
    exists (w ++ 123 :: m1 ++ pre), t1, (post ++ r ++ 125 :: w'). split; [repeat (rewrite <- ?app_assoc; cbn [app]); reflexivity|]. split; [exact Hu1|].
    intros t' x' Hb' Hu' Hs. destruct (Hr1 t' x' Hb' Hu' Hs) as (x1 & Hx1 & Hch & Hs1).
    apply Forall_app in Bt as [Bpre Bt]. apply Forall_app in Bt as [_ Bpost].
    assert (Hbt2 : Forall is_byte (pre ++ t' ++ post)) by (apply Forall_app; split; [exact Bpre|]; apply Forall_app; now split).
    specialize (Hrep _ _ Hbt2 Hx1 Hs1). cbn [put_member] in Hrep. rewrite El in Hrep.
    exists (VObj i (aset k (id, x1) kvs) lo). split; [|split].
    + replace ((w ++ 123 :: m1 ++ pre) ++ t' ++ post ++ r ++ 125 :: w') with (w ++ 123 :: (m1 ++ (pre ++ t' ++ post) ++ r) ++ 125 :: w')
        by (repeat (rewrite <- ?app_assoc; cbn [app]); reflexivity).
      apply object_read; [|eauto 8].
      apply Forall_app. split; [exact Hbw|]. constructor; [split; lia|]. apply Forall_app. split; [|constructor; [split; lia|exact Hbw']].
      apply Forall_app. split; [exact Bm1|]. apply Forall_app. now split.
    + destruct (alookup_split _ _ _ El) as (l1 & l2 & E1 & _ & E2). rewrite E2, E1. now constructor.
    + left. intros ? ?. discriminate.
  - apply array_read in Hu; [|exact Hb]. destruct Hu as (w & m & w' & -> & Hw & Hw' & Hm).
    assert (Hbm : Forall is_byte m /\ Forall is_byte w /\ Forall is_byte w').
    { apply Forall_app in Hb as [? Hb]. inversion Hb as [|? ? _ Hb']; subst. apply Forall_app in Hb' as [? Hb']. inversion Hb'; subst. auto. }
    destruct Hbm as (Hbm & Hbw & Hbw').
    destruct (elements_part _ _ _ _ _ Hm eq_refl) as (m1 & t & r & -> & Hut & Hrep).
    apply Forall_app in Hbm as [Bm1 Hbm]. apply Forall_app in Hbm as [Bt Br].
    destruct (IH t Bt Hut) as (pre & t1 & post & -> & Hu1 & Hr1).
    exists (w ++ 91 :: m1 ++ pre), t1, (post ++ r ++ 93 :: w'). split; [repeat (rewrite <- ?app_assoc; cbn [app]); reflexivity|]. split; [exact Hu1|].
    intros t' x' Hb' Hu' Hs. destruct (Hr1 t' x' Hb' Hu' Hs) as (x1 & Hx1 & Hch & Hs1).
    apply Forall_app in Bt as [Bpre Bt]. apply Forall_app in Bt as [_ Bpost].
    assert (Hbt2 : Forall is_byte (pre ++ t' ++ post)) by (apply Forall_app; split; [exact Bpre|]; apply Forall_app; now split).
    specialize (Hrep _ _ Hbt2 Hx1 Hs1).
    exists (VArr (a ++ x1 :: bb)). split; [|split].
    + replace ((w ++ 91 :: m1 ++ pre) ++ t' ++ post ++ r ++ 93 :: w') with (w ++ 91 :: (m1 ++ (pre ++ t' ++ post) ++ r) ++ 93 :: w')
        by (repeat (rewrite <- ?app_assoc; cbn [app]); reflexivity).
      apply array_read; [|eauto 8].
      apply Forall_app. split; [exact Hbw|]. constructor; [split; lia|]. apply Forall_app. split; [|constructor; [split; lia|exact Hbw']].
      apply Forall_app. split; [exact Bm1|]. apply Forall_app. now split.
    + now constructor.
    + left. intros ? ?. discriminate.
Qed.

Theorem part_replaced b v ps hs x : Forall is_byte b -> unmarshal E b = Ok (v, None) -> leads v ps hs x ->
  exists pre t post, b = pre ++ t ++ post /\ unmarshal E t = Ok (x, None) /\
  forall s t' x', Forall is_byte t' -> unmarshal E t' = Ok (x', None) -> s = [32] \/ s = [] /\ no_number x' ->
    exists v', unmarshal E (pre ++ (s ++ t' ++ s) ++ post) = Ok (v', None) /\ changed (fun d d' => d = x /\ d' = x') hs v v'.
Proof.
  intros Hb Hu Hl. destruct (part_replaced_safe v ps hs x Hl b Hb Hu) as (pre & t & post & E1 & E2 & Hrep).
  exists pre, t, post. split; [exact E1|]. split; [exact E2|]. intros s t' x' Hb' Hu' Hs.
  assert (Hbl : Forall is_byte s /\ lblanks s).
  { destruct Hs as [->|[-> _]]; split; repeat constructor. all: unfold is_byte, is_ws; lia. }
  destruct (Hrep (s ++ t' ++ s) x') as (v' & H1 & H2 & _); [| | |eauto].
  - apply Forall_app. split; [apply Hbl|]. apply Forall_app. split; [exact Hb'|apply Hbl].
  - apply blank_added; tauto.
  - destruct Hs as [->|[-> Hn]]; [right; now exists t'|now left].
Qed.
End Reading.
