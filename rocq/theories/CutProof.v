(** C71: a text and its beginnings. *)
From Verif Require Import Base Float64 Value Scan Unmarshal Opt Marshal SpecJson SpecValue SpecLax SpecText SpecOpts SpecCut ListLemmas
  UnmarshalProof ValueLemmas NumProof ParseComplete LaxNum LaxParse MarshalProof LaxFacts JsonLax LaxSame RoundTrip LaxClaims
  ExampleWorld.

Lemma lblanks_app u w : lblanks u -> lblanks w -> lblanks (u ++ w).
Proof. intros. apply Forall_app. now split. Qed.

Lemma Forall_app_l {A} (P : A -> Prop) a b : Forall P (a ++ b) -> Forall P a.
Proof. intros H. apply Forall_app in H. tauto. Qed.

(** On trees. *)
Lemma lax_prefix b s j j' : lax_doc b j -> lax_doc (b ++ s) j' ->
  (lblanks s /\ j' = j) \/
  (exists w lit c m w2, lblanks w /\ lblanks w2 /\ j = JNum lit /\ j' = JNum (lit ++ c :: m) /\
     b = w ++ lit /\ s = c :: m ++ w2).
Proof.
  intros (w1 & t & w2 & -> & H1 & Hj & H2) (w1' & t' & w2' & E & H1' & Hj' & H2').
  destruct (lval_head _ _ Hj) as (c & t1 & Ht & S1 & _). destruct (lval_head _ _ Hj') as (d & t2 & Ht' & S2 & _).
  rewrite <- !app_assoc in E.
  assert (Ew : w1 = w1' /\ t ++ w2 ++ s = t' ++ w2').
  { subst t t'. cbn [app] in E.
    destruct (blanks_eq w1 w1' c d _ _ H1 H1' (starts_not_blank _ S1) (starts_not_blank _ S2) E) as (-> & -> & E').
    split; [reflexivity|]. cbn [app]. now rewrite E'. }
  destruct Ew as (<- & E'). clear E.
  assert (A' : after_num j' w2') by now apply blank_tail.
  destruct j as [|b|lit|ss|l|l].
  1,2,4,5,6: (left; destruct (proj1 lax_same _ _ Hj _ _ _ _ Hj' E' I A') as (-> & -> & <-); split; [|reflexivity];
              apply Forall_app in H2' as (_ & H2'); exact H2').
  destruct w2 as [|y w2].
  2:{ left. assert (A : after_num (JNum lit) ((y :: w2) ++ s)).
      { cbn. unfold number_byte, digit. inversion H2 as [|? ? Hy ?]; subst. unfold is_lblank, is_ws in Hy. lia. }
      destruct (proj1 lax_same _ _ Hj _ _ _ _ Hj' E' A A') as (-> & -> & <-). split; [|reflexivity].
      apply Forall_app in H2' as (_ & H2'). exact H2'. }
  cbn [app] in E'. destruct s as [|y s].
  - left. destruct (proj1 lax_same _ _ Hj _ _ _ _ Hj' E' I A') as (-> & -> & <-). split; [constructor|reflexivity].
  - assert (Hd : number_byte y \/ ~ number_byte y).
    { unfold number_byte, digit. lia. }
    destruct Hd as [Hy|Hy].
    2:{ left. destruct (proj1 lax_same _ _ Hj _ _ _ _ Hj' E' Hy A') as (-> & -> & <-). auto. }
    right. assert (Et : t = lit /\ lax_num lit) by (inversion Hj; auto). destruct Et as (Et & HL). rewrite Et in E', Ht, Hj |- *. clear Et t.
    assert (Hn : exists lit', j' = JNum lit' /\ t' = lit').
    { assert (Hc : c = 45 \/ digit c).
      { destruct (lval_head _ _ Hj) as (c0 & t0 & E0 & _ & Hc0). assert (c0 = c) by congruence. subst. exact Hc0. }
      assert (d = c).
      { rewrite Ht, Ht' in E'. cbn in E'. congruence. }
      subst d. destruct (lval_head _ _ Hj') as (c0 & t0 & E0 & _ & K). assert (c0 = c) by congruence. subst c0.
      destruct j' as [|[]|lit'|s'|l'|l']; try (exfalso; unfold digit in *; lia). exists lit'. split; [reflexivity|]. now inversion Hj'. }
    destruct Hn as (lit' & -> & ->). inversion Hj' as [| | |lit0 HL'| | |]; subst lit0.
    pose proof (lax_num_bytes _ HL) as B. pose proof (lax_num_bytes _ HL') as B'.
    (* lit is a beginning of lit' *)
    assert (Hp : exists m0, lit' = lit ++ y :: m0 /\ s = m0 ++ w2').
    { clear - E' B' Hy H2' B. revert lit' B' E' . induction lit as [|x lit IH]; intros lit' B' E'.
      - destruct lit' as [|z lit'].
        + exfalso. cbn in E'. subst w2'. inversion H2' as [|? ? Hz ?]; subst. unfold is_lblank, is_ws, number_byte, digit in *. lia.
        + cbn in E'. injection E' as <- ->. exists lit'. auto.
      - destruct lit' as [|z lit'].
        + exfalso. cbn in E'. subst w2'. inversion H2' as [|? ? Hz ?]; subst. inversion B; subst. unfold is_lblank, is_ws, number_byte, digit in *. lia.
        + cbn in E'. injection E' as <- E'. inversion B; inversion B'; subst.
          destruct (IH ltac:(assumption) lit' ltac:(assumption) E') as (m0 & -> & ->). exists m0. auto. }
    destruct Hp as (m0 & -> & ->). exists w1, lit, y, m0, w2'. rewrite app_nil_r. auto 10.
Qed.

Lemma to_V_num E lit : lax_num lit -> exists n, to_V E (JNum lit) = VNum n lit.
Proof.
  intros H. assert (Hd : lax_doc lit (JNum lit)).
  { exists [], lit, []. rewrite app_nil_r. repeat split; try constructor. assumption. }
  pose proof (to_V_tree E (JNum lit) H) as T. inversion T; subst. eauto.
Qed.

Theorem prefix : forall (E : Env) (b s : bytes) (v v' : V), Forall is_byte (b ++ s) ->
  unmarshal E b = Ok (v, None) -> unmarshal E (b ++ s) = Ok (v', None) ->
  (lblanks s /\ v' = v) \/
  (exists w lit c m w2 n n', lblanks w /\ lblanks w2 /\ v = VNum n lit /\ v' = VNum n' (lit ++ c :: m) /\
     b = w ++ lit /\ s = c :: m ++ w2).
Proof.
  intros E b s v v' Hb H H'.
  apply unmarshal_lax in H as (j & Hj & ->); [|now apply Forall_app_l in Hb].
  apply unmarshal_lax in H' as (j' & Hj' & ->); [|assumption].
  destruct (lax_prefix b s j j' Hj Hj') as [(Hs & ->)|(w & lit & c & m & w2 & Hw & Hw2 & -> & -> & Eb & Es)]; [left; auto|right].
  destruct (to_V_num E lit) as (n & En).
  { destruct Hj as (? & ? & ? & _ & _ & Hj & _). inversion Hj; subst; assumption. }
  destruct (to_V_num E (lit ++ c :: m)) as (n' & En').
  { destruct Hj' as (? & ? & ? & _ & _ & Hj' & _). inversion Hj'; subst; assumption. }
  exists w, lit, c, m, w2, n, n'. auto 10.
Qed.

Lemma unmarshal_total E b : exists v oe, unmarshal E b = Ok (v, oe).
Proof. destruct (ParseMore.C01_proof E b) as [(v & e & H & _) _]. eauto. Qed.

Lemma not_accepted E b : (forall v, unmarshal E b <> Ok (v, None)) -> exists v e, unmarshal E b = Ok (v, Some e).
Proof.
  intros H. destruct (unmarshal_total E b) as (v & [e|] & Hu); [eauto|]. now elim (H v).
Qed.

Theorem blank_added : forall (E : Env) (b w s : bytes) (v : V), Forall is_byte b -> lblanks w -> lblanks s ->
  unmarshal E b = Ok (v, None) -> unmarshal E (w ++ b ++ s) = Ok (v, None).
Proof.
  intros E b w s v Hb Hw Hs H. apply unmarshal_lax in H as (j & Hj & ->); [|assumption].
  apply unmarshal_of_lax. destruct Hj as (w1 & t & w2 & -> & H1 & Hj & H2).
  exists (w ++ w1), t, (w2 ++ s). rewrite <- !app_assoc. split; [reflexivity|].
  split; [now apply lblanks_app|]. split; [assumption|now apply lblanks_app].
Qed.

Theorem after_exactly : forall (E : Env) (b s : bytes) (v : V), Forall is_byte (b ++ s) ->
  unmarshal E b = Ok (v, None) -> no_number v ->
  (lblanks s -> unmarshal E (b ++ s) = Ok (v, None)) /\
  (~ lblanks s -> rejected E (b ++ s)).
Proof.
  intros E b s v Hb H Hn. split.
  - intros Hs. apply (blank_added E b [] s v); auto; [now apply Forall_app_l in Hb|constructor].
  - intros Hs. apply not_accepted. intros v' H'.
    destruct (prefix E b s v v' Hb H H') as [(Hs' & _)|(w & lit & c & m & w2 & n & n' & _ & _ & -> & _)]; [contradiction|].
    now elim (Hn n lit).
Qed.

Theorem cut_short : forall (E : Env) (p s : bytes) (v : V), Forall is_byte (p ++ s) ->
  unmarshal E (p ++ s) = Ok (v, None) -> no_number v -> ~ lblanks s ->
  rejected E p.
Proof.
  intros E p s v Hb H Hn Hs. apply not_accepted. intros v' H'.
  destruct (prefix E p s v' v Hb H' H) as [(Hs' & _)|(w & lit & c & m & w2 & n & n' & _ & _ & _ & -> & _)]; [contradiction|].
  now elim (Hn n' (lit ++ c :: m)).
Qed.

Lemma accepted_not_blank E b v : Forall is_byte b -> unmarshal E b = Ok (v, None) -> ~ lblanks b.
Proof.
  intros Hb H HB. apply unmarshal_lax in H as (j & (w1 & t & w2 & -> & _ & Hj & _) & _); [|assumption].
  destruct (lval_head _ _ Hj) as (c & r & -> & S & _). apply starts_not_blank in S. apply S.
  apply Forall_app in HB as (_ & HB). apply Forall_app in HB as (HB & _). now inversion HB.
Qed.

Theorem glued : forall (E : Env) (b c : bytes) (v w : V), Forall is_byte b -> Forall is_byte c ->
  unmarshal E b = Ok (v, None) -> unmarshal E c = Ok (w, None) -> no_number v ->
  rejected E (b ++ c).
Proof.
  intros E b c v w Hb Hc H H' Hn. apply (after_exactly E b c v); auto; [now apply Forall_app|].
  eapply accepted_not_blank; eassumption.
Qed.

(** A row of documents can be read in one way only. *)
Lemma document_blank E w b v : Forall is_byte w -> lblanks w -> document E b v -> document E (w ++ b) v.
Proof.
  intros Hw HB (H1 & H2 & H3). split; [now apply Forall_app|]. split; [|assumption].
  pose proof (blank_added E b w [] v H1 HB ltac:(constructor) H2) as H. now rewrite app_nil_r in H.
Qed.
Lemma concat_blank E l vs : Forall2 (document E) l vs -> lblanks (List.concat l) -> l = [].
Proof.
  intros H HB. destruct H as [|b v l vs (H1 & H2 & _) _]; [reflexivity|].
  exfalso. eapply accepted_not_blank; try eassumption. cbn in HB. apply Forall_app in HB. tauto.
Qed.

Lemma one_reading_n E : forall n l l' vs vs', (List.length l + List.length l' <= n)%nat ->
  Forall2 (document E) l vs -> Forall2 (document E) l' vs' -> List.concat l = List.concat l' -> vs = vs'.
Proof.
  induction n as [|n IH]; intros l l' vs vs' Hn H H' HC.
  - destruct H; destruct H'; cbn in Hn; try lia. reflexivity.
  - destruct H as [|b v l vs Hb H].
    + assert (l' = []) by (eapply concat_blank; [eassumption|rewrite <- HC; constructor]). subst. inversion H'. reflexivity.
    + destruct H' as [|b' v' l' vs' Hb' H'].
      * assert (b :: l = []); [|discriminate]. eapply concat_blank; [constructor; eassumption|rewrite HC; constructor].
      * cbn [List.concat] in HC.
        assert (G : forall b v l vs b' v' l' vs', (S (List.length l + S (List.length l')) <= S n)%nat ->
                  document E b v -> Forall2 (document E) l vs -> document E b' v' -> Forall2 (document E) l' vs' ->
                  (exists s, b' = b ++ s) -> b ++ List.concat l = b' ++ List.concat l' -> v :: vs = v' :: vs').
        { clear - IH. intros b v l vs b' v' l' vs' Hn Hb H Hb' H' (s & ->) HC.
          rewrite <- app_assoc in HC. apply app_inv_head in HC.
          destruct Hb as (B1 & B2 & B3). destruct Hb' as (B1' & B2' & B3').
          destruct (prefix E b s v v' B1' B2 B2') as [(Hs & ->)|(w & lit & c & m & w2 & k & k' & _ & _ & -> & _)]; [|now elim (B3 k lit)].
          f_equal. assert (Hs' : Forall is_byte s) by (apply Forall_app in B1'; tauto).
          destruct H' as [|b1 v1 l1 vs1 Hb1 H1].
          - cbn in HC. rewrite app_nil_r in HC. assert (l = []) by (eapply concat_blank; [eassumption|now rewrite HC]). subst. inversion H. reflexivity.
          - apply (IH l ((s ++ b1) :: l1)); [cbn in *; lia|assumption|constructor; [now apply document_blank|assumption]|].
            cbn [List.concat] in *. rewrite HC. now rewrite app_assoc. }
        assert (Hpre : (exists s, b' = b ++ s) \/ (exists s, b = b' ++ s)).
        { clear - HC. revert b' HC. induction b as [|x b IHb]; intros b' HC; [left; now exists b'|].
          destruct b' as [|y b']; [right; now exists (x :: b)|]. cbn in HC. injection HC as <- HC.
          destruct (IHb b' HC) as [(s & ->)|(s & ->)]; [left|right]; now exists s. }
        cbn [List.length] in Hn. destruct Hpre as [Hp|Hp].
        -- eapply (G b v l vs b' v' l' vs'); try eassumption.
        -- symmetry. eapply (G b' v' l' vs' b v l vs); try eassumption; [lia|now symmetry].
Qed.

Theorem one_reading : forall (E : Env) (l l' : list bytes) (vs vs' : list V),
  Forall2 (document E) l vs -> Forall2 (document E) l' vs' -> List.concat l = List.concat l' -> vs = vs'.
Proof. intros E l l' vs vs' H H' HC. eapply one_reading_n; try eassumption. reflexivity. Qed.

(** What Marshal wrote, cut anywhere. *)
Theorem written_cut : forall (E : Env) (W : World) (o : opt) (v : V) (b p s : bytes),
  opt_ws o -> json_typed v -> all_text (Forall is_byte) (fun _ src => lax_num src) v ->
  no_number v ->
  marshal_opt E W o v = Ok b -> Forall is_byte b -> b = p ++ s -> s <> [] ->
  (exists v', unmarshal E b = Ok (v', None)) /\ rejected E p.
Proof.
  intros E W o v b p s Ho Ht Ha Hn Hm HB0 -> Hs. destruct Ho as [Hp Hi].
  destruct (marshal_lax E W o (fun n src j => j = JNum src /\ lax_num src) any_order Hp Hi v Ht) as [_ H];
    [|apply all_objs_all; apply in_any_order|].
  { eapply all_text_impl; [|intros n src Hl|exact Ha]; [auto|].
    destruct (lax_num_cons src Hl) as (c & t & Es).
    exists src, (JNum src). split; [rewrite Es; reflexivity|]. split; [constructor; eauto|auto]. }
  destruct (H None [] 0%nat) as (b & j & Hr & Hj & Hsh).
  pose proof (marshal_opt_run E W o v b Ht Hr) as Hm'. rewrite Hm in Hm'. injection Hm' as <-.
  assert (Hd : lax_doc (p ++ s) j) by (exists [], (p ++ s), []; rewrite app_nil_r; repeat split; try constructor; assumption).
  split; [exists (to_V E j); now apply unmarshal_of_lax|].
  assert (Hnj : forall lit, j <> JNum lit).
  { intros lit ->. inversion Hsh; subst; try discriminate. eapply Hn. reflexivity. }
  destruct p as [|p0 p]; [exists VNil, ErrNilParameter; reflexivity|].
  apply not_accepted. intros v' H'.
  assert (HD' : exists j', lax_doc (p0 :: p) j').
  { apply unmarshal_lax in H'; [destruct H' as (j' & Hj' & _); eauto|].
    now apply Forall_app_l in HB0. }
  destruct HD' as (j' & HD').
  destruct (lax_prefix _ _ _ _ HD' Hd) as [(HB & _)|(w & lit & c & m & w2 & _ & _ & _ & -> & _)]; [|now elim (Hnj (lit ++ c :: m))].
  destruct HD' as (w1 & t & w2 & Ep & H1 & Ht' & H2). rewrite Ep in Hj. rewrite <- !app_assoc in Hj.
  destruct (lval_head _ _ Hj) as (c & r & Ec & S1 & _). destruct (lval_head _ _ Ht') as (d & t2 & -> & S2 & _).
  assert (w1 = []).
  { destruct w1 as [|y w1]; [reflexivity|]. cbn in Ec. injection Ec as -> _. apply starts_not_blank in S1. inversion H1; contradiction. }
  subst w1. cbn [app] in Hj.
  destruct (proj1 lax_same _ _ Hj (d :: t2) j' [] (w2 ++ s) Ht') as (_ & _ & X); [now rewrite app_nil_r|destruct j; exact I| |].
  - apply blank_tail. now apply lblanks_app.
  - symmetry in X. apply app_eq_nil in X as (_ & ->). contradiction.
Qed.

Lemma row_number_refuted : forall E, exists n1 n23 n12 n3 n,
  unmarshal E (bs "1") = Ok (VNum n1 (bs "1"), None) /\ unmarshal E (bs "23") = Ok (VNum n23 (bs "23"), None) /\
  unmarshal E (bs "12") = Ok (VNum n12 (bs "12"), None) /\ unmarshal E (bs "3") = Ok (VNum n3 (bs "3"), None) /\
  unmarshal E (bs "1" ++ bs "23") = Ok (VNum n (bs "123"), None) /\ bs "1" ++ bs "23" = bs "12" ++ bs "3".
Proof. intros E. do 5 eexists. repeat split; vm_compute; reflexivity. Qed.

Definition cut_doc : bytes := bs "{""a"":[1,""]}""],""b"":{}}".
Lemma cut_instance : forall E, exists v, document E cut_doc v /\
  (forall p s, cut_doc = p ++ s -> s <> [] -> rejected E p) /\
  rejected E (cut_doc ++ cut_doc) /\ rejected E (cut_doc ++ bs "}") /\ unmarshal E (cut_doc ++ bs "  ") = Ok (v, None).
Proof.
  intros E. eexists.
  assert (B : forall s, Forall is_byte (bs s)).
  { intros s. induction s as [|c s IH]; constructor; [|exact IH].
    unfold is_byte. pose proof (Ascii.N_ascii_bounded c). lia. }
  assert (D : document E cut_doc (match unmarshal E cut_doc with Ok (v, _) => v | _ => VNil end)).
  { split; [apply B|]. split; [vm_compute; reflexivity|]. intros n src. vm_compute. discriminate. }
  split; [exact D|]. destruct D as (D1 & D2 & D3).
  split; [|split; [|split]].
  - intros p s Hp Hs. rewrite Hp in D1, D2. eapply cut_short; [exact D1|exact D2|rewrite <- Hp; exact D3|].
    intros HB. destruct (exists_last Hs) as (s0 & z & ->). rewrite app_assoc in Hp.
    change cut_doc with (bs "{""a"":[1,""]}""],""b"":{}" ++ [125]) in Hp. apply app_inj_tail in Hp as (_ & <-).
    apply Forall_app in HB as (_ & HB). inversion HB as [|? ? Hz _]. unfold is_lblank, is_ws in Hz. lia.
  - eapply glued; eassumption.
  - eapply (proj2 (after_exactly E cut_doc (bs "}") _ ltac:(apply Forall_app; split; [assumption|apply B]) D2 D3)).
    intros HB. inversion HB as [|? ? Hz _]. unfold is_lblank, is_ws in Hz. lia.
  - eapply (proj1 (after_exactly E cut_doc (bs "  ") _ ltac:(apply Forall_app; split; [assumption|apply B]) D2 D3)).
    repeat constructor; unfold is_lblank, is_ws; lia.
Qed.
