(** Exactly which paths lead to the value written by Set, and exactly which other
    paths keep leading where they led. *)
From Verif Require Import Base Utf8 Float64 Value Opt Marshal ListLemmas ValueLemmas Access Path Edit
  SpecPath SpecReach PathProof EditProof SetProof SetClaims.

(** ** One writing *)

Inductive step (p : param) (w : V) : hop -> V -> V -> Prop :=
| step_member k d d' : p = PStr k -> member_set k w d d' -> step p w (HKey k) d d'
| step_elem i a x b : index_value p = Some i -> refers i a b ->
    step p w (HIdx (List.length a)) (VArr (a ++ x :: b)) (VArr (a ++ w :: b))
| step_end i l : index_value p = Some i ->
    i < - Z.of_nat (List.length l) \/ Z.of_nat (List.length l) <= i ->
    step p w (HIdx (List.length l)) (VArr l) (VArr (l ++ [w])).

Lemma no_elem l p i : index_value p = Some i -> (forall hs x, ~ leads (VArr l) [p] hs x) ->
  i < - Z.of_nat (List.length l) \/ Z.of_nat (List.length l) <= i.
Proof.
  intros Hp HN. destruct (Z_lt_le_dec i (- Z.of_nat (List.length l))) as [L|L]; [now left|]. right.
  destruct (Z_lt_le_dec i (Z.of_nat (List.length l))) as [U|U]; [exfalso|exact U].
  set (m := if i <? 0 then Z.to_nat (i + Z.of_nat (List.length l)) else Z.to_nat i).
  assert (Lm : (m < List.length l)%nat) by (unfold m; destruct (Z.ltb_spec i 0); lia).
  destruct (nth_error l m) as [x|] eqn:En; [|apply nth_error_None in En; lia].
  destruct (nth_error_split' _ _ _ En) as (a & b & El & La).
  apply (HN [HIdx (List.length a)] x). rewrite El. eapply leads_elem; [exact Hp| |constructor].
  unfold refers. pose proof (f_equal (@List.length V) El) as Ll. rewrite app_length in Ll. cbn in Ll.
  unfold m in La. destruct (Z.ltb_spec i 0); [right|left]; lia.
Qed.

Lemma writes_step p ps c d d' : writes p ps c d d' -> exists h w, built ps c w /\ step p w h d d'.
Proof.
  intros H. destruct H as [k c d d' H|p i c d d' Hp H|p c l d' Hp H|k q ps c w d d' HN Hb H|p i q ps c w d d' Hp HN Hb H].
  - exists (HKey k), c. split; [constructor|]. now apply step_member.
  - destruct H as (a & x & b & -> & -> & Rf). exists (HIdx (List.length a)), c. split; [constructor|]. now apply step_elem with i.
  - destruct H as (l0 & [= <-] & ->). exists (HIdx (List.length l)), c. split; [constructor|].
    apply (step_end p c _ l Hp). right. lia.
  - exists (HKey k), w. split; [exact Hb|]. now apply step_member.
  - destruct H as (l0 & -> & ->). exists (HIdx (List.length l0)), w. split; [exact Hb|].
    apply (step_end p w i l0 Hp). exact (no_elem l0 p i Hp HN).
Qed.

Lemma app_len {A} (a a' : list A) x x' b b' : a ++ x :: b = a' ++ x' :: b' -> List.length a = List.length a' ->
  a = a' /\ x = x' /\ b = b'.
Proof.
  revert a'. induction a as [|y a IH]; intros [|y' a'] E L; try discriminate L; cbn in *.
  - injection E as <- <-. auto.
  - injection E as <- E. injection L as L. destruct (IH _ E L) as (-> & -> & ->). auto.
Qed.

Lemma leads1 v p hs z : leads v [p] hs z ->
  (exists i kvs lo k id, v = VObj i kvs lo /\ p = PStr k /\ hs = [HKey k] /\ In (k, (id, z)) kvs) \/
  (exists a b i, v = VArr (a ++ z :: b) /\ index_value p = Some i /\ refers i a b /\ hs = [HIdx (List.length a)]).
Proof.
  intros H. inversion H as [|i kvs lo k id x ps hs0 c Hin Hl|a x b p0 i ps hs0 c Hp Rf Hl]; subst; inversion Hl; subst.
  - left. eauto 10.
  - right. eauto 10.
Qed.

Lemma step_read p w h d d' : step p w h d d' -> forall z,
  leads d' [p] [h] z <-> z = w /\ forall l i, d = VArr l -> index_value p = Some i -> index_kept l i.
Proof.
  intros H z. destruct H as [k d d' -> H|i a x b Hp Rf|i l Hp HN].
  - destruct H as (i & kvs & lo & i' & kvs' & lo' & -> & -> & Ei & ND & Hin & Ho). split.
    + intros Hl. apply leads1 in Hl as [(i1 & kvs1 & lo1 & k1 & id1 & [= <- <- <-] & [= <-] & _ & Hz)|(a & b & i1 & C & _)]; [|discriminate C].
      split; [|intros l j C; discriminate C].
      pose proof (alookup_NoDup_In _ _ _ ND Hin) as L1. pose proof (alookup_NoDup_In _ _ _ ND Hz) as L2. congruence.
    + intros (-> & _). econstructor; [exact Hin|constructor].
  - split.
    + intros Hl. apply leads1 in Hl as [(i1 & kvs1 & lo1 & k1 & id1 & C & _)|(a1 & b1 & i1 & E1 & Hp1 & Rf1 & E2)]; [discriminate C|].
      injection E1 as E1. injection E2 as E2. destruct (app_len _ _ _ _ _ _ E1 E2) as (<- & <- & <-).
      split; [reflexivity|]. intros l j [= <-] Hj. assert (j = i) by congruence. subst j. left.
      rewrite app_length. cbn. destruct Rf; lia.
    + intros (-> & _). eapply leads_elem; [exact Hp|exact Rf|constructor].
  - split.
    + intros Hl. apply leads1 in Hl as [(i1 & kvs1 & lo1 & k1 & id1 & C & _)|(a1 & b1 & i1 & E1 & Hp1 & Rf1 & E2)]; [discriminate C|].
      injection E1 as E1. injection E2 as E2. destruct (app_len _ _ _ _ _ _ E1 E2) as (<- & <- & <-).
      split; [reflexivity|]. intros l0 j [= <-] Hj. assert (j = i) by congruence. assert (i1 = i) by congruence. subst j i1.
      destruct Rf1 as [-> | ->]; [left; lia|]. cbn [List.length] in HN |- *. right. split; [reflexivity|].
      destruct l; [reflexivity|]. cbn [List.length] in HN. lia.
    + intros (-> & K). specialize (K l i eq_refl Hp). eapply leads_elem; [exact Hp| |constructor].
      unfold refers. destruct K as [K|(-> & ->)]; [left; lia|right; reflexivity].
Qed.

(** ** The path that was written *)

Lemma leads_split v ps1 : forall ps2 hs c, leads v (ps1 ++ ps2) hs c ->
  exists hs1 hs2 d, hs = hs1 ++ hs2 /\ leads v ps1 hs1 d /\ leads d ps2 hs2 c.
Proof.
  revert v. induction ps1 as [|p ps1 IH]; intros v ps2 hs c H; cbn in H.
  - exists [], hs, v. split; [reflexivity|]. split; [constructor|exact H].
  - inversion H as [|i kvs lo k id x ps hs0 c0 Hin Hl|a x b p0 i ps hs0 c0 Hp Rf Hl]; subst;
      destruct (IH _ _ _ _ Hl) as (h1 & h2 & d & -> & L1 & L2).
    + exists (HKey k :: h1), h2, d. split; [reflexivity|]. split; [econstructor; eassumption|exact L2].
    + exists (HIdx (List.length a) :: h1), h2, d. split; [reflexivity|]. split; [eapply leads_elem; eassumption|exact L2].
Qed.

Lemma leads_length v ps hs c : leads v ps hs c -> List.length hs = List.length ps.
Proof. induction 1; cbn; congruence. Qed.

Lemma app_eq_length {A} (a a' b b' : list A) : a ++ b = a' ++ b' -> List.length a = List.length a' -> a = a' /\ b = b'.
Proof.
  revert a'. induction a as [|y a IH]; intros [|y' a'] E L; try discriminate L; cbn in *; [auto|].
  injection E as <- E. injection L as L. destruct (IH _ E L) as (-> & ->). auto.
Qed.

Lemma app_cmp {A} (a a' : list A) x x' b b' : a ++ x :: b = a' ++ x' :: b' ->
  (a = a' /\ x = x' /\ b = b') \/ (exists m, a' = a ++ x :: m) \/ (exists m, a = a' ++ x' :: m).
Proof.
  revert a'. induction a as [|y a IH]; intros [|y' a'] E; cbn in E.
  - injection E as <- <-. auto.
  - injection E as <- E. right. left. now exists a'.
  - injection E as <- E. right. right. now exists a.
  - injection E as <- E. destruct (IH _ E) as [(-> & -> & ->)|[(m & ->)|(m & ->)]]; [auto|right; left; now exists m|right; right; now exists m].
Qed.

Lemma refers_bounds i a x b : refers i a b ->
  - Z.of_nat (List.length (a ++ x :: b)) <= i < Z.of_nat (List.length (a ++ x :: b)).
Proof. intros [-> | ->]; rewrite app_length; cbn; lia. Qed.

(** The indexes met before the place of writing are followed, hence within
    bounds; beyond it nothing existed. *)
Lemma reach_at v ps1 p ps2 c hs d d' : maps_ok v -> leads v ps1 hs d -> writes p ps2 c d d' ->
  (reach_ok v (ps1 ++ p :: ps2) <-> forall l i, d = VArr l -> index_value p = Some i -> index_kept l i).
Proof.
  intros M Hl HW. split.
  - intros R l i -> Hi. exact (R _ _ _ _ _ _ eq_refl Hl Hi).
  - intros K r1 q r2 gs l i E Hq Hi. destruct (app_cmp _ _ _ _ _ _ E) as [(-> & -> & ->)|[(m & ->)|(m & ->)]].
    + destruct (leads_det _ _ _ _ Hl _ _ M Hq) as (_ & ->). exact (K _ _ eq_refl Hi).
    + rewrite <- app_assoc in E. apply app_inv_head in E. cbn in E. injection E as ->.
      destruct (leads_split _ _ _ _ _ Hq) as (h1 & h2 & d1 & _ & L1 & L2).
      destruct (leads_det _ _ _ _ Hl _ _ M L1) as (_ & <-).
      change (p :: m) with ([p] ++ m) in L2. destruct (leads_split _ _ _ _ _ L2) as (h3 & h4 & d2 & _ & L3 & _).
      exfalso. inversion HW as [| | |k q0 ps0 c0 w0 d0 d0' HN|p0 i0 q0 ps0 c0 w0 d0 d0' Hp0 HN]; subst.
      * now destruct m.
      * now destruct m.
      * now destruct m.
      * exact (HN _ _ L3).
      * exact (HN _ _ L3).
    + destruct (leads_split _ _ _ _ _ Hl) as (h1 & h2 & d1 & _ & L1 & L2).
      destruct (leads_det _ _ _ _ L1 _ _ M Hq) as (_ & ->).
      inversion L2 as [|i1 kvs lo k id x ps hs0 c0 Hin Hl0|a x b p0 i1 ps hs0 c0 Hp Rf Hl0]; subst.
      rewrite Hp in Hi. injection Hi as <-. left. pose proof (refers_bounds _ _ x _ Rf). lia.
Qed.

(** ** The other paths *)

Lemma last_or_nil {A} (l : list A) : l = [] \/ exists m y, l = m ++ [y].
Proof. induction l as [|y l _] using rev_ind; [now left|right; eauto]. Qed.

Lemma step_frame p w h d d' : step p w h d d' -> maps_ok d -> forall q pl z,
  unrelated pl [h] -> ~ shifted d q [h] -> (leads d q pl z <-> leads d' q pl z).
Proof.
  intros HS M q pl z (U1 & U2) NS. destruct HS as [k d d' -> H|i a x b Hp Rf|i l Hp HN].
  - destruct H as (i & kvs & lo & i' & kvs' & lo' & -> & -> & Ei & ND & Hin & Ho).
    split; intros Hl; inversion Hl as [|i1 kvs1 lo1 k1 id x ps hs0 c0 Hi Hl0|]; subst;
      try (exfalso; apply U1; exact I);
      (assert (N : k1 <> k) by (intros ->; apply U2; cbn; auto));
      (eapply leads_key; [apply (Ho _ _ N); exact Hi|exact Hl0]).
  - assert (G : forall y y', leads (VArr (a ++ y :: b)) q pl z -> leads (VArr (a ++ y' :: b)) q pl z).
    { intros y y' Hl. inversion Hl as [| |a1 x1 b1 p1 i1 ps hs0 c0 Hp1 Rf1 Hl0 E1]; subst; [exfalso; apply U1; exact I|].
      destruct (app_cmp _ _ _ _ _ _ E1) as [(-> & -> & ->)|[(m & ->)|(m & ->)]].
      - exfalso. apply U2. cbn. auto.
      - rewrite <- app_assoc in E1. apply app_inv_head in E1. injection E1 as ->.
        rewrite <- app_assoc. eapply leads_elem; [exact Hp1| |exact Hl0].
        unfold refers in *. rewrite app_length in *. cbn [List.length] in *. exact Rf1.
      - rewrite <- app_assoc in E1. apply app_inv_head in E1. injection E1 as <-.
        replace ((a ++ y :: m) ++ x1 :: b1) with (a ++ y :: m ++ x1 :: b1) in Hl by (rewrite <- app_assoc; reflexivity).
        replace (a ++ y' :: m ++ x1 :: b1) with ((a ++ y' :: m) ++ x1 :: b1) by (rewrite <- app_assoc; reflexivity).
        replace (List.length (a ++ y :: m)) with (List.length (a ++ y' :: m)) by (rewrite !app_length; reflexivity).
        eapply leads_elem; [exact Hp1| |exact Hl0].
        unfold refers in *. rewrite app_length in *. cbn [List.length] in *. exact Rf1. }
    split; apply G.
  - assert (Pos : forall p1 ps i1, q = p1 :: ps -> index_value p1 = Some i1 -> 0 <= i1).
    { intros p1 ps i1 -> Hi. destruct (Z_lt_le_dec i1 0) as [L|L]; [|exact L]. exfalso. apply NS.
      exists [], p1, ps, [], l, i1. split; [reflexivity|]. split; [constructor|]. auto. }
    split; intros Hl; inversion Hl as [| |a1 x1 b1 p1 i1 ps hs0 c0 Hp1 Rf1 Hl0 E1]; subst; try (exfalso; apply U1; exact I).
    + rewrite <- app_assoc. cbn. eapply leads_elem; [exact Hp1| |exact Hl0].
      specialize (Pos _ _ _ eq_refl Hp1). left. destruct Rf1; lia.
    + assert (Eb : b1 = [] \/ exists b0 y, b1 = b0 ++ [y]).
      { apply last_or_nil. }
      destruct Eb as [-> | (b0 & y & ->)].
      * apply app_inj_tail in E1 as (<- & <-). exfalso. apply U2. cbn. auto.
      * rewrite app_comm_cons, app_assoc in E1. apply app_inj_tail in E1 as (<- & <-).
        eapply leads_elem; [exact Hp1| |exact Hl0]. specialize (Pos _ _ _ eq_refl Hp1). left. destruct Rf1; lia.
Qed.

Lemma unrelated_tail h a b : unrelated (h :: a) (h :: b) -> unrelated a b.
Proof. intros (U1 & U2). split; intros C; [apply U1|apply U2]; cbn; auto. Qed.

Lemma changed_paths d d' h : (forall q pl z, unrelated pl [h] -> ~ shifted d q [h] -> (leads d q pl z <-> leads d' q pl z)) ->
  forall hs v v', changed (fun x x' => x = d /\ x' = d') hs v v' -> maps_ok v ->
  forall q pl z, unrelated pl (hs ++ [h]) -> ~ shifted v q (hs ++ [h]) -> (leads v q pl z <-> leads v' q pl z).
Proof.
  intros HF. induction 1 as [v v' (-> & ->)|i a k id y y' b lo hs Hc IH|a y y' b hs Hc IH]; intros M q pl z U NS.
  - exact (HF q pl z U NS).
  - apply maps_ok_obj in M as (ND & MF).
    assert (Hy : forall u, In (k, (id, u)) (a ++ (k, (id, u)) :: b)) by (intros u; apply in_or_app; right; now left).
    assert (My : maps_ok y) by (rewrite Forall_forall in MF; exact (MF _ (Hy y))).
    assert (ND' : NoDup (map fst (a ++ (k, (id, y')) :: b))) by (revert ND; now rewrite !map_app).
    assert (Same : forall k1 e u u', k1 <> k -> In (k1, e) (a ++ (k, (id, u)) :: b) -> In (k1, e) (a ++ (k, (id, u')) :: b)).
    { intros k1 e u u' N Hi. apply in_app_or in Hi as [Hi|[Hi|Hi]]; apply in_or_app; [now left| |right; now right]. congruence. }
    assert (One : forall u id1 x1, NoDup (map fst (a ++ (k, (id, u)) :: b)) -> In (k, (id1, x1)) (a ++ (k, (id, u)) :: b) -> id1 = id /\ x1 = u).
    { intros u id1 x1 Nd Hi. pose proof (alookup_NoDup_In _ _ _ Nd Hi) as L1. pose proof (alookup_NoDup_In _ _ _ Nd (Hy u)) as L2. split; congruence. }
    assert (Sh : forall ps, q = PStr k :: ps -> ~ shifted y ps (hs ++ [h])).
    { intros ps -> (q1 & p & q2 & gs & l & j & -> & L & Hj & Neg & E). apply NS.
      exists (PStr k :: q1), p, q2, (HKey k :: gs), l, j. split; [reflexivity|]. split; [eapply leads_key; [apply Hy|exact L]|].
      split; [exact Hj|]. split; [exact Neg|]. cbn. now rewrite E. }
    split; intros Hl; inversion Hl as [|i1 kvs1 lo1 k1 id1 x1 ps hs0 c0 Hi Hl0|]; subst;
      try (exfalso; destruct U as (U1 & _); apply U1; exact I);
      (destruct (bytes_dec k1 k) as [->|N]; [|eapply leads_key; [exact (Same _ _ _ _ N Hi)|exact Hl0]]).
    + destruct (One _ _ _ ND Hi) as (-> & ->). eapply leads_key; [apply Hy|].
      apply (IH My ps hs0 z); [exact (unrelated_tail _ _ _ U)|exact (Sh _ eq_refl)|exact Hl0].
    + destruct (One _ _ _ ND' Hi) as (-> & ->). eapply leads_key; [apply Hy|].
      apply (IH My ps hs0 z); [exact (unrelated_tail _ _ _ U)|exact (Sh _ eq_refl)|exact Hl0].
  - apply maps_ok_arr in M. assert (My : maps_ok y) by (apply Forall_app in M as (_ & M); exact (Forall_inv M)).
    assert (Sh : forall p i1 ps, q = p :: ps -> index_value p = Some i1 -> refers i1 a b -> ~ shifted y ps (hs ++ [h])).
    { intros p i1 ps -> Hp Rf (q1 & p1 & q2 & gs & l & j & -> & L & Hj & Neg & E). apply NS.
      exists (p :: q1), p1, q2, (HIdx (List.length a) :: gs), l, j. split; [reflexivity|]. split; [eapply leads_elem; eassumption|].
      split; [exact Hj|]. split; [exact Neg|]. cbn. now rewrite E. }
    assert (Cases : forall u u', (forall p i1 ps hs0, q = p :: ps -> pl = HIdx (List.length a) :: hs0 ->
                index_value p = Some i1 -> refers i1 a b -> leads u ps hs0 z -> leads u' ps hs0 z) ->
              leads (VArr (a ++ u :: b)) q pl z -> leads (VArr (a ++ u' :: b)) q pl z).
    { intros u u' HU Hl. inversion Hl as [| |a1 x1 b1 p1 i1 ps hs0 c0 Hp1 Rf1 Hl0 E1]; subst;
        [exfalso; destruct U as (U1 & _); apply U1; exact I|].
      destruct (app_cmp _ _ _ _ _ _ E1) as [(-> & -> & ->)|[(m & ->)|(m & ->)]].
      - eapply leads_elem; [exact Hp1|exact Rf1|]. exact (HU _ _ _ _ eq_refl eq_refl Hp1 Rf1 Hl0).
      - rewrite <- app_assoc in E1. apply app_inv_head in E1. injection E1 as ->.
        rewrite <- app_assoc. eapply leads_elem; [exact Hp1| |exact Hl0].
        unfold refers in *. rewrite app_length in *. cbn [List.length] in *. exact Rf1.
      - rewrite <- app_assoc in E1. apply app_inv_head in E1. injection E1 as <-.
        replace (a ++ u' :: m ++ x1 :: b1) with ((a ++ u' :: m) ++ x1 :: b1) by (rewrite <- app_assoc; reflexivity).
        replace (List.length (a ++ u :: m)) with (List.length (a ++ u' :: m)) by (rewrite !app_length; reflexivity).
        eapply leads_elem; [exact Hp1| |exact Hl0].
        unfold refers in *. rewrite app_length in *. cbn [List.length] in *. exact Rf1. }
    split; apply Cases; intros p i1 ps hs0 -> -> Hp Rf Hl0;
      (apply (IH My ps hs0 z); [exact (unrelated_tail _ _ _ U)|exact (Sh _ _ _ eq_refl Hp Rf)|exact Hl0]).
Qed.

Lemma shift_moves v q hs d d' v' p w h : maps_ok v -> maps_ok v' ->
  (forall ps, leads v ps hs d -> leads v' ps hs d') -> step p w h d d' ->
  shifted v q (hs ++ [h]) -> sits v hs d ->
  forall pl z z', leads v q pl z -> ~ leads v' q pl z'.
Proof.
  intros M M' HL HS (q1 & p1 & q2 & gs & l & i & -> & L1 & Hi & Neg & E) Hsit pl z z' Hz Hz'.
  apply app_inj_tail in E as (<- & ->).
  assert (Ed : d = VArr l).
  { clear - L1 Hsit M. revert M Hsit. induction L1 as [v|i kvs lo k id x ps hs c Hin Hl IH|a x b p i ps hs c Hp Rf Hl IH]; intros M H.
    - now inversion H.
    - inversion H as [|i1 kvs1 lo1 k1 id1 x1 hs0 c0 Hi Hs|]; subst. apply maps_ok_obj in M as (ND & MF).
      pose proof (alookup_NoDup_In _ _ _ ND Hin) as E1. pose proof (alookup_NoDup_In _ _ _ ND Hi) as E2.
      rewrite E1 in E2. injection E2 as <- <-. apply IH; [|exact Hs]. rewrite Forall_forall in MF. exact (MF _ Hin).
    - inversion H as [| |a1 x1 b1 hs0 c0 Hs E1 E2]; subst. destruct (app_len _ _ _ _ _ _ E1 E2) as (-> & -> & ->).
      apply maps_ok_arr, Forall_app in M as (_ & M). apply IH; [exact (Forall_inv M)|exact Hs]. }
  subst d. pose proof (HL _ L1) as L1'.
  destruct (leads_split _ _ _ _ _ Hz) as (h1 & h2 & e & -> & X1 & X2).
  destruct (leads_split _ _ _ _ _ Hz') as (h3 & h4 & e' & Eh & Y1 & Y2).
  destruct (leads_det _ _ _ _ L1 _ _ M X1) as (<- & <-). destruct (leads_det _ _ _ _ L1' _ _ M' Y1) as (<- & <-).
  apply app_inv_head in Eh. subst h4.
  inversion X2 as [| |a x b p0 i1 ps hs0 c0 Hp Rf Hl0]; subst.
  inversion HS as [k d0 d0' _ H|i2 a2 x2 b2 _ _ E1 E2|i2 l2 _ _ E1 E2]; subst.
  - rewrite <- E2, app_length in E1. cbn in E1. lia.
  - rewrite Hi in Hp. injection Hp as <-.
    inversion Y2 as [| |a3 x3 b3 p3 i3 ps3 hs3 c3 Hp3 Rf3 Hl3 F1 F2 F3]; subst.
    rewrite Hi in Hp3. injection Hp3 as <-.
    pose proof (f_equal (@List.length V) F1) as E. rewrite !app_length in E. cbn in E.
    destruct Rf as [R1|R1], Rf3 as [R2|R2]; lia.
Qed.

(** ** Set *)

Lemma changed_sits R hs v v' : changed R hs v v' -> exists d, sits v hs d.
Proof.
  induction 1 as [v v' _|i a k id x x' b lo hs _ (d & IH)|a x x' b hs _ (d & IH)].
  - exists v. constructor.
  - exists d. eapply sits_key; [apply in_or_app; right; now left|exact IH].
  - exists d. now constructor.
Qed.

Lemma set_outcome_exact v ps c v' : set_outcome v ps c v' -> maps_ok v -> maps_ok c ->
  exists w y front rest, ps = front ++ rest /\ List.length w = List.length front /\ front <> [] /\
    sits v' w y /\ built rest c y /\
    (reach_ok v ps <-> exists hs, leads v' ps (w ++ hs) c) /\
    (forall hs z, leads v' ps (w ++ hs) z -> z = c) /\
    (forall q pl z, unrelated pl w -> ~ shifted v q w -> (leads v q pl z <-> leads v' q pl z)) /\
    (forall q pl z z', shifted v q w -> leads v q pl z -> ~ leads v' q pl z').
Proof.
  intros HO Mv Mc. pose proof (set_outcome_maps _ _ _ _ HO Mv Mc) as Mv'.
  destruct HO as (ps1 & p & ps2 & hs & d & -> & Hl & Hc).
  destruct (changed_leads _ _ _ _ _ Hl Mv _ Hc) as (d' & HW & Hl' & Hd).
  pose proof (leads_maps _ _ _ _ Hl Mv) as Md.
  destruct (writes_step _ _ _ _ _ HW) as (h & w & Hb & HS).
  pose proof (step_read _ _ _ _ _ HS) as RD. pose proof (reach_at _ _ _ _ _ _ _ _ Mv Hl HW) as RA.
  destruct (built_leads _ _ _ Hb) as (hs2 & H2).
  assert (Through : forall gs z, leads v' (ps1 ++ p :: ps2) ((hs ++ [h]) ++ gs) z -> leads d' [p] [h] w /\ leads w ps2 gs z).
  { intros gs z H. destruct (leads_split _ _ _ _ _ H) as (h1 & h2 & e & Eh & X1 & X2).
    destruct (leads_det _ _ _ _ Hl' _ _ Mv' X1) as (<- & <-).
    rewrite <- app_assoc in Eh. apply app_inv_head in Eh. subst h2.
    change (p :: ps2) with ([p] ++ ps2) in X2. destruct (leads_split _ _ _ _ _ X2) as (h3 & h4 & e & Eh & Y1 & Y2).
    pose proof (leads_length _ _ _ _ Y1) as L. destruct h3 as [|h3 [|]]; try discriminate L. injection Eh as <- <-.
    assert (e = w) by exact (proj1 (proj1 (RD e) Y1)). subst e. auto. }
  exists (hs ++ [h]), w, (ps1 ++ [p]), ps2.
  split; [now rewrite <- app_assoc|]. split; [rewrite !app_length, (leads_length _ _ _ _ Hl); reflexivity|].
  split; [intros C; now apply app_eq_nil in C|]. split; [|split; [exact Hb|split; [|split; [|split]]]].
  - destruct (writes_hop _ _ _ _ _ HW Md) as (h1 & w1 & _ & _ & _ & _).
    assert (SW : sits d' [h] w).
    { destruct HS as [k d d' _ H|i a x b _ _|i l _ _]; [|constructor; constructor|constructor; constructor].
      destruct H as (i & kvs & lo & i' & kvs' & lo' & -> & -> & Ei & ND & Hin & Ho). eapply sits_key; [exact Hin|constructor]. }
    clear - Hl' SW. induction Hl'; cbn; [exact SW|econstructor; eauto|constructor; eauto].
  - rewrite RA. split.
    + intros K. exists hs2. rewrite <- app_assoc. apply (leads_app _ _ _ _ _ _ _ Hl').
      change (p :: ps2) with ([p] ++ ps2). refine (leads_app _ _ _ _ _ _ _ _ H2). apply RD. auto.
    + intros (gs & H). destruct (Through _ _ H) as (Y1 & _). exact (proj2 (proj1 (RD w) Y1)).
  - intros gs z H. destruct (Through _ _ H) as (_ & Y2).
    exact (eq_sym (proj2 (leads_det _ _ _ _ H2 _ _ (built_maps_ok _ _ _ Hb Mc) Y2))).
  - intros q pl z U NS. exact (changed_paths d d' h (step_frame _ _ _ _ _ HS Md) _ _ _ Hd Mv q pl z U NS).
  - intros q pl z z' Sh. refine (shift_moves v q hs d d' v' p w h Mv Mv' _ HS Sh (leads_sits _ _ _ _ Hl) pl z z').
    intros qs Hq. destruct (changed_leads (fun x x' => x' = d') qs d _ _ Hq Mv v' Hd) as (d1 & -> & L & _). exact L.
Qed.

Theorem set_exactly E W v c p ps v' x : maps_ok v -> maps_ok c -> Forall plain (p :: ps) ->
  set_at E v (arg_v c) p ps = (v', Ok x) ->
  exists w y front rest, p :: ps = front ++ rest /\ List.length w = List.length front /\ front <> [] /\
    sits v' w y /\ built rest c y /\
    (reach_ok v (p :: ps) <-> exists hs, leads v' (p :: ps) (w ++ hs) c) /\
    (forall hs z, leads v' (p :: ps) (w ++ hs) z -> z = c) /\
    (reach_ok v (p :: ps) -> x = c /\ get E W false v' p ps = (v', Ok c)).
Proof.
  intros Mv Mc HP H. rewrite set_at_set_c in H.
  destruct (set_c_outcome E c ps v p v' x Mv HP H) as (Ex & HO).
  pose proof (set_outcome_maps _ _ _ _ HO Mv Mc) as Mv'.
  destruct (set_outcome_exact _ _ _ _ HO Mv Mc) as (w & y & front & rest & E1 & E2 & E3 & S1 & B & RO & Z & _).
  exists w, y, front, rest. do 5 (split; [assumption|]). split; [exact RO|]. split; [exact Z|].
  intros K. split; [exact Ex|]. apply get_leads; [exact Mv'|exact HP|]. apply RO in K as (hs & K). now exists (w ++ hs).
Qed.

Theorem set_frame_exactly E v c p ps v' x : maps_ok v -> maps_ok c -> Forall plain (p :: ps) ->
  set_at E v (arg_v c) p ps = (v', Ok x) ->
  exists w y front rest, p :: ps = front ++ rest /\ List.length w = List.length front /\ front <> [] /\
    sits v' w y /\ built rest c y /\
    (forall W q qs pl z, Forall plain (q :: qs) -> unrelated pl w -> ~ shifted v (q :: qs) w ->
       (leads v (q :: qs) pl z <-> leads v' (q :: qs) pl z) /\
       (leads v (q :: qs) pl z -> get E W false v q qs = (v, Ok z) /\ get E W false v' q qs = (v', Ok z))) /\
    (forall q pl z z', shifted v q w -> leads v q pl z -> ~ leads v' q pl z').
Proof.
  intros Mv Mc HP H. rewrite set_at_set_c in H.
  destruct (set_c_outcome E c ps v p v' x Mv HP H) as (Ex & HO).
  pose proof (set_outcome_maps _ _ _ _ HO Mv Mc) as Mv'.
  destruct (set_outcome_exact _ _ _ _ HO Mv Mc) as (w & y & front & rest & E1 & E2 & E3 & S1 & B & _ & _ & F & Sh).
  exists w, y, front, rest. do 5 (split; [assumption|]). split; [|exact Sh].
  intros W q qs pl z HQ U NS. split; [exact (F _ _ _ U NS)|]. intros L. split.
  - apply get_leads; [exact Mv|exact HQ|]. now exists pl.
  - apply get_leads; [exact Mv'|exact HQ|]. exists pl. now apply (F _ _ _ U NS).
Qed.
