(** Claims about Set: what is found at the path afterwards, what stays. *)
From Verif Require Import Base Utf8 Float64 Value Opt Marshal ListLemmas ValueLemmas Access Path Edit SpecPath PathProof EditProof SetProof.

Lemma built_leads ps c w : built ps c w -> exists hs, leads w ps hs c.
Proof.
  induction 1 as [c|k ps c w Hb (hs & IH)|p ps c w Hp Hb (hs & IH)].
  - exists []. constructor.
  - exists (HKey k :: hs). econstructor; [now left|exact IH].
  - exists (HIdx 0 :: hs). change [w] with ([] ++ w :: []). eapply leads_elem; [exact Hp| |exact IH]. now left.
Qed.

Lemma built_maps_ok ps c w : built ps c w -> maps_ok c -> maps_ok w.
Proof.
  induction 1 as [c|k ps c w Hb IH|p ps c w Hp Hb IH]; intros M.
  - exact M.
  - apply maps_ok_obj. split; [|constructor; [exact (IH M)|constructor]]. constructor; [intros []|constructor].
  - apply maps_ok_arr. constructor; [exact (IH M)|constructor].
Qed.

Lemma member_set_maps k c d d' : member_set k c d d' -> maps_ok d -> maps_ok c -> maps_ok d'.
Proof.
  intros (i & kvs & lo & i' & kvs' & lo' & -> & -> & Ei & ND & Hin & Ho) Md Mc.
  apply maps_ok_obj in Md as (NDk & MF). apply maps_ok_obj. split; [exact ND|].
  apply Forall_forall. intros (k1 & id1 & x1) H1. cbn.
  destruct (bytes_dec k1 k) as [->|N].
  - pose proof (alookup_NoDup_In _ _ _ ND Hin) as L1. pose proof (alookup_NoDup_In _ _ _ ND H1) as L2.
    rewrite L1 in L2. injection L2 as _ <-. exact Mc.
  - apply (Ho _ _ N) in H1. rewrite Forall_forall in MF. exact (MF _ H1).
Qed.

Lemma elem_replaced_maps i c d d' : elem_replaced i c d d' -> maps_ok d -> maps_ok c -> maps_ok d'.
Proof.
  intros (a & x & b & -> & -> & _) Md Mc. apply maps_ok_arr in Md. apply maps_ok_arr.
  apply Forall_app in Md as (Ma & Mb). apply Forall_app. split; [exact Ma|]. constructor; [exact Mc|exact (Forall_inv_tail Mb)].
Qed.
Lemma elem_appended_maps c d d' : elem_appended c d d' -> maps_ok d -> maps_ok c -> maps_ok d'.
Proof.
  intros (l & -> & ->) Md Mc. apply maps_ok_arr in Md. apply maps_ok_arr. apply Forall_app. split; [exact Md|].
  constructor; [exact Mc|constructor].
Qed.

Lemma writes_maps p ps c d d' : writes p ps c d d' -> maps_ok d -> maps_ok c -> maps_ok d'.
Proof.
  intros H Md Mc. destruct H as [k c d d' H|p i c d d' _ H|p c l d' _ H|k q ps c w d d' _ Hb H|p i q ps c w d d' _ _ Hb H].
  - exact (member_set_maps _ _ _ _ H Md Mc).
  - exact (elem_replaced_maps _ _ _ _ H Md Mc).
  - exact (elem_appended_maps _ _ _ H Md Mc).
  - exact (member_set_maps _ _ _ _ H Md (built_maps_ok _ _ _ Hb Mc)).
  - exact (elem_appended_maps _ _ _ H Md (built_maps_ok _ _ _ Hb Mc)).
Qed.

Lemma changed_maps (R : V -> V -> Prop) : (forall d d', R d d' -> maps_ok d -> maps_ok d') ->
  forall hs v v', changed R hs v v' -> maps_ok v -> maps_ok v'.
Proof.
  intros HR hs v v' H. induction H as [v v' H|i a k id x x' b lo hs H IH|a x x' b hs H IH]; intros M.
  - exact (HR _ _ H M).
  - apply maps_ok_obj in M as (ND & MF). apply maps_ok_obj. split; [revert ND; now rewrite !map_app|].
    apply Forall_app in MF as (Ma & Mb). apply Forall_app. split; [exact Ma|]. constructor; [exact (IH (Forall_inv Mb))|exact (Forall_inv_tail Mb)].
  - apply maps_ok_arr in M. apply maps_ok_arr.
    apply Forall_app in M as (Ma & Mb). apply Forall_app. split; [exact Ma|]. constructor; [exact (IH (Forall_inv Mb))|exact (Forall_inv_tail Mb)].
Qed.

Lemma set_outcome_maps v ps c v' : set_outcome v ps c v' -> maps_ok v -> maps_ok c -> maps_ok v'.
Proof.
  intros (ps1 & p & ps2 & hs & d & -> & Hl & Hc) Mv Mc.
  refine (changed_maps _ _ _ _ _ Hc Mv). intros x x' (_ & HW) Mx. exact (writes_maps _ _ _ _ _ HW Mx Mc).
Qed.

(** The hop under which a writing took place, and what is there afterwards. *)
Lemma writes_hop p ps c d d' : writes p ps c d d' -> maps_ok d ->
  exists h w, keeps h d d' /\ sits d' [h] w /\ built ps c w /\
    ((forall l i, d = VArr l -> index_value p = Some i -> - Z.of_nat (List.length l) <= i <= Z.of_nat (List.length l)) ->
     leads d' [p] [h] w).
Proof.
  assert (KM : forall k c0 d0 d0', member_set k c0 d0 d0' -> keeps (HKey k) d0 d0' /\ leads d0' [PStr k] [HKey k] c0).
  { intros k c0 d0 d0' (i & kvs & lo & i' & kvs' & lo' & -> & -> & Ei & ND & Hin & Ho). split.
    - intros h' q x N. rewrite !sits_obj.
      split; intros (k1 & id1 & z1 & -> & H1 & Hs); exists k1, id1, z1; (split; [reflexivity|]); (split; [|exact Hs]);
        apply Ho; congruence.
    - eapply leads_key; [exact Hin|constructor]. }
  assert (KA : forall c0 d0 d0', elem_appended c0 d0 d0' ->
            exists l, d0 = VArr l /\ keeps (HIdx (List.length l)) d0 d0' /\
            (forall p0, index_value p0 = Some (Z.of_nat (List.length l)) -> leads d0' [p0] [HIdx (List.length l)] c0) /\
            sits d0' [HIdx (List.length l)] c0).
  { intros c0 d0 d0' (l & -> & ->). exists l. split; [reflexivity|]. split; [|split].
    - intros h' q x N. rewrite !sits_arr.
      split; intros (n & z & -> & H1 & Hs); exists n, z; (split; [reflexivity|]); (split; [|exact Hs]).
      + rewrite nth_error_app1; [exact H1|]. apply nth_error_Some. congruence.
      + assert (L : (n < List.length (l ++ [c0]))%nat) by (apply nth_error_Some; congruence).
        rewrite app_length in L. cbn in L. rewrite nth_error_app1 in H1; [exact H1|].
        assert (n <> List.length l) by congruence. lia.
    - intros p0 Hp. eapply leads_elem; [exact Hp|now left|constructor].
    - constructor. constructor. }
  intros H Md. destruct H as [k c d d' H|p i c d d' Hp H|p c l d' Hp H|k q ps c w d d' HN Hb H|p i q ps c w d d' Hp HN Hb H].
  - destruct (KM _ _ _ _ H) as (K1 & K2). exists (HKey k), c. split; [exact K1|]. split; [exact (leads_sits _ _ _ _ K2)|]. split; [constructor|]. intros _. exact K2.
  - destruct H as (a & x & b & -> & -> & Rf). exists (HIdx (List.length a)), c. split; [|split; [|split]].
    + intros h' q y N. rewrite !sits_arr.
      split; intros (n & z & -> & H1 & Hs); exists n, z; (split; [reflexivity|]); (split; [|exact Hs]);
      rewrite <- H1;
        (destruct (Nat.lt_ge_cases n (List.length a)) as [L|L];
         [rewrite !nth_error_app1 by exact L; reflexivity|]);
        rewrite !nth_error_app2 by exact L;
        (destruct (n - List.length a)%nat as [|m] eqn:Em; [|reflexivity]);
        exfalso; apply N; f_equal; lia.
    + constructor. constructor.
    + constructor.
    + intros _. eapply leads_elem; [exact Hp|exact Rf|constructor].
  - destruct (KA _ _ _ H) as (l0 & E0 & K1 & K2 & K3). injection E0 as <-.
    exists (HIdx (List.length l)), c. split; [exact K1|]. split; [exact K3|]. split; [constructor|]. intros _. exact (K2 _ Hp).
  - destruct (KM _ _ _ _ H) as (K1 & K2). exists (HKey k), w. split; [exact K1|]. split; [exact (leads_sits _ _ _ _ K2)|]. split; [exact Hb|]. intros _. exact K2.
  - destruct (KA _ _ _ H) as (l0 & -> & K1 & K2 & K3). exists (HIdx (List.length l0)), w. split; [exact K1|]. split; [exact K3|]. split; [exact Hb|].
    intros HB. apply K2. rewrite Hp. f_equal. specialize (HB l0 i eq_refl Hp).
    destruct (Z.eq_dec i (Z.of_nat (List.length l0))) as [->|N]; [reflexivity|exfalso].
    assert (L : exists a x b, l0 = a ++ x :: b /\ refers i a b).
    { set (m := if i <? 0 then Z.to_nat (i + Z.of_nat (List.length l0)) else Z.to_nat i).
      assert (Lm : (m < List.length l0)%nat) by (unfold m; destruct (Z.ltb_spec i 0); lia).
      destruct (nth_error l0 m) as [x|] eqn:En; [|apply nth_error_None in En; lia].
      destruct (nth_error_split' _ _ _ En) as (a & b & El & La). exists a, x, b. split; [exact El|].
      unfold refers. pose proof (f_equal (@List.length V) El) as Ll. rewrite app_length in Ll. cbn in Ll.
      unfold m in La. destruct (Z.ltb_spec i 0); [right|left]; lia. }
    destruct L as (a & x & b & -> & Rf). apply (HN [HIdx (List.length a)] x). eapply leads_elem; [exact Hp|exact Rf|constructor].
Qed.

Lemma leads_app v ps hs d ps' hs' c : leads v ps hs d -> leads d ps' hs' c -> leads v (ps ++ ps') (hs ++ hs') c.
Proof. induction 1; intros H'; cbn; [exact H'|econstructor; eauto|eapply leads_elem; eauto]. Qed.

Lemma leads_maps v ps hs d : leads v ps hs d -> maps_ok v -> maps_ok d.
Proof.
  intros Hl. induction Hl as [v|i kvs lo k id x ps hs c Hin Hl IH|a x b p i ps hs c Hp Rf Hl IH]; intros M; auto.
  - apply maps_ok_obj in M as (_ & MF). rewrite Forall_forall in MF. apply IH. exact (MF _ Hin).
  - apply maps_ok_arr, Forall_app in M as (_ & M). exact (IH (Forall_inv M)).
Qed.

(** ** Get after Set *)
Lemma set_outcome_leads v ps c v' : set_outcome v ps c v' -> maps_ok v -> in_bounds v ps ->
  exists hs, leads v' ps hs c.
Proof.
  intros (ps1 & p & ps2 & hs & d & -> & Hl & Hc) Mv B.
  destruct (changed_leads _ _ _ _ _ Hl Mv _ Hc) as (d' & HW & Hl' & Hd).
  pose proof (leads_maps _ _ _ _ Hl Mv) as Md.
  destruct (writes_hop _ _ _ _ _ HW Md) as (h & w & _ & _ & Hb & HL).
  assert (Hp : leads d' [p] [h] w).
  { apply HL. intros l i -> Hi. exact (B ps1 p ps2 hs l i eq_refl Hl Hi). }
  destruct (built_leads _ _ _ Hb) as (hs2 & H2).
  exists (hs ++ [h] ++ hs2). change (p :: ps2) with ([p] ++ ps2).
  apply (leads_app _ _ _ _ _ _ _ Hl'). exact (leads_app _ _ _ _ _ _ _ Hp H2).
Qed.

(** ** What Set leaves alone *)
Lemma is_prefix_app a b c : is_prefix a b -> is_prefix a (b ++ c).
Proof. revert b. induction a as [|x a IH]; intros [|y b]; cbn; auto; [tauto|]. intros (-> & H). split; auto. Qed.

Lemma set_outcome_frame v ps c v' : set_outcome v ps c v' -> maps_ok v ->
  exists w y ps2, sits v' w y /\ (exists ps1, ps = ps1 ++ ps2) /\ built ps2 c y /\
    (in_bounds v ps -> exists hs, leads v' ps (w ++ hs) c) /\
    forall q x, unrelated q w -> (sits v q x <-> sits v' q x).
Proof.
  intros (ps1 & p & ps2 & hs & d & -> & Hl & Hc) Mv.
  destruct (changed_leads _ _ _ _ _ Hl Mv _ Hc) as (d' & HW & Hl' & Hd).
  pose proof (leads_maps _ _ _ _ Hl Mv) as Md.
  destruct (writes_hop _ _ _ _ _ HW Md) as (h & w & HK & HS & Hb & HL).
  exists (hs ++ [h]), w, ps2. split; [|split; [|split; [|split]]].
  - clear - Hl' HS. induction Hl'; cbn; [exact HS|econstructor; eauto|constructor; eauto].
  - exists (ps1 ++ [p]). rewrite <- app_assoc. reflexivity.
  - exact Hb.
  - intros B. assert (Hp : leads d' [p] [h] w).
    { apply HL. intros l i -> Hi. exact (B ps1 p ps2 hs l i eq_refl Hl Hi). }
    destruct (built_leads _ _ _ Hb) as (hs2 & H2). exists hs2. rewrite <- app_assoc.
    change (p :: ps2) with ([p] ++ ps2).
    apply (leads_app _ _ _ _ _ _ _ Hl'). exact (leads_app _ _ _ _ _ _ _ Hp H2).
  - intros q x U.
    refine (changed_frame _ h _ _ _ Hd Mv _ q x U). intros e e' (-> & ->). exact HK.
Qed.

(** ** Set and Get at the interface *)

Lemma leads_det v ps hs c : leads v ps hs c -> forall hs' c', maps_ok v -> leads v ps hs' c' -> hs = hs' /\ c = c'.
Proof.
  induction 1 as [v|i kvs lo k id x ps hs c Hin Hl IH|a x b p i ps hs c Hp Rf Hl IH]; intros hs' c' M H'.
  - inversion H'; subst. auto.
  - inversion H' as [|i1 kvs1 lo1 k1 id1 x1 ps1 hs1 c1 Hin1 Hl1|a1 x1 b1 p1 i1 ps1 hs1 c1 Hp1]; subst.
    apply maps_ok_obj in M as (ND & MF).
    pose proof (alookup_NoDup_In _ _ _ ND Hin) as L1. pose proof (alookup_NoDup_In _ _ _ ND Hin1) as L2.
    rewrite L1 in L2. injection L2 as <- <-. rewrite Forall_forall in MF.
    destruct (IH _ _ (MF _ Hin) Hl1) as (-> & ->). auto.
  - inversion H' as [|i1 kvs1 lo1 k1 id1 x1 ps1 hs1 c1 Hin1 Hl1|a1 x1 b1 p1 i1 ps1 hs1 c1 Hp1 Rf1 Hl1 E1 E2]; subst.
    rewrite Hp in Hp1. injection Hp1 as <-.
    assert (Ln : List.length a1 = List.length a).
    { pose proof (pos_read_refers _ _ x _ Rf) as P1. pose proof (pos_read_refers _ _ x1 _ Rf1) as P2. rewrite E1 in P2. congruence. }
    assert (x1 = x).
    { assert (N1 : nth_error (a1 ++ x1 :: b1) (List.length a1) = Some x1) by apply nth_error_app_here.
      rewrite E1, Ln, nth_error_app_here in N1. congruence. }
    subst x1. apply maps_ok_arr, Forall_app in M as (_ & M).
    destruct (IH _ _ (Forall_inv M) Hl1) as (-> & ->). rewrite Ln. auto.
Qed.

Lemma set_at_set_c E v c p ps : set_at E v (arg_v c) p ps = set_c E v c p ps.
Proof. reflexivity. Qed.

Lemma must_get_pair E W v p o c : get E W false v p o = (v, Ok c) -> must_get E W false v p o = (v, Ok c).
Proof. intros H. unfold must_get. now rewrite H. Qed.

Theorem set_get E W v c p ps v' x : maps_ok v -> maps_ok c ->
  Forall plain (p :: ps) -> in_bounds v (p :: ps) ->
  set_at E v (arg_v c) p ps = (v', Ok x) ->
  x = c /\ get E W false v' p ps = (v', Ok c) /\ must_get E W false v' p ps = (v', Ok c).
Proof.
  intros Mv Mc HP B H. rewrite set_at_set_c in H.
  destruct (set_c_outcome E c ps v p v' x Mv HP H) as (Ex & HO).
  assert (Mv' : maps_ok v') by exact (set_outcome_maps _ _ _ _ HO Mv Mc).
  assert (G : get E W false v' p ps = (v', Ok c)).
  { apply get_leads; [exact Mv'|exact HP|]. exact (set_outcome_leads _ _ _ _ HO Mv B). }
  split; [exact Ex|]. split; [exact G|]. exact (must_get_pair _ _ _ _ _ _ G).
Qed.

Lemma leads_place v ps hs c : leads v ps hs c -> Forall from_start ps -> hs = place_of ps.
Proof.
  induction 1 as [v|i kvs lo k id x ps hs c Hin Hl IH|a x b p i ps hs c Hp Rf Hl IH]; intros F; [reflexivity| |].
  - cbn. f_equal. exact (IH (Forall_inv_tail F)).
  - unfold place_of. cbn [map]. f_equal; [|exact (IH (Forall_inv_tail F))].
    pose proof (Forall_inv F) as F1. unfold from_start in F1. rewrite Hp in F1.
    assert (i = Z.of_nat (List.length a)) by (destruct Rf; [assumption|lia]). subst i.
    destruct p; cbn in Hp; try discriminate; injection Hp as Hp; cbn [hop_of]; f_equal; try rewrite Hp; lia.
Qed.

Lemma sits_place_leads : forall ps v c, Forall from_start ps -> Forall key_or_index ps ->
  sits v (place_of ps) c -> leads v ps (place_of ps) c.
Proof.
  induction ps as [|p ps IH]; intros v c F K H.
  - inversion H; subst. constructor.
  - change (place_of (p :: ps)) with (hop_of p :: place_of ps) in *.
    pose proof (Forall_inv F) as F1. pose proof (Forall_inv K) as K1.
    inversion H as [|i kvs lo k id x hs c0 Hin Hs E1 E2|a x b hs c0 Hs E1 E2]; subst.
    + destruct p; cbn in E2, K1; try discriminate; try contradiction. injection E2 as <-.
      eapply leads_key; [exact Hin|]. exact (IH _ _ (Forall_inv_tail F) (Forall_inv_tail K) Hs).
    + assert (Hp : index_value p = Some (Z.of_nat (List.length a))).
      { destruct p; cbn in K1; try contradiction; cbn [hop_of] in E2; try discriminate E2; unfold from_start in F1; cbn [index_value] in F1 |- *; injection E2 as E2; f_equal; lia. }
      eapply leads_elem; [exact Hp|now left|]. exact (IH _ _ (Forall_inv_tail F) (Forall_inv_tail K) Hs).
Qed.

Lemma key_or_index_plain ps : Forall key_or_index ps -> Forall plain ps.
Proof. apply Forall_impl. intros []; cbn; auto. Qed.

Theorem set_frame E v c p ps v' x : maps_ok v -> maps_ok c ->
  Forall plain (p :: ps) -> set_at E v (arg_v c) p ps = (v', Ok x) ->
  exists w y rest,
    (* the written place: it holds the rest of the path built around c *)
    sits v' w y /\ built rest c y /\ (exists front, p :: ps = front ++ rest) /\
    (in_bounds v (p :: ps) -> exists hs, leads v' (p :: ps) (w ++ hs) c) /\
    (* other places hold what they held *)
    (forall q z, unrelated q w -> (sits v q z <-> sits v' q z)) /\
    (* so Get along other paths gives what it gave *)
    (forall W q qs z, Forall key_or_index (q :: qs) -> Forall from_start (q :: qs) -> unrelated (place_of (q :: qs)) w ->
       (get E W false v q qs = (v, Ok z) <-> get E W false v' q qs = (v', Ok z))).
Proof.
  intros Mv Mc HP H. rewrite set_at_set_c in H.
  destruct (set_c_outcome E c ps v p v' x Mv HP H) as (Ex & HO).
  assert (Mv' : maps_ok v') by exact (set_outcome_maps _ _ _ _ HO Mv Mc).
  destruct (set_outcome_frame _ _ _ _ HO Mv) as (w & y & rest & HS & Hfront & Hb & HL & HFr).
  exists w, y, rest. split; [exact HS|]. split; [exact Hb|]. split; [exact Hfront|]. split; [exact HL|]. split; [exact HFr|].
  intros W q qs z K FS U. pose proof (key_or_index_plain _ K) as Pq.
  rewrite (get_leads E W v q qs z Mv Pq), (get_leads E W v' q qs z Mv' Pq).
  split; intros (hs & Hl); pose proof (leads_place _ _ _ _ Hl FS); subst hs;
    apply leads_sits in Hl; exists (place_of (q :: qs)); apply (sits_place_leads _ _ _ FS K); now apply (HFr _ _ U).
Qed.

(** ** When Set succeeds *)
Lemma fresh_settable E c : uninitialized c = false -> forall r q, Forall plain (q :: r) ->
  (Forall creatable (q :: r) <-> exists w0 w, new_container q = Ok w0 /\ set_c E w0 c q r = (w, Ok c)).
Proof.
  intros Hc. induction r as [|q' r IH]; intros q HP; (split; [intros HK|intros (w0 & w & Hw & H)]).
  - destruct (Forall_inv HK) as [(k & ->)|Hq].
    + exists new_object. eexists. split; [reflexivity|]. rewrite set_c_one by exact I. cbn [uninitialized is_nil not_exist new_object orb]. fold (uninitialized c). rewrite Hc. reflexivity.
    + exists new_array, (VArr [c]). split.
      * unfold new_container. rewrite (fits_any_to_int q 0 Hq). destruct q; cbn in Hq |- *; try discriminate; reflexivity.
      * rewrite set_c_one by exact (Forall_inv HP). change (uninitialized new_array) with false. cbn iota. rewrite Hc.
        cbn [at_last_param new_array]. rewrite (fits_any_to_int q 0 Hq). reflexivity.
  - constructor; [|constructor]. destruct (new_container_cases q w0 Hw) as [(k & -> & _)|(Hi & _)]; [left; eauto|right; exact Hi].
  -
    destruct (proj1 (IH q' (Forall_inv_tail HP)) (Forall_inv_tail HK)) as (w1 & w2 & E1 & E2).
    destruct (Forall_inv HK) as [(k & ->)|Hq].
    + exists new_object. eexists. split; [reflexivity|]. rewrite set_c_more by exact I.
      change (uninitialized new_object) with false. cbn iota. rewrite Hc. cbn [new_object any_to_string alookup].
      rewrite E1, E2. reflexivity.
    + exists new_array, (VArr [w2]). split.
      * unfold new_container. rewrite (fits_any_to_int q 0 Hq). destruct q; cbn in Hq |- *; try discriminate; reflexivity.
      * rewrite set_c_more by exact (Forall_inv HP). change (uninitialized new_array) with false. cbn iota. rewrite Hc. cbn [new_array].
        rewrite (fits_any_to_int q 0 Hq). cbn [List.length].
        change (pos_read 0 0) with (@None nat). cbn iota. rewrite E1, E2. reflexivity.
  - rewrite set_c_more in H by exact (Forall_inv HP).
    destruct (new_container_cases q w0 Hw) as [(k & -> & ->)|(Hq & ->)].
    + change (uninitialized new_object) with false in H. cbn iota in H. rewrite Hc in H. cbn [new_object any_to_string alookup] in H.
      destruct (new_container q') as [w1|e| |] eqn:E1; try discriminate.
      destruct (set_c E w1 c q' r) as [w2 [y|e| |]] eqn:E2; try discriminate.
      constructor; [left; eauto|]. apply (IH q' (Forall_inv_tail HP)). exists w1, w2. split; [exact E1|].
      destruct (fresh_built E c Hc r q' w1 w2 y (Forall_inv_tail HP) E1 E2) as (_ & ->). exact E2.
    + change (uninitialized new_array) with false in H. cbn iota in H. rewrite Hc in H. cbn [new_array] in H.
      rewrite (fits_any_to_int q 0 Hq) in H. cbn [List.length] in H.
      change (pos_read 0 0) with (@None nat) in H. cbn iota in H.
      destruct (new_container q') as [w1|e| |] eqn:E1; try discriminate.
      destruct (set_c E w1 c q' r) as [w2 [y|e| |]] eqn:E2; try discriminate.
      constructor; [right; exact Hq|]. apply (IH q' (Forall_inv_tail HP)). exists w1, w2. split; [exact E1|].
      destruct (fresh_built E c Hc r q' w1 w2 y (Forall_inv_tail HP) E1 E2) as (_ & ->). exact E2.
Qed.

Lemma set_at_index_iff (l : list V) c i : (exists l', set_at_index l c i = Ok l') <-> - Z.of_nat (List.length l) <= i <= Z.of_nat (List.length l).
Proof.
  unfold set_at_index. destruct (Z.eqb_spec i (Z.of_nat (List.length l))) as [->|N].
  - split; [lia|eauto].
  - destruct (pos_read (List.length l) i) as [n|] eqn:Er.
    + split; [|eauto]. intros _. destruct (pos_read_some _ _ _ Er) as (a & x & b & -> & _ & Rf).
      rewrite app_length. cbn [List.length]. unfold refers in Rf. lia.
    + apply pos_read_none in Er. split; [intros (l' & H); discriminate|lia].
Qed.

Theorem set_c_settable E c : uninitialized c = false -> forall ps v p, maps_ok v ->
  Forall plain (p :: ps) -> ((exists v', set_c E v c p ps = (v', Ok c)) <-> settable v (p :: ps)).
Proof.
  intros Hc. induction ps as [|q r IH]; intros v p Mv HP.
  - rewrite set_c_one by exact (Forall_inv HP). rewrite Hc.
    split.
    + intros (v' & H). destruct (uninitialized v) eqn:Ev; [discriminate|].
      unfold at_last_param in H. destruct v as [ |s|nn src|i kvs lo|l|b| | | ]; try discriminate.
      * destruct p as [j|u|k|l| |]; cbn in H; try discriminate. constructor.
      * destruct (any_to_int p) as [i|e| |] eqn:Ei; try discriminate.
        destruct (set_at_index l c i) as [l'|e| |] eqn:El; try discriminate.
        eapply settable_elem; [exact (any_to_int_fits _ _ Ei)|]. apply (set_at_index_iff l c i). eauto.
    + intros H. inversion H as [i kvs lo k|l p0 i Hi B| | | |]; subst.
      * cbn. eauto.
      * change (uninitialized (VArr l)) with false. cbn iota. cbn [at_last_param].
        rewrite (fits_any_to_int p i Hi). apply (set_at_index_iff l c i) in B as (l' & El). rewrite El. eauto.
  - rewrite set_c_more by exact (Forall_inv HP). rewrite Hc.
    pose proof (fresh_settable E c Hc r q (Forall_inv_tail HP)) as HFr.
    split.
    + intros (v' & H). destruct (uninitialized v) eqn:Ev; [discriminate|].
      destruct v as [ |s|nn src|i kvs lo|l|b| | | ]; try discriminate.
      * destruct p as [j|u|k|l| |]; cbn [any_to_string] in H; try discriminate.
        destruct (alookup k kvs) as [[id x]|] eqn:El.
        -- destruct (set_c E x c q r) as [x' [y|e| |]] eqn:Es; try discriminate. injection H as <- ->.
           pose proof (alookup_In _ _ _ El) as Hin. eapply settable_into_key; [exact Hin|].
           apply maps_ok_obj in Mv as (_ & MF). rewrite Forall_forall in MF.
           apply (IH x q (MF _ Hin) (Forall_inv_tail HP)). eauto.
        -- destruct (new_container q) as [w0|e| |] eqn:E0; try discriminate.
           destruct (set_c E w0 c q r) as [w [y|e| |]] eqn:Es; try discriminate.
           apply settable_new_key.
           ++ intros id x Hin. apply alookup_None in El. apply El. change k with (fst (k, (id, x))). now apply in_map.
           ++ apply HFr. exists w0, w. split; [reflexivity|].
              destruct (fresh_built E c Hc r q w0 w y (Forall_inv_tail HP) E0 Es) as (_ & ->). exact Es.
      * destruct (any_to_int p) as [i|e| |] eqn:Ei; try discriminate.
        pose proof (any_to_int_fits _ _ Ei) as Hi.
        destruct (pos_read (List.length l) i) as [n|] eqn:Er.
        -- destruct (pos_read_some _ _ _ Er) as (a & x & b & -> & <- & Rf).
           pose proof (nth_pos_read _ _ _ Er) as Hn. rewrite nth_error_app_here in Hn. injection Hn as Hn. rewrite <- Hn in H.
           destruct (set_c E x c q r) as [x' [y|e| |]] eqn:Es; try discriminate. injection H as <- ->.
           eapply settable_into_elem; [exact Hi|exact Rf|].
           apply maps_ok_arr, Forall_app in Mv as (_ & Mb).
           apply (IH x q (Forall_inv Mb) (Forall_inv_tail HP)). eauto.
        -- destruct (new_container q) as [w0|e| |] eqn:E0; try discriminate.
           destruct (set_c E w0 c q r) as [w [y|e| |]] eqn:Es; try discriminate.
           eapply settable_new_elem; [exact Hi|now apply pos_read_none|].
           apply HFr. exists w0, w. split; [reflexivity|].
           destruct (fresh_built E c Hc r q w0 w y (Forall_inv_tail HP) E0 Es) as (_ & ->). exact Es.
    + intros H. inversion H as [ | |i kvs lo k id x q0 r0 Hin Hs|a x b p0 i q0 r0 Hi Rf Hs|i kvs lo k q0 r0 HN HK|l p0 i q0 r0 Hi HB HK]; subst.
      * change (uninitialized (VObj i kvs lo)) with false. cbn [any_to_string].
        apply maps_ok_obj in Mv as (ND & MF). rewrite (alookup_NoDup_In _ _ _ ND Hin).
        rewrite Forall_forall in MF.
        destruct (proj2 (IH x q (MF _ Hin) (Forall_inv_tail HP)) Hs) as (x' & Ex). rewrite Ex. eauto.
      * change (uninitialized (VArr (a ++ x :: b))) with false. cbn iota.
        rewrite (fits_any_to_int p i Hi). pose proof (pos_read_refers _ _ x _ Rf) as Er. rewrite Er.
        pose proof (nth_pos_read _ _ _ Er) as Hn. rewrite nth_error_app_here in Hn. injection Hn as Hn. rewrite <- Hn.
        apply maps_ok_arr, Forall_app in Mv as (_ & Mb).
        destruct (proj2 (IH x q (Forall_inv Mb) (Forall_inv_tail HP)) Hs) as (x' & Ex). rewrite Ex. eauto.
      * change (uninitialized (VObj i kvs lo)) with false. cbn [any_to_string].
        destruct (alookup k kvs) as [[id x]|] eqn:El; [exfalso; exact (HN _ _ (alookup_In _ _ _ El))|].
        destruct (proj1 HFr HK) as (w0 & w & E0 & Es). rewrite E0, Es. cbn. eauto.
      * change (uninitialized (VArr l)) with false. cbn iota.
        rewrite (fits_any_to_int p i Hi). apply pos_read_none in HB. rewrite HB.
        destruct (proj1 HFr HK) as (w0 & w & E0 & Es). rewrite E0, Es. eauto.
Qed.
