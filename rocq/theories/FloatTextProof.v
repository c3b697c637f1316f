(** Finite floats through a text: proofs. *)
From Verif Require Import Base Float64 Value Scan Unmarshal Access Pure Opt Marshal ListLemmas SpecJson SpecValue SpecLax SpecText
  SpecRound SpecFloatText UnmarshalProof ValueLemmas NumProof LaxNum LaxParse RoundTrip NumFacts RoundProof RoundClaims
  MarshalClaims GetClaims ExampleWorld.
From Verif Require LaxFacts.

(** *** The nearest number is unique *)

Lemma pow_pos' a : -1074 <= a -> 0 < 2 ^ (a + 1074).
Proof. intros H. apply Z.pow_pos_nonneg; lia. Qed.

(** A larger exponent in normal form means a larger number, with room between. *)
Lemma size_lt M1 q1 M2 q2 : binary64 M1 q1 -> binary64 M2 q2 -> normal_form M2 q2 -> q1 < q2 ->
  2 ^ 53 * 2 ^ (q1 + 1074) <= size M2 q2.
Proof.
  intros [_ H1] [_ H2] [N|N] L; [|lia]. unfold size. rewrite (pow_split (q1 + 1) q2) by lia.
  replace (q1 + 1 + 1074) with (Z.succ (q1 + 1074)) by ring. rewrite Z.pow_succ_r by lia.
  pose proof (pow_pos' q1 ltac:(lia)). pose proof (Z.pow_pos_nonneg 2 (q2 - (q1 + 1)) ltac:(lia) ltac:(lia)).
  rewrite E53 in *. rewrite E52 in *.
  set (x := 2 ^ (q1 + 1074)) in *. set (y := 2 ^ (q2 - (q1 + 1))) in *. clearbody x y.
  assert (4503599627370496 <= M2 * y) by nia. replace (M2 * (y * (2 * x))) with (M2 * y * (2 * x)) by ring. nia.
Qed.

Lemma size_inj M1 q1 M2 q2 : binary64 M1 q1 -> normal_form M1 q1 -> binary64 M2 q2 -> normal_form M2 q2 ->
  size M1 q1 = size M2 q2 -> M1 = M2 /\ q1 = q2.
Proof.
  assert (L : forall M1 q1 M2 q2, binary64 M1 q1 -> binary64 M2 q2 -> normal_form M2 q2 -> size M1 q1 = size M2 q2 -> ~ q1 < q2).
  { intros a b c d B1 B2 N E L. pose proof (size_lt a b c d B1 B2 N L) as H. rewrite <- E in H. unfold size in H.
    destruct B1 as [B1 B3]. pose proof (pow_pos' b ltac:(lia)). nia. }
  intros B1 N1 B2 N2 E.
  assert (q1 = q2).
  { pose proof (L _ _ _ _ B1 B2 N2 E). pose proof (L _ _ _ _ B2 B1 N1 (eq_sym E)). lia. }
  subst q2. split; [|reflexivity]. unfold size in E. destruct B1 as [_ B1]. pose proof (pow_pos' q1 ltac:(lia)). nia.
Qed.

(** Between two different numbers whose last bits are 0 lies a third. *)
Lemma between M1 q1 M2 q2 : binary64 M1 q1 -> normal_form M1 q1 -> binary64 M2 q2 -> normal_form M2 q2 ->
  Z.even M1 = true -> Z.even M2 = true -> size M1 q1 < size M2 q2 ->
  exists M q, binary64 M q /\ size M1 q1 < size M q < size M2 q2.
Proof.
  intros B1 N1 B2 N2 E1 E2 L. exists (M1 + 1), q1.
  destruct B1 as [B1 B3]. pose proof (pow_pos' q1 ltac:(lia)) as P.
  assert (B : binary64 (M1 + 1) q1).
  { split; [|lia]. rewrite E53 in *. assert (M1 <> 9007199254740991) by (intros ->; discriminate). lia. }
  split; [exact B|]. split; [unfold size; nia|].
  destruct (Z.lt_trichotomy q1 q2) as [H|[H|H]].
  - pose proof (size_lt (M1 + 1) q1 M2 q2 B B2 N2 H) as G. destruct B as [B _]. unfold size in *.
    assert ((M1 + 1) * 2 ^ (q1 + 1074) < 2 ^ 53 * 2 ^ (q1 + 1074)) by nia. lia.
  - subst q2. unfold size in *. assert (M1 < M2) by nia.
    assert (M1 + 1 <> M2).
    { intros <-. rewrite Z.add_1_r, Z.even_succ, <- Z.negb_even, E1 in E2. discriminate. }
    nia.
  - exfalso. pose proof (size_lt M2 q2 M1 q1 B2 (conj B1 B3) N1 H) as G. destruct B2 as [B2 B4].
    pose proof (pow_pos' q2 ltac:(lia)). unfold size in *. nia.
Qed.

Lemma parts_inj f g p : parts f = Some p -> parts g = Some p -> f = g.
Proof.
  destruct f as [s|s| |s m q], g as [s'|s'| |s' m' q']; cbn; intros H1 H2; try discriminate;
    rewrite <- H2 in H1; injection H1; intros; subst; solve [discriminate|reflexivity].
Qed.

Lemma units_size s M q : units s M q = (if s then -1 else 1) * size M q.
Proof. unfold units, size. ring. Qed.

Lemma bottom_pos e : 0 < bottom e.
Proof. apply Z.pow_pos_nonneg; lia. Qed.

Lemma distance_size s m e M q :
  distance s m e (units s M q) = Z.abs (m * 10 ^ Z.max e 0 * 2 ^ 1074 - size M q * bottom e).
Proof.
  unfold distance, top. rewrite units_size. destruct s.
  - rewrite <- Z.abs_opp. f_equal. ring.
  - f_equal. ring.
Qed.

Lemma nearest_unique s m e f g : nearest s m e f -> nearest s m e g -> f = g.
Proof.
  intros (M1 & q1 & P1 & B1 & N1 & H1) (M2 & q2 & P2 & B2 & N2 & H2).
  assert (D : size M1 q1 = size M2 q2).
  { destruct (H1 s M2 q2 B2) as [L1 T1]. destruct (H2 s M1 q1 B1) as [L2 T2].
    pose proof (Z.le_antisymm _ _ L1 L2) as D. specialize (T1 D). specialize (T2 (eq_sym D)).
    assert (U : forall M q M' q', units s M q = units s M' q' -> size M q = size M' q').
    { intros M q M' q'. rewrite !units_size. destruct s; lia. }
    destruct T1 as [T1|T1]; [now apply U|]. destruct T2 as [T2|T2]; [symmetry; now apply U|].
    destruct (Z.lt_trichotomy (size M1 q1) (size M2 q2)) as [X|[X|X]]; [|exact X|]; exfalso.
    - destruct (between _ _ _ _ B1 N1 B2 N2 T1 T2 X) as (M & q & B & Y).
      destruct (H1 s M q B) as [Z1 _]. rewrite !distance_size in *. pose proof (bottom_pos e).
      set (A := m * 10 ^ Z.max e 0 * 2 ^ 1074) in *. clearbody A. nia.
    - destruct (between _ _ _ _ B2 N2 B1 N1 T2 T1 X) as (M & q & B & Y).
      destruct (H1 s M q B) as [Z1 _]. rewrite !distance_size in *. pose proof (bottom_pos e).
      set (A := m * 10 ^ Z.max e 0 * 2 ^ 1074) in *. clearbody A. nia. }
  destruct (size_inj _ _ _ _ B1 N1 B2 N2 D) as [-> ->]. eapply parts_inj; eassumption.
Qed.

(** *** Comparison *)

Lemma cmp_size M1 q1 M2 q2 : binary64 (Z.pos M1) q1 -> normal_form (Z.pos M1) q1 -> binary64 (Z.pos M2) q2 -> normal_form (Z.pos M2) q2 ->
  SFcompare (S754_finite false M1 q1) (S754_finite false M2 q2) = Some (size (Z.pos M1) q1 ?= size (Z.pos M2) q2).
Proof.
  intros B1 N1 B2 N2. cbn [SFcompare].
  destruct (Z.compare_spec q1 q2) as [H|H|H].
  - subst q2. f_equal. change (Pos.compare_cont Eq M1 M2) with (Z.pos M1 ?= Z.pos M2). unfold size.
    destruct B1 as [_ B1]. pose proof (pow_pos' q1 ltac:(lia)). apply Zmult_compare_compat_r. lia.
  - pose proof (size_lt _ _ _ _ B1 B2 N2 H) as G. f_equal. symmetry. apply Z.compare_lt_iff.
    destruct B1 as [B1 B3]. pose proof (pow_pos' q1 ltac:(lia)). unfold size in *. nia.
  - pose proof (size_lt _ _ _ _ B2 B1 N1 H) as G. f_equal. symmetry. apply Z.compare_gt_iff.
    destruct B2 as [B2 B3]. pose proof (pow_pos' q2 ltac:(lia)). unfold size in *. nia.
Qed.

Lemma size_zero q : size 0 q = 0.
Proof. reflexivity. Qed.

Lemma size_nonneg M q : binary64 M q -> 0 <= size M q.
Proof. intros [H1 H2]. pose proof (pow_pos' q ltac:(lia)). unfold size. nia. Qed.

Lemma cmp_abs f s M q p k : float64 f s M q -> binary64 (Z.pos p) k -> normal_form (Z.pos p) k ->
  SFcompare (SFabs f) (S754_finite false p k) = Some (size M q ?= size (Z.pos p) k).
Proof.
  intros (P & B & N) B' N'.
  destruct f as [z|z| |z m e]; try discriminate; injection P as <- <- <-.
  - cbn [SFabs SFcompare]. rewrite size_zero. f_equal. symmetry. apply Z.compare_lt_iff. unfold size.
    destruct B' as [_ B']. pose proof (pow_pos' k ltac:(lia)). nia.
  - cbn [SFabs]. now apply cmp_size.
Qed.

(** *** Bounds on the literal *)

Lemma nearest_below s m e f M q X k : nearest s m e f -> float64 f s M q -> binary64 X k -> size M q < size X k ->
  m * 10 ^ Z.max e 0 * 2 ^ 1074 < size X k * bottom e.
Proof.
  intros (M1 & q1 & P1 & B1 & N1 & H) (P & _) B L. rewrite P in P1. injection P1 as <- <-.
  destruct (H s X k B) as [H1 _]. rewrite !distance_size in H1. pose proof (bottom_pos e).
  set (A := m * 10 ^ Z.max e 0 * 2 ^ 1074) in *. clearbody A. nia.
Qed.

Lemma nearest_above s m e f M q X k : nearest s m e f -> float64 f s M q -> binary64 X k -> size X k < size M q ->
  size X k * bottom e < m * 10 ^ Z.max e 0 * 2 ^ 1074.
Proof.
  intros (M1 & q1 & P1 & B1 & N1 & H) (P & _) B L. rewrite P in P1. injection P1 as <- <-.
  destruct (H s X k B) as [H1 _]. rewrite !distance_size in H1. pose proof (bottom_pos e).
  set (A := m * 10 ^ Z.max e 0 * 2 ^ 1074) in *. clearbody A. nia.
Qed.

(** A power of two as a binary64 number. *)
Lemma pow_binary k : 52 <= k <= 900 -> binary64 (2 ^ 52) (k - 52) /\ size (2 ^ 52) (k - 52) = size (2 ^ k) 0.
Proof.
  intros H. split; [split; [rewrite E52, E53|]; lia|]. unfold size. rewrite <- !Z.pow_add_r by lia. f_equal. ring.
Qed.

Lemma lit_below s ip fd f M q k : Forall digit ip -> Forall digit fd -> lit_nearest s ip fd 0 f -> float64 f s M q -> 52 <= k <= 900 ->
  size M q < size (2 ^ k) 0 -> digits_val ip < 2 ^ k.
Proof.
  intros D1 D2 N F Hk L. destruct (pow_binary k Hk) as [B S]. rewrite <- S in L.
  pose proof (nearest_below _ _ _ _ _ _ _ _ N F B L) as H. rewrite S in H. unfold size, bottom in H.
  rewrite Z.max_r in H by lia. rewrite Z.max_l in H by lia. rewrite Z.pow_0_r, Z.mul_1_r in H.
  change (0 + 1074) with 1074 in H.
  replace (- (0 - Z.of_nat (List.length fd))) with (Z.of_nat (List.length fd)) in H by ring.
  change digits_val with (dval 0) in *. rewrite dval_app, dval_acc in H.
  pose proof (dval_bounds fd D2). pose proof (dval_bounds ip D1).
  assert (T : 0 < 2 ^ 1074) by (apply Z.pow_pos_nonneg; lia).
  assert (P : 0 < 10 ^ Z.of_nat (List.length fd)) by (apply Z.pow_pos_nonneg; lia).
  set (t := 2 ^ 1074) in *. set (p := 10 ^ Z.of_nat (List.length fd)) in *. set (x := 2 ^ k) in *. clearbody t p x.
  set (a := dval 0 ip) in *. set (b := dval 0 fd) in *. clearbody a b. clear -H H0 H1 T P.
  assert (a * p + b < x * p) by nia. nia.
Qed.

Lemma lit_above s ip f M q k : Forall digit ip -> lit_nearest s ip [] 0 f -> float64 f s M q -> 52 <= k <= 900 ->
  size (2 ^ k) 0 < size M q -> 2 ^ k < digits_val ip.
Proof.
  intros D1 N F Hk L. destruct (pow_binary k Hk) as [B S]. rewrite <- S in L.
  pose proof (nearest_above _ _ _ _ _ _ _ _ N F B L) as H. rewrite S in H. unfold size, bottom in H.
  rewrite app_nil_r in H. cbn [List.length] in H. change (0 - Z.of_nat 0) with 0 in H. change (- 0) with 0 in H. change (Z.max 0 0) with 0 in H.
  rewrite Z.pow_0_r, !Z.mul_1_r in H. change (0 + 1074) with 1074 in H.
  assert (T : 0 < 2 ^ 1074) by (apply Z.pow_pos_nonneg; lia).
  set (t := 2 ^ 1074) in *. set (x := 2 ^ k) in *. clearbody t x. nia.
Qed.

(** *** The choice of the format *)

Lemma size_int M q X : 0 <= q -> M * 2 ^ q = X -> size M q = size X 0.
Proof. intros H <-. unfold size. rewrite Z.pow_add_r by lia. change (0 + 1074) with 1074. ring. Qed.

Lemma e21_parts : exists p k, f_1e21 = S754_finite false p k /\ binary64 (Z.pos p) k /\ normal_form (Z.pos p) k /\
  size (Z.pos p) k = size (10 ^ 21) 0.
Proof.
  eexists. eexists. split; [vm_compute; reflexivity|]. split; [split; lia|]. split; [left; lia|].
  apply size_int; [lia|reflexivity].
Qed.

Lemma em6_parts : exists p k, f_1em6 = S754_finite false p k /\ binary64 (Z.pos p) k /\ normal_form (Z.pos p) k /\
  size (Z.pos p) k < size (2 ^ 53) 0.
Proof.
  eexists. eexists. split; [vm_compute; reflexivity|]. split; [split; lia|]. split; [left; lia|].
  apply Z.ltb_lt. vm_compute. reflexivity.
Qed.

Definition e_format (f : spec_float) : bool := SFltb (f_abs f) f_1em6 || SFleb f_1e21 (f_abs f).

Lemma e_format_large f s M q : float64 f s M q -> size (10 ^ 21) 0 <= size M q -> e_format f = true.
Proof.
  intros F L. unfold e_format. destruct e21_parts as (p & k & -> & B & N & S). rewrite <- S in L.
  apply orb_true_iff. right. unfold SFleb, f_abs.
  replace (SFcompare (S754_finite false p k) (SFabs f)) with (Some (size (Z.pos p) k ?= size M q)).
  - destruct (Z.compare_spec (size (Z.pos p) k) (size M q)); [reflexivity|reflexivity|lia].
  - symmetry. destruct F as (P & B1 & N1). pose proof (pow_pos' k ltac:(destruct B; lia)) as X.
    destruct f as [z|z| |z m e]; try discriminate; injection P as <- <- <-.
    + exfalso. rewrite size_zero in L. unfold size in L. nia.
    + cbn [SFabs]. now apply cmp_size.
Qed.

Lemma e_format_mid f s M q : float64 f s M q -> size (2 ^ 53) 0 <= size M q < size (10 ^ 21) 0 -> e_format f = false.
Proof.
  intros F [L1 L2]. unfold e_format. apply orb_false_iff. split.
  - destruct em6_parts as (p & k & -> & B & N & S). unfold SFltb, f_abs. rewrite (cmp_abs f s M q p k F B N).
    destruct (Z.compare_spec (size M q) (size (Z.pos p) k)); [reflexivity|lia|reflexivity].
  - destruct e21_parts as (p & k & -> & B & N & S). rewrite <- S in L2. unfold SFleb, f_abs.
    destruct F as (P & B1 & N1).
    destruct f as [z|z| |z m e]; try discriminate; injection P as <- <- <-.
    + reflexivity.
    + cbn [SFabs]. rewrite (cmp_size p k m e B N B1 N1).
      destruct (Z.compare_spec (size (Z.pos p) k) (size (Z.pos m) e)); [lia|lia|reflexivity].
Qed.

Lemma new_float64_text E W o f s M q : float64 f s M q ->
  (exists c r, fmt_float E f (if e_format f then 101 else 102) (-1) 64 = c :: r) ->
  marshal_opt E W o (new_float64 E f) = Ok (fmt_float E f (if e_format f then 101 else 102) (-1) 64).
Proof.
  intros (P & _) (c & r & Ht). unfold new_float64, new_float64f_. fold (e_format f).
  replace (is_valid_float f) with true by (destruct f; try discriminate; reflexivity).
  rewrite Ht. reflexivity.
Qed.

Lemma num_lit_ne t neg ip fd e i : num_lit t neg ip fd e i -> exists c r, t = c :: r.
Proof.
  intros H. inversion H as [? ? fr ? ex ? Hip ? ?]; subst. destruct neg; [cbn; eauto|].
  destruct Hip; cbn; eauto.
Qed.

(** *** Survival *)

Lemma lit_reads E t s ip fd e i f M q : num_lit t s ip fd e i ->
  (if i then (if s then digits_val ip <= two63 else digits_val ip < two64) else Z.abs e <= 99999 /\ no_wrap ip) ->
  reads_as s ip fd e f -> float64 f s M q ->
  exists v, unmarshal E t = Ok (v, None) /\ api_float64 E v = Ok f.
Proof.
  intros HL Hfit [HO HN] HF.
  assert (X : lit_f64 s ip fd e = f).
  { inversion HL as [? ? fr ? ex ? Hip Hfr Hex]; subst. destruct (int_part_digits ip Hip) as [D _].
    destruct (lit_f64_ok s ip fd e D (frac_digits _ _ Hfr)) as [[O1 O2]|[O1 O2]]; [contradiction|].
    eapply nearest_unique; eassumption. }
  destruct (q_number_fits E t s ip fd e i [] HL) as (n & Hq & Hd); [|exact I|].
  { destruct i; [exact Hfit|]. split; [|exact Hfit]. rewrite X. destruct HF as [HF _]. destruct f; [exact I|discriminate|discriminate|exact I]. }
  rewrite app_nil_r in Hq. exists (VNum n t). split; [now apply lit_doc|].
  destruct Hd as [Hd _]. cbn. now rewrite Hd, X.
Qed.

Lemma num_lit_parts t s ip fd e i : num_lit t s ip fd e i ->
  int_part ip /\ Forall digit ip /\ Forall digit fd /\ (i = true -> fd = [] /\ e = 0 /\ t = (if s then [45] else []) ++ ip).
Proof.
  intros HL. inversion HL as [? ? fr ? ex ? Hip Hfr Hex]; subst. destruct (int_part_digits ip Hip) as [D _].
  split; [exact Hip|]. split; [exact D|]. split; [exact (frac_digits _ _ Hfr)|].
  destruct (fr ++ ex) eqn:E; [|discriminate]. intros _. apply app_eq_nil in E as [-> ->].
  inversion Hfr; inversion Hex; subst. rewrite app_nil_r. auto.
Qed.

Theorem float_survives E W o f s M q : format_contract E -> float64 f s M q ->
  ~ too_wide s M q -> ~ at_limit s M q -> survives E W o f.
Proof.
  intros C F HT HA. destruct (C f s M q F) as [(ip & fd & i & HL & HR & Hi) (c & fd' & e' & HL' & HR' & He')].
  unfold survives. destruct (e_format f) eqn:Ef.
  - pose proof (new_float64_text E W o f s M q F) as HM. rewrite Ef in HM.
    destruct (lit_reads E _ _ _ _ _ _ f M q HL') as (v & H1 & H2); [|exact HR'|exact F|].
    + split; [exact He'|]. intros p r Ep Hp. destruct p as [|x [|]]; try discriminate. now elim Hp.
    + eexists. exists v. split; [apply HM; eapply num_lit_ne; exact HL'|]. auto.
  - pose proof (new_float64_text E W o f s M q F) as HM. rewrite Ef in HM.
    assert (L21 : size M q < size (10 ^ 21) 0).
    { apply Z.lt_nge. intros L. rewrite (e_format_large f s M q F L) in Ef. discriminate. }
    assert (LW : size M q < size (if s then 2 ^ 63 else 2 ^ 64) 0) by (unfold too_wide, at_limit in *; lia).
    destruct (num_lit_parts _ _ _ _ _ _ HL) as (Hip & D1 & D2 & HI).
    destruct (lit_reads E _ _ _ _ _ _ f M q HL) as (v & H1 & H2); [|exact HR|exact F|].
    + destruct HR as [_ HR]. destruct i.
      * destruct s.
        -- pose proof (lit_below _ _ _ _ _ _ 63 D1 D2 HR F ltac:(lia) LW) as X. change (2 ^ 63) with two63 in X. lia.
        -- exact (lit_below _ _ _ _ _ _ 64 D1 D2 HR F ltac:(lia) LW).
      * split; [cbn; lia|]. apply no_wrap_small; [exact D1|exact Hip|].
        assert (L53 : size M q < size (2 ^ 53) 0).
        { apply Z.lt_nge. intros L. specialize (Hi L). discriminate. }
        pose proof (lit_below _ _ _ _ _ _ 53 D1 D2 HR F ltac:(lia) L53) as X. rewrite E53 in X. unfold two64. lia.
    + eexists. exists v. split; [apply HM; eapply num_lit_ne; exact HL|]. auto.
Qed.

Lemma size_mono X Y : X <= Y -> size X 0 <= size Y 0.
Proof. intros H. unfold size. apply Z.mul_le_mono_nonneg_r; [|exact H]. apply Z.pow_nonneg. lia. Qed.

Theorem float_lost E W o f s M q : format_contract E -> float64 f s M q -> too_wide s M q -> ~ survives E W o f.
Proof.
  intros C F [T1 T2] (t & v & HM & HU & HV).
  assert (L53 : size (2 ^ 53) 0 <= size M q).
  { apply Z.lt_le_incl. eapply Z.le_lt_trans; [|exact T1]. apply size_mono. destruct s; rewrite E53; lia. }
  pose proof (e_format_mid f s M q F (conj L53 T2)) as Ef.
  destruct (C f s M q F) as [(ip & fd & i & HL & [_ HR] & Hi) _]. specialize (Hi L53). subst i.
  rewrite (new_float64_text E W o f s M q F), Ef in HM by (rewrite Ef; eapply num_lit_ne; exact HL).
  injection HM as <-.
  destruct (num_lit_parts _ _ _ _ _ _ HL) as (Hip & D1 & _ & HI). destruct (HI eq_refl) as (-> & _ & Et).
  destruct (number_doc E _ v (LaxFacts.num_lit_bytes _ _ _ _ _ _ HL) HU) as (HN & n & Hq & ->).
  destruct (lax_number_value E _ HN) as (n' & Hq' & Hl). rewrite Hq in Hq'. injection Hq' as <-.
  injection HV as HV. destruct (int_part_digits ip Hip) as [_ Hne].
  rewrite Et in HN, Hl. destruct s; cbn [app] in *.
  - pose proof (lit_above _ _ _ _ _ 63 D1 HR F ltac:(lia) T1) as X.
    destruct (lax_int_content _ _ HN Hl) as [_ HC]. destruct (HC ip eq_refl (conj Hne D1)) as (HC' & _).
    change (2 ^ 63) with two63 in X. lia.
  - destruct (lax_value_pos ip n (conj Hne D1) Hl) as (_ & _ & Hu & _ & Hf).
    set (k := digits_val ip mod two64) in *. assert (Hk : 0 <= k < two64) by (apply Z.mod_pos_bound; reflexivity).
    clearbody k. rewrite HV, Hu, <- f_of_dec_int in Hf by lia.
    destruct (f_of_dec_ok false k 0 ltac:(lia)) as [[_ O]|[_ O]].
    + destruct F as [F _]. rewrite Hf, O in F. discriminate.
    + rewrite <- Hf in O. destruct (pow_binary 64 ltac:(lia)) as [B S]. rewrite <- S in T1.
      pose proof (nearest_above _ _ _ _ _ _ _ _ O F B T1) as X. rewrite S in X. unfold size, bottom in X.
      change (- 0) with 0 in X. change (Z.max 0 0) with 0 in X. rewrite Z.pow_0_r, !Z.mul_1_r in X. change (0 + 1074) with 1074 in X.
      change (2 ^ 64) with two64 in X.
      assert (T : 0 < 2 ^ 1074) by (apply Z.pow_pos_nonneg; lia).
      set (u := 2 ^ 1074) in *. clearbody u. nia.
Qed.
