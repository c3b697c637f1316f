(** C75: Float64 of Equal numbers. *)
From Verif Require Import Base Float64 Value Scan Unmarshal Opt Marshal Access Compare ListLemmas SpecJson SpecNum SpecRound SpecFloatText NumProof NumFacts
  RoundProof RoundClaims CompareProof FloatTextProof.
From Verif Require LaxFacts CompareClaims.
From Coq Require Import QArith.
Open Scope Z_scope.

(** The same number written with other digits. *)
Lemma cross m1 e1 m2 e2 : dec_cmp (m1, e1) (m2, e2) = Eq ->
  m1 * 10 ^ Z.max e1 0 * bottom e2 = m2 * 10 ^ Z.max e2 0 * bottom e1.
Proof.
  unfold dec_cmp. cbn [fst snd]. intros H. apply Z.compare_eq in H. unfold bottom.
  rewrite <- !Z.mul_assoc, <- !Z.pow_add_r by lia.
  set (s := Z.min e1 e2) in *. set (c := Z.max e1 0 + Z.max (- e2) 0 - (e1 - s)).
  replace (Z.max e1 0 + Z.max (- e2) 0) with ((e1 - s) + c) by (unfold c; lia).
  replace (Z.max e2 0 + Z.max (- e1) 0) with ((e2 - s) + c) by (unfold c, s; lia).
  rewrite !Z.pow_add_r by (unfold c, s; lia). now rewrite !Z.mul_assoc, H.
Qed.
Lemma distance_cross neg m1 e1 m2 e2 u : m1 * 10 ^ Z.max e1 0 * bottom e2 = m2 * 10 ^ Z.max e2 0 * bottom e1 ->
  distance neg m1 e1 u * bottom e2 = distance neg m2 e2 u * bottom e1.
Proof.
  intros H. unfold distance, top. pose proof (bottom_pos e1) as B1. pose proof (bottom_pos e2) as B2.
  rewrite <- (Z.abs_eq (bottom e2)) at 1 by lia. rewrite <- (Z.abs_eq (bottom e1)) at 2 by lia. rewrite <- !Z.abs_mul. f_equal.
  generalize (2 ^ 1074). intros p. set (a := 10 ^ Z.max e1 0) in *. set (b := 10 ^ Z.max e2 0) in *. clearbody a b.
  replace (((if neg then -1 else 1) * m1 * a * p - u * bottom e1) * bottom e2)
    with ((if neg then -1 else 1) * p * (m1 * a * bottom e2) - u * bottom e1 * bottom e2) by ring.
  rewrite H. ring.
Qed.
Lemma scale_le a b x y p q : 0 < p -> 0 < q -> a * p = x * q -> b * p = y * q -> (a <= b <-> x <= y).
Proof. intros. split; intros; nia. Qed.
Lemma scale_eq a b x y p q : 0 < p -> 0 < q -> a * p = x * q -> b * p = y * q -> (a = b <-> x = y).
Proof. intros. split; intros; nia. Qed.
Lemma nearest_cross neg m1 e1 m2 e2 f : m1 * 10 ^ Z.max e1 0 * bottom e2 = m2 * 10 ^ Z.max e2 0 * bottom e1 ->
  nearest neg m1 e1 f -> nearest neg m2 e2 f.
Proof.
  intros H (M & q & P & B & N & K). exists M, q. repeat split; try assumption; try apply B; destruct (K s M' q' H0) as [K1 K2];
    pose proof (distance_cross neg m1 e1 m2 e2 (units neg M q) H) as D1; pose proof (distance_cross neg m1 e1 m2 e2 (units s M' q') H) as D2;
    pose proof (bottom_pos e1) as B1; pose proof (bottom_pos e2) as B2.
  - now apply (scale_le _ _ _ _ _ _ B2 B1 D1 D2).
  - intros Q. apply K2. now apply (scale_eq _ _ _ _ _ _ B2 B1 D1 D2).
Qed.
Lemma nearest_zero neg e f : nearest neg 0 e f -> f = S754_zero neg.
Proof.
  intros (M & q & P & B & N & K). assert (B0 : binary64 0 (-1074)) by (split; [split; [lia|reflexivity]|lia]).
  destruct (K neg 0 (-1074) B0) as [K1 _]. rewrite !distance_size in K1. pose proof (bottom_pos e) as Be.
  assert (Hs : size 0 (-1074) = 0) by reflexivity. rewrite Hs in K1. rewrite !Z.mul_0_l in K1. change (Z.abs (0 - 0)) with 0 in K1.
  assert (Hz : size M q * bottom e = 0) by lia. apply Z.mul_eq_0 in Hz as [Hz|Hz]; [|lia].
  unfold size in Hz. destruct B as [Bm Bq]. pose proof (pow_pos' q ltac:(lia)) as Pq. apply Z.mul_eq_0 in Hz as [->|Hz]; [|lia].
  destruct f as [s|s| |s m x]; cbn in P; try discriminate. now injection P as -> _.
Qed.
Lemma parts_eqb f p : parts f = Some p -> SFeqb f f = true.
Proof.
  unfold SFeqb. destruct f as [s|s| |s m q]; cbn; intros H; try discriminate; [reflexivity|].
  rewrite Z.compare_refl. destruct s; rewrite Pos.compare_cont_refl; reflexivity.
Qed.

Theorem equal_float64 : forall (E : Env) (W : World) path a b v w neg ip fd e i neg' ip' fd' e' i',
  num_lit a neg ip fd e i -> lit_small neg ip e i -> small_exponent a ->
  num_lit b neg' ip' fd' e' i' -> lit_small neg' ip' e' i' -> small_exponent b ->
  unmarshal E a = Ok (v, None) -> unmarshal E b = Ok (w, None) -> equal W path v w = true ->
  exists x y, api_float64 E v = Ok x /\ api_float64 E w = Ok y /\ SFeqb x y = true.
Proof.
  intros E W path a b v w neg ip fd e i neg' ip' fd' e' i' La Sa Xa Lb Sb Xb Ua Ub Q.
  destruct (literal_float64 E a neg ip fd e i v La Sa Ua) as (x & Fx & Nx).
  destruct (literal_float64 E b neg' ip' fd' e' i' w Lb Sb Ub) as (y & Fy & Ny).
  exists x, y. split; [exact Fx|]. split; [exact Fy|].
  destruct (number_doc E a v (LaxFacts.num_lit_bytes _ _ _ _ _ _ La) Ua) as (_ & n & _ & ->).
  destruct (number_doc E b w (LaxFacts.num_lit_bytes _ _ _ _ _ _ Lb) Ub) as (_ & m & _ & ->).
  cbn [equal] in Q. apply number_equal_q in Q. rewrite Qeq_alt, <- dec_cmp_q in Q.
  assert (Da : forall l n p f k j, num_lit l n p f k j -> small_exponent l ->
    dec_of l = (signed n (digits_val (p ++ f)), k - Z.of_nat (List.length f)) /\ Forall digit (p ++ f)).
  { intros l n0 p f k j [n1 p1 fr f1 ex k1 Hi Hf He] (n' & p' & f' & k' & D & R1 & R2).
    destruct (CompareClaims.int_part_digit _ Hi) as [Hd Hn].
    assert (D1 : decimal_text ((if n1 then [45] else []) ++ p1 ++ fr ++ ex) n1 p1 f1 k1).
    { constructor; try assumption. intros Hz. apply app_eq_nil in Hz as [Hz _]. contradiction. }
    destruct (decimal_unique _ _ _ _ _ _ _ _ _ D D1) as (-> & -> & -> & ->). split.
    - unfold dec_of. rewrite (dec_of_text _ _ _ _ _ D1).
      replace (in_i32 k1) with true by (unfold in_i32, two31; lia).
      replace (in_i32 (k1 - Z.of_nat (List.length f1))) with true by (unfold in_i32, two31; lia). reflexivity.
    - apply Forall_app. split; [exact Hd|]. destruct Hf as [|d (_ & Hf)]; [constructor|exact Hf]. }
  destruct (Da _ _ _ _ _ _ La Xa) as [E1 G1]. destruct (Da _ _ _ _ _ _ Lb Xb) as [E2 G2]. rewrite E1, E2 in Q. clear Da E1 E2.
  unfold lit_nearest in *. assert (P1 : 0 <= digits_val (ip ++ fd)) by exact (proj1 (dval_bounds _ G1)). assert (P2 : 0 <= digits_val (ip' ++ fd')) by exact (proj1 (dval_bounds _ G2)).
  set (m1 := digits_val (ip ++ fd)) in *. set (m2 := digits_val (ip' ++ fd')) in *.
  set (e1 := e - Z.of_nat (List.length fd)) in *. set (e2 := e' - Z.of_nat (List.length fd')) in *. clearbody m1 m2 e1 e2.
  apply cross in Q. pose proof (bottom_pos e1) as B1. pose proof (bottom_pos e2) as B2.
  assert (T1 : 0 < 10 ^ Z.max e1 0) by (apply Z.pow_pos_nonneg; lia). assert (T2 : 0 < 10 ^ Z.max e2 0) by (apply Z.pow_pos_nonneg; lia).
  assert (X1 : 0 < 10 ^ Z.max e1 0 * bottom e2) by nia. assert (X2 : 0 < 10 ^ Z.max e2 0 * bottom e1) by nia.
  rewrite <- !Z.mul_assoc in Q.
  assert (C : (m1 = 0 /\ m2 = 0) \/ (neg = neg' /\ m1 * (10 ^ Z.max e1 0 * bottom e2) = m2 * (10 ^ Z.max e2 0 * bottom e1))).
  { revert Q X1 X2. generalize (10 ^ Z.max e1 0 * bottom e2) (10 ^ Z.max e2 0 * bottom e1). clear -P1 P2. intros p q Q Hp Hq.
    assert (Z0 : forall m n, 0 <= m -> 0 < n -> m * n = 0 -> m = 0) by (intros m n _ Hn Hz; apply Z.mul_eq_0 in Hz as [Hz|Hz]; lia).
    assert (A1 : 0 <= m1 * p) by (apply Z.mul_nonneg_nonneg; lia). assert (A2 : 0 <= m2 * q) by (apply Z.mul_nonneg_nonneg; lia).
    destruct neg, neg'; unfold signed in Q.
    - right. split; [reflexivity|]. rewrite !Z.mul_opp_l in Q. lia.
    - left. rewrite !Z.mul_opp_l in Q. split; [apply (Z0 m1 p)|apply (Z0 m2 q)]; lia.
    - left. rewrite !Z.mul_opp_l in Q. split; [apply (Z0 m1 p)|apply (Z0 m2 q)]; lia.
    - right. split; [reflexivity|exact Q]. }
  destruct C as [[-> ->]|[<- C]].
  - apply nearest_zero in Nx as ->. apply nearest_zero in Ny as ->. reflexivity.
  - rewrite !Z.mul_assoc in C. apply (nearest_cross neg _ _ _ _ _ C) in Nx. rewrite (nearest_unique _ _ _ _ _ Nx Ny).
    destruct Ny as (M & q & P & _). eapply parts_eqb; exact P.
Qed.
