(** [f_of_dec] rounds to nearest. *)
From Verif Require Import Base Float64 SpecRound.

Lemma E52 : 2 ^ 52 = 4503599627370496. Proof. reflexivity. Qed.
Lemma E53 : 2 ^ 53 = 9007199254740992. Proof. reflexivity. Qed.
Lemma E54 : 2 ^ 54 - 1 = 18014398509481983. Proof. reflexivity. Qed.

(** The position of A among the multiples of P. *)
Definition inb (A P m : Z) (l : location) : Prop :=
  match l with
  | loc_Exact => A = m * P
  | loc_Inexact c => m * P < A < (m + 1) * P /\ (2 * A ?= (2 * m + 1) * P) = c
  end.
Definition inr (A P : Z) (r : shr_record) : Prop := inb A P (shr_m r) (loc_of_shr_record r).

Lemma inr_of_loc A P m l : inb A P m l -> inr A P (shr_record_of_loc m l).
Proof. destruct l as [|[]]; cbn; auto. Qed.

Lemma shr_1_m r : 0 <= shr_m r -> shr_m (shr_1 r) = shr_m r / 2.
Proof.
  destruct r as [m r s]. cbn [shr_m]. intros H. rewrite <- Z.div2_div.
  destruct m as [|[p|p|]|p]; try reflexivity. lia.
Qed.

Lemma shr_1_in A P r : 0 < P -> 0 <= shr_m r -> inr A P r -> inr A (2 * P) (shr_1 r).
Proof.
  intros HP. destruct r as [m r s]. cbn [shr_m]. unfold inr. intros Hm H.
  assert (Hc : forall m' (b : bool), 0 <= m' -> m = 2 * m' + (if b then 1 else 0) ->
    inb A (2 * P) m' (loc_of_shr_record (Build_shr_record m' b (orb r s)))).
  { intros m' b Hm' ->. set (t := m' * P).
    assert (E : (2 * m' + (if b then 1 else 0)) * P = 2 * t + (if b then P else 0)) by (unfold t; destruct b; ring).
    assert (E2 : m' * (2 * P) = 2 * t) by (unfold t; ring).
    destruct r, s, b; cbn [shr_m loc_of_shr_record orb inb] in *;
      rewrite ?Z.compare_gt_iff, ?Z.compare_lt_iff, ?Z.compare_eq_iff in *; nia. }
  destruct m as [|[p|p|]|p]; cbn [shr_1 shr_m]; [| | | |lia].
  - apply (Hc 0 false); lia.
  - apply (Hc (Z.pos p) true); lia.
  - apply (Hc (Z.pos p) false); lia.
  - apply (Hc 0 true); lia.
Qed.

Lemma iter_plus {X} (f : X -> X) a b x : Nat.iter (a + b) f x = Nat.iter a f (Nat.iter b f x).
Proof. induction a as [|a IH]; [reflexivity|]. cbn. now f_equal. Qed.

Lemma iter_pos_nat {X} (f : X -> X) p x : iter_pos f p x = Nat.iter (Pos.to_nat p) f x.
Proof.
  revert x. induction p as [p IH|p IH|]; intros x; cbn [iter_pos].
  - rewrite !IH, Pos2Nat.inj_xI. replace (S (2 * Pos.to_nat p))%nat with (Pos.to_nat p + (Pos.to_nat p + 1))%nat by lia.
    rewrite !iter_plus. reflexivity.
  - rewrite !IH, Pos2Nat.inj_xO. replace (2 * Pos.to_nat p)%nat with (Pos.to_nat p + Pos.to_nat p)%nat by lia.
    rewrite !iter_plus. reflexivity.
  - reflexivity.
Qed.

Lemma shr_n A P n r : 0 < P -> 0 <= shr_m r -> inr A P r ->
  inr A (2 ^ Z.of_nat n * P) (Nat.iter n shr_1 r) /\ shr_m (Nat.iter n shr_1 r) = shr_m r / 2 ^ Z.of_nat n.
Proof.
  intros HP Hm H. induction n as [|n [I1 I2]].
  - cbn [Nat.iter nat_rect Z.of_nat]. rewrite Z.pow_0_r, Z.mul_1_l, Z.div_1_r. auto.
  - assert (HQ : 0 < 2 ^ Z.of_nat n) by (apply Z.pow_pos_nonneg; lia).
    change (Nat.iter (S n) shr_1 r) with (shr_1 (Nat.iter n shr_1 r)).
    rewrite Nat2Z.inj_succ, Z.pow_succ_r by lia.
    assert (G : 0 <= shr_m (Nat.iter n shr_1 r)) by (rewrite I2; apply Z.div_pos; lia).
    split.
    + rewrite <- Z.mul_assoc. apply shr_1_in; [nia|exact G|exact I1].
    + rewrite shr_1_m by exact G. rewrite I2, Z.div_div by lia. f_equal. ring.
Qed.

(** [shr] by n places, n of any sign. *)
Lemma shr_ok A D e n r : 0 < D -> -1074 <= e -> 0 <= shr_m r -> inr A (2 ^ (e + 1074) * D) r ->
  let '(r', e') := shr r e n in
  e' = e + Z.max n 0 /\ inr A (2 ^ (e' + 1074) * D) r' /\ shr_m r' = shr_m r / 2 ^ Z.max n 0.
Proof.
  intros HD He Hm H.
  assert (HP : 0 < 2 ^ (e + 1074)) by (apply Z.pow_pos_nonneg; lia).
  destruct n as [|p|p]; cbn [shr].
  - rewrite Z.max_id, Z.add_0_r, Z.pow_0_r, Z.div_1_r. auto.
  - rewrite iter_pos_nat. destruct (shr_n A _ (Pos.to_nat p) r (Z.mul_pos_pos _ _ HP HD) Hm H) as [I1 I2].
    rewrite positive_nat_Z in *. rewrite Z.max_l by lia.
    split; [reflexivity|]. split; [|exact I2].
    replace (e + Z.pos p + 1074) with (Z.pos p + (e + 1074)) by ring.
    rewrite Z.pow_add_r by lia. now rewrite <- Z.mul_assoc.
  - rewrite Z.max_r, Z.add_0_r, Z.pow_0_r, Z.div_1_r by lia. auto.
Qed.

(** ** Digits *)
Lemma digits2_pos_log p : Z.pos (digits2_pos p) = Z.log2 (Z.pos p) + 1.
Proof.
  induction p as [p IH|p IH|]; cbn [digits2_pos].
  - rewrite Pos2Z.inj_succ, IH, Pos2Z.inj_xI, Z.log2_succ_double by lia. lia.
  - rewrite Pos2Z.inj_succ, IH, Pos2Z.inj_xO, Z.log2_double by lia. lia.
  - reflexivity.
Qed.

Lemma digits2_bounds m : 0 < m -> 0 < Zdigits2 m /\ 2 ^ (Zdigits2 m - 1) <= m < 2 ^ Zdigits2 m.
Proof.
  destruct m as [|p|p]; try lia. intros _. cbn [Zdigits2]. rewrite digits2_pos_log.
  pose proof (Z.log2_spec (Z.pos p) ltac:(lia)) as H. pose proof (Z.log2_nonneg (Z.pos p)) as G.
  replace (Z.log2 (Z.pos p) + 1 - 1) with (Z.log2 (Z.pos p)) by ring.
  rewrite <- Z.add_1_r in H. lia.
Qed.

Lemma digits2_le m k : 0 <= k -> 0 <= m < 2 ^ k -> Zdigits2 m <= k.
Proof.
  intros Hk Hm. destruct (Z.eq_dec m 0) as [->|N]; [cbn; lia|].
  destruct (digits2_bounds m ltac:(lia)) as [H1 [H2 H3]].
  destruct (Z_le_gt_dec (Zdigits2 m) k) as [L|L]; [exact L|exfalso].
  pose proof (Z.pow_le_mono_r 2 k (Zdigits2 m - 1) ltac:(lia) ltac:(lia)). lia.
Qed.

Lemma fexp_eq z : fexp prec emax z = Z.max (z - 53) (-1074).
Proof. reflexivity. Qed.

(** The first shift: at most 53 bits are left, and 53 unless subnormal. *)
Lemma shr_fexp_first A D mx ex l : 0 < D -> -1074 <= ex -> 0 <= mx ->
  ex <= fexp prec emax (Zdigits2 mx + ex) -> inb A (2 ^ (ex + 1074) * D) mx l ->
  let '(r, e) := shr_fexp prec emax mx ex l in
  -1074 <= e /\ inr A (2 ^ (e + 1074) * D) r /\ 0 <= shr_m r < 2 ^ 53 /\ (2 ^ 52 <= shr_m r \/ e = -1074).
Proof.
  intros HD He Hm Hf H. unfold shr_fexp.
  assert (M : shr_m (shr_record_of_loc mx l) = mx) by (destruct l as [|[]]; reflexivity).
  pose proof (shr_ok A D ex (fexp prec emax (Zdigits2 mx + ex) - ex) (shr_record_of_loc mx l) HD He
    ltac:(rewrite M; exact Hm) (inr_of_loc _ _ _ _ H)) as S0.
  destruct (shr _ _ _) as [r e]. destruct S0 as [E [I Q]]. rewrite M in Q.
  rewrite fexp_eq in *. set (d := Zdigits2 mx) in *.
  set (n := Z.max (Z.max (d + ex - 53) (-1074) - ex) 0) in *.
  assert (Hn : 0 <= n) by lia. assert (HQ : 0 < 2 ^ n) by (apply Z.pow_pos_nonneg; lia).
  split; [lia|]. split; [exact I|]. rewrite Q.
  destruct (Z.eq_dec mx 0) as [->|N].
  { rewrite Z.div_0_l by lia. split; [lia|]. right. unfold d in *. cbn in Hf, E, n. lia. }
  destruct (digits2_bounds mx ltac:(lia)) as [B1 [B2 B3]]. fold d in B1, B2, B3.
  split; [split|].
  - apply Z.div_pos; lia.
  - apply Z.div_lt_upper_bound; [lia|]. rewrite <- Z.pow_add_r by lia.
    eapply Z.lt_le_trans; [exact B3|]. apply Z.pow_le_mono_r; lia.
  - destruct (Z.eq_dec e (-1074)) as [->|Ne]; [auto|]. left.
    assert (n = d - 53) by lia.
    apply Z.div_le_lower_bound; [lia|]. rewrite <- Z.pow_add_r by lia.
    eapply Z.le_trans; [|exact B2]. apply Z.pow_le_mono_r; lia.
Qed.

(** Rounding the last bit. *)
Lemma rne_ok A P m l : 0 < P -> inb A P m l ->
  let r := round_nearest_even m l in
  (r = m \/ r = m + 1) /\ (2 * r - 1) * P <= 2 * A <= (2 * r + 1) * P /\
  (2 * A = (2 * r + 1) * P \/ 2 * A = (2 * r - 1) * P -> Z.even r = true).
Proof.
  intros HP H. destruct l as [|[]]; cbn [inb round_nearest_even] in *.
  - subst A. split; [auto|]. split; [nia|]. intros [X|X]; exfalso; nia.
  - destruct H as [H C]. rewrite Z.compare_eq_iff in C.
    destruct (Z.even m) eqn:Ev.
    + split; [auto|]. split; [nia|]. auto.
    + split; [auto|]. split; [nia|]. intros _. now rewrite Z.even_add, Ev.
  - destruct H as [H C]. rewrite Z.compare_lt_iff in C.
    split; [auto|]. split; [nia|]. intros [X|X]; exfalso; nia.
  - destruct H as [H C]. rewrite Z.compare_gt_iff in C.
    split; [auto|]. split; [nia|]. intros [X|X]; exfalso; nia.
Qed.

(** Multiples of P: r is the nearest one. *)
Lemma near_multiple A P r k : 0 < P ->
  (2 * r - 1) * P <= 2 * A <= (2 * r + 1) * P ->
  (2 * A = (2 * r + 1) * P \/ 2 * A = (2 * r - 1) * P -> Z.even r = true) ->
  Z.abs (A - r * P) <= Z.abs (A - k * P) /\
  (Z.abs (A - r * P) = Z.abs (A - k * P) -> r * P = k * P \/ Z.even r = true).
Proof.
  intros HP H T. assert (C : k = r \/ k <= r - 1 \/ r + 1 <= k) by lia.
  destruct C as [->|[C|C]].
  - split; [lia|auto].
  - assert (k * P <= (r - 1) * P) by nia.
    assert (E1 : (r - 1) * P = r * P - P) by ring. assert (E2 : (2 * r - 1) * P = 2 * (r * P) - P) by ring.
    assert (E3 : (2 * r + 1) * P = 2 * (r * P) + P) by ring.
    split; [lia|]. intros X. right. apply T. right. lia.
  - assert ((r + 1) * P <= k * P) by nia.
    assert (E1 : (r + 1) * P = r * P + P) by ring. assert (E2 : (2 * r - 1) * P = 2 * (r * P) - P) by ring.
    assert (E3 : (2 * r + 1) * P = 2 * (r * P) + P) by ring.
    split; [lia|]. intros X. right. apply T. left. lia.
Qed.

(** What the result has to be, for magnitudes. *)
Definition rounded (A D : Z) (s : bool) (f : spec_float) : Prop :=
  ((2 ^ 54 - 1) * (2 ^ (971 + 1074) * D) <= 2 * A /\ f = S754_infinity s) \/
  (2 * A < (2 ^ 54 - 1) * (2 ^ (971 + 1074) * D) /\
   exists M q, parts f = Some (s, M, q) /\ binary64 M q /\ normal_form M q /\
     forall M' q', binary64 M' q' ->
       Z.abs (A - M * (2 ^ (q + 1074) * D)) <= Z.abs (A - M' * (2 ^ (q' + 1074) * D)) /\
       (Z.abs (A - M * (2 ^ (q + 1074) * D)) = Z.abs (A - M' * (2 ^ (q' + 1074) * D)) ->
        M * (2 ^ (q + 1074) * D) = M' * (2 ^ (q' + 1074) * D) \/ Z.even M = true)).

Lemma pow_split a b : -1074 <= a <= b -> 2 ^ (b + 1074) = 2 ^ (b - a) * 2 ^ (a + 1074).
Proof. intros H. rewrite <- Z.pow_add_r by lia. f_equal. ring. Qed.

Lemma pow_ge a b D : 0 < D -> -1074 <= a -> a + 1 <= b -> 2 * (2 ^ (a + 1074) * D) <= 2 ^ (b + 1074) * D.
Proof.
  intros HD Ha Hb. rewrite (pow_split (a + 1) b) by lia.
  replace (a + 1 + 1074) with (Z.succ (a + 1074)) by ring. rewrite Z.pow_succ_r by lia.
  pose proof (Z.pow_pos_nonneg 2 (b - (a + 1)) ltac:(lia) ltac:(lia)).
  pose proof (Z.pow_pos_nonneg 2 (a + 1074) ltac:(lia) ltac:(lia)).
  set (x := 2 ^ (a + 1074)) in *. set (y := 2 ^ (b - (a + 1))) in *. clearbody x y.
  assert (0 < x * D) by nia. nia.
Qed.

(** The nearest multiple of the last place is the nearest binary64 number. *)
Lemma nearest_all A D r e : 0 < D -> -1074 <= e -> 0 <= A ->
  (2 ^ 52 * (2 ^ (e + 1074) * D) <= A \/ e = -1074) ->
  (2 * r - 1) * (2 ^ (e + 1074) * D) <= 2 * A <= (2 * r + 1) * (2 ^ (e + 1074) * D) ->
  (2 * A = (2 * r + 1) * (2 ^ (e + 1074) * D) \/ 2 * A = (2 * r - 1) * (2 ^ (e + 1074) * D) -> Z.even r = true) ->
  forall M q, binary64 M q ->
  Z.abs (A - r * (2 ^ (e + 1074) * D)) <= Z.abs (A - M * (2 ^ (q + 1074) * D)) /\
  (Z.abs (A - r * (2 ^ (e + 1074) * D)) = Z.abs (A - M * (2 ^ (q + 1074) * D)) ->
   r * (2 ^ (e + 1074) * D) = M * (2 ^ (q + 1074) * D) \/ Z.even r = true).
Proof.
  intros HD He HA HL HB HT M q [HM Hq].
  assert (HP : 0 < 2 ^ (e + 1074) * D) by (apply Z.mul_pos_pos; [apply Z.pow_pos_nonneg; lia|exact HD]).
  destruct (Z_le_gt_dec e q) as [L|L].
  - rewrite (pow_split e q) by lia.
    replace (M * (2 ^ (q - e) * 2 ^ (e + 1074) * D)) with ((M * 2 ^ (q - e)) * (2 ^ (e + 1074) * D)) by ring.
    apply near_multiple; assumption.
  - (* finer numbers lie below 2^52 P *)
    destruct HL as [HL|HL]; [|lia].
    pose proof (pow_ge q e D HD ltac:(lia) ltac:(lia)) as G.
    assert (HPq : 0 < 2 ^ (q + 1074) * D) by (apply Z.mul_pos_pos; [apply Z.pow_pos_nonneg; lia|exact HD]).
    destruct (near_multiple A (2 ^ (e + 1074) * D) r (2 ^ 52) HP HB HT) as [N1 N2].
    set (P := 2 ^ (e + 1074) * D) in *. set (Q := 2 ^ (q + 1074) * D) in *. clearbody P Q.
    change (2 ^ 52) with 4503599627370496 in *. change (2 ^ 53) with 9007199254740992 in *.
    assert (M * Q < 4503599627370496 * P) by nia.
    split; [lia|]. intros X. exfalso. lia.
Qed.

Lemma round_shift_only m e : 0 <= m < 2 ^ 53 -> -1074 <= e ->
  shr_fexp prec emax m e loc_Exact = (Build_shr_record m false false, e).
Proof.
  intros Hm He. unfold shr_fexp. rewrite fexp_eq.
  pose proof (digits2_le m 53 ltac:(lia) Hm) as Hd. cbn [shr_record_of_loc].
  destruct (Z.max (Zdigits2 m + e - 53) (-1074) - e) as [|p|p] eqn:E; cbn [shr]; [reflexivity|lia|reflexivity].
Qed.

Lemma round_shift_one e : -1074 <= e ->
  shr_fexp prec emax (2 ^ 53) e loc_Exact = (Build_shr_record (2 ^ 52) false false, e + 1).
Proof.
  intros He. unfold shr_fexp. rewrite fexp_eq. cbn [shr_record_of_loc].
  change (Zdigits2 (2 ^ 53)) with 54.
  replace (Z.max (54 + e - 53) (-1074) - e) with 1 by lia. cbn [shr]. f_equal.
Qed.

Lemma round_aux_ok A D s mx ex l : 0 < D -> -1074 <= ex -> 0 <= mx -> 0 <= A ->
  ex <= fexp prec emax (Zdigits2 mx + ex) -> inb A (2 ^ (ex + 1074) * D) mx l ->
  rounded A D s (binary_round_aux prec emax s mx ex l).
Proof.
  intros HD He Hm HA Hf H. unfold binary_round_aux.
  pose proof (shr_fexp_first A D mx ex l HD He Hm Hf H) as F.
  destruct (shr_fexp prec emax mx ex l) as [r e] eqn:E1. clear E1 H Hf Hm He mx ex l.
  destruct F as [He [I [Hr Hn]]].
  set (P := 2 ^ (e + 1074) * D) in *.
  assert (HP : 0 < P) by (apply Z.mul_pos_pos; [apply Z.pow_pos_nonneg; lia|exact HD]).
  pose proof (rne_ok A P (shr_m r) (loc_of_shr_record r) HP I) as R. cbv zeta in R.
  set (m := round_nearest_even (shr_m r) (loc_of_shr_record r)) in *.
  destruct R as [Rm [RB RT]].
  assert (L : shr_m r * P <= A).
  { unfold inr, inb in I. destruct (loc_of_shr_record r); lia. }
  assert (HL : 2 ^ 52 * P <= A \/ e = -1074) by (destruct Hn; [left; nia|auto]).
  pose proof (nearest_all A D m e HD He HA HL RB RT) as N. fold P in N.
  unfold rounded. rewrite !E54.
  set (T := 2 ^ (971 + 1074) * D).
  assert (HT : 0 < T) by (apply Z.mul_pos_pos; [apply Z.pow_pos_nonneg; lia|exact HD]).
  assert (C1 : e <= 970 -> 2 * P <= T) by (intros X; apply pow_ge; lia).
  assert (C2 : e = 971 -> P = T) by (intros X; unfold P, T; rewrite X; reflexivity).
  assert (C3 : 972 <= e -> 2 * T <= P) by (intros X; apply pow_ge; lia).
  assert (EP : 2 ^ (e + 1074) * D = P) by reflexivity. clearbody P T m. rewrite E52, E53 in *.
  destruct (Z.eq_dec m 9007199254740992) as [E|E].
  - (* carry into the next binade *)
    rewrite E in *. rewrite <- E53. rewrite round_shift_one by exact He.
    cbn [shr_m]. rewrite E52. change (emax - prec) with 971.
    destruct (Zle_bool (e + 1) 971) eqn:Q.
    + apply Zle_is_le_bool in Q. right. specialize (C1 ltac:(lia)). split; [lia|].
      exists 4503599627370496, (e + 1). split; [reflexivity|].
      split; [split; rewrite ?E53; lia|]. split; [left; rewrite E52; lia|]. intros M' q' B.
      replace (e + 1 + 1074) with (Z.succ (e + 1074)) by ring. rewrite Z.pow_succ_r by lia.
      replace (4503599627370496 * (2 * 2 ^ (e + 1074) * D)) with (9007199254740992 * P) by (rewrite <- EP; ring).
      destruct (N M' q' B) as [N1 N2]. split; [exact N1|]. intros X. destruct (N2 X) as [Y|Y]; auto.
    + left. split; [|reflexivity].
      assert (971 <= e). { destruct (Z_le_gt_dec 971 e); [assumption|]. assert (e + 1 <= 971) as W by lia. apply Zle_is_le_bool in W. congruence. }
      destruct (Z.eq_dec e 971) as [E'|E']; [rewrite (C2 E') in *; lia|].
      specialize (C3 ltac:(lia)). lia.
  - assert (Hm : 0 <= m < 9007199254740992) by lia.
    rewrite round_shift_only by (rewrite ?E53; assumption). cbn [shr_m]. change (emax - prec) with 971.
    destruct (Z_le_gt_dec e 971) as [Q|Q].
    + right. split.
      * destruct (Z.eq_dec e 971) as [E'|E'].
        { rewrite (C2 E') in *.
          destruct (Z.eq_dec m 9007199254740991) as [E2|E2].
          - assert (18014398509481983 * T <> 2 * A); [|lia]. intros X.
            assert (Z.even m = true) as Y by (apply RT; left; lia). rewrite E2 in Y. discriminate Y.
          - assert ((2 * m + 1) * T <= 18014398509481981 * T) by nia. lia. }
        specialize (C1 ltac:(lia)). assert ((2 * m + 1) * P <= 18014398509481983 * P) by nia. lia.
      * exists m, e.
        assert (NF : normal_form m e) by (unfold normal_form; rewrite E52; destruct Hn; [left; lia|auto]).
        assert (B : binary64 m e) by (unfold binary64; rewrite E53; lia).
        rewrite EP. split; [|auto].
        destruct m as [|p|p]; [| |lia].
        { unfold normal_form in NF. rewrite E52 in NF.
          assert (e = -1074) as -> by lia. reflexivity. }
        rewrite (proj1 (Zle_is_le_bool e 971) Q). reflexivity.
    + left. specialize (C3 ltac:(lia)).
      assert (4503599627370496 * P <= A) by (destruct HL; lia).
      split; [lia|].
      destruct m as [|p|p]; [exfalso; lia| |lia].
      destruct (Zle_bool e 971) eqn:Z1; [apply Zle_is_le_bool in Z1; lia|reflexivity].
Qed.

(** ** The two ways [f_of_dec] takes *)
Lemma binary_round_ok s p : rounded (Z.pos p * 2 ^ 1074) 1 s (binary_round prec emax s p 0).
Proof.
  unfold binary_round. rewrite fexp_eq, Z.add_0_r.
  set (d := Z.pos (digits2_pos p)). assert (Hd : Zdigits2 (Z.pos p) = d) by reflexivity.
  assert (H0 : 0 < d) by (unfold d; lia). clearbody d.
  assert (T : 0 < 2 ^ 1074) by (apply Z.pow_pos_nonneg; lia).
  set (A := Z.pos p * 2 ^ 1074).
  assert (HA : 0 <= A) by (unfold A; set (c := 2 ^ 1074) in *; clearbody c; nia).
  unfold shl_align. destruct (Z.max (d - 53) (-1074) - 0) as [|k|k] eqn:E.
  - apply round_aux_ok; try lia; rewrite ?fexp_eq, ?Hd; [lia|]. unfold inb. rewrite Z.mul_1_r. reflexivity.
  - apply round_aux_ok; try lia; rewrite ?fexp_eq, ?Hd; [lia|]. unfold inb. rewrite Z.mul_1_r. reflexivity.
  - assert (Ek : Z.max (d - 53) (-1074) = Z.neg k) by lia. rewrite Ek.
    assert (Es : Z.pos (shift_pos k p) = Z.pos p * 2 ^ Z.pos k).
    { rewrite shift_pos_correct, Z.mul_comm, Zpower_pos_nat, <- Zpower_pos_nat. reflexivity. }
    destruct (digits2_bounds (Z.pos p) ltac:(lia)) as [_ [B1 B2]]. rewrite Hd in B1, B2.
    assert (Dz : d + Z.pos k <= Zdigits2 (Z.pos (shift_pos k p))).
    { destruct (Z_le_gt_dec (d + Z.pos k) (Zdigits2 (Z.pos (shift_pos k p)))) as [L|L]; [exact L|exfalso].
      destruct (digits2_bounds (Z.pos (shift_pos k p)) ltac:(lia)) as [_ [_ B3]]. rewrite Es in B3 at 1.
      assert (2 ^ Zdigits2 (Z.pos (shift_pos k p)) <= 2 ^ (d - 1 + Z.pos k)) by (apply Z.pow_le_mono_r; lia).
      rewrite Z.pow_add_r in H by lia. nia. }
    apply round_aux_ok; try lia; rewrite ?fexp_eq; [lia|].
    unfold inb. rewrite Es, Z.mul_1_r. unfold A. rewrite <- Z.mul_assoc, <- Z.pow_add_r by lia.
    do 2 f_equal. lia.
Qed.

Lemma new_location_ok D r : 0 < D -> 0 <= r < D ->
  match new_location D r with loc_Exact => r = 0 | loc_Inexact c => 0 < r /\ (2 * r ?= D) = c end.
Proof.
  intros HD Hr. unfold new_location.
  destruct (Z.even D) eqn:Ev.
  - unfold new_location_even. destruct (Zeq_bool r 0) eqn:E.
    + now apply Zeq_bool_eq in E.
    + apply Zeq_bool_neq in E. split; [lia|reflexivity].
  - unfold new_location_odd. destruct (Zeq_bool r 0) eqn:E.
    + now apply Zeq_bool_eq in E.
    + apply Zeq_bool_neq in E. split; [lia|].
      assert (O : 2 * r <> D). { intros <-. rewrite Z.even_mul in Ev. discriminate Ev. }
      destruct (Z.compare_spec (2 * r + 1) D) as [C|C|C].
      * apply Z.compare_lt_iff. lia.
      * apply Z.compare_lt_iff. lia.
      * apply Z.compare_gt_iff. lia.
Qed.

Lemma div_ok s p D : rounded (Z.pos p * 2 ^ 1074) (Z.pos D) s
  (SFdiv prec emax (S754_finite s p 0) (S754_finite false D 0)).
Proof.
  unfold SFdiv, SFdiv_core_binary. rewrite fexp_eq.
  replace (xorb s false) with s by (destruct s; reflexivity).
  set (d1 := Zdigits2 (Z.pos p)). set (d2 := Zdigits2 (Z.pos D)).
  replace (d1 + 0 - (d2 + 0)) with (d1 - d2) by ring. change (0 - 0) with 0.
  set (e := Z.min (Z.max (d1 - d2 - 53) (-1074)) 0).
  assert (He : -1074 <= e <= 0) by lia.
  destruct (digits2_bounds (Z.pos p) ltac:(lia)) as [P0 [P1 P2]]. fold d1 in P0, P1, P2.
  destruct (digits2_bounds (Z.pos D) ltac:(lia)) as [D0 [D1 D2]]. fold d2 in D0, D1, D2.
  assert (Em : match 0 - e with Z0 => Z.pos p | Z.pos _ => Z.shiftl (Z.pos p) (0 - e) | Z.neg _ => 0 end = Z.pos p * 2 ^ (- e)).
  { replace (0 - e) with (- e) by ring. destruct (- e) as [|k|k] eqn:X; [rewrite Z.pow_0_r; ring| |lia].
    apply Z.shiftl_mul_pow2. lia. }
  rewrite Em. set (m := Z.pos p * 2 ^ (- e)).
  assert (W : 0 < 2 ^ (- e)) by (apply Z.pow_pos_nonneg; lia).
  assert (Hm : 0 < m) by (unfold m; nia).
  pose proof (Z_div_mod m (Z.pos D) ltac:(lia)) as Q.
  destruct (Z.div_eucl m (Z.pos D)) as [q r]. destruct Q as [Q Hr].
  assert (Hq : 0 <= q) by nia.
  assert (T : 0 < 2 ^ 1074) by (apply Z.pow_pos_nonneg; lia).
  apply round_aux_ok; try lia.
  - rewrite fexp_eq. unfold e.
    assert (Bq : d1 - d2 - e <= Zdigits2 q \/ -1074 = e); [|lia].
    destruct (Z_le_gt_dec (d1 - d2 - e) (Zdigits2 q)) as [L|L]; [auto|exfalso].
    (* q < 2^(d1-d2-e-1), so m < D * 2^(...) *)
    assert (0 <= Zdigits2 q) by (destruct q; cbn; lia).
    assert (Bq : q < 2 ^ (d1 - d2 - e - 1)).
    { destruct (Z.eq_dec q 0) as [->|Nq]; [apply Z.pow_pos_nonneg; lia|].
      destruct (digits2_bounds q ltac:(lia)) as [_ [_ B3]]. eapply Z.lt_le_trans; [exact B3|].
      apply Z.pow_le_mono_r; lia. }
    assert (M1 : 2 ^ (d1 - 1) * 2 ^ (- e) <= m) by (unfold m; nia).
    assert (M2 : m < 2 ^ (d1 - d2 - e - 1) * Z.pos D) by nia.
    assert (M3 : 2 ^ (d1 - d2 - e - 1) * Z.pos D < 2 ^ (d1 - d2 - e - 1) * 2 ^ d2).
    { apply Z.mul_lt_mono_pos_l; [apply Z.pow_pos_nonneg; lia|lia]. }
    rewrite <- Z.pow_add_r in M1 by lia. rewrite <- Z.pow_add_r in M3 by lia.
    replace (d1 - d2 - e - 1 + d2) with (d1 - 1 + - e) in M3 by ring. lia.
  - assert (EA : Z.pos p * 2 ^ 1074 = m * 2 ^ (e + 1074)).
    { unfold m. rewrite <- Z.mul_assoc, <- Z.pow_add_r by lia. do 2 f_equal. lia. }
    rewrite EA. set (B := 2 ^ (e + 1074)). assert (HB : 0 < B) by (apply Z.pow_pos_nonneg; lia).
    clearbody B m. subst m.
    pose proof (new_location_ok (Z.pos D) r ltac:(lia) Hr) as NL. set (DD := Z.pos D) in *.
    unfold inb. destruct (new_location DD r) as [|c].
    + subst r. ring.
    + destruct NL as [R0 C]. split; [split; nia|]. rewrite <- C.
      replace (2 * ((DD * q + r) * B)) with (2 * q * (B * DD) + 2 * r * B) by ring.
      replace ((2 * q + 1) * (B * DD)) with (2 * q * (B * DD) + DD * B) by ring.
      rewrite Z.add_compare_mono_l. symmetry. apply Zmult_compare_compat_r. lia.
Qed.

(** From magnitudes to signed numbers. *)
Lemma rounded_nearest neg m e f : 0 <= m -> 
  rounded (m * 10 ^ Z.max e 0 * 2 ^ 1074) (bottom e) neg f ->
  (overflows m e /\ f = S754_infinity neg) \/ (~ overflows m e /\ nearest neg m e f).
Proof.
  intros Hm R. set (A := m * 10 ^ Z.max e 0 * 2 ^ 1074) in *.
  assert (T : 0 < 2 ^ 1074) by (apply Z.pow_pos_nonneg; lia).
  assert (HD : 0 < bottom e) by (apply Z.pow_pos_nonneg; lia).
  assert (HA : 0 <= A).
  { assert (0 < 10 ^ Z.max e 0) by (apply Z.pow_pos_nonneg; lia).
    unfold A. set (c := 2 ^ 1074) in *. clearbody c. nia. }
  assert (Et : forall s, top s m e = (if s then -1 else 1) * A) by (intros []; unfold top, A; ring).
  assert (Ed : forall s M q, distance neg m e (units s M q) =
    Z.abs (A - (if Bool.eqb s neg then 1 else -1) * (M * (2 ^ (q + 1074) * bottom e)))).
  { intros s M q. unfold distance. rewrite Et. unfold units.
    destruct neg, s; cbn [Bool.eqb].
    - rewrite <- Z.abs_opp. f_equal. ring.
    - rewrite <- Z.abs_opp. f_equal. ring.
    - f_equal. ring.
    - f_equal. ring. }
  assert (Eo : overflows m e <-> (2 ^ 54 - 1) * (2 ^ (971 + 1074) * bottom e) <= 2 * A).
  { unfold overflows. rewrite Et. rewrite (Z.pow_add_r 2 971 1074) by lia.
    change 971 with (1 + 970). rewrite (Z.pow_add_r 2 1 970) by lia.
    set (a := 2 ^ 54 - 1). set (b := 2 ^ 970). set (c := 2 ^ 1074). clearbody a b c. clear -A.
    replace (a * (2 ^ 1 * b * c * bottom e)) with (2 * (a * b * c * bottom e)) by ring. lia. }
  clear T Et. clearbody A. unfold rounded in R.
  set (thr := (2 ^ 54 - 1) * (2 ^ (971 + 1074) * bottom e)) in *. clearbody thr.
  destruct R as [[R ->]|[R [M [q [Hp [Hb [Hn H]]]]]]]; [left; split; [now apply Eo|reflexivity]|].
  right. split; [intros X; apply Eo in X; lia|].
  exists M, q. split; [exact Hp|]. split; [exact Hb|]. split; [exact Hn|].
  intros s M' q' Hb'. rewrite !Ed, Bool.eqb_reflx, Z.mul_1_l.
  destruct (H M' q' Hb') as [H1 H2].
  assert (HB : 0 < 2 ^ (q' + 1074) * bottom e) by (apply Z.mul_pos_pos; [apply Z.pow_pos_nonneg; destruct Hb'; lia|exact HD]).
  destruct (Bool.eqb s neg) eqn:Es.
  - apply Bool.eqb_prop in Es. subst s. rewrite Z.mul_1_l. split; [exact H1|].
    intros X. destruct (H2 X) as [Y|Y]; [left|auto].
    unfold units. rewrite <- !Z.mul_assoc. f_equal. rewrite !Z.mul_assoc in Y. eapply Z.mul_reg_r; [|exact Y]. lia.
  - destruct (H 0 (-1074) ltac:(split; lia)) as [G1 G2].
    rewrite Z.mul_0_l, Z.sub_0_r in G1, G2.
    assert (0 <= M' * (2 ^ (q' + 1074) * bottom e)) by (destruct Hb'; nia).
    set (B := M' * (2 ^ (q' + 1074) * bottom e)) in *.
    split; [lia|]. intros X.
    assert (B = 0) as B0 by lia.
    destruct (G2 ltac:(lia)) as [Y|Y]; [left|auto].
    assert (M' = 0) as -> by (unfold B in B0; nia).
    assert (0 < 2 ^ (q + 1074) * bottom e) by (apply Z.mul_pos_pos; [apply Z.pow_pos_nonneg; destruct Hb; lia|exact HD]).
    assert (M = 0) as -> by nia.
    unfold units. ring.
Qed.

Lemma f_of_dec_ok neg m e : 0 <= m ->
  (overflows m e /\ f_of_dec neg m e = S754_infinity neg) \/ (~ overflows m e /\ nearest neg m e (f_of_dec neg m e)).
Proof.
  intros Hm. apply rounded_nearest; [exact Hm|].
  destruct m as [|p|p]; [| |lia].
  - change (f_of_dec neg 0 e) with (S754_zero neg). replace (0 * 10 ^ Z.max e 0 * 2 ^ 1074) with 0 by ring. right.
    assert (HD : 0 < bottom e) by (apply Z.pow_pos_nonneg; lia).
    split.
    + apply Z.mul_pos_pos; [reflexivity|]. apply Z.mul_pos_pos; [apply Z.pow_pos_nonneg; lia|exact HD].
    + exists 0, (-1074). split; [reflexivity|]. split; [split; lia|]. split; [right; reflexivity|].
      intros M' q' _. rewrite Z.mul_0_l. split; [lia|]. auto.
  - unfold f_of_dec. destruct (Z.leb_spec 0 e) as [L|L].
    + rewrite Z.max_l by lia. unfold bottom. rewrite Z.max_r by lia. rewrite Z.pow_0_r.
      assert (H10 : 0 < 10 ^ e) by (apply Z.pow_pos_nonneg; lia).
      assert (X : exists p', Z.pos p * 10 ^ e = Z.pos p' /\ Z.neg p * 10 ^ e = Z.neg p').
      { destruct (10 ^ e) as [|k|k]; try lia. exists (p * k)%positive. split; reflexivity. }
      destruct X as [p' [X1 X2]]. rewrite X1. destruct neg; rewrite ?X1, ?X2; apply binary_round_ok.
    + rewrite (Z.max_r e) by lia. unfold bottom. rewrite Z.max_l by lia. rewrite Z.pow_0_r, Z.mul_1_r.
      assert (H10 : 0 < 10 ^ (- e)) by (apply Z.pow_pos_nonneg; lia).
      rewrite <- (Z2Pos.id (10 ^ (- e))) at 1 by lia. apply div_ok.
Qed.
