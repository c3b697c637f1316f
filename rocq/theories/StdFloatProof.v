(** The texts of NewFloat64 and NewFloat32 against those of encoding/json. *)
From Verif Require Import Base Float64 Value SpecRound SpecFloatText SpecStdFloat FloatTextProof.

Lemma finite_text E f s M q fmt bits : float64 f s M q -> text_of (new_float64f_ E f fmt (-1) bits) = Some (fmt_float E f fmt (-1) bits).
Proof. intros (P & _). unfold new_float64f_. destruct f; try discriminate P; reflexivity. Qed.

Lemma shortened_same b : shortened b b <-> forall x d, ~ short_exp b x d.
Proof.
  split.
  - intros [(x & d & H1 & H2)|(H & _)]; [|exact H]. exfalso. unfold short_exp in H1. rewrite H1 in H2. apply app_inv_head in H2. discriminate H2.
  - intros H. now right.
Qed.

(** The form is the same for both but for zero, which NewFloat64 counts as small. *)
Lemma zero_form f lo hi : is_zero f = true -> exponent_form lo hi f = false.
Proof. intros H. unfold exponent_form. now rewrite H. Qed.

Theorem std_iff E f s M q bits lo hi :
  letter_contract E -> float64 f s M q ->
  let form := SFltb (f_abs f) f_1em6 || SFleb f_1e21 (f_abs f) in
  forall fmt, fmt = (if form then 101 else 102) ->
  (std_float E bits lo hi f (fmt_float E f fmt (-1) bits) <->
   form = exponent_form lo hi f /\ (form = true -> forall x d, ~ short_exp (fmt_float E f 101 (-1) bits) x d)).
Proof.
  intros HL F form fmt ->. destruct (HL f s M q bits F) as (He & Hf). unfold std_float.
  destruct (exponent_form lo hi f) eqn:EX; destruct form eqn:EF.
  - rewrite shortened_same. tauto.
  - split; [|intros (C & _); discriminate]. intros H. exfalso. destruct H as [(x & d & H1 & H2)|(_ & H)].
    + apply Hf. rewrite H2. apply in_or_app. right. cbn. now left.
    + apply Hf. now rewrite H.
  - split; [|intros (C & _); discriminate]. intros H. exfalso. apply Hf. now rewrite <- H.
  - split; [|reflexivity]. intros _. split; [reflexivity|discriminate].
Qed.

Lemma zero_small f : is_zero f = true -> SFltb (f_abs f) f_1em6 = true.
Proof. destruct f; try discriminate. reflexivity. Qed.

Theorem float64_std E f s M q : letter_contract E -> float64 f s M q ->
  ((exists t, text_of (new_float64 E f) = Some t /\ std_float64 E f t) <->
   is_zero f = false /\
   (exponent_form lo64 hi64 f = true -> forall x d, ~ short_exp (fmt_float E f 101 (-1) 64) x d)).
Proof.
  intros HL F. unfold new_float64. set (form := SFltb (f_abs f) f_1em6 || SFleb f_1e21 (f_abs f)).
  rewrite (finite_text E f s M q _ 64 F). unfold std_float64.
  pose proof (std_iff E f s M q 64 lo64 hi64 HL F _ eq_refl) as HI. cbv zeta in HI. fold form in HI.
  assert (HE : exponent_form lo64 hi64 f = negb (is_zero f) && form) by reflexivity.
  split.
  - intros (t & Ht & H). injection Ht as <-. apply HI in H. destruct H as (H1 & H2). rewrite HE in *.
    destruct (is_zero f) eqn:Z.
    + exfalso. unfold form in H1. now rewrite (zero_small f Z) in H1.
    + split; [reflexivity|]. exact H2.
  - intros (Z & H). eexists. split; [reflexivity|]. apply HI. rewrite HE, Z in *. now split.
Qed.

(** float32: the two forms differ for zero and for the float32 nearest to 1e-6. *)
Theorem float32_std E f s M q : letter_contract E -> float64 f s M q ->
  ((exists t, text_of (new_float32 E f) = Some t /\ std_float32 E f t) <->
   (SFltb (f_abs f) lo64 || SFleb hi64 (f_abs f)) = exponent_form lo32 hi32 f /\
   (exponent_form lo32 hi32 f = true -> forall x d, ~ short_exp (fmt_float E f 101 (-1) 32) x d)).
Proof.
  intros HL F. unfold new_float32. set (form := SFltb (f_abs f) f_1em6 || SFleb f_1e21 (f_abs f)).
  rewrite (finite_text E f s M q _ 32 F). unfold std_float32.
  pose proof (std_iff E f s M q 32 lo32 hi32 HL F _ eq_refl) as HI. cbv zeta in HI. fold form in HI.
  change (SFltb (f_abs f) lo64 || SFleb hi64 (f_abs f)) with form.
  split.
  - intros (t & Ht & H). injection Ht as <-. apply HI in H. destruct H as (H1 & H2). split; [exact H1|]. now rewrite <- H1.
  - intros (Z & H). eexists. split; [reflexivity|]. apply HI. split; [exact Z|]. now rewrite Z.
Qed.

(** *** Which float32 numbers lie between the float32 and the float64 limits: none *)

Lemma size_shift a g h : h <= g -> -1074 <= h -> size a g = size (a * 2 ^ (g - h)) h.
Proof. intros. unfold size. rewrite <- Z.mul_assoc, <- Z.pow_add_r by lia. do 2 f_equal. lia. Qed.
Lemma size_same a b h : -1074 <= h -> size a h < size b h <-> a < b.
Proof. intros. unfold size. pose proof (pow_pos' h ltac:(lia)). nia. Qed.

Lemma gap m k a g : 0 <= m < 2 ^ 24 -> 2 ^ 23 <= a -> -1074 <= k -> -1074 <= g ->
  size m k < size (a + 1) g -> size m k <= size a g.
Proof.
  intros Hm Ha Hk Hg H. destruct (Z_le_gt_dec g k) as [L|L].
  - rewrite (size_shift m k g L Hg) in *. rewrite size_same in H by lia.
    apply Z.nlt_ge. rewrite size_same by lia. lia.
  - rewrite (size_shift a g k) by lia. apply Z.nlt_ge. rewrite size_same by lia.
    replace (g - k) with (1 + (g - k - 1)) by lia. rewrite Z.pow_add_r by lia.
    assert (0 < 2 ^ (g - k - 1)) by (apply Z.pow_pos_nonneg; lia). change (2 ^ 1) with 2. change (2 ^ 24) with 16777216 in *. change (2 ^ 23) with 8388608 in *. nia.
Qed.

Lemma lt_cmp f s M q p k : float64 f s M q -> binary64 (Z.pos p) k -> normal_form (Z.pos p) k ->
  SFltb (f_abs f) (S754_finite false p k) = (size M q <? size (Z.pos p) k).
Proof.
  intros F B N. unfold SFltb, f_abs. rewrite (cmp_abs f s M q p k F B N). unfold Z.ltb.
  destruct (size M q ?= size (Z.pos p) k); reflexivity.
Qed.
Lemma ge_cmp f s M q p k : float64 f s M q -> binary64 (Z.pos p) k -> normal_form (Z.pos p) k ->
  SFleb (S754_finite false p k) (f_abs f) = (size (Z.pos p) k <=? size M q).
Proof.
  intros (P & B1 & N1) B N. unfold SFleb, f_abs. destruct f as [z|z| |z m e]; try discriminate; injection P as <- <- <-.
  - cbn [SFabs SFcompare]. rewrite size_zero. symmetry. apply Z.leb_gt. unfold size. destruct B as [_ B']. pose proof (pow_pos' k ltac:(lia)). nia.
  - cbn [SFabs]. rewrite (cmp_size p k m e B N B1 N1). unfold Z.leb. destruct (size (Z.pos p) k ?= size (Z.pos m) e); reflexivity.
Qed.

Lemma lo_step : size 8796093 (-43) = size 4722366470946816 (-72).
Proof. exact (size_shift 8796093 (-43) (-72) ltac:(lia) ltac:(lia)). Qed.
Lemma lo_next : size 4722366482869645 (-72) < size (8796093 + 1) (-43).
Proof. rewrite (size_shift (8796093 + 1) (-43) (-72) ltac:(lia) ltac:(lia)). apply size_same; [lia|]. reflexivity. Qed.
Lemma hi_step : size (14210854 + 1) 46 = size 7629394684149760 17.
Proof. exact (size_shift 14210855 46 17 ltac:(lia) ltac:(lia)). Qed.
Lemma hi_prev : size 14210854 46 < size 7629394531250000 17.
Proof. rewrite (size_shift 14210854 46 17 ltac:(lia) ltac:(lia)). apply size_same; [lia|]. reflexivity. Qed.
Lemma lo_hi : size 4722366482869645 (-72) < size 7629394531250000 17.
Proof. rewrite (size_shift 7629394531250000 17 (-72) ltac:(lia) ltac:(lia)). apply size_same; [lia|]. reflexivity. Qed.
#[local] Opaque size.

Lemma lo64_form : lo64 = S754_finite false 4722366482869645 (-72).
Proof. vm_compute. reflexivity. Qed.
Lemma hi64_form : hi64 = S754_finite false 7629394531250000 17.
Proof. vm_compute. reflexivity. Qed.

Lemma abs_same f : SFabs f = f_abs f. Proof. reflexivity. Qed.

Lemma parts_eq f s M q g s' M' q' : float64 f s M q -> float64 g s' M' q' -> size M q = size M' q' -> f_abs f = f_abs g.
Proof.
  intros (P & B & N) (P' & B' & N') H. destruct (size_inj M q M' q' B N B' N' H) as (<- & <-).
  destruct f, g; cbn in P, P'; try discriminate; inversion P; inversion P'; subst; try discriminate; cbn; congruence.
Qed.

Lemma lo32_parts : float64 lo32 false 4722366470946816 (-72).
Proof. repeat split; try lia. left. lia. Qed.

Lemma below_lo m k : 0 <= m < 2 ^ 24 -> -149 <= k -> size m k < size 4722366482869645 (-72) -> size m k <= size 4722366470946816 (-72).
Proof.
  intros Hm Hk H. rewrite <- lo_step. pose proof (Z.lt_trans _ _ _ H lo_next) as H'. clear H.
  exact (gap m k 8796093 (-43) Hm ltac:(clear; lia) ltac:(clear - Hk; lia) ltac:(clear; lia) H').
Qed.
Lemma below_hi m k : 0 <= m < 2 ^ 24 -> -149 <= k -> size m k < size 7629394684149760 17 -> size m k < size 7629394531250000 17.
Proof.
  intros Hm Hk H. rewrite <- hi_step in H.
  exact (Z.le_lt_trans _ _ _ (gap m k 14210854 46 Hm ltac:(clear; lia) ltac:(clear - Hk; lia) ltac:(clear; lia) H) hi_prev).
Qed.
Lemma lo_less : size 4722366470946816 (-72) < size 4722366482869645 (-72).
Proof. apply size_same; lia. Qed.
Lemma hi_less : size 7629394531250000 17 < size 7629394684149760 17.
Proof. apply size_same; lia. Qed.
Lemma lo_pos : 0 < size 4722366482869645 (-72).
Proof. rewrite <- (size_zero (-72)). apply size_same; lia. Qed.

Lemma is_lo32 f s M q : float64 f s M q -> (f_abs f = lo32 <-> size M q = size 4722366470946816 (-72)).
Proof.
  intros F. split.
  - intros H. destruct F as (P & B & N). destruct f; cbn in P; try discriminate P; cbn in H; try discriminate H.
    inversion P. subst. inversion H. reflexivity.
  - intros H. exact (parts_eq f s M q lo32 false _ _ F lo32_parts H).
Qed.

Lemma choose z X A64 A32 H64 H32 : (X < A64 -> X <= A32) -> (X < H32 -> X < H64) -> A32 < A64 -> H64 < H32 -> 0 < A64 -> A64 < H64 ->
  (z = true -> X = 0) ->
  ((X <? A64) || (H64 <=? X) = negb z && ((X <? A32) || (H32 <=? X)) <-> z = false /\ X <> A32).
Proof.
  intros HL HH HL' HH' HZ HHL HzS. destruct z.
  - specialize (HzS eq_refl). cbn [negb andb]. destruct (Z.ltb_spec X A64); [|lia]. cbn. split; intros; [discriminate|easy].
  - cbn [negb andb]. destruct (Z.ltb_spec X A64); destruct (Z.ltb_spec X A32); destruct (Z.leb_spec H64 X); destruct (Z.leb_spec H32 X); cbn;
      (split; [intros ?; split; [reflexivity|]|intros (_ & ?)]); try reflexivity; try discriminate; lia.
Qed.

Theorem float32_forms f s M q : float32 f s M q ->
  ((SFltb (f_abs f) lo64 || SFleb hi64 (f_abs f)) = exponent_form lo32 hi32 f <->
   is_zero f = false /\ f_abs f <> lo32).
Proof.
  intros (F & m & k & Hm & Hk & HS). rewrite (is_lo32 f s M q F).
  unfold exponent_form. change (SFabs f) with (f_abs f). rewrite lo64_form, hi64_form. unfold lo32, hi32.
  rewrite (lt_cmp f s M q 4722366482869645 (-72) F), (lt_cmp f s M q 4722366470946816 (-72) F) by first [split; lia|left; lia].
  rewrite (ge_cmp f s M q 7629394531250000 17 F), (ge_cmp f s M q 7629394684149760 17 F) by first [split; lia|left; lia].
  assert (HzS : is_zero f = true -> size M q = 0).
  { destruct F as (P & _). destruct f; try discriminate. cbn in P. inversion P. intros _. apply size_zero. }
  rewrite HS in *.
  exact (choose _ _ _ _ _ _ (below_lo m k Hm Hk) (below_hi m k Hm Hk) lo_less hi_less lo_pos lo_hi HzS).
Qed.

Theorem float32_std' E f s M q : letter_contract E -> float32 f s M q ->
  ((exists t, text_of (new_float32 E f) = Some t /\ std_float32 E f t) <->
   is_zero f = false /\ f_abs f <> lo32 /\
   (exponent_form lo32 hi32 f = true -> forall x d, ~ short_exp (fmt_float E f 101 (-1) 32) x d)).
Proof. intros HL F. rewrite (float32_std E f s M q HL (proj1 F)), (float32_forms f s M q F). tauto. Qed.

(** *** Counterexamples *)

(** What strconv writes for zero. *)
Theorem std_zero E : fmt_float E f_zero 101 (-1) 64 = bs "0e+00" -> fmt_float E f_zero 102 (-1) 64 = bs "0" ->
  text_of (new_float64 E f_zero) = Some (bs "0e+00") /\ forall t, std_float64 E f_zero t <-> t = bs "0".
Proof.
  intros H1 H2. split.
  - change (Some (fmt_float E f_zero 101 (-1) 64) = Some (bs "0e+00")). now rewrite H1.
  - intros t. unfold std_float64, std_float. change (exponent_form lo64 hi64 f_zero) with false. cbv iota. now rewrite H2.
Qed.

(** An environment whose FormatFloat gives two texts. *)
Definition env_two (e f : bytes) : Env :=
  {| oor_i64 := fun _ => 0; oor_u64 := fun _ => 0; to_lower := fun s => s;
     fmt_float := fun _ fmt _ _ => if fmt =? 101 then e else f; json_float := fun _ => f; to_f32 := fun x => x |}.

Lemma two_letters : letter_contract (env_two (bs "1e-07") (bs "0.0000001")).
Proof. intros f s M q bits _. cbn. split; [tauto|]. intros H. repeat destruct H as [H|H]; try discriminate H; exact H. Qed.

Lemma zero_parts : float64 f_zero false 0 (-1074).
Proof. repeat split; try lia. now right. Qed.
Theorem std_zero_never : exists f s M q, float64 f s M q /\ forall E, letter_contract E ->
  ~ exists t, text_of (new_float64 E f) = Some t /\ std_float64 E f t.
Proof.
  exists f_zero, false, 0, (-1074). split; [exact zero_parts|]. intros E HL H.
  apply (float64_std E f_zero false 0 (-1074) HL zero_parts) in H. now destruct H.
Qed.
