(** The two floats at the limits of the integers, written with the fewest
    digits: proofs for C55. *)
From Verif Require Import Base Float64 Value Scan Unmarshal Access Pure Opt Marshal ListLemmas SpecJson SpecValue SpecLax SpecText
  SpecRound SpecFloatText UnmarshalProof ValueLemmas NumProof LaxNum LaxParse RoundTrip NumFacts RoundProof RoundClaims
  MarshalClaims GetClaims FloatTextProof ExactFormat ExampleWorld.
From Verif Require LaxFacts SpecFacts.

Definition limit (s : bool) : Z := if s then 9223372036854775808 else 18446744073709551616.
Definition half (s : bool) : Z := if s then 512 else 1024.
Definition limit_q (s : bool) : Z := if s then 11 else 12.
Definition limit_f (s : bool) : spec_float := S754_finite s 4503599627370496 (limit_q s).

Lemma size_two X k : 0 <= k -> size X k = X * 2 ^ k * 2 ^ 1074.
Proof. intros H. unfold size. rewrite Z.pow_add_r by lia. ring. Qed.

Lemma limit_parts f s M q : float64 f s M q -> at_limit s M q -> f = limit_f s /\ M = 4503599627370496 /\ q = limit_q s.
Proof.
  intros (P & B & N) A. unfold at_limit in A.
  assert (X : M = 4503599627370496 /\ q = limit_q s).
  { apply size_inj; [exact B|exact N|destruct s; (split; cbn [limit_q]; [rewrite E53|]; lia)|left; rewrite E52; lia|].
    rewrite A, !size_two by (destruct s; cbn [limit_q]; lia). f_equal. destruct s; reflexivity. }
  destruct X as [-> ->]. split; [|auto]. apply (parts_inj f (limit_f s) _ P). reflexivity.
Qed.

Lemma limit_float s : float64 (limit_f s) s 4503599627370496 (limit_q s).
Proof.
  split; [reflexivity|]. split; [|left; rewrite E52; lia]. destruct s; (split; cbn [limit_q]; [rewrite E53|]; lia).
Qed.

Lemma limit_size s : size 4503599627370496 (limit_q s) = limit s * 2 ^ 1074.
Proof. rewrite size_two by (destruct s; cbn [limit_q]; lia). f_equal. destruct s; reflexivity. Qed.

(** The decimals that are read as the limit. *)
Lemma limit_range s m e : nearest s m e (limit_f s) ->
  (limit s - half s) * bottom e <= m * 10 ^ Z.max e 0 <= (limit s + 2 * half s) * bottom e.
Proof.
  intros (M & q & P & B & N & H). cbn in P. injection P as <- <-.
  destruct (H s 9007199254740991 (limit_q s - 1)) as [H1 _].
  { destruct s; (split; cbn [limit_q]; [rewrite E53|]; lia). }
  destruct (H s 4503599627370497 (limit_q s)) as [H2 _].
  { destruct s; (split; cbn [limit_q]; [rewrite E53|]; lia). }
  clear H. rewrite !distance_size, limit_size in *.
  rewrite !size_two in * by (destruct s; cbn [limit_q]; lia).
  replace (9007199254740991 * 2 ^ (limit_q s - 1)) with (limit s - 2 * half s) in H1 by (destruct s; reflexivity).
  replace (4503599627370497 * 2 ^ limit_q s) with (limit s + 4 * half s) in H2 by (destruct s; reflexivity).
  pose proof (bottom_pos e) as HB. set (D := bottom e) in *. set (A := m * 10 ^ Z.max e 0) in *.
  assert (T : 0 < 2 ^ 1074) by (apply Z.pow_pos_nonneg; lia).
  set (t := 2 ^ 1074) in *. set (L := limit s) in *. assert (HH : 0 < half s) by (destruct s; reflexivity).
  set (h := half s) in *. clearbody D A t L h. clear B N.
  replace (A * t - L * t * D) with ((A - L * D) * t) in * by ring.
  replace (A * t - (L - 2 * h) * t * D) with ((A - L * D + 2 * h * D) * t) in H1 by ring.
  replace (A * t - (L + 4 * h) * t * D) with ((A - L * D - 4 * h * D) * t) in H2 by ring.
  rewrite !Z.abs_mul in *. rewrite (Z.abs_eq t) in * by lia.
  apply Z.mul_le_mono_pos_r in H1; [|exact T]. apply Z.mul_le_mono_pos_r in H2; [|exact T].
  assert (0 < h * D) by nia. split; lia.
Qed.

(** Few digits for a large number: many zeros. *)
Lemma few_digits m e k j lo : 0 <= m < 10 ^ k -> 0 <= k -> 1 <= j -> 10 ^ (k + j - 1) <= lo ->
  lo * bottom e <= m * 10 ^ Z.max e 0 -> j <= e.
Proof.
  intros H1 Hk Hj H2 H3. pose proof (bottom_pos e) as HB.
  assert (P : 0 < 10 ^ (k + j - 1)) by (apply Z.pow_pos_nonneg; lia).
  destruct (Z.le_gt_cases j e) as [L|L]; [exact L|exfalso].
  assert (lo <= m * 10 ^ Z.max e 0) by nia. clear H3.
  assert (Q : 10 ^ Z.max e 0 <= 10 ^ (j - 1)) by (apply Z.pow_le_mono_r; lia).
  assert (R : 10 ^ (k + j - 1) = 10 ^ k * 10 ^ (j - 1)) by (rewrite <- Z.pow_add_r by lia; f_equal; ring).
  rewrite R in *. assert (0 < 10 ^ Z.max e 0) by (apply Z.pow_pos_nonneg; lia).
  set (a := 10 ^ k) in *. set (b := 10 ^ (j - 1)) in *. set (c := 10 ^ Z.max e 0) in *. clearbody a b c. nia.
Qed.

Lemma zeros m e j : 0 <= j <= e -> exists z, m * 10 ^ Z.max e 0 = z * 10 ^ j /\ bottom e = 1.
Proof.
  intros H. exists (m * 10 ^ (e - j)). unfold bottom. rewrite (Z.max_l e), (Z.max_r (- e)) by lia. split; [|reflexivity].
  rewrite <- Z.mul_assoc, <- Z.pow_add_r by lia. do 2 f_equal. ring.
Qed.

(** The texts: 16 resp. 17 digits and three zeros. *)
Definition short_m (s : bool) : Z := if s then 9223372036854776 else 18446744073709552.
Definition short_n (s : bool) : Z := if s then 16 else 17.

Lemma short_reads s : dec_reads s (short_m s) 3 (limit_f s).
Proof.
  split; [destruct s; discriminate|].
  destruct (f_of_dec_ok s (short_m s) 3 ltac:(destruct s; discriminate)) as [[_ O]|[O1 O2]].
  - exfalso. destruct s; vm_compute in O; discriminate.
  - split; [exact O1|]. replace (limit_f s) with (f_of_dec s (short_m s) 3) by (destruct s; vm_compute; reflexivity). exact O2.
Qed.

(** No decimal with fewer digits is read as the limit. *)
Lemma no_fewer s m e : dec_reads s m e (limit_f s) -> 10 ^ (short_n s - 1) <= m.
Proof.
  intros (H0 & _ & H). destruct (Z.le_gt_cases (10 ^ (short_n s - 1)) m) as [L|L]; [exact L|exfalso].
  apply limit_range in H. destruct H as [H1 H2].
  assert (4 <= e).
  { apply (few_digits m e (short_n s - 1) 4 (limit s - half s)); [lia|destruct s; discriminate|lia|destruct s; vm_compute; discriminate|exact H1]. }
  destruct (zeros m e 4 ltac:(lia)) as (z & Z1 & Z2). rewrite Z1, Z2 in *. change (10 ^ 4) with 10000 in *.
  destruct s; cbn [limit half] in *; lia.
Qed.

(** Those with as many digits. *)
Lemma as_many s m e : dec_reads s m e (limit_f s) -> m < 10 ^ short_n s ->
  bottom e = 1 /\ exists z, m * 10 ^ Z.max e 0 = z * 1000 /\ (if s then z = 9223372036854776 else 18446744073709551 <= z <= 18446744073709553).
Proof.
  intros (H0 & _ & H) L. apply limit_range in H. destruct H as [H1 H2].
  assert (3 <= e).
  { apply (few_digits m e (short_n s) 3 (limit s - half s)); [lia|destruct s; discriminate|lia|destruct s; vm_compute; discriminate|exact H1]. }
  destruct (zeros m e 3 ltac:(lia)) as (z & Z1 & Z2). rewrite Z1, Z2 in *. change (10 ^ 3) with 1000 in *.
  split; [reflexivity|]. exists z. split; [reflexivity|].
  destruct s; cbn [limit half] in *; lia.
Qed.

Lemma distance_limit s m e : bottom e = 1 ->
  distance s m e (units s 4503599627370496 (limit_q s)) = Z.abs (m * 10 ^ Z.max e 0 - limit s) * 2 ^ 1074.
Proof.
  intros H. rewrite distance_size, limit_size, H, Z.mul_1_r, <- Z.mul_sub_distr_r, Z.abs_mul. f_equal.
Qed.

(** The number written is the one with zeros. *)
Lemma limit_written s m e : fewest_closest s m e (limit_f s) 4503599627370496 (limit_q s) ->
  bottom e = 1 /\ m * 10 ^ Z.max e 0 = short_m s * 1000.
Proof.
  intros [H H']. destruct (H' _ _ (short_reads s)) as [H1 H2].
  assert (L : m < 10 ^ short_n s) by (apply H1; destruct s; reflexivity).
  destruct (as_many s m e H L) as (HB & z & Hz & Hs). split; [exact HB|].
  destruct s; [now rewrite Hz, Hs|].
  assert (X : forall n, m < 10 ^ n -> short_m false < 10 ^ n).
  { intros n Hn. pose proof (no_fewer false m e H) as Y. cbn [short_n short_m] in *.
    destruct (Z.le_gt_cases 17 n) as [G|G]; [|exfalso].
    - apply Z.lt_le_trans with (10 ^ 17); [reflexivity|]. apply Z.pow_le_mono_r; lia.
    - pose proof (Z.pow_le_mono_r 10 n (17 - 1) ltac:(lia) ltac:(lia)). lia. }
  specialize (H2 X). rewrite !distance_limit, HB, Hz in H2 by (exact HB || reflexivity).
  change (bottom 3) with 1 in H2. rewrite !Z.mul_1_r in H2.
  apply Z.mul_le_mono_pos_r in H2; [|apply Z.pow_pos_nonneg; lia].
  change (short_m false * 10 ^ Z.max 3 0) with 18446744073709552000 in H2. cbn [limit short_m] in *. rewrite Hz. lia.
Qed.

(** And it is refused, or at best reduced to 384. *)
Theorem limit_lost E W o f s M q : format_contract E -> shortest_at_limit E -> float64 f s M q -> at_limit s M q ->
  ~ survives E W o f.
Proof.
  intros C S F A (t & v & HM & HU & HV).
  destruct (limit_parts f s M q F A) as (Hf & HMM & Hq).
  assert (L53 : size (2 ^ 53) 0 <= size M q).
  { unfold at_limit in A. rewrite A. apply size_mono. destruct s; rewrite E53; lia. }
  assert (L21 : size M q < size (10 ^ 21) 0).
  { unfold at_limit in A. rewrite A. unfold size. assert (T : 0 < 2 ^ (0 + 1074)) by (apply Z.pow_pos_nonneg; lia).
    apply Z.mul_lt_mono_pos_r; [exact T|]. destruct s; reflexivity. }
  pose proof (e_format_mid f s M q F (conj L53 L21)) as Ef.
  destruct (C f s M q F) as [(ip & fd & i & HL & _ & Hi) _]. specialize (Hi L53). subst i.
  rewrite (new_float64_text E W o f s M q F), Ef in HM by (rewrite Ef; eapply num_lit_ne; exact HL).
  injection HM as <-.
  destruct (S f s M q F A _ _ _ _ HL) as (m & e' & HI & HS). subst f M q.
  destruct (limit_written s m e' HS) as [HB HW].
  destruct (num_lit_parts _ _ _ _ _ _ HL) as (Hip & D1 & _ & HI'). destruct (HI' eq_refl) as (-> & _ & Et).
  unfold lit_is in HI. cbn [List.length] in HI. change (0 - Z.of_nat 0) with 0 in HI. change (bottom 0) with 1 in HI.
  change (10 ^ Z.max 0 0) with 1 in HI. rewrite app_nil_r, HB, HW, !Z.mul_1_r in HI. clear HB HW HS.
  destruct (number_doc E _ v (LaxFacts.num_lit_bytes _ _ _ _ _ _ HL) HU) as (HN & n & Hn & ->).
  destruct (lax_number_value E _ HN) as (n' & Hn' & Hl). rewrite Hn in Hn'. injection Hn' as <-.
  injection HV as HV. destruct (int_part_digits ip Hip) as [_ Hne].
  rewrite Et in HN, Hl. destruct s; cbn [app short_m] in *.
  - destruct (lax_int_content _ _ HN Hl) as [_ HC]. destruct (HC ip eq_refl (conj Hne D1)) as (HC' & _).
    unfold two63 in *. lia.
  - destruct (lax_value_pos ip n (conj Hne D1) Hl) as (_ & _ & Hu & _ & Hf).
    rewrite HI in Hu. change (18446744073709552 * 1000 mod two64) with 384 in Hu.
    rewrite HV, Hu in Hf. vm_compute in Hf. discriminate.
Qed.

Theorem survives_exactly E W o f s M q : format_contract E -> shortest_at_limit E -> float64 f s M q ->
  (survives E W o f <-> ~ too_wide s M q /\ ~ at_limit s M q).
Proof.
  intros C S F. split.
  - intros V. split; intros T; [exact (float_lost E W o f s M q C F T V)|exact (limit_lost E W o f s M q C S F T V)].
  - intros [T A]. exact (float_survives E W o f s M q C F T A).
Qed.

(** *** A formatter that meets both contracts *)

Definition is_limit (f : spec_float) : option bool :=
  match f with
  | S754_finite s m q => if (Z.pos m =? 4503599627370496) && (q =? limit_q s) then Some s else None
  | _ => None
  end.

Definition short_ip (s : bool) : bytes := if s then bs "9223372036854776000" else bs "18446744073709552000".

Definition short (f : spec_float) (fmt prec bits : Z) : bytes :=
  match is_limit f with
  | Some s => if fmt =? 102 then (if s then [45] else []) ++ short_ip s else exact f fmt prec bits
  | None => exact f fmt prec bits
  end.

Definition env_short : Env := {|
  oor_i64 := oor_i64 env0; oor_u64 := oor_u64 env0; to_lower := to_lower env0;
  fmt_float := short; json_float := json_float env0; to_f32 := to_f32 env0 |}.

Lemma is_limit_f s : is_limit (limit_f s) = Some s.
Proof. now destruct s. Qed.

Lemma is_limit_inv f s : is_limit f = Some s -> f = limit_f s.
Proof.
  destruct f as [z|z| |z m q]; try discriminate. cbn [is_limit]. intros H.
  destruct (Z.eqb_spec (Z.pos m) 4503599627370496) as [H1|]; [|discriminate].
  destruct (Z.eqb_spec q (limit_q z)) as [H2|]; [|discriminate]. cbn in H. injection H as <-. injection H1 as ->. now subst q.
Qed.

Lemma short_ip_part (s : bool) : int_part (short_ip s).
Proof. destruct s; (apply IP_pos; [cbv; split; discriminate|repeat (constructor; [cbv; split; discriminate|]); constructor]). Qed.

Lemma short_lit (s : bool) : num_lit ((if s then [45] else []) ++ short_ip s : bytes) s (short_ip s) [] 0 true.
Proof. pose proof (NumLit s (short_ip s) [] [] [] 0 (short_ip_part s) FP_none EP_none) as X. rewrite app_nil_r in X. exact X. Qed.

Lemma short_val s : digits_val (short_ip s) = short_m s * 1000.
Proof. destruct s; reflexivity. Qed.

(** The same number with and without the zeros. *)
Lemma without_zeros s m f : dec_reads s m 3 f -> dec_reads s (m * 1000) 0 f.
Proof.
  intros (H0 & H1 & H2). split; [lia|].
  assert (T : forall n, top n (m * 1000) 0 = top n m 3).
  { intros n. unfold top. change (10 ^ Z.max 0 0) with 1. change (10 ^ Z.max 3 0) with 1000. ring. }
  split.
  - intros X. apply H1. unfold overflows in *. now rewrite <- T.
  - destruct H2 as (M & q & P & B & N & H). exists M, q. split; [exact P|]. split; [exact B|]. split; [exact N|].
    intros z M' q' B'. specialize (H z M' q' B'). unfold distance in *. rewrite T. exact H.
Qed.

Theorem short_contract : format_contract env_short.
Proof.
  intros f s M q F. destruct (exact_contract f s M q F) as [H1 H2]. split.
  - cbn [fmt_float env_short]. unfold short. destruct (is_limit f) as [z|] eqn:El; [|exact H1].
    change (102 =? 102) with true. cbn iota. apply is_limit_inv in El. subst f.
    destruct F as (P & _). injection P as -> _ _. exists (short_ip s), [], true. split; [apply short_lit|]. split; [|auto].
    unfold reads_as, lit_overflows, lit_nearest. rewrite app_nil_r, short_val. cbn [List.length]. change (0 - Z.of_nat 0) with 0.
    destruct (without_zeros s _ _ (short_reads s)) as (_ & X). exact X.
  - cbn [fmt_float env_short]. unfold short. destruct (is_limit f); exact H2.
Qed.

Lemma short_fewest s : fewest_closest s (short_m s) 3 (limit_f s) 4503599627370496 (limit_q s).
Proof.
  split; [apply short_reads|]. intros m' e' H.
  assert (X : forall n, m' < 10 ^ n -> short_m s < 10 ^ n).
  { intros n Hn. pose proof (no_fewer s m' e' H) as Y.
    destruct (Z.le_gt_cases (short_n s) n) as [G|G]; [|exfalso].
    - apply Z.lt_le_trans with (10 ^ short_n s); [destruct s; reflexivity|]. apply Z.pow_le_mono_r; lia.
    - pose proof (Z.pow_le_mono_r 10 n (short_n s - 1) ltac:(lia) ltac:(lia)). lia. }
  split; [exact X|]. intros L. specialize (L (short_n s) ltac:(destruct s; reflexivity)).
  destruct (as_many s m' e' H L) as (HB & z & Hz & Hs).
  rewrite !distance_limit, HB, Hz by (exact HB || reflexivity). change (bottom 3) with 1. rewrite !Z.mul_1_r.
  apply Z.mul_le_mono_nonneg_r; [apply Z.pow_nonneg; lia|].
  change (10 ^ Z.max 3 0) with 1000. destruct s; cbn [short_m limit] in *; [subst z|]; lia.
Qed.

Theorem short_short : shortest_at_limit env_short.
Proof.
  intros f s M q F A ip fd e i HL. destruct (limit_parts f s M q F A) as (-> & -> & ->).
  cbn [fmt_float env_short] in HL. unfold short in HL. rewrite is_limit_f in HL. change (102 =? 102) with true in HL. cbn iota in HL.
  destruct (SpecFacts.num_lit_det _ _ _ _ _ _ _ _ _ _ _ HL (short_lit s)) as (_ & -> & -> & -> & _).
  exists (short_m s), 3. split; [|apply short_fewest].
  unfold lit_is. rewrite app_nil_r, short_val. cbn [List.length]. change (0 - Z.of_nat 0) with 0.
  change (bottom 3) with 1. change (bottom 0) with 1. change (10 ^ Z.max 0 0) with 1. change (10 ^ Z.max 3 0) with 1000. ring.
Qed.

(** The limits on the way through a text. *)
Definition short_way (f : spec_float) : res (bytes * option (spec_float)) :=
  let* t := marshal_opt env_short world1 opt0 (new_float64 env_short f) in
  let* r := unmarshal env_short t in
  match r with
  | (v, None) => let* g := api_float64 env_short v in Ok (t, Some g)
  | (_, Some _) => Ok (t, None)
  end.
