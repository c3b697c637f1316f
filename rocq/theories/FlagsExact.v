(** The predicates of numbers, for every number: proofs. *)
From Verif Require Import Base Float64 Value Scan Unmarshal Pure Access ListLemmas SpecJson SpecValue SpecLax SpecText SpecGet SpecFlags
  UnmarshalProof ValueLemmas NumProof ParseComplete ParseFacts LaxNum LaxParse RoundTrip RoundProof RoundClaims LitExact GetClaims NumFacts.

Lemma ltb0_sign f : f_ltb0 f = match f with S754_finite true _ _ | S754_infinity true => true | _ => false end.
Proof. destruct f as [[]|[]| |[] m e]; reflexivity. Qed.

Lemma trunc_at_least m e z : 1 <= z -> at_least (S754_finite false m e) z <-> exists t, f_trunc (S754_finite false m e) = Some t /\ z <= t.
Proof.
  intros Hz. cbn [at_least f_trunc]. destruct (Z.leb_spec 0 e) as [He|He].
  - rewrite (Z.max_l 0 (- e)), (Z.max_r 0 e) by lia. change (2 ^ 0) with 1. rewrite Z.mul_1_r. split.
    + intros H. eexists. split; [reflexivity|exact H].
    + intros (t & E & H). injection E as <-. exact H.
  - rewrite (Z.max_r 0 (- e)), (Z.max_l 0 e) by lia. change (2 ^ 0) with 1. rewrite Z.mul_1_r.
    assert (P : 0 < 2 ^ (- e)) by (apply Z.pow_pos_nonneg; lia). split.
    + intros H. eexists. split; [reflexivity|]. apply Z.div_le_lower_bound; lia.
    + intros (t & E & H). injection E as <-. pose proof (Z.mul_div_le (Z.pos m) (2 ^ (- e)) P). nia.
Qed.

(** GreaterThanInt64Max of a number whose integer fields come from its float. *)
Definition from_float (E : Env) (n : num) : Prop := n_neg n = f_ltb0 (n_f64 n) /\ n_u64 n = f_to_u64 E (n_f64 n).

Lemma greater_float E n src : from_float E n ->
  ~ at_least (n_f64 n) (2 ^ 64) -> n_f64 n <> S754_nan ->
  exists g, greater_than_int64_max (VNum n src) = Ok g /\ (g = true <-> at_least (n_f64 n) (2 ^ 63)).
Proof.
  intros [Hn Hu] H64 Hnan. unfold greater_than_int64_max, on_number, on_value. rewrite Hn, Hu, ltb0_sign.
  eexists. split; [reflexivity|]. unfold f_to_u64. destruct (n_f64 n) as [s|[]| |[] m e]; cbn [at_least] in H64 |- *.
  - cbn. split; [discriminate|]. intros H. exfalso. revert H. vm_compute. auto.
  - split; [discriminate|intros []].
  - now elim H64.
  - congruence.
  - split; [discriminate|intros []].
  - change (match S754_finite false m e with S754_finite false m e => 2 ^ 63 * 2 ^ Z.max 0 (- e) <= Z.pos m * 2 ^ Z.max 0 e | _ => True end)
      with (at_least (S754_finite false m e) (2 ^ 63)).
    rewrite (trunc_at_least m e (2 ^ 63)) by lia.
    assert (N : ~ exists t, f_trunc (S754_finite false m e) = Some t /\ 2 ^ 64 <= t) by (rewrite <- trunc_at_least by lia; exact H64).
    set (t := if 0 <=? e then Z.pos m * 2 ^ e else Z.pos m / 2 ^ (- e)).
    assert (T : f_trunc (S754_finite false m e) = Some t) by reflexivity.
    assert (P : 0 <= t) by (unfold t; destruct (Z.leb_spec 0 e); [apply Z.mul_nonneg_nonneg; [lia|apply Z.pow_nonneg; lia]|apply Z.div_pos; [lia|apply Z.pow_pos_nonneg; lia]]).
    assert (L : t < 2 ^ 64).
    { destruct (Z.lt_ge_cases t (2 ^ 64)) as [H|H]; [exact H|]. exfalso. apply N. exists t. auto. }
    rewrite T. clearbody t. unfold in_u64. change two64 with (2 ^ 64).
    rewrite (proj2 (Z.leb_le 0 t) P), (proj2 (Z.ltb_lt t _) L). cbn [andb]. split.
    + intros G. apply Z.ltb_lt in G. exists t. split; [reflexivity|lia].
    + intros (u & Eu & G). injection Eu as <-. apply Z.ltb_lt. lia.
Qed.

Lemma q_number_from E lit n : q_number E lit = Ok (VNum n lit, []) -> n_flt n = true -> from_float E n /\ n_f64 n <> S754_nan.
Proof.
  intros Hq Hf. pose proof (q_number_float E lit n Hq Hf) as HP. split.
  - revert Hq Hf. unfold q_number. destruct (q_num_loop lit 0 nst0) as [[[s src] rest]|e| |] eqn:El; cbn [rbind]; try discriminate.
    destruct (q_num_value E s src) as [v| | |] eqn:Ev; cbn [rbind]; try discriminate.
    intros H. injection H as -> ->. apply q_num_loop_nrun in El as (El & _ & _). rewrite app_nil_r in El. subst src.
    intros Hf. unfold q_num_value in Ev. destruct lit as [|c0 r]; [discriminate|].
    destruct (s_flt s) eqn:Es.
    + destruct (s_dot s && negb (s_iad s)); [discriminate|]. unfold q_float in Ev.
      destruct (parse_float (c0 :: r)) as [f|]; [|discriminate]. injection Ev as <-. split; reflexivity.
    + exfalso. unfold q_neg, q_pos in Ev.
      repeat match type of Ev with context [if ?b then _ else _] => destruct b; try discriminate end;
        injection Ev as <-; discriminate Hf.
  - intros E0. rewrite E0 in HP. unfold parse_float in HP.
    assert (N : forall neg m e, 0 <= m -> match f_of_dec neg m e with S754_infinity _ => None | _ => Some (f_of_dec neg m e) end <> Some S754_nan).
    { intros neg m e Hm. destruct (f_of_dec_ok neg m e Hm) as [[_ O]|[_ O]]; [rewrite O; discriminate|].
      intros X. destruct (f_of_dec neg m e); try discriminate X. destruct O as (M & q & O & _). discriminate O. }
    assert (R : forall s acc cnt, 0 <= acc -> 0 <= fst (fst (read_digits s acc cnt))).
    { induction s as [|c s IH]; intros acc cnt Ha; [exact Ha|]. cbn [read_digits]. unfold is_digit.
      destruct (Z.leb_spec 48 c), (Z.leb_spec c 57); cbn [andb]; try exact Ha. apply IH. lia. }
    destruct (match lit with 43 :: r => (false, r) | 45 :: r => (true, r) | _ => (false, lit) end) as [neg s1].
    pose proof (R s1 0 0%nat ltac:(lia)) as R1. destruct (read_digits s1 0 0) as [[ip ni] s2]. cbn [fst] in R1.
    assert (R2 : exists m nf s3, (match s2 with 46 :: r => let '(m, nf, s3) := read_digits r ip 0 in (m, nf, s3) | _ => (ip, 0%nat, s2) end) = (m, nf, s3) /\ 0 <= m).
    { assert (G : 0 <= ip) by exact R1. destruct s2 as [|c r]; [eauto 10|]. destruct (Z.eqb_spec c 46) as [->|Nc].
      - pose proof (R r ip 0%nat G) as R3. destruct (read_digits r ip 0) as [[m nf] s3]. eauto 10.
      - exists ip, 0%nat, (c :: r). split; [|exact G].
        destruct c as [|p|p]; [reflexivity| |reflexivity]. do 6 (destruct p as [p|p|]; try reflexivity). congruence. }
    destruct R2 as (m & nf & s3 & R2 & Hm). rewrite R2 in HP.
    destruct ((ni + nf =? 0)%nat); [discriminate HP|]. cbv zeta beta in HP. destruct s3 as [|c r]; [now apply N in HP|].
    destruct ((c =? 101) || (c =? 69)); [|discriminate HP].
    destruct (match r with 43 :: r' => (1, r') | 45 :: r' => (-1, r') | _ => (1, r) end) as [esign r1].
    destruct (read_exp r1 0 0) as [[e ne] s4].
    repeat match type of HP with
    | match f_of_dec _ _ _ with _ => _ end = _ => now apply N in HP
    | match ?x with _ => _ end = _ => destruct x; try discriminate HP
    end.
Qed.

Lemma negative_exact n src : n_neg n = f_ltb0 (n_f64 n) -> exists g, api_is_negative (VNum n src) = Ok g /\ (g = true <-> below_zero (n_f64 n)).
Proof.
  intros H. exists (n_neg n). split; [reflexivity|]. rewrite H, ltb0_sign. destruct (n_f64 n) as [s|[]| |[] m e]; cbn; split; try discriminate; tauto.
Qed.

(** C41 *)
Theorem parsed_flags E b v : Forall is_byte b -> unmarshal E b = Ok (v, None) ->
  all_text (fun _ => True) (fun n lit =>
    let v := VNum n lit in
    (digits lit -> greater_than_int64_max v = Ok (2 ^ 63 <=? digits_val lit mod 2 ^ 64)) /\
    (~ int_lit lit ->
      (exists g, api_is_negative v = Ok g /\ (g = true <-> below_zero (n_f64 n))) /\
      (~ at_least (n_f64 n) (2 ^ 64) -> exists g, greater_than_int64_max v = Ok g /\ (g = true <-> at_least (n_f64 n) (2 ^ 63))))) v.
Proof.
  intros Hb H. destruct (parsed_text E b v Hb H) as [_ Ht]. revert Ht. apply all_text_impl; [auto|].
  intros n src Hq. cbv zeta. pose proof (q_number_lax _ _ _ Hq) as HN.
  destruct (lax_number_value E src HN) as (n' & Hq' & Hl). rewrite Hq in Hq'. injection Hq' as <-. split.
  - intros Hd. destruct (lax_value_pos src n Hd Hl) as (H1 & _ & H3 & _).
    unfold greater_than_int64_max, on_number, on_value. rewrite H1, H3. change two64 with (2 ^ 64). f_equal.
    change 9223372036854775807 with (Z.pred (2 ^ 63)). generalize (digits_val src mod 2 ^ 64). intros z.
    destruct (Z.ltb_spec (Z.pred (2 ^ 63)) z), (Z.leb_spec (2 ^ 63) z); lia.
  - intros Hi. assert (Hf : n_flt n = true) by (inversion Hl; subst; [elim Hi; now left|elim Hi; right; eauto|assumption]).
    destruct (q_number_from E src n Hq Hf) as [HF HN2]. split; [apply negative_exact, HF|].
    intros HA. now apply (greater_float E).
Qed.

Theorem float_flags E f format prec bits : let v := new_float64f_ E f format prec bits in
  api_is_integer v = Ok true /\ api_is_float v = Ok false /\
  (exists g, api_is_negative v = Ok g /\ (g = true <-> below_zero f)) /\
  (~ at_least f (2 ^ 64) -> f <> S754_nan -> exists g, greater_than_int64_max v = Ok g /\ (g = true <-> at_least f (2 ^ 63))).
Proof.
  cbv zeta. split; [reflexivity|]. split; [reflexivity|]. unfold new_float64f_.
  match goal with |- context [VNum ?n _] => set (m := n) end. change f with (n_f64 m) at 1 2 3 4. split.
  - now apply negative_exact.
  - intros H1 H2. apply (greater_float E); try assumption. split; reflexivity.
Qed.

Example flags_example : forall E,
  api_is_integer (new_float64 E (f_of_dec false 15 (-1))) = Ok true /\
  at_least (f_of_dec false 95 17) (2 ^ 63) /\ ~ at_least (f_of_dec false 95 17) (2 ^ 64) /\
  greater_than_int64_max (new_float64 E (f_of_dec false 95 17)) = Ok true /\
  below_zero (f_of_dec true 1 (-3)) /\ ~ below_zero (S754_zero true).
Proof.
  intros E. split; [reflexivity|]. split; [vm_compute; discriminate|]. split; [vm_compute; intros H; apply H; reflexivity|].
  split; [vm_compute; reflexivity|]. split; [exact I|intros []].
Qed.
