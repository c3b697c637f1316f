(** The integer getters: proofs. *)
From Verif Require Import Base Float64 Value Scan Unmarshal Pure Access ListLemmas SpecJson SpecValue SpecLax SpecText SpecGet SpecWhole
  UnmarshalProof ValueLemmas NumProof ParseComplete ParseFacts LaxNum LaxParse RoundTrip RoundProof RoundClaims LitExact GetProof GetClaims NumFacts FlagsExact ExampleWorld.

Lemma whole_trunc f z : whole f z -> f_trunc f = Some z.
Proof.
  destruct f as [s|s| |s m e]; cbn [whole f_trunc]; try tauto; [congruence|].
  intros (S & H1 & H2). f_equal.
  enough (A : (if 0 <=? e then Z.pos m * 2 ^ e else Z.pos m / 2 ^ (- e)) = Z.abs z) by (rewrite A; destruct s; lia).
  destruct (Z.leb_spec 0 e) as [He|He].
  - rewrite (Z.max_l 0 (- e)), (Z.max_r 0 e) in * by lia. change (2 ^ 0) with 1 in *. lia.
  - rewrite (Z.max_r 0 (- e)), (Z.max_l 0 e) in * by lia. change (2 ^ 0) with 1 in *.
    assert (P : 0 < 2 ^ (- e)) by (apply Z.pow_pos_nonneg; lia).
    symmetry. apply Z.div_unique with (r := Z.pos m - Z.abs z * 2 ^ (- e)); nia.
Qed.

(** The whole part exists, for every finite float, and is the only one. *)
Lemma trunc_whole f z : f_trunc f = Some z -> whole f z.
Proof.
  destruct f as [s|s| |s m e]; cbn [whole f_trunc]; try discriminate; [intros [= <-]; reflexivity|].
  set (a := if 0 <=? e then Z.pos m * 2 ^ e else Z.pos m / 2 ^ (- e)).
  assert (Ha : 0 <= a) by (unfold a; destruct (Z.leb_spec 0 e); [apply Z.mul_nonneg_nonneg; [lia|apply Z.pow_nonneg; lia]|apply Z.div_pos; [lia|apply Z.pow_pos_nonneg; lia]]).
  intros H. injection H as <-. split; [destruct s; lia|]. replace (Z.abs (if s then - a else a)) with a by (destruct s; lia). clear Ha. subst a.
  destruct (Z.leb_spec 0 e) as [He|He].
  - rewrite (Z.max_l 0 (- e)), (Z.max_r 0 e) by lia. change (2 ^ 0) with 1. lia.
  - rewrite (Z.max_r 0 (- e)), (Z.max_l 0 e) by lia. change (2 ^ 0) with 1.
    assert (P : 0 < 2 ^ (- e)) by (apply Z.pow_pos_nonneg; lia).
    pose proof (Z.mul_div_le (Z.pos m) (2 ^ (- e)) P). pose proof (Z.mul_succ_div_gt (Z.pos m) (2 ^ (- e)) P). nia.
Qed.

Theorem whole_one f : (exists s m e, f = S754_finite s m e) \/ (exists s, f = S754_zero s) -> exists z, whole f z /\ forall z', whole f z' -> z' = z.
Proof.
  intros H. assert (T : exists z, f_trunc f = Some z) by (destruct H as [(s & m & e & ->)|(s & ->)]; cbn [f_trunc]; eauto).
  destruct T as (z & T). exists z. split; [now apply trunc_whole|]. intros z' H'. apply whole_trunc in H'. congruence.
Qed.

Lemma i64_range z : - 2 ^ 63 <= wrap_i64 z < 2 ^ 63.
Proof. unfold wrap_i64. pose proof (Z.mod_pos_bound (z + two63) two64 ltac:(reflexivity)). unfold two63, two64 in *. lia. Qed.
Lemma u64_range z : 0 <= wrap_u64 z < 2 ^ 64.
Proof. unfold wrap_u64. pose proof (Z.mod_pos_bound z two64 ltac:(reflexivity)). unfold two64 in *. lia. Qed.
Lemma i32_range z : - 2 ^ 31 <= wrap_i32 z < 2 ^ 31.
Proof. unfold wrap_i32. pose proof (Z.mod_pos_bound (z + two31) two32 ltac:(reflexivity)). unfold two31, two32 in *. lia. Qed.
Lemma i32_small z : - 2 ^ 31 <= z < 2 ^ 31 -> wrap_i32 z = z.
Proof. intros H. unfold wrap_i32, two31, two32 in *. rewrite Z.mod_small; lia. Qed.
Lemma u32_small z : 0 <= z < 2 ^ 32 -> wrap_u32 z = z.
Proof. intros H. unfold wrap_u32, two32 in *. rewrite Z.mod_small; lia. Qed.
Lemma i32_mod z : wrap_i32 z mod 2 ^ 32 = z mod 2 ^ 32.
Proof.
  unfold wrap_i32. change two32 with (2 ^ 32). rewrite <- (Zminus_mod_idemp_l _ _ _), Zmod_mod, Zminus_mod_idemp_l. f_equal. lia.
Qed.

Lemma f_i64_range E f : - 2 ^ 63 <= f_to_i64 E f < 2 ^ 63.
Proof.
  unfold f_to_i64. destruct (f_trunc f) as [z|]; [|apply i64_range]. destruct (in_i64 z) eqn:H; [|apply i64_range].
  unfold in_i64, two63 in H. lia.
Qed.
Lemma f_u64_range E f : 0 <= f_to_u64 E f < 2 ^ 64.
Proof.
  unfold f_to_u64. destruct (f_trunc f) as [z|]; [|apply u64_range]. destruct (in_u64 z) eqn:H; [|apply u64_range].
  unfold in_u64, two64 in H. lia.
Qed.

Lemma typed_of E v n : num_of E v = Ok n -> - 2 ^ 63 <= n_i64 n < 2 ^ 63 -> 0 <= n_u64 n < 2 ^ 64 -> getters_typed E v.
Proof.
  intros Hn Hi Hu. exists (n_i64 n), (n_u64 n), (wrap_i32 (n_i64 n)), (wrap_u32 (n_u64 n)).
  unfold api_int, api_int64, api_int32, api_uint, api_uint64, api_uint32. rewrite Hn. cbn [rbind].
  repeat match goal with |- _ /\ _ => split end; try reflexivity; try lia; try apply i32_range.
  - apply i32_mod.
  - apply Z.mod_pos_bound. reflexivity.
  - apply Z.mod_pos_bound. reflexivity.
Qed.

Lemma give_of E v n z : num_of E v = Ok n ->
  (- 2 ^ 63 <= z < 2 ^ 63 -> n_i64 n = z) -> (0 <= z < 2 ^ 64 -> n_u64 n = z) -> getters_give E v z.
Proof.
  intros Hn Hi Hu. unfold getters_give, api_int, api_int64, api_int32, api_uint, api_uint64, api_uint32. rewrite Hn. cbn [rbind].
  split; [|split; [|split]]; intros H.
  - rewrite Hi by exact H. auto.
  - rewrite Hi by lia. now rewrite i32_small.
  - rewrite Hu by exact H. auto.
  - rewrite Hu by lia. now rewrite u32_small.
Qed.

Lemma give_float E v n z : num_of E v = Ok n -> n_i64 n = f_to_i64 E (n_f64 n) -> n_u64 n = f_to_u64 E (n_f64 n) ->
  whole (n_f64 n) z -> getters_give E v z.
Proof.
  intros Hn Hi Hu HW. apply whole_trunc in HW. apply (give_of E v n); [exact Hn| |]; intros H.
  - rewrite Hi. unfold f_to_i64. rewrite HW. replace (in_i64 z) with true; [reflexivity|]. unfold in_i64, two63. lia.
  - rewrite Hu. unfold f_to_u64. rewrite HW. replace (in_u64 z) with true; [reflexivity|]. unfold in_u64, two64. lia.
Qed.

(** The number read from a literal. *)
Lemma q_float_fields E lit n : q_number E lit = Ok (VNum n lit, []) -> n_flt n = true ->
  n_i64 n = f_to_i64 E (n_f64 n) /\ n_u64 n = f_to_u64 E (n_f64 n).
Proof.
  unfold q_number. destruct (q_num_loop lit 0 nst0) as [[[s src] rest]|e| |] eqn:El; cbn [rbind]; try discriminate.
  destruct (q_num_value E s src) as [v| | |] eqn:Ev; cbn [rbind]; try discriminate.
  intros H. injection H as -> ->. apply q_num_loop_nrun in El as (El & _ & _). rewrite app_nil_r in El. subst src.
  intros Hf. unfold q_num_value in Ev. destruct lit as [|c0 r]; [discriminate|].
  destruct (s_flt s) eqn:Es.
  + destruct (s_dot s && negb (s_iad s)); [discriminate|]. unfold q_float in Ev.
    destruct (parse_float (c0 :: r)) as [f|]; [|discriminate]. injection Ev as <-. split; reflexivity.
  + exfalso. unfold q_neg, q_pos in Ev.
    repeat match type of Ev with context [if ?b then _ else _] => destruct b; try discriminate end;
      injection Ev as <-; discriminate Hf.
Qed.

Lemma lax_neg_small ip : digits ip -> lax_num (45 :: ip) -> digits_val ip <= two63.
Proof.
  intros Hd H. inversion H as [ip' H1 H2 H3 E1|ip' H1 H2 H3 H4 E1|neg ip' fr fd ex e H1 H2 H3 H4 H5 H6 H7 E1]; subst.
  - exfalso. assert (D : digits (45 :: ip)) by now apply int_part_ok. now apply digits_neg in D.
  - assumption.
  - exfalso. assert (L : lax_value (45 :: ip) {| n_neg := SFltb (lit_f64 neg ip' fd e) f_zero; n_flt := true; n_i64 := 0; n_u64 := 0; n_f64 := lit_f64 neg ip' fd e |}).
    { rewrite <- E1. apply LX_float with fd e; auto. }
    apply lax_value_neg in L as (_ & F & _); [|assumption]. discriminate F.
Qed.

Lemma literal_typed E lit n v : q_number E lit = Ok (VNum n lit, []) -> num_of E v = Ok n -> getters_typed E v.
Proof.
  intros Hq Hn. pose proof (q_number_lax _ _ _ Hq) as HN.
  destruct (lax_number_value E lit HN) as (n' & Hq' & Hl). rewrite Hq in Hq'. injection Hq' as <-. apply (typed_of E v n); [exact Hn| |].
  - inversion Hl; subst.
    + rewrite H3. apply i64_range.
    + rewrite H2. pose proof (lax_neg_small ip H HN). assert (0 <= digits_val ip) by (destruct H as [_ Hd]; exact (proj1 (dval_bounds _ Hd))). unfold two63 in *. lia.
    + destruct (q_float_fields E _ n Hq H4) as [-> _]. apply f_i64_range.
  - inversion Hl; subst.
    + rewrite H2. apply u64_range.
    + rewrite H3. apply u64_range.
    + destruct (q_float_fields E _ n Hq H4) as [_ ->]. apply f_u64_range.
Qed.

Lemma literal_give E lit n v z : q_number E lit = Ok (VNum n lit, []) -> num_of E v = Ok n ->
  writes_int lit z \/ (~ int_lit lit /\ whole (n_f64 n) z) -> getters_give E v z.
Proof.
  intros Hq Hn HZ. pose proof (q_number_lax _ _ _ Hq) as HN.
  destruct (lax_number_value E lit HN) as (n' & Hq' & Hl). rewrite Hq in Hq'. injection Hq' as <-.
  destruct HZ as [[[Hd ->]|(ip & -> & Hd & ->)]|[Hi HW]].
  - destruct (lax_value_pos lit n Hd Hl) as (_ & _ & H3 & H4 & _). apply (give_of E v n); [exact Hn| |]; intros H.
    + rewrite H4, H3. assert (0 <= digits_val lit) by (destruct Hd as [_ Hd]; exact (proj1 (dval_bounds _ Hd))). rewrite Z.mod_small by (unfold two64; lia).
      apply wrap_i64_small. unfold two63. lia.
    + rewrite H3. apply Z.mod_small. unfold two64. lia.
  - destruct (lax_value_neg ip n Hd Hl) as (_ & _ & H3 & H4 & _). apply (give_of E v n); [exact Hn| |]; intros H.
    + exact H3.
    + rewrite H4, H3. apply Z.mod_small. unfold two64. lia.
  - assert (Hf : n_flt n = true) by (inversion Hl; subst; [elim Hi; now left|elim Hi; right; eauto|assumption]).
    destruct (q_float_fields E lit n Hq Hf) as [H1 H2]. now apply (give_float E v n).
Qed.

(** C79 *)
Theorem parsed_whole E b v : Forall is_byte b -> unmarshal E b = Ok (v, None) ->
  all_text (fun _ => True) (fun n lit =>
    let v := VNum n lit in getters_typed E v /\ api_float64 E v = Ok (n_f64 n) /\
    forall z, writes_int lit z \/ (~ int_lit lit /\ whole (n_f64 n) z) -> getters_give E v z) v.
Proof.
  intros Hb H. destruct (parsed_text E b v Hb H) as [_ Ht]. revert Ht. apply all_text_impl; [auto|].
  intros n lit Hq. cbv zeta. split; [now apply (literal_typed E lit n)|]. split; [reflexivity|].
  intros z. now apply (literal_give E lit n).
Qed.

Theorem string_whole E s lit : spells s lit ->
  getters_typed E (VStr s) /\
  exists f, api_float64 E (VStr s) = Ok f /\
    forall z, writes_int lit z \/ (~ int_lit lit /\ whole f z) -> getters_give E (VStr s) z.
Proof.
  intros HS. pose proof (trim_lit _ _ HS) as HT. destruct HS as (w1 & w2 & H1 & H2 & HL & Es).
  assert (Hs : ~ spaces s).
  { intros X. apply trim_space_blank in X. rewrite HT in X. rewrite X in HL.
    destruct (lax_number_value E [] HL) as (n & Hq & _). cbv in Hq. discriminate Hq. }
  destruct (number_of_text_spec E s Hs) as [(lit' & n & HS' & HV & HE)|[HX _]]; [|exfalso; apply (HX lit); exists w1, w2; auto].
  pose proof (trim_lit _ _ HS') as HT'. rewrite HT in HT'. subst lit'.
  assert (HN : num_of E (VStr s) = Ok n).
  { unfold num_of, number_from_not_number. rewrite HE. destruct s; [|reflexivity]. exfalso. apply Hs. exists []. split; [constructor|reflexivity]. }
  assert (Hq : q_number E lit = Ok (VNum n lit, [])).
  { unfold number_of_text in HE. rewrite HT in HE.
    assert (Hne : lit <> []) by (intros ->; destruct (lax_number_value E [] HL) as (n' & Hq & _); cbv in Hq; discriminate Hq).
    pose proof (whole_number E lit Hne) as P. rewrite HE in P. exact P. }
  split; [now apply (literal_typed E lit n)|]. exists (n_f64 n). split; [unfold api_float64; now rewrite HN|].
  intros z. now apply (literal_give E lit n).
Qed.

Theorem float_whole E f format prec bits : let v := new_float64f_ E f format prec bits in
  getters_typed E v /\ api_float64 E v = Ok f /\ forall z, whole f z -> getters_give E v z.
Proof.
  cbv zeta. split; [|split; [reflexivity|]].
  - eapply typed_of; [reflexivity|apply f_i64_range|apply f_u64_range].
  - intros z HW. eapply give_float; try reflexivity. exact HW.
Qed.

Theorem literal_rounded : exists lit : bytes, lit = bs "0.99999999999999999999" /\
  forall E, exists n, unmarshal E lit = Ok (VNum n lit, None) /\ api_int E (VNum n lit) = Ok 1.
Proof. eexists. split; [reflexivity|]. intros E. eexists. split; vm_compute; reflexivity. Qed.

Example whole_example :
  (exists n, unmarshal env0 (bs "-2.75e1") = Ok (VNum n (bs "-2.75e1"), None) /\ whole (n_f64 n) (-27) /\
    api_int32 env0 (VNum n (bs "-2.75e1")) = Ok (-27)) /\
  api_uint32 env0 (VStr (bs " 3.999 ")) = Ok 3 /\
  api_int64 env0 (VStr (bs "-9223372036854775808")) = Ok (- 2 ^ 63) /\
  ~ whole (f_of_dec true 275 (-1)) (-28) /\ whole (f_of_dec true 9 (-1)) 0.
Proof.
  split.
  { eexists. split; [vm_compute; reflexivity|]. split; [|vm_compute; reflexivity]. apply trunc_whole. vm_compute. reflexivity. }
  split; [vm_compute; reflexivity|]. split; [vm_compute; reflexivity|].
  split; [intros H; apply whole_trunc in H; vm_compute in H; discriminate H|apply trunc_whole; vm_compute; reflexivity].
Qed.
