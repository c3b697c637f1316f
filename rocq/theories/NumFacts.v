(** Facts on decimal texts and on the numbers read from accepted literals. *)
From Verif Require Import Base Utf8 Float64 Value Scan Unmarshal Pure Opt Marshal ListLemmas SpecJson SpecValue SpecLax SpecText
  UnmarshalProof ValueLemmas SpecFacts NumProof ParseComplete ParseFacts MarshalProof LaxNum LaxParse RoundTrip.

(** *** Canonical decimal of an integer *)

Lemma dec_digits_aux_spec f : forall n acc, 0 <= n < 2 ^ Z.of_nat f -> (0 < f)%nat ->
  exists p, dec_digits_aux f n acc = p ++ acc /\ int_part p /\ digits_val p = n.
Proof.
  induction f as [|f IH]; intros n acc Hn Hf; [lia|]. cbn [dec_digits_aux].
  assert (Hm : 0 <= n mod 10 < 10) by (apply Z.mod_pos_bound; lia).
  assert (Hd : n = 10 * (n / 10) + n mod 10) by (apply Z.div_mod; lia).
  destruct (Z.eqb_spec (n / 10) 0) as [E0|N0].
  - exists [48 + n mod 10]. split; [reflexivity|]. split.
    + destruct (Z.eq_dec (n mod 10) 0) as [->|Hz]; [constructor|]. apply IP_pos; [lia|constructor].
    + cbn [digits_val fold_left]. lia.
  - assert (Hq : 0 <= n / 10) by (apply Z.div_pos; lia).
    assert (Hf' : (0 < f)%nat).
    { destruct f; [|lia]. change (2 ^ Z.of_nat 1) with 2 in Hn. assert (n / 10 = 0) by (apply Z.div_small; lia). lia. }
    destruct (IH (n / 10) ((48 + n mod 10) :: acc)) as (p & Hp & Hi & Hv); [|assumption|].
    { split; [assumption|]. rewrite Nat2Z.inj_succ, Z.pow_succ_r in Hn by lia.
      set (P := 2 ^ Z.of_nat f) in *. clearbody P. clear -Hn Hd Hm Hq.
 lia. }
    exists (p ++ [48 + n mod 10]). split; [rewrite Hp, <- app_assoc; reflexivity|]. split.
    + inversion Hi; subst.
      * unfold digits_val in Hv. cbn in Hv. lia.
      * cbn [app]. apply IP_pos; [assumption|]. apply Forall_app. split; [assumption|].
        constructor; [|constructor]. unfold digit. lia.
    + change digits_val with (dval 0) in *. rewrite dval_app, Hv. cbn [dval fold_left]. lia.
Qed.

Lemma dec_digits_spec n : 0 <= n -> int_part (dec_digits n) /\ digits_val (dec_digits n) = n.
Proof.
  intros Hn. unfold dec_digits.
  destruct (dec_digits_aux_spec (S (Z.to_nat (Z.log2 n))) n []) as (p & -> & H1 & H2); [|lia|].
  - split; [assumption|]. rewrite Nat2Z.inj_succ, Z2Nat.id by apply Z.log2_nonneg.
    destruct (Z.eq_dec n 0) as [->|Hz]; [reflexivity|]. apply Z.log2_spec. lia.
  - rewrite app_nil_r. auto.
Qed.

Lemma format_int_decimal i : decimal (format_int i) i.
Proof.
  unfold format_int, decimal. destruct (Z.ltb_spec i 0).
  - right. exists (dec_digits (- i)). destruct (dec_digits_spec (- i)); [lia|]. auto.
  - left. now apply dec_digits_spec.
Qed.

(** *** Literals *)

Lemma digits_neg ip : digits (45 :: ip) -> False.
Proof. intros [_ H]. inversion H; subst. unfold digit in *. lia. Qed.
Lemma int_part_ok ip : int_part ip -> digits ip.
Proof. intros H. apply int_part_digits in H. split; tauto. Qed.

Lemma frac_exp_char fr fd ex e : frac_part fr fd -> exp_part ex e -> fr ++ ex <> [] ->
  exists c, In c (fr ++ ex) /\ ~ digit c /\ c <> 45.
Proof.
  unfold digit. intros Hf He Hn. destruct Hf as [|d Hd].
  - destruct He as [|c d [->| ->] Hd|c d [->| ->] Hd|c d [->| ->] Hd]; [now elim Hn|..]; cbn [app];
      eexists; (split; [left; reflexivity|lia]).
  - exists 46. split; [now left|lia].
Qed.

Lemma lax_value_pos ip n : digits ip -> lax_value ip n ->
  n_neg n = false /\ n_flt n = false /\ n_u64 n = digits_val ip mod two64 /\
  n_i64 n = wrap_i64 (n_u64 n) /\ n_f64 n = f_of_Z (n_u64 n).
Proof.
  intros Hd H. inversion H as [ip' n' H1 H2 H3 H4 H5 H6|ip' n' H1 H2 H3 H4 H5 H6|neg ip' fr fd ex e n' H1 H2 H3 H4 H5 H6 H7 H8]; subst.
  - auto.
  - now apply digits_neg in Hd.
  - exfalso. destruct (frac_exp_char _ _ _ _ H3 H4 H5) as (c & Hc & Hn & _). destruct Hd as [_ Hd].
    rewrite Forall_forall in Hd. apply Hn, Hd. apply in_or_app. right. apply in_or_app. now right.
Qed.

Lemma lax_value_neg ip n : digits ip -> lax_value (45 :: ip) n ->
  n_neg n = true /\ n_flt n = false /\ n_i64 n = - digits_val ip /\
  n_u64 n = wrap_u64 (n_i64 n) /\ n_f64 n = f_opp (f_of_Z (digits_val ip)).
Proof.
  intros Hd H. inversion H as [ip' n' H1 H2 H3 H4 H5 H6|ip' n' H1 H2 H3 H4 H5 H6|neg ip' fr fd ex e n' H1 H2 H3 H4 H5 H6 H7 H8 E1]; subst.
  - now apply digits_neg in H1.
  - auto.
  - exfalso. destruct (frac_exp_char _ _ _ _ H3 H4 H5) as (c & Hc & Hn & Hm). destruct Hd as [_ Hd].
    assert (Hi : In c (45 :: ip)).
    { rewrite <- E1. apply in_or_app. right. apply in_or_app. now right. }
    destruct Hi as [Hi|Hi]; [congruence|]. rewrite Forall_forall in Hd. apply Hn, Hd, Hi.
Qed.

Lemma decimal_lax_num t i : decimal t i -> - two63 <= i < two64 -> lax_num t.
Proof.
  unfold two63, two64. intros [[Hi Hv]|(ip & -> & Hi & Hv & Hneg)] Hr.
  - assert (Hl : Z.of_nat (List.length t) <= 20) by (apply int_part_len; [assumption|lia|lia]).
    assert (H0 : 0 <= digits_val t).
    { apply int_part_digits in Hi as [Hd _]. exact (proj1 (dval_bounds _ Hd)). }
    apply LN_pos; [assumption|lia|]. intros H20. rewrite Z.mod_small by (unfold two64; lia).
    pose proof (int_part_lower t Hi) as Hlow. rewrite H20 in Hlow.
    change (10 ^ (Z.of_nat 20 - 1)) with 10000000000000000000 in Hlow. apply Hlow. intros E0.
    inversion Hi; subst; [discriminate|]. clear Hlow. change digits_val with (dval 0) in E0. cbn in E0.
    pose proof (dval_mono d (c - 48) H1 ltac:(lia)) as Hmono. unfold dval in Hmono. lia.
  - assert (Hl : Z.of_nat (List.length ip) <= 19) by (apply int_part_len; [assumption|lia|lia]).
    apply LN_neg; [now apply int_part_ok| |lia|unfold two63; lia].
    intros d Ed. subst ip. inversion Hi; subst. lia.
Qed.

Lemma decimal_gram t i : decimal t i -> exists neg ip fd e b, num_lit t neg ip fd e b.
Proof.
  intros [[Hi Hv]|(ip & -> & Hi & _ & _)].
  - exists false, t, [], 0, true. replace t with ((if false then [45] else []) ++ t ++ [] ++ []) at 1 by (cbn; now rewrite app_nil_r).
    apply (NumLit false t [] [] [] 0); [assumption|constructor|constructor].
  - exists true, ip, [], 0, true. replace (45 :: ip) with ((if true then [45] else []) ++ ip ++ [] ++ []) by (cbn; now rewrite app_nil_r).
    apply (NumLit true ip [] [] [] 0); [assumption|constructor|constructor].
Qed.

(** A decimal text is read as that integer. *)
Lemma decimal_number E t i : decimal t i -> - two63 <= i < two64 ->
  exists n, q_number E t = Ok (VNum n t, []) /\ n_flt n = false /\ n_neg n = (i <? 0) /\
    n_u64 n = wrap_u64 i /\ n_i64 n = wrap_i64 i.
Proof.
  intros Hd Hr. destruct (lax_number_value E t (decimal_lax_num t i Hd Hr)) as (n & Hq & Hl). exists n.
  split; [assumption|]. destruct Hd as [[Hi Hv]|(ip & -> & Hi & Hv & Hneg)].
  - apply lax_value_pos in Hl as (H1 & H2 & H3 & H4 & _); [|now apply int_part_ok].
    assert (H0 : 0 <= digits_val t).
    { apply int_part_digits in Hi as [Hd _]. exact (proj1 (dval_bounds _ Hd)). }
    rewrite Hv in H3. rewrite Z.mod_small in H3 by (unfold two64 in *; lia).
    rewrite H4, H3. repeat split; try assumption; [rewrite H1; lia|]. symmetry. apply wrap_u64_small. unfold two64 in *; lia.
  - apply lax_value_neg in Hl as (H1 & H2 & H3 & H4 & _); [|now apply int_part_ok].
    rewrite Hv in H3. rewrite Z.opp_involutive in H3. rewrite H3 in *. repeat split; try assumption; [rewrite H1; lia|].
    symmetry. apply wrap_i64_small. unfold two63 in *; lia.
Qed.

Lemma lit_doc E t n : q_number E t = Ok (VNum n t, []) -> unmarshal E t = Ok (VNum n t, None).
Proof.
  intros H. rewrite (unmarshal_of_lax E t (JNum t)).
  - cbn [to_V]. now rewrite H.
  - exists [], t, []. rewrite app_nil_r. repeat split; try constructor. eapply q_number_lax; eassumption.
Qed.

(** *** Integer literals of accepted documents *)

Lemma lax_int_content lit n : lax_num lit -> lax_value lit n -> int_content n lit.
Proof.
  intros HN HL. split.
  - intros Hd. destruct (lax_value_pos _ _ Hd HL) as (H1 & H2 & H3 & _). split; [|repeat split; try assumption].
    + inversion HN as [ip A B C|ip A B C D|neg ip fr fd ex e A B C D F G H]; subst.
      * assumption.
      * now apply digits_neg in Hd.
      * exfalso. destruct (frac_exp_char _ _ _ _ D F G) as (c & Hc & Hn & _). destruct Hd as [_ Hd].
        rewrite Forall_forall in Hd. apply Hn, Hd. apply in_or_app. right. apply in_or_app. now right.
    + intros Hv. rewrite H3. apply Z.mod_small. destruct Hd as [_ Hd]. pose proof (dval_bounds _ Hd). dv. lia.
  - intros ip -> Hd. destruct (lax_value_neg _ _ Hd HL) as (H1 & H2 & H3 & _). repeat split; try assumption.
    inversion HN as [ip' A B C|ip' A B C D|neg ip' fr fd ex e A B C D F G H E1]; subst.
    + apply int_part_ok in A. now apply digits_neg in A.
    + assumption.
    + exfalso. destruct (frac_exp_char _ _ _ _ D F G) as (c & Hc & Hn & Hm). destruct Hd as [_ Hd].
      assert (Hi : In c (45 :: ip)).
      { rewrite <- E1. apply in_or_app. right. apply in_or_app. now right. }
      destruct Hi as [Hi|Hi]; [congruence|]. rewrite Forall_forall in Hd. apply Hn, Hd, Hi.
Qed.

Theorem parsed_ints E b v : Forall is_byte b -> unmarshal E b = Ok (v, None) ->
  all_text (fun _ => True) int_content v.
Proof.
  intros Hb H. destruct (parsed_text E b v Hb H) as [_ Ht]. revert Ht. apply all_text_impl; [auto|].
  intros n src Hq. pose proof (q_number_lax _ _ _ Hq) as HN.
  destruct (lax_number_value E src HN) as (n' & Hq' & Hl). rewrite Hq in Hq'. injection Hq' as <-.
  now apply lax_int_content.
Qed.
