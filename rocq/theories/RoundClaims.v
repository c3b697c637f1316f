(** Numbers of parsed documents are rounded to nearest. *)
From Verif Require Import Base Float64 Value Scan Unmarshal Access Pure ListLemmas SpecJson SpecValue SpecLax SpecText
  SpecRound UnmarshalProof ValueLemmas NumProof LaxNum LaxParse RoundTrip NumFacts RoundProof.
From Verif Require LaxFacts.

Lemma lit_f64_ok neg ip fd e : Forall digit ip -> Forall digit fd ->
  (lit_overflows ip fd e /\ lit_f64 neg ip fd e = S754_infinity neg) \/
  (~ lit_overflows ip fd e /\ lit_nearest neg ip fd e (lit_f64 neg ip fd e)).
Proof.
  intros H1 H2. apply f_of_dec_ok. dv. apply (dval_bounds (ip ++ fd)). apply Forall_app. auto.
Qed.

Lemma frac_digits fr fd : frac_part fr fd -> Forall digit fd.
Proof. intros [|d [_ H]]; [constructor|exact H]. Qed.

Lemma finite_not_inf neg m e : ~ nearest neg m e (S754_infinity neg).
Proof. intros (M & q & H & _). discriminate H. Qed.

Lemma q_number_float E lit n : q_number E lit = Ok (VNum n lit, []) -> n_flt n = true -> parse_float lit = Some (n_f64 n).
Proof.
  unfold q_number. destruct (q_num_loop lit 0 nst0) as [[[s src] rest]|e| |] eqn:El; cbn [rbind]; try discriminate.
  destruct (q_num_value E s src) as [v| | |] eqn:Ev; cbn [rbind]; try discriminate.
  intros H. injection H as -> ->. apply q_num_loop_nrun in El as (El & _ & _). rewrite app_nil_r in El. subst src.
  intros Hf. unfold q_num_value in Ev. destruct lit as [|c0 r]; [discriminate|].
  destruct (s_flt s) eqn:Es.
  - destruct (s_dot s && negb (s_iad s)); [discriminate|]. unfold q_float in Ev.
    destruct (parse_float (c0 :: r)) as [f|]; [|discriminate]. injection Ev as <-. reflexivity.
  - exfalso. unfold q_neg, q_pos in Ev.
    repeat match type of Ev with context [if ?b then _ else _] => destruct b; try discriminate end;
      injection Ev as <-; discriminate Hf.
Qed.

Lemma number_content E src n : q_number E src = Ok (VNum n src, []) -> float_content n src.
Proof.
  intros Hq neg ip fd e i HL. pose proof (q_number_lax _ _ _ Hq) as HN.
  destruct (lax_number_value E src HN) as (n' & Hq' & Hl). rewrite Hq in Hq'. injection Hq' as <-.
  inversion HL as [neg' ip' fr fd' ex e' Hip Hfr Hex E1 E2]; subst.
  destruct (int_part_digits ip Hip) as [Hd Hne]. intros Hs.
  pose proof (lit_f64_ok neg ip fd e Hd (frac_digits _ _ Hfr)) as HF.
  destruct (fr ++ ex) as [|y t] eqn:Efe.
  - apply app_eq_nil in Efe as [-> ->].
    assert (fd = []) by (inversion Hfr; reflexivity). subst fd.
    assert (e = 0) by (inversion Hex; reflexivity). subst e.
    assert (Hnn : 0 <= digits_val ip) by (dv; apply (dval_bounds ip Hd)).
    assert (Hv : n_f64 n = lit_f64 neg ip [] 0).
    { unfold lit_f64. rewrite app_nil_r. cbn [List.length]. change (0 - Z.of_nat 0) with 0.
      rewrite app_nil_r in Hl. destruct neg; cbn [app] in Hl.
      - destruct (lax_value_neg ip n (conj Hne Hd) Hl) as (_ & _ & _ & _ & ->). symmetry. now apply f_of_dec_negint.
      - destruct (lax_value_pos ip n (conj Hne Hd) Hl) as (_ & _ & Hu & _ & ->). rewrite Hu.
        rewrite Z.mod_small by (specialize (Hs eq_refl); lia). symmetry. now apply f_of_dec_int. }
    rewrite Hv. destruct HF as [[HF _]|[_ HF]]; [exfalso|exact HF].
    (* integers of at most 20 digits do not overflow *)
    unfold lit_overflows in HF. rewrite app_nil_r in HF. cbn [List.length] in HF. change (0 - Z.of_nat 0) with 0 in HF.
    assert (Hsm : digits_val ip < two64).
    { destruct neg; [|now apply Hs]. rewrite app_nil_r in HN, Hl. cbn [app] in HN, Hl.
      destruct (lax_int_content _ _ HN Hl) as [_ HI]. specialize (HI ip eq_refl (conj Hne Hd)).
      destruct HI as (HI & _). unfold two63, two64 in *. lia. }
    unfold overflows, bottom, top in HF. change (10 ^ Z.max 0 0) with 1 in HF. change (10 ^ Z.max (- 0) 0) with 1 in HF.
    assert (T : 0 < 2 ^ 1074) by (apply Z.pow_pos_nonneg; lia).
    assert (two64 <= (2 ^ 54 - 1) * 2 ^ 970) by (apply Z.leb_le; vm_compute; reflexivity).
    set (a := (2 ^ 54 - 1) * 2 ^ 970) in *. set (b := 2 ^ 1074) in *. clearbody a b. nia.
  - assert (Hfl : n_flt n = true).
    { clear HF Hs. rewrite <- Efe in *. assert (Hn : fr ++ ex <> []) by (rewrite Efe; discriminate).
      destruct (frac_exp_char _ _ _ _ Hfr Hex Hn) as (c & Hc & Hnd & Hm).
      inversion Hl as [ip' n' H1 H2 H3 H4 H5 H6 E1|ip' n' H1 H2 H3 H4 H5 H6 E1|]; subst; [| |assumption].
      - exfalso. apply Hnd. destruct H1 as [_ H1]. rewrite Forall_forall in H1. apply H1. apply in_or_app. right.
        apply in_or_app. now right.
      - exfalso. destruct H1 as [_ H1]. rewrite Forall_forall in H1.
        assert (Hi : In c (45 :: ip')) by (rewrite E1; apply in_or_app; right; apply in_or_app; now right).
        destruct Hi as [Hi|Hi]; [congruence|]. now apply Hnd, H1. }
    pose proof (q_number_float E _ _ Hq Hfl) as HP. rewrite <- Efe in HP.
    rewrite (parse_float_spec neg ip fr fd ex e Hip Hfr Hex Hs) in HP.
    destruct HF as [[_ HF]|[_ HF]]; [rewrite HF in HP; discriminate|].
    destruct (lit_f64 neg ip fd e) as [s|s| |s m q]; [|discriminate| |]; injection HP as <-; exact HF.
Qed.

Theorem parsed_floats E b v : Forall is_byte b -> unmarshal E b = Ok (v, None) ->
  all_text (fun _ => True) float_content v.
Proof.
  intros Hb H. destruct (parsed_text E b v Hb H) as [_ Ht]. revert Ht. apply all_text_impl; [auto|].
  intros n src Hq. eapply number_content. exact Hq.
Qed.

(** A document that consists of bytes of numbers is a number. *)
Lemma number_doc E lit v : Forall number_byte lit -> unmarshal E lit = Ok (v, None) ->
  lax_num lit /\ exists n, q_number E lit = Ok (VNum n lit, []) /\ v = VNum n lit.
Proof.
  intros Hn H.
  assert (Hb : Forall is_byte lit).
  { revert Hn. apply Forall_impl. intros c. unfold number_byte, digit, is_byte. lia. }
  apply unmarshal_lax in H as (j & (w1 & t & w2 & -> & B1 & Hj & B2) & ->); [|exact Hb]. clear Hb.
  apply Forall_app in Hn as [N1 Hn]. apply Forall_app in Hn as [Hn N2].
  assert (W : forall w, Forall number_byte w -> lblanks w -> w = []).
  { intros [|c w] A B; [reflexivity|exfalso]. inversion A as [|x y A1 A2]; subst. inversion B as [|x y B3 B4]; subst.
    unfold number_byte, digit, is_lblank, is_ws in *. lia. }
  rewrite (W w1 N1 B1), (W w2 N2 B2) in *. rewrite app_nil_r. cbn [app].
  assert (X : forall c r, t = c :: r -> number_byte c) by (intros c r ->; now inversion Hn).
  destruct Hj as [| | |lit HL|b s _|b l _|b l _].
  - specialize (X 110 (bs "ull") eq_refl). unfold number_byte, digit in X. lia.
  - specialize (X 116 (bs "rue") eq_refl). unfold number_byte, digit in X. lia.
  - specialize (X 102 (bs "alse") eq_refl). unfold number_byte, digit in X. lia.
  - split; [exact HL|]. destruct (lax_number_value E lit HL) as (n & Hq & _). exists n. split; [exact Hq|].
    cbn [ParseComplete.to_V]. now rewrite Hq.
  - specialize (X 34 _ eq_refl). unfold number_byte, digit in X. lia.
  - specialize (X 91 _ eq_refl). unfold number_byte, digit in X. lia.
  - specialize (X 123 _ eq_refl). unfold number_byte, digit in X. lia.
Qed.

Theorem literal_float64 E lit neg ip fd e i v : num_lit lit neg ip fd e i -> lit_small neg ip e i ->
  unmarshal E lit = Ok (v, None) ->
  exists f, api_float64 E v = Ok f /\ lit_nearest neg ip fd e f.
Proof.
  intros HL Hs H. destruct (number_doc E lit v (LaxFacts.num_lit_bytes _ _ _ _ _ _ HL) H) as (_ & n & Hq & ->).
  exists (n_f64 n). split; [reflexivity|]. exact (number_content E lit n Hq neg ip fd e i HL Hs).
Qed.

(** Acceptance. *)
Theorem literal_range E lit neg ip fd e : num_lit lit neg ip fd e false -> Z.abs e <= 99999 -> no_wrap ip ->
  (exists v, unmarshal E lit = Ok (v, None)) <-> ~ lit_overflows ip fd e.
Proof.
  intros HL He Hw. pose proof (LaxFacts.num_lit_bytes _ _ _ _ _ _ HL) as Hn.
  inversion HL as [neg' ip' fr fd' ex e' Hip Hfr Hex E1 E2]; subst.
  destruct (int_part_digits ip Hip) as [Hd Hne].
  pose proof (lit_f64_ok neg ip fd e Hd (frac_digits _ _ Hfr)) as HF.
  pose proof (parse_float_spec neg ip fr fd ex e Hip Hfr Hex He) as HP.
  assert (Hfe : fr ++ ex <> []) by (intros X; rewrite X in *; discriminate).
  split.
  - intros [v Hv]. destruct (number_doc E _ v Hn Hv) as (_ & n & Hq & _).
    destruct HF as [[_ HF]|[HF _]]; [exfalso|exact HF]. rewrite HF in HP.
    assert (Hfl : n_flt n = true -> False).
    { intros Hfl. rewrite (q_number_float E _ _ Hq Hfl) in HP. discriminate. }
    apply Hfl. destruct (lax_number_value E _ (q_number_lax _ _ _ Hq)) as (n' & Hq' & Hl).
    rewrite Hq in Hq'. injection Hq' as <-.
    destruct (frac_exp_char _ _ _ _ Hfr Hex Hfe) as (c & Hc & Hnd & Hm).
    inversion Hl as [ip' n' H1 H2 H3 H4 H5 H6 E1|ip' n' H1 H2 H3 H4 H5 H6 E1|]; subst; [| |assumption].
    + exfalso. apply Hnd. destruct H1 as [_ H1]. rewrite Forall_forall in H1. apply H1. apply in_or_app. right.
      apply in_or_app. now right.
    + exfalso. destruct H1 as [_ H1]. rewrite Forall_forall in H1.
      assert (Hi : In c (45 :: ip')) by (rewrite E1; apply in_or_app; right; apply in_or_app; now right).
      destruct Hi as [Hi|Hi]; [congruence|]. now apply Hnd, H1.
  - intros HO. destruct HF as [[HF _]|[_ HF]]; [contradiction|].
    assert (HLx : lax_num ((if neg then [45] else []) ++ ip ++ fr ++ ex)).
    { apply (LN_float neg ip fr fd ex e); try assumption; [congruence|]. rewrite HP.
      destruct (lit_f64 neg ip fd e) as [s|s| |s m q]; try discriminate.
      destruct HF as (M & q & HF & _). discriminate HF. }
    destruct (lax_number_value E _ HLx) as (n & Hq & _). exists (VNum n ((if neg then [45] else []) ++ ip ++ fr ++ ex)).
    now apply lit_doc.
Qed.

(** An integer of 20 digits is read as another number. *)
Lemma wrap_lit : num_lit (bs "28446744073709551616") false (bs "28446744073709551616") [] 0 true.
Proof.
  apply (NumLit false (bs "28446744073709551616") [] [] [] 0); [|constructor|constructor].
  apply (IP_pos 50 (bs "8446744073709551616")); [lia|].
  match goal with |- Forall ?P ?t => let t' := eval vm_compute in t in change (Forall P t') end.
  repeat (apply Forall_cons; [unfold digit; lia|]). apply Forall_nil.
Qed.

Theorem not_nearest : exists lit neg ip fd e i, num_lit lit neg ip fd e i /\
  forall E, exists v f, unmarshal E lit = Ok (v, None) /\ api_float64 E v = Ok f /\ ~ lit_nearest neg ip fd e f.
Proof.
  exists (bs "28446744073709551616"), false, (bs "28446744073709551616"), [], 0, true. split; [exact wrap_lit|].
  intros E. eexists. eexists. split; [vm_compute; reflexivity|]. split; [reflexivity|].
  intros (M & q & Hp & _ & _ & H). injection Hp as <- <-.
  destruct (H false 6944999041432996 12 ltac:(split; lia)) as [H1 _].
  revert H1. apply Z.lt_nge. vm_compute. reflexivity.
Qed.
