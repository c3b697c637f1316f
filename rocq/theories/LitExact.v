(** Exact acceptance of RFC 8259 documents: proofs. *)
From Verif Require Import Base Float64 Value Scan Unmarshal Access Pure ListLemmas SpecJson SpecValue SpecLax SpecText SpecOpts
  SpecRound SpecLit UnmarshalProof ValueLemmas NumProof ParseComplete LaxNum LaxParse MarshalProof RoundTrip NumFacts RoundProof RoundClaims
  SpecFacts JsonLax.
From Verif Require LaxFacts.

Lemma read_exp_full d : Forall digit d -> forall acc cnt, 10000 <= acc ->
  read_exp d acc cnt = (acc, (cnt + List.length d)%nat, []).
Proof.
  induction 1 as [|c d Hc Hd IH]; intros acc cnt Ha; cbn [read_exp].
  - cbn. now rewrite Nat.add_0_r.
  - unfold digit in Hc. replace (is_digit c) with true by (unfold is_digit; lia).
    replace (acc <? 10000) with false by lia. rewrite IH by lia. cbn [List.length]. f_equal. f_equal. lia.
Qed.

Lemma read_exp_five d : Forall digit d -> forall acc cnt, 0 <= acc < 10000 -> exists r,
  read_exp d acc cnt = (r, (cnt + List.length d)%nat, []) /\
  ((dval acc d <= 99999 /\ r = dval acc d) \/
   (exists k, 0 < k /\ 10000 <= dval acc d / 10 ^ k <= 99999 /\ r = dval acc d / 10 ^ k)).
Proof.
  induction 1 as [|c d Hc Hd IH]; intros acc cnt Ha.
  - exists acc. cbn. rewrite Nat.add_0_r. split; [reflexivity|]. left. split; [lia|reflexivity].
  - cbn [read_exp]. unfold digit in Hc. replace (is_digit c) with true by (unfold is_digit; lia).
    replace (acc <? 10000) with true by lia.
    change (dval acc (c :: d)) with (dval (acc * 10 + (c - 48)) d). set (acc' := acc * 10 + (c - 48)).
    assert (H9 : 0 <= acc' <= 99999) by (unfold acc'; lia).
    replace (cnt + List.length (c :: d))%nat with (S cnt + List.length d)%nat by (cbn [List.length]; lia).
    destruct (Z.ltb_spec acc' 10000) as [L|L].
    + destruct (IH acc' (S cnt) ltac:(lia)) as (r & H1 & H2). exists r. auto.
    + exists acc'. rewrite (read_exp_full d Hd) by lia. split; [reflexivity|].
      destruct d as [|x d]; [left; cbn; lia|]. right. exists (Z.of_nat (List.length (x :: d))). split; [cbn [List.length]; lia|].
      assert (E : dval acc' (x :: d) / 10 ^ Z.of_nat (List.length (x :: d)) = acc').
      { rewrite dval_acc. pose proof (dval_bounds (x :: d) Hd). rewrite Z.div_add_l by lia. rewrite Z.div_small by lia. lia. }
      rewrite E. lia.
Qed.

Lemma read_exp_cut d : Forall digit d -> exists r, read_exp d 0 0 = (r, List.length d, []) /\ five (digits_val d) r /\ five (- digits_val d) (- r).
Proof.
  intros Hd. destruct (read_exp_five d Hd 0 0%nat ltac:(lia)) as (r & H1 & H2). exists r. split; [exact H1|].
  pose proof (dval_bounds d Hd) as B. change digits_val with (dval 0). set (v := dval 0 d) in *. unfold five.
  rewrite Z.abs_opp, (Z.abs_eq v) by lia.
  destruct H2 as [[H2 ->]|(k & Hk & H2 & ->)]; [split; left; auto|].
  assert (0 < v).
  { destruct (Z.eq_dec v 0) as [Z0|]; [|lia]. exfalso. rewrite Z0 in H2. rewrite Z.div_0_l in H2; [lia|]. apply Z.pow_nonzero; lia. }
  rewrite (Z.sgn_neg (- v)) by lia. rewrite (Z.sgn_pos v) by lia.
  split; right; exists k; repeat split; lia.
Qed.

Lemma five_fun e a b : five e a -> five e b -> a = b.
Proof.
  intros [[A1 A2]|(k & A1 & A2 & A3)] [[B1 B2]|(k' & B1 & B2 & B3)].
  - congruence.
  - exfalso. assert (Z.abs e / 10 ^ k' < 10000); [|lia]. apply Z.div_lt_upper_bound; [apply Z.pow_pos_nonneg; lia|].
    assert (10 ^ 1 <= 10 ^ k') by (apply Z.pow_le_mono_r; lia). lia.
  - exfalso. assert (Z.abs e / 10 ^ k < 10000); [|lia]. apply Z.div_lt_upper_bound; [apply Z.pow_pos_nonneg; lia|].
    assert (10 ^ 1 <= 10 ^ k) by (apply Z.pow_le_mono_r; lia). lia.
  - assert (L : forall k k', 0 < k -> 0 < k' -> 10000 <= Z.abs e / 10 ^ k -> Z.abs e / 10 ^ k' <= 99999 -> k <= k').
    { intros x y Hx Hy H1 H2. apply Z.nlt_ge. intros L.
      assert (Z.abs e < 10 ^ y * (99999 + 1)) by (apply Z.div_lt_upper_bound in H2 || (pose proof (Z.mul_succ_div_gt (Z.abs e) (10 ^ y) ltac:(apply Z.pow_pos_nonneg; lia)); assert (0 < 10 ^ y) by (apply Z.pow_pos_nonneg; lia); nia)).
      assert (0 < 10 ^ x) by (apply Z.pow_pos_nonneg; lia).
      pose proof (Z.mul_div_le (Z.abs e) (10 ^ x) ltac:(lia)).
      assert (10 ^ (Z.succ y) <= 10 ^ x) by (apply Z.pow_le_mono_r; lia). rewrite Z.pow_succ_r in * by lia. nia. }
    assert (k = k') by (pose proof (L k k'); pose proof (L k' k); lia). subst k'. congruence.
Qed.

(** parse_float on any literal. *)
Lemma parse_float_any (neg : bool) ip fr fd ex e :
  Forall digit ip -> (ip = [] -> neg = true) -> frac_part fr fd -> exp_part ex e -> ip ++ fd <> [] ->
  exists e', five e e' /\
  parse_float ((if neg then [45] else []) ++ ip ++ fr ++ ex) =
  match lit_f64 neg ip fd e' with S754_infinity _ => None | f => Some f end.
Proof.
  intros Hd Hcase Hfr Hex Hne.
  unfold parse_float.
  assert (Hsign : (match (if neg then [45] else []) ++ ip ++ fr ++ ex with
                   | 43 :: r => (false, r)
                   | 45 :: r => (true, r)
                   | _ => (false, (if neg then [45] else []) ++ ip ++ fr ++ ex)
                   end) = (neg, ip ++ fr ++ ex)).
  { destruct neg; [reflexivity|]. destruct ip as [|c ip]; [now specialize (Hcase eq_refl)|].
    inversion Hd as [|? ? Hc _]; subst. apply digit_enum in Hc.
    repeat (destruct Hc as [->|Hc]; [reflexivity|]). subst c; reflexivity. }
  rewrite Hsign.
  rewrite (read_digits_spec ip (fr ++ ex) Hd (frac_exp_head _ _ _ _ Hfr Hex)). cbn [Nat.add].
  assert (Hfrac : (match fr ++ ex with
                   | 46 :: r => let '(m, nf, s3) := read_digits r (dval 0 ip) 0 in (m, nf, s3)
                   | _ => (dval 0 ip, 0%nat, fr ++ ex)
                   end) = (digits_val (ip ++ fd), List.length fd, ex)).
  { dv; rewrite dval_app. inversion Hfr as [|d [Hdne Hdd]]; subst; cbn [app].
    - inversion Hex as [|c d [->| ->]|c d [->| ->]|c d [->| ->]]; subst; reflexivity.
    - rewrite (read_digits_spec fd ex Hdd (exp_head _ _ Hex)). reflexivity. }
  rewrite Hfrac.
  replace ((List.length ip + List.length fd =? 0)%nat) with false
    by (symmetry; apply Nat.eqb_neq; rewrite <- app_length; destruct (ip ++ fd); [congruence|simpl; lia]).
  assert (Hfin : forall e1 e2, e1 = e2 ->
     match f_of_dec neg (digits_val (ip ++ fd)) (e1 - Z.of_nat (List.length fd)) with
     | S754_infinity _ => None
     | _ => Some (f_of_dec neg (digits_val (ip ++ fd)) (e1 - Z.of_nat (List.length fd)))
     end = match lit_f64 neg ip fd e2 with S754_infinity _ => None | f => Some f end).
  { intros e1 e2 ->. unfold lit_f64.
    destruct (f_of_dec neg (digits_val (ip ++ fd)) (e2 - Z.of_nat (List.length fd))); reflexivity. }
  inversion Hex as [|c d Hc [Hdne Hdd]|c d Hc [Hdne Hdd]|c d Hc [Hdne Hdd]]; subst.
  - exists 0. split; [left; split; [cbn; lia|reflexivity]|]. apply Hfin. reflexivity.
  - destruct (read_exp_cut d Hdd) as (r & Hr & H5 & _). exists r. split; [exact H5|].
    replace ((c =? 101) || (c =? 69)) with true by lia.
    assert (Hnosign : (match d with
              | 43 :: r' => (1, r') | 45 :: r' => (-1, r') | _ => (1, d) end) = (1, d)).
    { destruct d as [|x d]; [congruence|]. inversion Hdd as [|? ? Hx _]; subst. apply digit_enum in Hx.
      repeat (destruct Hx as [->|Hx]; [reflexivity|]). subst x; reflexivity. }
    rewrite Hnosign, Hr.
    replace ((List.length d =? 0)%nat) with false
      by (symmetry; apply Nat.eqb_neq; destruct d; [congruence|simpl; lia]).
    apply Hfin. lia.
  - destruct (read_exp_cut d Hdd) as (r & Hr & H5 & _). exists r. split; [exact H5|].
    replace ((c =? 101) || (c =? 69)) with true by lia. rewrite Hr.
    replace ((List.length d =? 0)%nat) with false
      by (symmetry; apply Nat.eqb_neq; destruct d; [congruence|simpl; lia]).
    apply Hfin. lia.
  - destruct (read_exp_cut d Hdd) as (r & Hr & _ & H5). exists (- r). split; [exact H5|].
    replace ((c =? 101) || (c =? 69)) with true by lia. rewrite Hr.
    replace ((List.length d =? 0)%nat) with false
      by (symmetry; apply Nat.eqb_neq; destruct d; [congruence|simpl; lia]).
    apply Hfin. lia.
Qed.

(** Decomposition of a text of digits, fraction and exponent. *)
Lemma raw_parts (neg : bool) ip fr fd ex e : Forall digit ip -> (ip = [] -> neg = true) -> frac_part fr fd -> exp_part ex e ->
  num_parts ((if neg then [45] else []) ++ ip ++ fr ++ ex) =
  (neg, ip, fd, e, match fr ++ ex with [] => true | _ => false end).
Proof.
  intros Hdi Hne Hfr Hex.
  assert (Hnx : nodig ex).
  { inversion Hex; subst; cbn; unfold digit; try tauto; lia. }
  assert (Hnf : nodig (fr ++ ex)).
  { inversion Hfr; subst; cbn; [exact Hnx|unfold digit; lia]. }
  assert (Eh : (match (if neg then [45] else []) ++ ip ++ fr ++ ex with 45 :: r => (true, r) | _ => (false, (if neg then [45] else []) ++ ip ++ fr ++ ex) end) = (neg, ip ++ fr ++ ex)).
  { destruct neg; [reflexivity|]. cbn [app]. destruct ip as [|c ip]; [discriminate (Hne eq_refl)|]. cbn [app].
    inversion Hdi as [|? ? Hc _]; subst. revert Hc.
    clear. intros Hc. pattern c. apply (digit_cases _ c Hc); reflexivity. }
  unfold num_parts. rewrite Eh. rewrite (span_digits_app _ _ Hdi Hnf).
  assert (Ef : (match fr ++ ex with 46 :: r => span_digits r | _ => ([], fr ++ ex) end) = (fd, ex)).
  { inversion Hfr as [|d [Hd1 Hd2]]; subst; cbn [app].
    - inversion Hex; subst; try reflexivity;
        match goal with H : _ \/ _ |- _ => destruct H; subst; reflexivity end.
    - now apply span_digits_app. }
  rewrite Ef.
  assert (Ee : (match ex with _ :: 43 :: d => digits_val d | _ :: 45 :: d => - digits_val d | _ :: d => digits_val d | [] => 0 end) = e).
  { inversion Hex as [|c d Hc [Hd1 Hd2]|c d Hc Hd|c d Hc Hd]; subst; try reflexivity.
    destruct d as [|x d]; [congruence|]. inversion Hd2 as [|? ? Hx _]; subst.
    revert Hx; clear. intros Hx. pattern x. apply (digit_cases _ x Hx); reflexivity. }
  rewrite Ee. reflexivity.
Qed.

Lemma ip_digits ip : int_part ip -> Forall digit ip /\ ip <> [].
Proof. intros H. inversion H; subst; split; try discriminate; constructor; try (unfold digit; lia); auto. Qed.

Lemma lax_num_exact lit neg ip fd e i : num_lit lit neg ip fd e i ->
  (lax_num lit <->
   if i then
     if neg then digits_val ip <= 2 ^ 63
     else (List.length ip <= 19)%nat \/ (List.length ip = 20%nat /\ 10 ^ 19 <= digits_val ip mod 2 ^ 64)
   else no_wrap ip /\ forall e', five e e' -> ~ lit_overflows ip fd e').
Proof.
  intros HL. pose proof (num_lit_parts _ _ _ _ _ _ HL) as HP.
  inversion HL as [neg' ip' fr fd' ex e' Hip Hfr Hex E1 E2]; subst.
  destruct (ip_digits ip Hip) as [Hd Hne].
  destruct (parse_float_any neg ip fr fd ex e Hd ltac:(congruence) Hfr Hex) as (e' & H5 & HF).
  { destruct ip; [congruence|discriminate]. }
  pose proof (lit_f64_ok neg ip fd e' Hd (frac_digits _ _ Hfr)) as HO.
  split.
  - set (lit := (if neg then [45] else []) ++ ip ++ fr ++ ex) in *. clearbody lit.
    intros HX. revert HP HF.
    destruct HX as [ip' A B C|ip' A B C D|neg' ip' fr' fd' ex' e'' A B C D F G H]; intros HP HF.
    + pose proof (raw_parts false ip' [] [] [] 0 (proj1 (ip_digits _ A)) (fun X => False_ind _ (proj2 (ip_digits _ A) X)) FP_none EP_none) as HR.
      cbn [app] in HR. rewrite app_nil_r, HP in HR. injection HR as E1 E2 E3 E4 E5. rewrite E5, E1, E2.
      destruct (Nat.eq_dec (List.length ip') 20) as [L|L]; [right; split; [exact L|exact (C L)]|left; lia].
    + pose proof (raw_parts true ip' [] [] [] 0 (proj2 A) (fun _ => eq_refl) FP_none EP_none) as HR.
      cbn [app] in HR. rewrite app_nil_r, HP in HR. injection HR as E1 E2 E3 E4 E5. rewrite E5, E1, E2. exact D.
    + pose proof (raw_parts neg' ip' fr' fd' ex' e'' A B D F) as HR. rewrite HP in HR.
      destruct (fr' ++ ex') as [|y t] eqn:Ef; [congruence|]. injection HR as E1 E2 E3 E4 E5. rewrite E5.
      split; [rewrite E2; exact C|]. intros x Hx O. rewrite (five_fun _ _ _ Hx H5) in O.
      destruct HO as [[_ HO]|[HO _]]; [|contradiction]. rewrite HO in HF. exact (H HF).
  - destruct (fr ++ ex) as [|y t] eqn:Ef.
    + assert (0 <= digits_val ip) by (apply (dval_bounds ip Hd)).
      destruct neg; intros HX; rewrite ?app_nil_r in *; cbn [app] in *.
      * apply LN_neg; [split; assumption| |pose proof (int_part_len ip 19 Hip ltac:(lia)); lia|exact HX].
        intros d ->. inversion Hip; lia.
      * apply LN_pos; [exact Hip|lia|]. intros L. destruct HX as [HX|[_ HX]]; [lia|exact HX].
    + intros [HW HX]. rewrite <- Ef in *. apply (LN_float neg ip fr fd ex e); try assumption; [congruence| |].
      * rewrite Ef. discriminate.
      * rewrite HF. destruct HO as [[HO _]|[_ HO]]; [now apply HX in HO|].
        destruct (lit_f64 neg ip fd e') as [s|s| |s m q]; try discriminate. destruct HO as (M & q & HO & _). discriminate HO.
Qed.

Lemma lax_num_accepted lit : rfc_lit lit -> (lax_num lit <-> lit_accepted lit).
Proof.
  intros (neg & ip & fd & e & i & HL). rewrite (lax_num_exact _ _ _ _ _ _ HL). unfold lit_accepted. split.
  - intros H. exists neg, ip, fd, e, i. auto.
  - intros (neg' & ip' & fd' & e' & i' & HL' & H).
    destruct (num_lit_det _ _ _ _ _ _ _ _ _ _ _ HL HL') as (-> & -> & -> & -> & ->). exact H.
Qed.

(** Whole documents. *)
Lemma jlits :
  (forall t j, jval t j -> all_lits rfc_lit j) /\
  (forall t l, jelems t l -> Forall (all_lits rfc_lit) l) /\
  (forall t l, jmembers t l -> Forall (fun kx => all_lits rfc_lit (snd kx)) l).
Proof.
  apply json_mutind; try (intros; exact I); try (intros; constructor; auto; fail).
  - intros lit neg ip fd e i H. exists neg, ip, fd, e, i. exact H.
  - intros t l _ H. now apply all_lits_arr.
  - intros t l _ H. now apply all_lits_obj.
Qed.

Lemma ws_lax w : ws w -> lblanks w.
Proof. apply Forall_impl. unfold is_lblank. auto. Qed.
Lemma str_lax t s : str_body t s -> lstr t s.
Proof. intros H. pose proof (str_body_app_lstr t s H [] [] LS_nil) as H1. now rewrite !app_nil_r in H1. Qed.

Lemma comma_elems w te l : lblanks w -> lelems te l -> lelems (w ++ 44 :: te) l.
Proof. apply LE_comma. Qed.

Lemma json_lax_all :
  (forall t j, jval t j -> all_lits lax_num j -> lval t j) /\
  (forall t l, jelems t l -> Forall (all_lits lax_num) l -> lelems t l) /\
  (forall t l, jmembers t l -> Forall (fun kx => all_lits lax_num (snd kx)) l -> lmembers t l).
Proof.
  apply json_mutind.
  - intros _. constructor.
  - intros _. constructor.
  - intros _. constructor.
  - intros lit neg ip fd e i _ H. now constructor.
  - intros t s H _. constructor. now apply str_lax.
  - intros w H _. constructor. constructor. now apply ws_lax.
  - intros t l _ IH H. constructor. apply IH. now apply all_lits_arr.
  - intros w H _. constructor. constructor. now apply ws_lax.
  - intros t l _ IH H. constructor. apply IH. now apply all_lits_obj.
  - intros w1 t w2 j H1 _ IH H2 H. inversion H; subst.
    apply LE_cons; [now apply ws_lax|auto| |constructor; now apply ws_lax]. apply blank_tail, ws_lax, H2.
  - intros w1 t w2 j te l H1 _ IH H2 _ IHl H. inversion H; subst.
    apply LE_cons; [now apply ws_lax|auto|apply nn; [auto|now apply ws_lax]|].
    apply LE_comma; [now apply ws_lax|auto].
  - intros w1 tk k w2 w3 t w4 j H1 Hk H2 H3 _ IH H4 H. inversion H; subst.
    apply LM_cons; try (now apply ws_lax); [now apply str_lax|auto| |constructor; now apply ws_lax]. apply blank_tail, ws_lax, H4.
  - intros w1 tk k w2 w3 t w4 j tm l H1 Hk H2 H3 _ IH H4 _ IHl H. inversion H; subst.
    apply LM_cons; try (now apply ws_lax); [now apply str_lax|auto|apply nn; [auto|now apply ws_lax]|].
    apply LM_comma; [now apply ws_lax|auto].
Qed.

Lemma json_lax b j : json_doc b j -> all_lits lax_num j -> lax_doc b j.
Proof.
  intros (w1 & t & w2 & -> & H1 & H & H2) HL. exists w1, t, w2. split; [reflexivity|].
  split; [now apply ws_lax|]. split; [now apply (proj1 json_lax_all)|now apply ws_lax].
Qed.

Lemma all_lits_swap (P Q : bytes -> Prop) j : (forall lit, rfc_lit lit -> P lit -> Q lit) ->
  all_lits rfc_lit j -> all_lits P j -> all_lits Q j.
Proof.
  intros H. induction j as [| | | |l IH|l IH] using jv_ind'; try (cbn [all_lits]; auto; fail).
  - rewrite !all_lits_arr. intros A B. induction IH as [|x l Hx _ IHl]; [constructor|].
    inversion A; subst. inversion B; subst. constructor; auto.
  - rewrite !all_lits_obj. intros A B. induction IH as [|x l Hx _ IHl]; [constructor|].
    inversion A; subst. inversion B; subst. constructor; auto.
Qed.

(** C02 *)
Theorem accepted_exactly E b j : Forall is_byte b -> json_doc b j ->
  (exists v, unmarshal E b = Ok (v, None)) <-> all_lits lit_accepted j.
Proof.
  intros Hb HJ. assert (HR : all_lits rfc_lit j).
  { destruct HJ as (w1 & t & w2 & _ & _ & H & _). now apply (proj1 jlits t). }
  split.
  - intros [v Hv]. apply unmarshal_lax in Hv as (j' & Hj' & _); [|exact Hb].
    rewrite <- (doc_same _ _ _ HJ Hj') in Hj'. destruct Hj' as (w1 & t & w2 & _ & _ & H & _).
    apply (all_lits_swap lax_num); [|exact HR|now apply (proj1 lax_lits t)]. intros lit Hr. now apply lax_num_accepted.
  - intros H. exists (to_V E j). apply unmarshal_of_lax. apply json_lax; [exact HJ|].
    revert H. apply all_lits_swap; [|exact HR]. intros lit Hr. now apply lax_num_accepted.
Qed.

(** Content of the numbers. *)
Lemma small_int_no_overflow u : 0 <= u < two64 -> ~ overflows u 0.
Proof.
  intros Hu HF. unfold overflows, bottom, top in HF. change (10 ^ Z.max 0 0) with 1 in HF. change (10 ^ Z.max (- 0) 0) with 1 in HF.
  assert (T : 0 < 2 ^ 1074) by (apply Z.pow_pos_nonneg; lia).
  assert (two64 <= (2 ^ 54 - 1) * 2 ^ 970) by (apply Z.leb_le; vm_compute; reflexivity).
  set (a := (2 ^ 54 - 1) * 2 ^ 970) in *. set (b := 2 ^ 1074) in *. clearbody a b. nia.
Qed.

Lemma small_int_nearest neg u : 0 <= u < two64 -> nearest neg u 0 (f_of_dec neg u 0).
Proof.
  intros Hu. destruct (f_of_dec_ok neg u 0 ltac:(lia)) as [[H _]|[_ H]]; [|exact H].
  now apply small_int_no_overflow in H.
Qed.

Lemma number_exact E src n : q_number E src = Ok (VNum n src, []) -> rfc_lit src -> lit_content src n.
Proof.
  intros Hq (neg & ip & fd & e & i & HL). exists neg, ip, fd, e, i. split; [exact HL|].
  pose proof (q_number_lax _ _ _ Hq) as HN.
  destruct (lax_number_value E src HN) as (n' & Hq' & Hl). rewrite Hq in Hq'. injection Hq' as <-.
  pose proof (proj1 (lax_num_exact _ _ _ _ _ _ HL) HN) as HX.
  inversion HL as [neg' ip' fr fd' ex e' Hip Hfr Hex E1 E2]; subst.
  destruct (ip_digits ip Hip) as [Hd Hne]. assert (Hnn : 0 <= digits_val ip) by (apply (dval_bounds ip Hd)).
  destruct (fr ++ ex) as [|y t] eqn:Efe.
  - rewrite app_nil_r in Hl. destruct neg; cbn [app] in Hl.
    + destruct (lax_value_neg ip n (conj Hne Hd) Hl) as (H1 & H2 & H3 & H4 & H5). split; [exact H2|]. split; [exact H1|].
      split; [exact H3|]. split; [rewrite H4, H3; reflexivity|].
      rewrite H5. rewrite <- f_of_dec_negint by exact Hnn. apply small_int_nearest. change (2 ^ 63) with two63 in HX. unfold two63, two64 in *. lia.
    + destruct (lax_value_pos ip n (conj Hne Hd) Hl) as (H1 & H2 & H3 & H4 & H5). split; [exact H2|]. split; [exact H1|].
      exists (n_u64 n). split; [exact H3|]. split; [reflexivity|].
      assert (B : 0 <= n_u64 n < two64) by (rewrite H3; apply Z.mod_pos_bound; reflexivity).
      split; [|rewrite H5, <- f_of_dec_int by lia; now apply small_int_nearest].
      rewrite H4. unfold wrap_i64. change (2 ^ 63) with two63. change (2 ^ 64) with two64.
      destruct (Z.ltb_spec (n_u64 n) two63); unfold two63, two64 in *; lia.
  - assert (Hn : fr ++ ex <> []) by (rewrite Efe; discriminate). rewrite <- Efe in *.
    assert (Hfl : n_flt n = true).
    { destruct (frac_exp_char _ _ _ _ Hfr Hex Hn) as (c & Hc & Hnd & Hm).
      inversion Hl as [ip' n' H1 H2 H3 H4 H5 H6 E1|ip' n' H1 H2 H3 H4 H5 H6 E1|]; subst; [| |assumption].
      - exfalso. apply Hnd. destruct H1 as [_ H1]. rewrite Forall_forall in H1. apply H1. apply in_or_app. right.
        apply in_or_app. now right.
      - exfalso. destruct H1 as [_ H1]. rewrite Forall_forall in H1.
        assert (Hi : In c (45 :: ip')) by (rewrite E1; apply in_or_app; right; apply in_or_app; now right).
        destruct Hi as [Hi|Hi]; [congruence|]. now apply Hnd, H1. }
    split; [exact Hfl|].
    pose proof (q_number_float E _ _ Hq Hfl) as HP.
    destruct (parse_float_any neg ip fr fd ex e Hd ltac:(congruence) Hfr Hex) as (e' & H5 & HF).
    { destruct ip; [congruence|discriminate]. }
    exists e'. split; [exact H5|]. rewrite HF in HP.
    destruct (lit_f64_ok neg ip fd e' Hd (frac_digits _ _ Hfr)) as [[_ HO]|[_ HO]]; [rewrite HO in HP; discriminate|].
    destruct (lit_f64 neg ip fd e') as [s|s| |s m q]; [|discriminate| |]; injection HP as <-; exact HO.
Qed.

Theorem parsed_exactly E b v : Forall is_byte b -> unmarshal E b = Ok (v, None) ->
  all_text (fun _ => True) (fun n src => rfc_lit src -> lit_content src n) v.
Proof.
  intros Hb H. destruct (parsed_text E b v Hb H) as [_ Ht]. revert Ht. apply all_text_impl; [auto|].
  intros n src Hq. now apply (number_exact E).
Qed.

Theorem literal_exactly E lit v : rfc_lit lit -> unmarshal E lit = Ok (v, None) ->
  exists n, v = VNum n lit /\ lit_content lit n /\ api_float64 E v = Ok (n_f64 n).
Proof.
  intros HR H. pose proof HR as (neg & ip & fd & e & i & HL).
  destruct (number_doc E lit v (LaxFacts.num_lit_bytes _ _ _ _ _ _ HL) H) as (_ & n & Hq & ->).
  exists n. split; [reflexivity|]. split; [now apply (number_exact E)|reflexivity].
Qed.

Lemma five_exp : five 1234567 12345 /\ five (-1234567) (-12345) /\ five 99999 99999.
Proof.
  split; [|split].
  - right. exists 2. split; [lia|]. split; [vm_compute; split; discriminate|reflexivity].
  - right. exists 2. split; [lia|]. split; [vm_compute; split; discriminate|reflexivity].
  - left. split; [cbn; lia|reflexivity].
Qed.

Lemma one_lit : num_lit (bs "0e-1234567") false (bs "0") [] (-1234567) false.
Proof.
  apply (NumLit false (bs "0") [] [] (101 :: 45 :: bs "1234567") (-1234567)).
  - apply IP_zero.
  - constructor.
  - apply (EP_minus 101 (bs "1234567")); [auto|]. split; [discriminate|].
    match goal with |- Forall ?P ?t => let t' := eval vm_compute in t in change (Forall P t') end.
    repeat (apply Forall_cons; [unfold digit; lia|]). apply Forall_nil.
Qed.
