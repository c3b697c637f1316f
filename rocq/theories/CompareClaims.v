(** Comparison: independence of the caches, and literals with huge exponents. *)
From Coq Require Import QArith_base Qpower.
From Verif Require Import Base Float64 Value Scan Unmarshal Pure Opt Marshal Compare SpecJson SpecValue SpecText SpecLax SpecPath SpecNum
  SpecGet SpecOpts ListLemmas ValueLemmas NumProof NumFacts LaxNum RoundTrip SortProof MarshalProof Access CompareProof.
Open Scope Z_scope.

Lemma forget_same v : json_typed v -> same_value (fun s t => number_equal s t = true) v (forget v).
Proof.
  induction v as [ |s|n src|i kvs lo IH|l IH|b| | | ] using V_ind'; intros H; try contradiction; cbn [forget]; try constructor.
  - unfold number_equal. now rewrite beqb_refl.
  - intros k. rewrite map_map. reflexivity.
  - apply json_typed_obj in H as (Hn & H). rewrite Forall_forall in *. intros k id x id' y Hx Hy.
    apply in_map_iff in Hy as ([k1 [id1 z]] & He & Hz). cbn in He. injection He as -> -> <-.
    assert (Hq : Some (id, x) = Some (id', z)) by (rewrite <- (alookup_NoDup_In _ _ _ Hn Hx); now apply alookup_NoDup_In).
    injection Hq as -> ->. apply (IH _ Hz). apply (H _ Hz).
  - apply json_typed_arr in H. clear -IH H. induction IH as [|x r Hx _ IHr]; cbn [map]; constructor; [apply Hx; now inversion H|apply IHr; now inversion H].
Qed.
Lemma forget_typed v : json_typed v -> json_typed (forget v).
Proof.
  induction v as [ |s|n src|i kvs lo IH|l IH|b| | | ] using V_ind'; intros H; try contradiction; try exact I; cbn [forget].
  - apply json_typed_obj in H as (Hn & H). apply json_typed_obj. unfold akeys. rewrite map_map. split; [exact Hn|].
    apply Forall_map. rewrite Forall_forall in *. intros x Hx. cbn. auto.
  - apply json_typed_arr in H. apply json_typed_arr. apply Forall_map. rewrite Forall_forall in *. auto.
Qed.

Theorem equal_no_cache W W' path path' v v' w w' : json_typed v -> json_typed v' -> json_typed w -> json_typed w' ->
  forget v = forget v' -> forget w = forget w' -> equal W path v w = equal W' path' v' w'.
Proof.
  intros Hv Hv' Hw Hw' Fv Fw.
  assert (Hs : forall s t, number_equal s t = true -> number_equal t s = true) by (intros s t; rewrite !number_equal_q; intros H; now symmetry).
  assert (Ht : forall s t x, number_equal s t = true -> number_equal t x = true -> number_equal s x = true) by (intros s t x; rewrite !number_equal_q; apply Qeq_trans).
  assert (Gv : same_value (fun s t => number_equal s t = true) v v').
  { eapply same_value_trans; [exact Ht|apply forget_same; assumption|]. rewrite Fv. apply same_value_sym; [exact Hs|]. now apply forget_same. }
  assert (Gw : same_value (fun s t => number_equal s t = true) w w').
  { eapply same_value_trans; [exact Ht|apply forget_same; assumption|]. rewrite Fw. apply same_value_sym; [exact Hs|]. now apply forget_same. }
  apply eq_true_iff_eq. rewrite (equal_iff W v w path Hv Hw), (equal_iff W' v' w' path' Hv' Hw'). split; intros H.
  - eapply same_value_trans; [exact Ht|apply same_value_sym; [exact Hs|exact Gv]|]. eapply same_value_trans; [exact Ht|exact H|exact Gw].
  - eapply same_value_trans; [exact Ht|exact Gv|]. eapply same_value_trans; [exact Ht|exact H|]. apply same_value_sym; [exact Hs|exact Gw].
Qed.

(** 1e-10000000000 and 0. *)
Definition tiny : bytes := bs "1e-10000000000".

Lemma div_underflow (M : positive) : 2 ^ 1100 <= Z.pos M -> forall s, SFdiv prec emax (S754_finite false 1 0) (S754_finite false M 0) <> S754_infinity s.
Proof.
  intros HM s. unfold SFdiv, SFdiv_core_binary.
  assert (HD : 1100 <= Z.pos (digits2_pos M)).
  { assert (G : forall p, Z.pos p < 2 ^ Z.pos (digits2_pos p)).
    { clear. induction p as [p IH|p IH|]; cbn [digits2_pos]; [| |reflexivity]; rewrite Pos2Z.inj_succ, Z.pow_succ_r by lia; lia. }
    specialize (G M). apply Z.lt_le_incl. apply (Z.pow_lt_mono_r_iff 2); [lia|lia|]. lia. }
  cbn [Zdigits2 digits2_pos].
  assert (E1 : Z.min (fexp prec emax (1 + 0 - (Z.pos (digits2_pos M) + 0))) (0 - 0) = -1074).
  { unfold fexp, SpecFloat.emin, prec, emax. lia. }
  rewrite E1. change (0 - 0 - -1074) with 1074. cbv beta iota zeta.
  pose proof (Z.div_mod (Z.shiftl 1 1074) (Z.pos M) ltac:(discriminate)) as HQ.
  unfold Z.div, Z.modulo in HQ.
  assert (E2 : Z.shiftl 1 1074 / Z.pos M = 0).
  { apply Z.div_small. rewrite Z.shiftl_1_l. split; [apply Z.pow_nonneg; lia|]. eapply Z.lt_le_trans; [|exact HM]. apply Z.pow_lt_mono_r; lia. }
  unfold Z.div in E2. destruct (Z.div_eucl (Z.shiftl 1 1074) (Z.pos M)) as [q r]. subst q.
  destruct (new_location (Z.pos M) r) as [|[]]; vm_compute; discriminate.
Qed.

Lemma dec_underflow e : e <= -1100 -> match f_of_dec false 1 e with S754_infinity _ => None | f => Some f end <> None.
Proof.
  intros He. unfold f_of_dec. destruct (Z.leb_spec 0 e) as [H0|_]; [lia|].
  pose proof (div_underflow (Z.to_pos (10 ^ (- e)))) as H.
  destruct (SFdiv prec emax (S754_finite false 1 0) (S754_finite false (Z.to_pos (10 ^ (- e))) 0)); try discriminate.
  exfalso. refine (H _ _ eq_refl). rewrite Z2Pos.id by (apply Z.pow_pos_nonneg; lia).
  apply Z.le_trans with (2 ^ (- e)); [apply Z.pow_le_mono_r; lia|apply Z.pow_le_mono_l; lia].
Qed.
Lemma tiny_float : parse_float tiny <> None.
Proof.
  pose proof (dec_underflow (-10000) ltac:(discriminate)) as H. unfold parse_float. revert H. generalize f_of_dec. intros F H. vm_compute. vm_compute in H. destruct (F false 1 (-10000)); congruence.
Qed.

Lemma tiny_lax : lax_num tiny.
Proof.
  change tiny with ((if false then [45] else []) ++ [49] ++ [] ++ (101 :: 45 :: [49; 48; 48; 48; 48; 48; 48; 48; 48; 48; 48])).
  apply (LN_float false [49] [] [] _ (- digits_val [49; 48; 48; 48; 48; 48; 48; 48; 48; 48; 48])); [repeat constructor; unfold digit; lia|discriminate| |constructor| |discriminate|exact tiny_float].
  - intros [|x [|y p]] q H Hp; [congruence|discriminate|discriminate].
  - apply EP_minus; [now left|]. split; [discriminate|]. repeat constructor; unfold digit; lia.
Qed.
Lemma tiny_parsed E : exists n, unmarshal E tiny = Ok (VNum n tiny, None).
Proof. destruct (lax_number E tiny tiny_lax) as (n & Hn). exists n. now apply lit_doc. Qed.
Lemma zero_parsed E : exists n, unmarshal E (bs "0") = Ok (VNum n (bs "0"), None).
Proof. eexists. vm_compute. reflexivity. Qed.

Lemma tiny_value : denotes_number tiny (inject_Z 1 * (10 # 1) ^ (-10000000000))%Q.
Proof.
  exists false, [49], [], (-10000000000). split; [|reflexivity].
  change tiny with ((if false then [45] else []) ++ [49] ++ [] ++ (101 :: 45 :: [49; 48; 48; 48; 48; 48; 48; 48; 48; 48; 48])).
  change (-10000000000) with (- digits_val [49; 48; 48; 48; 48; 48; 48; 48; 48; 48; 48]).
  apply (DecimalText false [49] [] []); [repeat constructor; unfold digit; lia|constructor| |discriminate].
  apply EP_minus; [now left|]. split; [discriminate|]. repeat constructor; unfold digit; lia.
Qed.
Lemma zero_value : denotes_number (bs "0") 0%Q.
Proof.
  exists false, [48], [], 0. split; [|reflexivity].
  change (bs "0") with ((if false then [45] else []) ++ [48] ++ [] ++ []).
  apply (DecimalText false [48] [] []); [repeat constructor; unfold digit; lia|constructor|constructor|discriminate].
Qed.
Lemma tiny_positive : (0 < inject_Z 1 * (10 # 1) ^ (-10000000000))%Q.
Proof.
  rewrite <- (Qmult_0_l ((10 # 1) ^ (-10000000000))). apply Qmult_lt_compat_r; [apply ten_pos|]. reflexivity.
Qed.

Theorem tiny_compares E W path : exists n m p q,
  unmarshal E tiny = Ok (VNum n tiny, None) /\ unmarshal E (bs "0") = Ok (VNum m (bs "0"), None) /\
  denotes_number tiny p /\ denotes_number (bs "0") q /\ (q < p)%Q /\
  greater_than (VNum n tiny) (VNum m (bs "0")) = Ok false /\ equal W path (VNum n tiny) (VNum m (bs "0")) = true.
Proof.
  destruct (tiny_parsed E) as (n & Hn). destruct (zero_parsed E) as (m & Hm). exists n, m, (inject_Z 1 * (10 # 1) ^ (-10000000000))%Q, 0%Q.
  split; [exact Hn|]. split; [exact Hm|]. split; [exact tiny_value|]. split; [exact zero_value|]. split; [exact tiny_positive|]. split; reflexivity.
Qed.

Theorem tiny_equal E W path : exists n m,
  unmarshal E tiny = Ok (VNum n tiny, None) /\ unmarshal E (bs "0") = Ok (VNum m (bs "0"), None) /\
  equal W path (VNum n tiny) (VNum m (bs "0")) = true /\
  ~ same_value same_number (VNum n tiny) (VNum m (bs "0")).
Proof.
  destruct (tiny_parsed E) as (n & Hn). destruct (zero_parsed E) as (m & Hm). exists n, m.
  split; [exact Hn|]. split; [exact Hm|]. split; [reflexivity|]. intros H. inversion H as [| | |? ? ? ? HN| |]; subst.
  destruct HN as (p & q & Hp & Hq & He). pose proof (denotes_unique _ _ _ Hp tiny_value) as E1. pose proof (denotes_unique _ _ _ Hq zero_value) as E2.
  rewrite E1, E2 in He. pose proof tiny_positive as Hl. rewrite He in Hl. now apply Qlt_irrefl in Hl.
Qed.

(** Texts of accepted numbers denote numbers. *)
Lemma parse_float_e neg c r : c = 101 \/ c = 69 -> parse_float ((if neg : bool then [45] else []) ++ c :: r) = None.
Proof. intros [-> | ->]; destruct neg; reflexivity. Qed.

Lemma int_part_digit ip : int_part ip -> Forall digit ip /\ ip <> [].
Proof. intros [|c d Hc Hd]; (split; [|discriminate]); repeat constructor; try assumption; unfold digit; lia. Qed.

Lemma lax_denotes lit : lax_num lit -> exists q, denotes_number lit q.
Proof.
  intros H. assert (G : exists neg ip fd e, decimal_text lit neg ip fd e).
  { destruct H as [ip H1 _ _|ip (H1 & H2) _ _ _|neg ip fr fd ex e H1 H2 _ H3 H4 H5 H6].
    - destruct (int_part_digit _ H1) as (H2 & H3). exists false, ip, [], 0. pose proof (DecimalText false ip [] [] [] 0 H2 FP_none EP_none) as G.
      cbn [app] in G. rewrite app_nil_r in G. exact (G H3).
    - exists true, ip, [], 0. pose proof (DecimalText true ip [] [] [] 0 H2 FP_none EP_none) as G.
      cbn [app] in G. rewrite app_nil_r in G. exact (G H1).
    - exists neg, ip, fd, e. constructor; try assumption. intros He. apply app_eq_nil in He as (Ei & Ef). subst ip fd. apply H6. cbn [app].
      inversion H3 as [A B|d Hd A B]; subst; [|destruct Hd as (Hd & _); congruence]. cbn [app] in *.
      destruct H4 as [|c d Hc Hd|c d Hc Hd|c d Hc Hd]; [now destruct H5| | |]; now apply parse_float_e. }
  destruct G as (neg & ip & fd & e & G). exists (decimal_value neg ip fd e), neg, ip, fd, e. split; [exact G|reflexivity].
Qed.

Theorem parsed_denotes E b v : Forall is_byte b -> unmarshal E b = Ok (v, None) ->
  json_typed v /\ all_text (fun _ => True) (fun _ s => exists q, denotes_number s q) v.
Proof.
  intros Hb H. destruct (parsed_text E b v Hb H) as (Ht & Ha). split; [exact Ht|].
  eapply all_text_impl; [| |exact Ha]; [trivial|]. intros n s Hq. apply lax_denotes. eapply q_number_lax. exact Hq.
Qed.

(** *** Integers *)
Lemma decimal_denotes t i : decimal t i -> denotes_number t (inject_Z i) /\ small_exponent t.
Proof.
  intros H. assert (G : exists neg ip, decimal_text t neg ip [] 0 /\ i = if neg then - digits_val ip else digits_val ip).
  { destruct H as [(Hi & Hv)|(d & -> & Hi & Hv & _)]; destruct (int_part_digit _ Hi) as (Hd & Hn).
    - exists false, t. split; [|now subst]. pose proof (DecimalText false t [] [] [] 0 Hd FP_none EP_none) as G.
      cbn [app] in G. rewrite app_nil_r in G. exact (G Hn).
    - exists true, d. split; [|lia]. pose proof (DecimalText true d [] [] [] 0 Hd FP_none EP_none) as G.
      cbn [app] in G. rewrite app_nil_r in G. exact (G Hn). }
  destruct G as (neg & ip & G & ->). split.
  - exists neg, ip, [], 0. split; [exact G|]. unfold decimal_value. rewrite app_nil_r. cbn [List.length Z.of_nat Z.sub Z.add Z.opp Qpower].
    now rewrite Qmult_1_r.
  - exists neg, ip, [], 0. split; [exact G|]. cbn. lia.
Qed.

Theorem compare_integers a b n s m t W path :
  (VNum n s = new_int64 a \/ VNum n s = new_uint64 a) -> (VNum m t = new_int64 b \/ VNum m t = new_uint64 b) ->
  less_than (VNum n s) (VNum m t) = Ok (a <? b) /\ greater_than (VNum n s) (VNum m t) = Ok (b <? a) /\
  less_or_equal (VNum n s) (VNum m t) = Ok (a <=? b) /\ greater_or_equal (VNum n s) (VNum m t) = Ok (b <=? a) /\
  equal W path (VNum n s) (VNum m t) = (a =? b).
Proof.
  intros Ha Hb.
  assert (Es : s = format_int a) by (destruct Ha as [Ha|Ha]; unfold new_int64, new_uint64 in Ha; congruence).
  assert (Et : t = format_int b) by (destruct Hb as [Hb|Hb]; unfold new_int64, new_uint64 in Hb; congruence).
  destruct (decimal_denotes _ _ (format_int_decimal a)) as (A1 & A2). destruct (decimal_denotes _ _ (format_int_decimal b)) as (B1 & B2).
  rewrite <- Es in A1, A2. rewrite <- Et in B1, B2.
  destruct (compare_exact n s m t _ _ A1 A2 B1 B2) as (C1 & C2 & C3 & C4 & C5). rewrite inject_lt in C1. rewrite inject_lt in C2. rewrite <- Zle_Qle in C3, C4. rewrite inject_eq in C5.
  destruct (compare_total n s m t) as (lt & eq & gt & T1 & T2 & T3 & T4 & T5 & T6).
  cbn [equal]. rewrite T1 in *. rewrite T2 in *. rewrite T3 in *. rewrite T5 in *. rewrite T6 in *.
  assert (L : lt = true <-> a < b) by (rewrite <- C1; split; congruence).
  assert (G : gt = true <-> b < a) by (rewrite <- C2; split; congruence).
  repeat split; try (apply f_equal); clear - L G C5 T4; destruct lt, gt, eq; cbn [negb]; symmetry;
    rewrite ?Z.ltb_lt, ?Z.ltb_ge, ?Z.leb_le, ?Z.leb_gt, ?Z.eqb_eq, ?Z.eqb_neq; intuition (try discriminate; try lia).
Qed.
