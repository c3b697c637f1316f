(** Comparison of any two literals. *)
From Coq Require Import QArith_base Qpower.
From Verif Require Import Base Float64 Value Scan Unmarshal Pure Opt Marshal Compare SpecJson SpecValue SpecText SpecLax SpecPath SpecNum
  SpecTaken ListLemmas ValueLemmas NumProof NumFacts RoundTrip CompareProof CompareClaims.
Open Scope Z_scope.

Lemma taken_q lit q : taken_as lit q -> (dec_q (dec_of lit) == q)%Q.
Proof.
  intros [H1 H2|p (neg & ip & fd & e & H & _) Hn Hq]; [now apply dec_of_q|].
  rewrite Hq. unfold dec_of. rewrite (dec_of_text _ _ _ _ _ H).
  destruct (in_i32 e) eqn:E1; [|reflexivity]. destruct (in_i32 (e - Z.of_nat (List.length fd))) eqn:E2; [|reflexivity].
  exfalso. apply Hn. exists neg, ip, fd, e. split; [exact H|]. unfold in_i32, two31 in *. lia.
Qed.

Lemma taken_unique lit p q : taken_as lit p -> taken_as lit q -> (p == q)%Q.
Proof. intros H1 H2. now rewrite <- (taken_q _ _ H1), <- (taken_q _ _ H2). Qed.

Lemma taken_any lit p : denotes_number lit p -> exists q, taken_as lit q.
Proof.
  intros H. destruct H as (neg & ip & fd & e & H & Hq).
  destruct (Z.le_gt_cases (-2147483648) (e - Z.of_nat (List.length fd))) as [A|A], (Z.le_gt_cases (-2147483648) e) as [B|B], (Z.le_gt_cases e 2147483647) as [C|C];
    try (exists p; apply TA_value; [exists neg, ip, fd, e; now split|exists neg, ip, fd, e; split; [exact H|lia]]);
    (exists 0%Q; apply (TA_zero _ _ p); [exists neg, ip, fd, e; now split| |reflexivity]; intros (n' & i' & f' & e' & H' & R1 & R2);
     destruct (decimal_unique _ _ _ _ _ _ _ _ _ H H') as (<- & <- & <- & <-); lia).
Qed.

Theorem compare_taken n s m t p q : taken_as s p -> taken_as t q ->
  (less_than (VNum n s) (VNum m t) = Ok true <-> (p < q)%Q) /\
  (greater_than (VNum n s) (VNum m t) = Ok true <-> (q < p)%Q) /\
  (less_or_equal (VNum n s) (VNum m t) = Ok true <-> (p <= q)%Q) /\
  (greater_or_equal (VNum n s) (VNum m t) = Ok true <-> (q <= p)%Q) /\
  (number_equal s t = true <-> (p == q)%Q).
Proof.
  intros Hp Hq. pose proof (taken_q s p Hp) as E1. pose proof (taken_q t q Hq) as E2.
  unfold less_than, greater_than, less_or_equal, greater_or_equal, greater_or_equal_ok, greater_than_ok, number_equal.
  rewrite dec_cmp_q.
  assert (Hc : (dec_q (dec_of s) ?= dec_q (dec_of t))%Q = (p ?= q)%Q) by now rewrite E1, E2.
  rewrite Hc.
  assert (HB : beqb s t = true -> (p == q)%Q) by (intros H; destruct (beqb_spec s t) as [->|]; [exact (taken_unique t p q Hp Hq)|discriminate]).
  assert (HP : ((p ?= q)%Q = Eq <-> (p == q)%Q) /\ ((p ?= q)%Q = Lt <-> (p < q)%Q) /\ ((p ?= q)%Q = Gt <-> (q < p)%Q)).
  { split; [symmetry; apply Qeq_alt|]. split; [symmetry; apply Qlt_alt|symmetry; apply Qgt_alt]. }
  destruct HP as (P1 & P2 & P3).
  assert (Hle1 : (p <= q)%Q <-> (p ?= q)%Q <> Gt) by apply Qle_alt.
  assert (Hle2 : (q <= p)%Q <-> (p ?= q)%Q <> Lt) by (split; [intros H1 H2; apply P2 in H2; exact (Qlt_not_le _ _ H2 H1)|intros H; apply Qnot_lt_le; intros H1; apply P2 in H1; congruence]).
  rewrite <- P1, <- P2, <- P3, Hle1, Hle2.
  destruct (beqb s t).
  - assert (He : (p ?= q)%Q = Eq) by (apply P1; now apply HB). rewrite He. cbn. repeat split; congruence.
  - destruct (p ?= q)%Q; cbn; repeat split; congruence.
Qed.

Lemma number_equal_taken s t : (exists p, denotes_number s p) -> (exists q, denotes_number t q) ->
  number_equal s t = true <-> taken_same s t.
Proof.
  intros (p0 & Hp0) (q0 & Hq0). destruct (taken_any _ _ Hp0) as (p & Hp). destruct (taken_any _ _ Hq0) as (q & Hq).
  rewrite number_equal_q, (taken_q s p Hp), (taken_q t q Hq). split.
  - intros H. exists p, q. auto.
  - intros (p' & q' & Hp' & Hq' & H). rewrite (taken_unique s p p' Hp Hp'), (taken_unique t q q' Hq Hq'). exact H.
Qed.

Theorem equal_taken W path v w : json_typed v -> json_typed w ->
  all_text (fun _ => True) (fun _ s => exists q, denotes_number s q) v -> all_text (fun _ => True) (fun _ s => exists q, denotes_number s q) w ->
  equal W path v w = true <-> same_value taken_same v w.
Proof.
  intros Hv Hw Tv Tw. rewrite (equal_iff W v w path Hv Hw). split.
  - apply (same_value_impl _ _ (fun s => exists q, denotes_number s q)); try assumption. intros s t H1 H2. now apply number_equal_taken.
  - apply (same_value_impl _ _ (fun s => exists q, denotes_number s q)); try assumption. intros s t H1 H2. now apply number_equal_taken.
Qed.

Theorem parsed_equal E W path a b v w : Forall is_byte a -> Forall is_byte b ->
  unmarshal E a = Ok (v, None) -> unmarshal E b = Ok (w, None) ->
  equal W path v w = true <-> same_value taken_same v w.
Proof.
  intros Ha Hb H1 H2. destruct (parsed_denotes _ _ _ Ha H1). destruct (parsed_denotes _ _ _ Hb H2). now apply equal_taken.
Qed.

Theorem parsed_compare E a b n s m t : Forall is_byte a -> Forall is_byte b ->
  unmarshal E a = Ok (VNum n s, None) -> unmarshal E b = Ok (VNum m t, None) ->
  exists p q, taken_as s p /\ taken_as t q /\
  (less_than (VNum n s) (VNum m t) = Ok true <-> (p < q)%Q) /\
  (greater_than (VNum n s) (VNum m t) = Ok true <-> (q < p)%Q) /\
  (less_or_equal (VNum n s) (VNum m t) = Ok true <-> (p <= q)%Q) /\
  (greater_or_equal (VNum n s) (VNum m t) = Ok true <-> (q <= p)%Q).
Proof.
  intros Ha Hb H1 H2. destruct (parsed_denotes _ _ _ Ha H1) as (_ & p0 & A). destruct (parsed_denotes _ _ _ Hb H2) as (_ & q0 & B).
  destruct (taken_any _ _ A) as (p & Hp). destruct (taken_any _ _ B) as (q & Hq). exists p, q. split; [exact Hp|]. split; [exact Hq|].
  destruct (compare_taken n s m t p q Hp Hq) as (C1 & C2 & C3 & C4 & _). auto.
Qed.

Lemma tiny_big : ~ small_exponent tiny.
Proof.
  destruct tiny_value as (neg & ip & fd & e & H & _). intros (n' & i' & f' & e' & H' & R1 & R2).
  assert (G : decimal_text tiny false [49] [] (-10000000000)).
  { change tiny with ((if false then [45] else []) ++ [49] ++ [] ++ (101 :: 45 :: [49; 48; 48; 48; 48; 48; 48; 48; 48; 48; 48])).
    change (-10000000000) with (- digits_val [49; 48; 48; 48; 48; 48; 48; 48; 48; 48; 48]).
    apply (DecimalText false [49] [] []); [repeat constructor; unfold digit; lia|constructor| |discriminate].
    apply EP_minus; [now left|]. split; [discriminate|]. repeat constructor; unfold digit; lia. }
  destruct (decimal_unique _ _ _ _ _ _ _ _ _ G H') as (_ & _ & <- & <-). cbn in R1. lia.
Qed.
Example taken_example : taken_as tiny 0%Q /\ taken_as (bs "-12") (-12 # 1)%Q /\
  (forall n m, less_than (VNum n (bs "-12")) (VNum m tiny) = Ok true) /\ taken_same tiny (bs "0").
Proof.
  assert (A : taken_as tiny 0%Q) by (apply (TA_zero _ _ _ tiny_value tiny_big); reflexivity).
  split; [exact A|]. split; [|split; [intros n m; vm_compute; reflexivity|]].
  - destruct (decimal_denotes (bs "-12") (-12)) as (H1 & H2).
    + exact (format_int_decimal (-12)).
    + apply TA_value; [exact H1|exact H2].
  - exists 0%Q, 0%Q. split; [exact A|]. split; [|reflexivity]. destruct (decimal_denotes (bs "0") 0 (format_int_decimal 0)) as (H1 & H2). now apply TA_value.
Qed.
