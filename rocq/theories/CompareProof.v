(** Proofs about comparison (C25, C26). *)
From Coq Require Import QArith_base Qpower.
From Verif Require Import Base Float64 Value Opt Marshal Compare SpecJson SpecValue SpecText SpecLax SpecNum
  ListLemmas ValueLemmas NumProof SortProof MarshalProof.
Open Scope Z_scope.

(** *** Reading decimals *)
Lemma digits_val_dval d : digits_val d = dval 0 d.
Proof. reflexivity. Qed.

Lemma read_unsigned d : digits d -> read_digits d 0 0 = (digits_val d, List.length d, []).
Proof.
  intros [_ H]. pose proof (read_digits_spec d [] H I 0 0%nat) as R. rewrite app_nil_r in R. exact R.
Qed.
Lemma read_int_digits d : digits d -> read_int d = Some (digits_val d).
Proof.
  intros H. unfold read_int. destruct d as [|c d]; [destruct H as [H _]; congruence|].
  assert (Hc : digit c) by (destruct H as [_ H]; now inversion H). unfold digit in Hc.
  assert (E : (match c :: d with 43 :: r => (false, r) | 45 :: r => (true, r) | _ => (false, c :: d) end) = (false, c :: d)).
  { assert (c <> 43) by lia. assert (c <> 45) by lia. destruct c as [|p|p]; try reflexivity. repeat (destruct p as [p|p|]; try reflexivity; try congruence). }
  rewrite E, (read_unsigned (c :: d) H). cbn. reflexivity.
Qed.
Lemma read_int_signed d c : digits d -> c = 43 \/ c = 45 -> read_int (c :: d) = Some (if c =? 45 then - digits_val d else digits_val d).
Proof.
  intros H Hc. unfold read_int. destruct Hc as [-> | ->]; rewrite (read_unsigned d H); destruct d as [|x d]; try reflexivity; destruct H as [H _]; congruence.
Qed.

Lemma cut_at_none p s : Forall (fun c => p c = false) s -> cut_at p s = (s, None).
Proof. induction 1 as [|c s Hc _ IH]; [reflexivity|]. cbn. now rewrite Hc, IH. Qed.
Lemma cut_at_some p s c r : Forall (fun c => p c = false) s -> p c = true -> cut_at p (s ++ c :: r) = (s, Some r).
Proof. intros H Hc. induction H as [|x s Hx _ IH]; cbn; [now rewrite Hc|]. now rewrite Hx, IH. Qed.

Definition signed (neg : bool) (z : Z) : Z := if neg then - z else z.

Lemma digits_not (p : Z -> bool) d : (forall c, digit c -> p c = false) -> Forall digit d -> Forall (fun c => p c = false) d.
Proof. intros H. apply Forall_impl. auto. Qed.

(** What reading a literal gives, with the tests of the ranges. *)
Lemma dec_of_text lit neg ip fd e : decimal_text lit neg ip fd e ->
  dec_of_string lit =
    (if in_i32 e then
       if in_i32 (e - Z.of_nat (List.length fd))
       then Some (signed neg (digits_val (ip ++ fd)), e - Z.of_nat (List.length fd)) else None
     else None).
Proof.
  intros [neg' ip' fr fd' ex e' Hip Hfr Hex Hne]. set (sg := if neg' then [45] else []).
  unfold dec_of_string.
  assert (Hb : Forall (fun c => (c =? 101) || (c =? 69) = false) (sg ++ ip' ++ fr)).
  { apply Forall_app. split; [unfold sg; destruct neg'; repeat constructor|]. apply Forall_app. split.
    - apply digits_not; [unfold digit; lia|exact Hip].
    - destruct Hfr as [|d [_ Hd]]; [constructor|]. constructor; [lia|]. apply digits_not; [unfold digit; lia|exact Hd]. }
  assert (Hcut : exists ex', cut_at (fun c => (c =? 101) || (c =? 69)) (sg ++ ip' ++ fr ++ ex) = (sg ++ ip' ++ fr, ex') /\
    (match ex' with None => Some 0 | Some t => match read_int t with Some e0 => if in_i32 e0 then Some e0 else None | None => None end end)
    = if in_i32 e' then Some e' else None).
  { replace (sg ++ ip' ++ fr ++ ex) with ((sg ++ ip' ++ fr) ++ ex) by (rewrite <- !app_assoc; reflexivity).
    destruct Hex as [|c d Hc Hd|c d Hc Hd|c d Hc Hd].
    - exists None. rewrite app_nil_r. split; [now apply cut_at_none|reflexivity].
    - exists (Some d). split; [apply cut_at_some; [exact Hb|lia]|]. now rewrite (read_int_digits d Hd).
    - exists (Some (43 :: d)). split; [apply cut_at_some; [exact Hb|lia]|]. now rewrite (read_int_signed d 43 Hd (or_introl eq_refl)).
    - exists (Some (45 :: d)). split; [apply cut_at_some; [exact Hb|lia]|]. now rewrite (read_int_signed d 45 Hd (or_intror eq_refl)). }
  destruct Hcut as (ex' & -> & ->). destruct (in_i32 e'); [|reflexivity].
  assert (Hi : Forall (fun c => (c =? 46) = false) (sg ++ ip')).
  { apply Forall_app. split; [unfold sg; destruct neg'; repeat constructor|]. apply digits_not; [unfold digit; lia|exact Hip]. }
  assert (Hcut : exists fr', cut_at (fun c => c =? 46) (sg ++ ip' ++ fr) = (sg ++ ip', fr') /\
    match fr' with None => [] | Some f => f end = fd').
  { rewrite app_assoc. destruct Hfr as [|d Hd].
    - exists None. rewrite app_nil_r. split; [now apply cut_at_none|reflexivity].
    - exists (Some d). split; [apply cut_at_some; [exact Hi|reflexivity]|reflexivity]. }
  destruct Hcut as (fr' & -> & ->).
  assert (Hfd : Forall digit fd') by (destruct Hfr as [|d [_ Hd]]; [constructor|exact Hd]).
  assert (Hd : existsb (fun c => c =? 46) fd' = false).
  { apply not_true_iff_false. intros H. apply existsb_exists in H as (c & Hc & He). rewrite Forall_forall in Hfd. apply Hfd in Hc. unfold digit in Hc. lia. }
  rewrite Hd, <- app_assoc.
  assert (Hds : digits (ip' ++ fd')) by (split; [exact Hne|apply Forall_app; now split]).
  unfold sg, signed. destruct neg'; cbn [app].
  - now rewrite (read_int_signed _ 45 Hds (or_intror eq_refl)).
  - now rewrite (read_int_digits _ Hds).
Qed.

(** The decomposition of a literal is unique. *)
Lemma decimal_unique lit neg ip fd e neg' ip' fd' e' :
  decimal_text lit neg ip fd e -> decimal_text lit neg' ip' fd' e' -> neg = neg' /\ ip = ip' /\ fd = fd' /\ e = e'.
Proof.
  intros H1 H2.
  assert (G : forall l n i f x, decimal_text l n i f x -> exists ex fr,
    cut_at (fun c => (c =? 101) || (c =? 69)) l = ((if n then [45] else []) ++ i ++ fr, ex) /\
    match ex with None => Some 0 | Some t => read_int t end = Some x /\
    cut_at (fun c => c =? 46) ((if n then [45] else []) ++ i ++ fr) = ((if n then [45] else []) ++ i, match fr with [] => None | _ => Some f end) /\
    Forall digit i /\ (fr = [] -> f = [])).
  { clear. intros l n i f x [neg' ip' fr fd' ex e' Hip Hfr Hex Hne]. set (sg := if neg' then [45] else []).
    assert (Hb : Forall (fun c => (c =? 101) || (c =? 69) = false) (sg ++ ip' ++ fr)).
    { apply Forall_app. split; [unfold sg; destruct neg'; repeat constructor|]. apply Forall_app. split.
      - apply digits_not; [unfold digit; lia|exact Hip].
      - destruct Hfr as [|d [_ Hd]]; [constructor|]. constructor; [lia|]. apply digits_not; [unfold digit; lia|exact Hd]. }
    assert (Hi : Forall (fun c => (c =? 46) = false) (sg ++ ip')).
    { apply Forall_app. split; [unfold sg; destruct neg'; repeat constructor|]. apply digits_not; [unfold digit; lia|exact Hip]. }
    assert (Hf : cut_at (fun c => c =? 46) (sg ++ ip' ++ fr) = (sg ++ ip', match fr with [] => None | _ => Some fd' end)).
    { rewrite app_assoc. destruct Hfr as [|d Hd]; [rewrite app_nil_r; now apply cut_at_none|apply cut_at_some; [exact Hi|reflexivity]]. }
    replace (sg ++ ip' ++ fr ++ ex) with ((sg ++ ip' ++ fr) ++ ex) by (rewrite <- !app_assoc; reflexivity).
    assert (Hff : fr = [] -> fd' = []) by (destruct Hfr; [reflexivity|discriminate]).
    destruct Hex as [|c d Hc Hd|c d Hc Hd|c d Hc Hd].
    - exists None, fr. rewrite app_nil_r. split; [now apply cut_at_none|]. auto.
    - exists (Some d), fr. split; [apply cut_at_some; [exact Hb|lia]|]. split; [now apply read_int_digits|]. auto.
    - exists (Some (43 :: d)), fr. split; [apply cut_at_some; [exact Hb|lia]|]. split; [now apply (read_int_signed d 43 Hd (or_introl eq_refl))|]. auto.
    - exists (Some (45 :: d)), fr. split; [apply cut_at_some; [exact Hb|lia]|]. split; [now apply (read_int_signed d 45 Hd (or_intror eq_refl))|]. auto. }
  destruct (G _ _ _ _ _ H1) as (ex & fr & C1 & R1 & F1 & I1 & Z1). destruct (G _ _ _ _ _ H2) as (ex' & fr' & C2 & R2 & F2 & I2 & Z2).
  rewrite C1 in C2. injection C2 as Cb <-. rewrite R1 in R2. injection R2 as <-. rewrite <- Cb, F1 in F2. injection F2 as Fb Ff.
  assert (Hs : neg = neg' /\ ip = ip').
  { destruct neg, neg'; cbn [app] in Fb; try (injection Fb as Fb); auto.
    - exfalso. rewrite <- Fb in I2. inversion I2 as [|? ? Hd]. unfold digit in Hd. lia.
    - exfalso. rewrite Fb in I1. inversion I1 as [|? ? Hd]. unfold digit in Hd. lia. }
  destruct Hs as (-> & ->). repeat split. destruct fr, fr'; try discriminate; [now rewrite Z1, Z2 by reflexivity|congruence].
Qed.

(** *** Decimals as rationals *)
Definition dec_q (d : dec) : Q := (inject_Z (fst d) * (10 # 1) ^ (snd d))%Q.

Lemma ten_pos z : (0 < (10 # 1) ^ z)%Q.
Proof. apply Qpower_0_lt. reflexivity. Qed.

Lemma rescaled m e s : s <= e -> (inject_Z m * (10 # 1) ^ e == inject_Z (m * 10 ^ (e - s)) * (10 # 1) ^ s)%Q.
Proof.
  intros H. rewrite inject_Z_mult, (Zpower_Qpower 10 (e - s)) by lia. rewrite <- Qmult_assoc.
  change (inject_Z 10) with (10 # 1). rewrite <- Qpower_plus by discriminate. now replace (e - s + s) with e by lia.
Qed.

Lemma inject_lt a b : (inject_Z a < inject_Z b)%Q <-> a < b.
Proof. unfold Qlt. cbn. lia. Qed.
Lemma inject_eq a b : (inject_Z a == inject_Z b)%Q <-> a = b.
Proof. unfold Qeq. cbn. lia. Qed.

Lemma dec_cmp_q a b : dec_cmp a b = (dec_q a ?= dec_q b)%Q.
Proof.
  destruct a as [m1 e1], b as [m2 e2]. unfold dec_cmp, dec_q. cbn [fst snd]. set (s := Z.min e1 e2).
  symmetry. destruct (Z.compare_spec (m1 * 10 ^ (e1 - s)) (m2 * 10 ^ (e2 - s))) as [H|H|H].
  - apply Qeq_alt. rewrite (rescaled m1 e1 s), (rescaled m2 e2 s) by lia. now rewrite H.
  - apply Qlt_alt. rewrite (rescaled m1 e1 s), (rescaled m2 e2 s) by lia. apply Qmult_lt_compat_r; [apply ten_pos|]. now apply inject_lt.
  - apply Qgt_alt. rewrite (rescaled m1 e1 s), (rescaled m2 e2 s) by lia. apply Qmult_lt_compat_r; [apply ten_pos|]. now apply inject_lt.
Qed.

Lemma dec_of_q lit q : denotes_number lit q -> small_exponent lit -> (dec_q (dec_of lit) == q)%Q.
Proof.
  intros (neg & ip & fd & e & H & Hq) (neg' & ip' & fd' & e' & H' & R1 & R2).
  destruct (decimal_unique _ _ _ _ _ _ _ _ _ H H') as (<- & <- & <- & <-).
  unfold dec_of. rewrite (dec_of_text _ _ _ _ _ H).
  replace (in_i32 e) with true by (unfold in_i32, two31; lia).
  replace (in_i32 (e - Z.of_nat (List.length fd))) with true by (unfold in_i32, two31; lia).
  rewrite Hq. reflexivity.
Qed.

Lemma number_equal_q s t : number_equal s t = true <-> (dec_q (dec_of s) == dec_q (dec_of t))%Q.
Proof.
  unfold number_equal. destruct (beqb_spec s t) as [->|_]; [split; reflexivity|]. rewrite dec_cmp_q.
  rewrite Qeq_alt. destruct (dec_q (dec_of s) ?= dec_q (dec_of t))%Q; split; congruence.
Qed.

Lemma denotes_unique lit p q : denotes_number lit p -> denotes_number lit q -> (p == q)%Q.
Proof.
  intros (n1 & i1 & f1 & e1 & H1 & ->) (n2 & i2 & f2 & e2 & H2 & ->).
  destruct (decimal_unique _ _ _ _ _ _ _ _ _ H1 H2) as (-> & -> & -> & ->). reflexivity.
Qed.

Lemma number_equal_exact s t : (exists p, denotes_number s p) -> small_exponent s -> (exists q, denotes_number t q) -> small_exponent t ->
  number_equal s t = true <-> same_number s t.
Proof.
  intros (p & Hp) Hs (q & Hq) Ht. rewrite number_equal_q, (dec_of_q s p Hp Hs), (dec_of_q t q Hq Ht). split.
  - intros H. exists p, q. auto.
  - intros (p' & q' & Hp' & Hq' & H). rewrite (denotes_unique s p p' Hp Hp'), (denotes_unique t q q' Hq Hq'). exact H.
Qed.

(** *** Order *)
Theorem compare_total n s m t : exists lt eq gt,
  less_than (VNum n s) (VNum m t) = Ok lt /\ number_equal s t = eq /\ greater_than (VNum n s) (VNum m t) = Ok gt /\
  ((lt = true /\ eq = false /\ gt = false) \/ (lt = false /\ eq = true /\ gt = false) \/ (lt = false /\ eq = false /\ gt = true)) /\
  less_or_equal (VNum n s) (VNum m t) = Ok (negb gt) /\ greater_or_equal (VNum n s) (VNum m t) = Ok (negb lt).
Proof.
  unfold less_than, greater_than, less_or_equal, greater_or_equal, greater_or_equal_ok, greater_than_ok, number_equal.
  destruct (beqb_spec s t) as [->|Hn].
  - rewrite dec_cmp_q. replace (dec_q (dec_of t) ?= dec_q (dec_of t))%Q with Eq by (symmetry; now apply Qeq_alt).
    do 3 eexists. repeat split; cbn; auto.
  - destruct (dec_cmp (dec_of s) (dec_of t)); do 3 eexists; repeat split; cbn; auto.
Qed.

Theorem compare_exact n s m t p q : denotes_number s p -> small_exponent s -> denotes_number t q -> small_exponent t ->
  (less_than (VNum n s) (VNum m t) = Ok true <-> (p < q)%Q) /\
  (greater_than (VNum n s) (VNum m t) = Ok true <-> (q < p)%Q) /\
  (less_or_equal (VNum n s) (VNum m t) = Ok true <-> (p <= q)%Q) /\
  (greater_or_equal (VNum n s) (VNum m t) = Ok true <-> (q <= p)%Q) /\
  (number_equal s t = true <-> (p == q)%Q).
Proof.
  intros Hp Hs Hq Ht. pose proof (dec_of_q s p Hp Hs) as E1. pose proof (dec_of_q t q Hq Ht) as E2.
  unfold less_than, greater_than, less_or_equal, greater_or_equal, greater_or_equal_ok, greater_than_ok, number_equal.
  rewrite dec_cmp_q.
  assert (Hc : (dec_q (dec_of s) ?= dec_q (dec_of t))%Q = (p ?= q)%Q) by now rewrite E1, E2.
  rewrite Hc.
  assert (HB : beqb s t = true -> (p == q)%Q) by (intros H; destruct (beqb_spec s t) as [->|]; [exact (denotes_unique t p q Hp Hq)|discriminate]).
  assert (HP : ((p ?= q)%Q = Eq <-> (p == q)%Q) /\ ((p ?= q)%Q = Lt <-> (p < q)%Q) /\ ((p ?= q)%Q = Gt <-> (q < p)%Q)).
  { split; [symmetry; apply Qeq_alt|]. split; [symmetry; apply Qlt_alt|symmetry; apply Qgt_alt]. }
  destruct HP as (P1 & P2 & P3).
  assert (Hle1 : (p <= q)%Q <-> (p ?= q)%Q <> Gt) by apply Qle_alt.
  assert (Hle2 : (q <= p)%Q <-> (p ?= q)%Q <> Lt) by (split; [intros H1 H2; apply P2 in H2; exact (Qlt_not_le _ _ H2 H1)|intros H; apply Qnot_lt_le; intros H1; apply P2 in H1; congruence]).
  rewrite <- P1, <- P2, <- P3, Hle1, Hle2.
  destruct (beqb s t).
  - assert (He : (p ?= q)%Q = Eq) by (apply P1; now apply HB). rewrite He. cbn. repeat split; congruence.
  - destruct (p ?= q)%Q; cbn; repeat split; congruence.
Qed.

(** Transitivity holds of any texts. *)
Lemma less_q n s m t : less_than (VNum n s) (VNum m t) = Ok true <-> (dec_q (dec_of s) < dec_q (dec_of t))%Q.
Proof.
  unfold less_than, greater_or_equal_ok. rewrite dec_cmp_q. rewrite Qlt_alt. destruct (beqb_spec s t) as [->|_].
  - replace (dec_q (dec_of t) ?= dec_q (dec_of t))%Q with Eq by (symmetry; now apply Qeq_alt). cbn. split; congruence.
  - destruct (dec_q (dec_of s) ?= dec_q (dec_of t))%Q; cbn; split; congruence.
Qed.
Theorem less_transitive a b c : less_than a b = Ok true -> less_than b c = Ok true -> less_than a c = Ok true.
Proof.
  destruct a, b; try discriminate; destruct c; try discriminate. rewrite !less_q. apply Qlt_trans.
Qed.

Theorem compare_others a b : a <> VNil -> b <> VNil ->
  (forall n s, a <> VNum n s) \/ (forall n s, b <> VNum n s) ->
  less_than a b = Ok false /\ greater_than a b = Ok false /\ less_or_equal a b = Ok false /\ greater_or_equal a b = Ok false.
Proof.
  intros Ha Hb H.
  destruct a; try congruence; try (repeat split; reflexivity);
  destruct b; try congruence; try (repeat split; reflexivity).
  destruct H as [H|H]; exfalso; eapply H; reflexivity.
Qed.

(** *** Equal *)
Notation NE := (fun s t => number_equal s t = true).

Lemma forallb_perm {A} (f : A -> bool) l l' : Permutation l l' -> forallb f l = forallb f l'.
Proof.
  induction 1; cbn; try congruence. now rewrite !andb_assoc, (andb_comm (f y)).
Qed.

Lemma equal_obj W path i kvs lo i' kvs' lo' :
  equal W path (VObj i kvs lo) (VObj i' kvs' lo') =
  ((List.length kvs =? List.length kvs')%nat &&
   forallb (fun e : kv => match alookup (fst e) kvs' with
                          | Some (_, y) => equal W (path ++ [string_key (fst e)]) (snd (snd e)) y
                          | None => false end) kvs)%bool.
Proof.
  cbn [equal]. destruct (List.length kvs =? List.length kvs')%nat; [|reflexivity]. cbn [negb andb].
  rewrite (forallb_perm _ _ _ (go_range_perm W path _)).
  induction kvs as [|[k [id x]] r IH]; [reflexivity|]. cbn. now rewrite IH.
Qed.
Lemma equal_arr W path l l' :
  equal W path (VArr l) (VArr l') =
  ((List.length l =? List.length l')%nat &&
   (fix go (i : Z) (l l' : list V) : bool :=
         match l, l' with
         | x :: r, y :: r' => equal W (path ++ [int_key i]) x y && go (i + 1) r r'
         | _, _ => true
         end) 0%Z l l')%bool.
Proof. cbn [equal]. destruct (List.length l =? List.length l')%nat; reflexivity. Qed.

Theorem equal_iff W : forall v w path, json_typed v -> json_typed w ->
  equal W path v w = true <-> same_value NE v w.
Proof.
  intros v. induction v as [ |s|n src|i kvs lo IH|l IH|b| | | ] using V_ind'; intros w path Hv Hw;
    try (destruct w; cbn; split; intros H; try discriminate; try contradiction; inversion H; fail).
  - destruct w; cbn; try (split; [discriminate|intros H; inversion H]). destruct (beqb_spec s s0) as [->|Hn]; split; try discriminate; intros H; try constructor.
    inversion H; subst; contradiction.
  - destruct w; try (split; [discriminate|intros H; inversion H; fail]). cbn [equal]. split; [intros H; now constructor|]. intros H. inversion H; subst. assumption.
  - destruct w; try (split; [discriminate|intros H; inversion H; fail]). apply json_typed_obj in Hv as (Hn & Hv). apply json_typed_obj in Hw as (Hn' & Hw).
    rewrite equal_obj, andb_true_iff, forallb_forall, Nat.eqb_eq. rewrite Forall_forall in *. split.
    + intros (Hlen & HF). constructor.
      * assert (Hinc : incl (map fst kvs) (map fst kvs0)).
        { intros k Hk. apply in_map_iff in Hk as (e & <- & He). specialize (HF _ He). destruct (alookup (fst e) kvs0) as [[id y]|] eqn:El; [|discriminate].
          eapply alookup_Some_key; eassumption. }
        intros k. split; [apply Hinc|]. apply (NoDup_length_incl Hn); [unfold akeys; rewrite !map_length; apply Nat.eq_le_incl; symmetry; exact Hlen|exact Hinc].
      * intros k id x id' y Hx Hy. pose proof (HF _ Hx) as Hq. cbn [fst snd] in Hq. rewrite (alookup_NoDup_In _ _ _ Hn' Hy) in Hq.
        apply (IH _ Hx) in Hq; [exact Hq|apply (Hv _ Hx)|apply (Hw _ Hy)].
    + intros H. inversion H as [| | | | |? ? ? ? ? ? Hk Hs]; subst. split.
      * rewrite <- (map_length fst kvs), <- (map_length fst kvs0). apply Nat.le_antisymm; apply NoDup_incl_length; try assumption; intros k; apply Hk.
      * intros [k [id x]] Hx. cbn [fst snd]. assert (Hin : In k (map fst kvs0)) by (apply Hk; apply in_map_iff; now exists (k, (id, x))).
        apply in_map_iff in Hin as ([k' [id' y]] & Hk' & Hy). cbn in Hk'. subst k'. rewrite (alookup_NoDup_In _ _ _ Hn' Hy).
        apply (IH _ Hx); [apply (Hv _ Hx)|apply (Hw _ Hy)|]. eapply Hs; eassumption.
  - destruct w; try (split; [discriminate|intros H; inversion H; fail]). apply json_typed_arr in Hv. apply json_typed_arr in Hw. rewrite equal_arr.
    assert (G : forall l0 z, Forall json_typed l0 ->
      (((List.length l =? List.length l0)%nat &&
       (fix go (i : Z) (l l' : list V) : bool :=
         match l, l' with
         | x :: r, y :: r' => equal W (path ++ [int_key i]) x y && go (i + 1) r r'
         | _, _ => true
         end) z l l0)%bool = true <-> Forall2 (same_value NE) l l0)).
    { clear -IH Hv. induction IH as [|x r Hx HF IHr]; intros l0 z Hw.
      - destruct l0; cbn; split; try discriminate; try constructor. intros H; inversion H.
      - inversion Hv as [|? ? Hvx Hvr]; subst. destruct l0 as [|y r']; [cbn; split; [discriminate|intros H; inversion H]|].
        inversion Hw as [|? ? Hwy Hwr]; subst. cbn [List.length Nat.eqb]. specialize (IHr Hvr r' (z + 1) Hwr).
        destruct (equal W (path ++ [int_key z]) x y) eqn:Eq.
        + cbn [andb]. rewrite IHr. apply (Hx y _ Hvx Hwy) in Eq. split; [intros; now constructor|]. intros H; now inversion H.
        + rewrite andb_false_r. split; [discriminate|]. intros H. inversion H as [|? ? ? ? Hq _]; subst.
          apply (Hx y (path ++ [int_key z]) Hvx Hwy) in Hq. congruence. }
    rewrite (G l0 0 Hw). split; [intros; now constructor|]. intros H; now inversion H.
  - destruct w; cbn; try (split; [discriminate|intros H; inversion H]). destruct b, b0; cbn; split; try discriminate; intros H; try constructor; inversion H.
  - destruct w; cbn; split; intros H; try discriminate; try contradiction; try (inversion H; fail); constructor.
Qed.

Lemma same_value_impl (N1 N2 : bytes -> bytes -> Prop) (P : bytes -> Prop) : (forall s t, P s -> P t -> N1 s t -> N2 s t) ->
  forall v w, all_text (fun _ => True) (fun _ s => P s) v -> all_text (fun _ => True) (fun _ s => P s) w -> same_value N1 v w -> same_value N2 v w.
Proof.
  intros HN v. induction v as [ |s|n src|i kvs lo IH|l IH|b| | | ] using V_ind'; intros w Hv Hw H; inversion H; subst; try constructor.
  - apply HN; assumption.
  - assumption.
  - intros k id x id' y Hx Hy. apply all_text_obj in Hv, Hw. rewrite Forall_forall in *. apply (IH _ Hx); [apply (Hv _ Hx)|apply (Hw _ Hy)|].
    match goal with Hs : forall k id x id' y, _ |- _ => eapply Hs; eassumption end.
  - apply all_text_arr in Hv, Hw. match goal with HF : Forall2 _ l ?l' |- _ => revert Hv Hw HF; clear -IH; revert l' end.
    induction IH as [|x r Hx _ IHr]; intros l' Hv Hw HF; inversion HF; subst; constructor.
    + apply Hx; [now inversion Hv|now inversion Hw|assumption].
    + apply IHr; [now inversion Hv|now inversion Hw|assumption].
Qed.

Theorem equal_content W path v w : json_typed v -> json_typed w ->
  all_text (fun _ => True) (fun _ s => exact_number s) v -> all_text (fun _ => True) (fun _ s => exact_number s) w ->
  equal W path v w = true <-> same_value same_number v w.
Proof.
  intros Hv Hw Tv Tw. rewrite (equal_iff W v w path Hv Hw). split.
  - apply (same_value_impl _ _ exact_number); try assumption. intros s t (H1 & H2) (H3 & H4). now apply number_equal_exact.
  - apply (same_value_impl _ _ exact_number); try assumption. intros s t (H1 & H2) (H3 & H4). now apply number_equal_exact.
Qed.

(** *** An equivalence *)
Theorem equal_refl W path v : json_typed v -> equal W path v v = true.
Proof.
  intros H. apply equal_iff; try assumption. revert H. clear path. induction v as [ |s|n src|i kvs lo IH|l IH|b| | | ] using V_ind'; intros H; try contradiction; try constructor.
  - unfold number_equal. now rewrite beqb_refl.
  - reflexivity.
  - apply json_typed_obj in H as (Hn & H). rewrite Forall_forall in *. intros k id x id' y Hx Hy.
    assert (Hq : Some (id, x) = Some (id', y)) by (rewrite <- (alookup_NoDup_In _ _ _ Hn Hx); now apply alookup_NoDup_In).
    injection Hq as -> ->. apply (IH _ Hx). apply (H _ Hx).
  - apply json_typed_arr in H. clear -IH H. induction IH as [|x r Hx _ IHr]; constructor; [apply Hx; now inversion H|apply IHr; now inversion H].
Qed.

Lemma same_value_sym (N : bytes -> bytes -> Prop) : (forall s t, N s t -> N t s) -> forall v w, same_value N v w -> same_value N w v.
Proof.
  intros HN v. induction v as [ |s|n src|i kvs lo IH|l IH|b| | | ] using V_ind'; intros w H; inversion H; subst; try constructor; auto.
  - intros k. symmetry. auto.
  - intros k id x id' y Hx Hy. rewrite Forall_forall in IH. apply (IH _ Hy). match goal with Hs : forall k id x id' y, _ |- _ => eapply Hs; eassumption end.
  - match goal with HF : Forall2 _ l ?l' |- _ => revert HF; clear -IH; revert l' end.
    induction IH as [|x r Hx _ IHr]; intros l' HF; inversion HF; subst; constructor; auto.
Qed.
Lemma same_value_trans (N : bytes -> bytes -> Prop) : (forall s t u, N s t -> N t u -> N s u) -> forall v w u, same_value N v w -> same_value N w u -> same_value N v u.
Proof.
  intros HN v. induction v as [ |s|n src|i kvs lo IH|l IH|b| | | ] using V_ind'; intros w u H1 H2;
    inversion H1 as [|b0 E1 E2|s0 E1 E2|n0 s0 m0 t0 HN1 E1 E2|l0 l' F1 E1 E2|i0 kvs0 lo0 i' kvs' lo' K1 S1 E1 E2]; subst;
    inversion H2 as [|b0 E1 E2|s0 E1 E2|n1 s1 m1 t1 HN2 E1 E2|l1 l'' F2 E1 E2|i1 kvs1 lo1 i'' kvs'' lo'' K2 S2 E1 E2]; subst; try constructor.
  - eapply HN; eassumption.
  - intros k. rewrite <- K2. apply K1.
  - intros k id x id' y Hx Hy. rewrite Forall_forall in IH.
    assert (Hk : In k (map fst kvs')) by (apply K1; apply in_map_iff; now exists (k, (id, x))).
    apply in_map_iff in Hk as ([k' [id2 z]] & Hk & Hz). cbn in Hk. subst k'.
    eapply (IH _ Hx); [eapply S1; eassumption|eapply S2; eassumption].
  - revert F1 F2; clear -IH; revert l' l''.
    induction IH as [|x r Hx _ IHr]; intros l' l'' F1 F2; inversion F1; subst; inversion F2; subst; constructor; eauto.
Qed.

Theorem equal_sym W W' path path' v w : json_typed v -> json_typed w -> equal W path v w = equal W' path' w v.
Proof.
  intros Hv Hw. apply eq_true_iff_eq. rewrite (equal_iff W v w path Hv Hw), (equal_iff W' w v path' Hw Hv).
  assert (Hs : forall s t, number_equal s t = true -> number_equal t s = true) by (intros s t; rewrite !number_equal_q; intros H; now symmetry).
  split; apply same_value_sym; exact Hs.
Qed.
Theorem equal_trans W path u v w : json_typed u -> json_typed v -> json_typed w ->
  equal W path u v = true -> equal W path v w = true -> equal W path u w = true.
Proof.
  intros Hu Hv Hw. rewrite (equal_iff W u v path Hu Hv), (equal_iff W v w path Hv Hw), (equal_iff W u w path Hu Hw).
  apply same_value_trans. intros s t x. rewrite !number_equal_q. apply Qeq_trans.
Qed.
