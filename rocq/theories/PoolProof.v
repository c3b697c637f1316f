(** The predictor. *)
From Verif Require Import Base Float64 Value Scan Unmarshal Pure UnmarshalProof Pool.

Definition K := 4294967296.
Definition pack (T N : Z) : Z := T * K + N.
Lemma pack_total T N : 0 <= N < K -> calc_total (pack T N) = T.
Proof. intros H. unfold calc_total, pack, K in *. rewrite Z.shiftr_div_pow2 by lia. change (2 ^ 32) with 4294967296. rewrite Z.div_add_l by lia. rewrite Z.div_small by lia. lia. Qed.
Lemma pack_num T N : 0 <= N < K -> calc_num (pack T N) = N.
Proof. intros H. unfold calc_num, pack, K in *. change 4294967295 with (Z.ones 32). rewrite Z.land_ones by lia. change (2 ^ 32) with 4294967296. rewrite Z.add_comm, Z.mod_add by lia. apply Z.mod_small. lia. Qed.
Lemma pack_wrap T N : 0 <= T -> 0 <= N < K -> wrap_u64 (wrap_u64 (Z.shiftl T 32) + N) = pack (T mod K) N.
Proof.
  intros HT HN. rewrite Z.shiftl_mul_pow2 by lia. change (2 ^ 32) with K. unfold wrap_u64. change two64 with (K * K).
  rewrite Z.mul_mod_distr_r by discriminate. unfold pack. apply Z.mod_small. pose proof (Z.mod_pos_bound T K ltac:(reflexivity)). unfold K in *. lia.
Qed.

Lemma add_predict_pack T N raw num : 0 <= T < K -> 0 <= N < K -> 0 <= raw < K -> 0 <= num < K -> num + N < K ->
  add_predict (pack T N) raw num =
  if T + raw <? 2147483647 then U_calc (pack (T + raw) (N + num))
  else if N + num =? 0 then U_panic
  else U_both ((T + raw) / (N + num)) (pack ((T + raw) / (N + num) mod K) 1).
Proof.
  intros HT HN Hr Hn Hs. unfold add_predict. rewrite pack_total, pack_num by assumption. cbv zeta.
  assert (W : forall x, 0 <= x < 2 * K -> wrap_u64 x = x) by (intros x Hx; unfold wrap_u64; apply Z.mod_small; unfold K, two64 in *; lia).
  rewrite (W raw), (W num) by lia. rewrite (W (raw + T)), (W (num + N)) by lia. rewrite (Z.add_comm raw), (Z.add_comm num).
  destruct (Z.ltb_spec (T + raw) 2147483647) as [H|H].
  - rewrite pack_wrap by lia. rewrite Z.mod_small by (unfold K in *; lia). reflexivity.
  - destruct (Z.eqb_spec (N + num) 0) as [E0|E0]; [reflexivity|]. rewrite pack_wrap; [reflexivity| |unfold K; lia].
    apply Z.div_pos; lia.
Qed.

Lemma taken_le E b : (taken E b <= List.length b)%nat.
Proof.
  unfold taken. pose proof (run_unmarshal_spec E b) as H. destruct (q_unmarshal E b) as [v|e| |]; try contradiction.
  - destruct H as (s & -> & X). apply ext_act in X. cbn in X. lia.
  - destruct H as (s & -> & X). exact X.
Qed.

(** *** The invariant *)
Definition B := 2147483648.
Definition weight (E : Env) (b : bytes) : Z := if (taken E b =? 0)%nat then Z.of_nat (List.length b) else 0.
Definition tw (E : Env) (t : thread) : Z := match t with T_load b | T_parse b _ => weight E b | _ => 0 end.
Definition pend (E : Env) (l : list thread) : Z := fold_right (fun t z => tw E t + z) 0 l.
Definition small (b : bytes) : Prop := Z.of_nat (List.length b) < B.

Lemma weight_nonneg E b : 0 <= weight E b.
Proof. unfold weight. destruct (_ =? _)%nat; lia. Qed.
Lemma tw_nonneg E t : 0 <= tw E t.
Proof. destruct t; cbn; try lia; apply weight_nonneg. Qed.
Lemma pend_app E l t r : pend E (l ++ t :: r) = pend E l + tw E t + pend E r.
Proof. unfold pend. induction l as [|x l IH]; cbn [app fold_right]; lia. Qed.
Lemma pend_nonneg E l : 0 <= pend E l.
Proof. unfold pend. induction l as [|x l IH]; cbn [fold_right]; [lia|]. pose proof (tw_nonneg E x). lia. Qed.
Lemma plain_cons E b docs : plain_bytes E (b :: docs) = weight E b + plain_bytes E docs.
Proof. reflexivity. Qed.

(** [v] is good when [P] bytes of plain documents are underway and [D] have been
    started in all. *)
Definition good_calc (D P v : Z) : Prop := exists T N, v = pack T N /\ 1 <= N <= T /\ N < B /\ T + P <= B + D.
Definition good_thread (D P : Z) (t : thread) : Prop :=
  match t with
  | T_idle => True
  | T_load b => small b
  | T_parse b cnt => small b /\ 0 <= cnt <= Z.of_nat (List.length b)
  | T_store_per per v => 1 <= per < two63 /\ good_calc D P v
  | T_store v => good_calc D P v
  | T_panic => False
  end.
Definition good (E : Env) (D : Z) (c : shared * list thread) : Prop :=
  let P := pend E (snd c) in
  0 <= P <= D /\ (sh_per (fst c) = 0 \/ 1 <= sh_per (fst c) < two63) /\ good_calc D P (sh_calc (fst c)) /\ Forall (good_thread D P) (snd c).

Lemma good_calc_mono D P D' P' v : D - P <= D' - P' -> good_calc D P v -> good_calc D' P' v.
Proof. intros H (T & N & Hv & HN & HK & HT). exists T, N. repeat split; try assumption; lia. Qed.
Lemma good_thread_mono D P D' P' t : D - P <= D' - P' -> good_thread D P t -> good_thread D' P' t.
Proof. intros H. destruct t; cbn; auto; [intros (H1 & H2); split; [exact H1|]|]; eauto using good_calc_mono. Qed.

Lemma new_pool_good D P b per : small b -> 1 <= per < two63 -> good_thread D P (new_pool b (wrap_i64 per)) /\ exists cnt, new_pool b (wrap_i64 per) = T_parse b cnt.
Proof.
  intros Hb Hp. replace (wrap_i64 per) with per.
  2: { unfold wrap_i64, two63, two64 in *. rewrite Z.mod_small by lia. lia. }
  unfold new_pool. destruct (Z.eqb_spec per 0); [lia|]. rewrite Z.quot_div_nonneg by lia.
  assert (0 <= Z.of_nat (List.length b) / per <= Z.of_nat (List.length b)).
  { split; [apply Z.div_pos; lia|]. apply Z.div_le_upper_bound; [lia|]. nia. }
  destruct (Z.ltb_spec (Z.of_nat (List.length b) / per) 0); [lia|]. cbn. eauto.
Qed.

Lemma release_good E D P b v : small b -> 0 <= P -> P + weight E b <= D -> D < B -> good_calc D (P + weight E b) v ->
  good_thread D P (after_update (add_predict v (Z.of_nat (List.length b)) (Z.of_nat (taken E b)))).
Proof.
  intros Hb HP HPD HD (T & N & -> & HN & HK & HT). pose proof (taken_le E b) as Htk. pose proof (weight_nonneg E b) as Hw. unfold small, B in *.
  rewrite add_predict_pack by (unfold K; lia).
  set (raw := Z.of_nat (List.length b)) in *. set (num := Z.of_nat (taken E b)) in *.
  destruct (Z.ltb_spec (T + raw) 2147483647) as [H|H].
  - cbn. exists (T + raw), (N + num). repeat split; try lia; unfold K, B; lia.
  - destruct (Z.eqb_spec (N + num) 0); [lia|].
    assert (Hq : 1 <= (T + raw) / (N + num)) by (apply Z.div_le_lower_bound; lia).
    assert (Hw2 : (T + raw) / (N + num) + P <= 2147483648 + D).
    { unfold weight in *. destruct (Nat.eqb_spec (taken E b) 0) as [E0|E0]; fold raw in Hw, HT, HPD.
      - apply Z.le_trans with (T + raw + P); [|lia]. apply Z.add_le_mono_r. apply Z.div_le_upper_bound; [lia|nia].
      - assert ((T + raw) / (N + num) <= (T + raw) / 2) by (apply Z.div_le_compat_l; lia).
        pose proof (Z.mul_div_le (T + raw) 2 ltac:(lia)). lia. }
    assert ((T + raw) / (N + num) < K) by (unfold K; lia).
    cbn. split; [unfold K, two63 in *; lia|]. rewrite Z.mod_small by lia. exists ((T + raw) / (N + num)), 1. unfold B. repeat split; lia.
Qed.

Lemma Forall_mid {A} (P : A -> Prop) l x r : Forall P (l ++ x :: r) <-> Forall P l /\ P x /\ Forall P r.
Proof. rewrite Forall_app. split; [intros (H1 & H2); inversion H2; auto|intros (H1 & H2 & H3); auto]. Qed.

Lemma plain_nonneg E docs : 0 <= plain_bytes E docs.
Proof. induction docs as [|b d IH]; [reflexivity|]. rewrite plain_cons. pose proof (weight_nonneg E b). lia. Qed.

Lemma good_replace E D D' s s' l t t' r :
  good E D (s, l ++ t :: r) ->
  let P' := pend E (l ++ t' :: r) in
  P' <= D' -> D - pend E (l ++ t :: r) <= D' - P' ->
  (sh_per s' = 0 \/ 1 <= sh_per s' < two63) -> good_calc D' P' (sh_calc s') -> good_thread D' P' t' -> good E D' (s', l ++ t' :: r).
Proof.
  intros (HP & _ & _ & HF) P' HP' Hle Hper Hcalc Ht. unfold good. cbn [fst snd] in *. fold P'. apply Forall_mid in HF as (HFl & _ & HFr).
  split; [split; [apply pend_nonneg|exact HP']|]. split; [exact Hper|]. split; [exact Hcalc|].
  apply Forall_mid. split; [|split; [exact Ht|]]; eapply Forall_impl; try eassumption; cbv beta; intros x; now apply good_thread_mono.
Qed.

Lemma reach_good E n docs c : reach E n docs c -> Forall small docs -> plain_bytes E docs < B -> good E (plain_bytes E docs) c.
Proof.
  intros H. induction H as [|docs b s s' l t t' r _ IH Hs|docs s s' l t t' r _ IH Hs]; intros Hd Hpb.
  - unfold good. cbn [fst snd]. assert (E0 : pend E (repeat T_idle n) = 0) by (induction n as [|n IHn]; [reflexivity|cbn; exact IHn]).
    rewrite E0. change (plain_bytes E []) with 0. split; [lia|]. split; [left; reflexivity|]. split.
    + exists 16, 1. unfold K, B. repeat split; lia.
    + induction n as [|n IHn]; constructor; [exact I|]. apply IHn. cbn in E0. exact E0.
  - inversion Hd as [|? ? Hb Hd']; subst. rewrite plain_cons in *. pose proof (weight_nonneg E b) as Hw. specialize (IH Hd' ltac:(lia)).
    pose proof IH as (HP & Hper & Hcalc & HF). cbn [fst snd] in *. rewrite pend_app in HP, Hcalc.
    inversion Hs as [b0 s0 Hne Hpos|b0 s0 Hne Hz| | | |]; subst; cbn [tw] in HP, Hcalc.
    + destruct (new_pool_good (weight E b + plain_bytes E docs) (pend E l + weight E b + pend E r) b (sh_per s') Hb ltac:(lia)) as (Hg & cnt & Ec).
      rewrite Ec in *. apply (good_replace E _ _ _ _ _ _ _ _ IH); rewrite ?pend_app; cbn [tw]; try lia; [|exact Hg].
      eapply good_calc_mono; [|exact Hcalc]. lia.
    + apply (good_replace E _ _ _ _ _ _ _ _ IH); rewrite ?pend_app; cbn [tw]; try lia; [|exact Hb].
      eapply good_calc_mono; [|exact Hcalc]. lia.
  - specialize (IH Hd Hpb). pose proof IH as (HP & Hper & Hcalc & HF). cbn [fst snd] in *. pose proof (pend_nonneg E l) as Pl. pose proof (pend_nonneg E r) as Pr.
    apply Forall_mid in HF as (_ & Ht & _). rewrite pend_app in HP, Hcalc, Ht.
    inversion Hs as [ | |b s0|b cnt s0|per v s0|v s0]; subst; cbn [tw good_thread] in HP, Hcalc, Ht.
    + destruct Hcalc as (T & N & Ev & HN & HK & HT). rewrite Ev, pack_total, pack_num by (unfold B, K in *; lia).
      destruct (Z.eqb_spec N 0); [lia|].
      assert (Hq : 1 <= T / N < two63).
      { split; [apply Z.div_le_lower_bound; lia|]. apply Z.div_lt_upper_bound; [lia|]. unfold two63, B in *. nia. }
      destruct (new_pool_good (plain_bytes E docs) (pend E l + weight E b + pend E r) b (T / N) Ht Hq) as (Hg & cnt & Ec). rewrite Ec in *.
      apply (good_replace E _ _ _ _ _ _ _ _ IH); rewrite ?pend_app; cbn [tw]; try lia; [|exact Hg].
      rewrite Ev. exists T, N. repeat split; lia.
    + destruct Ht as (Hb & _). pose proof (weight_nonneg E b) as Hw.
      pose proof (release_good E (plain_bytes E docs) (pend E l + pend E r) b (sh_calc s') Hb ltac:(lia) ltac:(lia) Hpb) as Hg.
      assert (Hc' : good_calc (plain_bytes E docs) (pend E l + pend E r + weight E b) (sh_calc s')) by (eapply good_calc_mono; [|exact Hcalc]; lia).
      specialize (Hg Hc').
      assert (Htw : tw E (after_update (add_predict (sh_calc s') (Z.of_nat (List.length b)) (Z.of_nat (taken E b)))) = 0) by (destruct (add_predict _ _ _); reflexivity).
      apply (good_replace E _ _ _ _ _ _ _ _ IH); rewrite ?pend_app, ?Htw; cbn [tw]; try lia.
      * eapply good_calc_mono; [|exact Hcalc]. lia.
      * eapply good_thread_mono; [|exact Hg]. lia.
    + destruct Ht as (Hp & Hv). apply (good_replace E _ _ _ _ _ _ _ _ IH); rewrite ?pend_app; cbn [tw sh_per sh_calc good_thread]; try lia; assumption.
    + apply (good_replace E _ _ _ _ _ _ _ _ IH); rewrite ?pend_app; cbn [tw sh_per sh_calc good_thread]; try lia; exact Ht.
Qed.

Theorem predictor_safe E n docs s ts : reach E n docs (s, ts) ->
  Forall (fun b => Z.of_nat (List.length b) < 2147483648) docs -> plain_bytes E docs < 2147483648 ->
  Forall (fun t => t <> T_panic /\ forall b cnt, t = T_parse b cnt -> 0 <= cnt <= Z.of_nat (List.length b)) ts.
Proof.
  intros H Hd Hp. destruct (reach_good E n docs (s, ts) H Hd Hp) as (_ & _ & _ & HF). cbn [snd] in HF. revert HF. apply Forall_impl.
  intros t Ht. split; [intros ->; exact Ht|]. intros b cnt ->. apply Ht.
Qed.

(** *** Documents that take a value *)
Section Taken.
Variable E : Env.
Definition at_least (k : nat) {A} (p : pres A) : Prop :=
  match p with POk _ s | PErr _ s => (k <= p_act s)%nat | _ => True end.
Lemma at_least_le k k' {A} (p : pres A) : (k <= k')%nat -> at_least k' p -> at_least k p.
Proof. destruct p; cbn; lia. Qed.
Lemma at_least_bind k {A C} (p : pres A) (f : A -> pst -> pres C) :
  at_least k p -> (forall a s, (k <= p_act s)%nat -> at_least k (f a s)) -> at_least k (pbind p f).
Proof. destruct p; cbn; auto. Qed.
Lemma at_least_lift k {A C} (m : res A) s (f : A -> pres C) :
  (k <= p_act s)%nat -> (forall a, at_least k (f a)) -> at_least k (lift m s f).
Proof. destruct m; cbn; auto. Qed.
Lemma at_least_string k s off : (k <= p_act s)%nat -> at_least k (p_string s off).
Proof.
  intros H. unfold p_string. apply at_least_lift; [exact H|]. intros [[b' len] e]. apply at_least_lift; [exact H|]. intros str. exact H.
Qed.
Lemma at_least_scalar k s c off p : (k <= p_act s)%nat -> p_scalar E s c off = Some p -> at_least k p.
Proof.
  intros H. unfold p_scalar, p_number. intros Hp.
  repeat match type of Hp with (if ?x then _ else _) = _ => destruct x end; try discriminate; injection Hp as <-; apply at_least_lift; auto.
  intros [[v e] r]. destruct v; cbn; auto; lia.
Qed.
Lemma loops_at_least fuel : forall k,
  (forall s off right acc, (k <= p_act s)%nat -> at_least k (arr_loop E fuel s off right acc)) /\
  (forall s off right obj ks ke colon, (k <= p_act s)%nat -> at_least k (obj_loop E fuel s off right obj ks ke colon)).
Proof.
  induction fuel as [|f IH]; intros k; [split; intros; exact I|]. destruct (IH k) as (IHa & IHo).
  assert (HS : forall s, (k <= p_act s)%nat -> (k <= p_act (pool_get s))%nat) by (intros s; cbn; lia).
  split.
  - intros s off right acc H. cbn [arr_loop]. destruct (off <? right)%nat; [|exact H]. apply at_least_lift; [exact H|]. intros [off' reach].
    destruct reach; [exact H|]. apply at_least_lift; [exact H|]. intros c.
    destruct (c =? 93); [exact H|]. destruct (c =? 44); [now apply IHa|].
    destruct (c =? 123); [apply at_least_bind; [apply IHo; auto|intros [v e] s' H'; now apply IHa]|].
    destruct (c =? 91); [apply at_least_bind; [apply IHa; auto|intros [v e] s' H'; now apply IHa]|].
    destruct (c =? 34); [apply at_least_bind; [now apply at_least_string|intros [[str n] e] s' H'; now apply IHa]|].
    destruct (p_scalar E s c off') as [p|] eqn:Ep; [|exact H].
    apply at_least_bind; [eapply at_least_scalar; eassumption|intros [v e] s' H'; now apply IHa].
  - intros s off right obj ks ke colon H. cbn [obj_loop]. destruct (off <? right)%nat; [|exact H]. apply at_least_lift; [exact H|]. intros [off' reach].
    destruct reach; [exact H|]. apply at_least_lift; [exact H|]. intros c.
    assert (ST : forall v e s', (k <= p_act s')%nat -> at_least k (lift (bslice (p_buf s') ks ke) s' (fun key => lift (set_to_object E obj key v) s' (fun obj' => obj_loop E f s' e right obj' ks 0 false)))).
    { intros v e s' H'. apply at_least_lift; [exact H'|]. intros key. apply at_least_lift; [exact H'|]. intros obj'. now apply IHo. }
    destruct (c =? 125); [destruct (0 <? ke)%nat; exact H|]. destruct (c =? 44); [destruct (0 <? ke)%nat; [exact H|now apply IHo]|].
    destruct (c =? 58); [destruct colon; [exact H|]; destruct (key_missing ke true); [exact H|now apply IHo]|].
    destruct (c =? 123); [destruct (key_missing ke colon); [exact H|]; apply at_least_bind; [apply IHo; auto|intros [v e] s' H'; now apply ST]|].
    destruct (c =? 91); [destruct (key_missing ke colon); [exact H|]; apply at_least_bind; [apply IHa; auto|intros [v e] s' H'; now apply ST]|].
    destruct (c =? 34).
    { destruct (0 <? ke)%nat; [destruct (negb colon); [exact H|]|]; (apply at_least_bind; [now apply at_least_string|]); intros [[str n] e] s' H'; [now apply ST|now apply IHo]. }
    destruct (p_scalar E s c off') as [p|] eqn:Ep; [|exact H]. destruct (key_missing ke colon); [exact H|].
    apply at_least_bind; [eapply at_least_scalar; eassumption|intros [v e] s' H'; now apply ST].
Qed.

(** An array or object takes a value, whether it is valid or not, and so does an
    accepted number. *)
Lemma taken_pos b c t : q_skip b = c :: t -> (c = 91 \/ c = 123 \/ exists n src, unmarshal E b = Ok (VNum n src, None)) -> (1 <= taken E b)%nat.
Proof.
  intros Hs Hc. unfold taken.
  assert (G : at_least 1 (run_unmarshal E b)).
  2: { pose proof (run_unmarshal_spec E b) as H. destruct (q_unmarshal E b) as [v|e| |]; try contradiction; destruct H as (s & Hr & _); rewrite Hr in *; exact G. }
  destruct (Z.eqb_spec c 123) as [E1|E1]; [|destruct (Z.eqb_spec c 91) as [E2|E2]].
  1,2: subst c; unfold run_unmarshal, unmarshal_iter; cbn [pst0 p_buf];
    pose proof (skip_blanks_spec b 0 b eq_refl ltac:(lia)) as SB; rewrite Hs in SB; destruct SB as (off & -> & H1 & _ & _); cbn [lift];
    rewrite (bget_skipn _ _ _ _ H1); cbn [lift]; cbn [Z.eqb Pos.eqb];
    (apply at_least_bind; [apply loops_at_least; cbn; lia|intros [v e] s' H'; apply at_least_lift; [exact H'|intros [o' []]; exact H']]).
  destruct Hc as [->|[->|(n & src & Hu)]]; [congruence|congruence|].
  unfold unmarshal, pres_ret in Hu. destruct b as [|c0 b0]; [discriminate|]. set (b := c0 :: b0) in *.
  unfold run_unmarshal, unmarshal_iter in *; cbn [pst0 p_buf] in *.
  pose proof (skip_blanks_spec b 0 b eq_refl ltac:(lia)) as SB; rewrite Hs in SB; destruct SB as (off & Hoff & H1 & _ & _). rewrite Hoff in *. cbn [lift] in *.
  rewrite (bget_skipn _ _ _ _ H1) in *. cbn [lift] in *.
  rewrite (proj2 (Z.eqb_neq c 123) E1), (proj2 (Z.eqb_neq c 91) E2) in *.
  destruct (c =? 34).
  { exfalso. destruct (p_string _ _) as [[[str x] e] s'|? ?| |]; cbn [pbind] in Hu; try discriminate.
    destruct (skip_blanks _ _ _) as [[o' []]|?| |]; cbn [lift] in Hu; discriminate. }
  unfold p_scalar in *. destruct (is_num_start c).
  - unfold p_number in *. destruct (parse_number E (p_buf (pst0 b)) off) as [[[v e] r]|?| |]; cbn [lift pbind] in *; try discriminate.
    destruct v; cbn [pbind] in *; try discriminate. destruct (skip_blanks _ _ _) as [[o' []]|?| |]; cbn [lift] in *; try discriminate. cbn. lia.
  - exfalso. destruct (c =? 116); [|destruct (c =? 102); [|destruct (c =? 110); [|discriminate]]].
    all: match type of Hu with context [lift ?m _ _] => destruct m as [e|?| |] end; cbn [lift pbind] in Hu; try discriminate;
      destruct (skip_blanks _ _ _) as [[o' []]|?| |]; cbn [lift] in Hu; discriminate.
Qed.
End Taken.

(** *** A panic after many small documents *)

(** One goroutine, one whole call. *)
Lemma call_once E docs per calc b : reach E 1 docs (Shared per calc, [T_idle]) -> b <> [] ->
  (0 < per < two63 \/ per = 0 /\ calc_num calc <> 0 /\ 0 < calc_total calc / calc_num calc < two63) ->
  forall s', (match add_predict calc (Z.of_nat (List.length b)) (Z.of_nat (taken E b)) with
   | U_calc v => s' = Shared per v | U_both p v => s' = Shared p v | U_panic => False end) ->
  reach E 1 (b :: docs) (s', [T_idle]).
Proof.
  intros H Hb Hper s' Hu.
  assert (G : exists cnt, reach E 1 (b :: docs) (Shared per calc, [T_parse b cnt])).
  { destruct Hper as [Hp|(-> & Hn & Hq)].
    - assert (Hc : exists cnt, new_pool b (wrap_i64 per) = T_parse b cnt).
      { replace (wrap_i64 per) with per by (unfold wrap_i64, two63, two64 in *; rewrite Z.mod_small by lia; lia).
        unfold new_pool. destruct (Z.eqb_spec per 0); [lia|]. rewrite Z.quot_div_nonneg by lia.
        pose proof (Z.div_pos (Z.of_nat (List.length b)) per ltac:(lia) ltac:(lia)). destruct (Z.ltb_spec (Z.of_nat (List.length b) / per) 0); [lia|]. eauto. }
      destruct Hc as (cnt & Ec). exists cnt. rewrite <- Ec. apply (R_start E 1 docs b (Shared per calc) _ [] T_idle _ []); [exact H|]. apply TS_start_per; [exact Hb|cbn; lia].
    - assert (Hc : exists cnt, new_pool b (wrap_i64 (calc_total calc / calc_num calc)) = T_parse b cnt).
      { set (q := calc_total calc / calc_num calc) in *. replace (wrap_i64 q) with q by (unfold wrap_i64, two63, two64 in *; rewrite Z.mod_small by lia; lia).
        unfold new_pool. destruct (Z.eqb_spec q 0); [lia|]. rewrite Z.quot_div_nonneg by lia.
        pose proof (Z.div_pos (Z.of_nat (List.length b)) q ltac:(lia) ltac:(lia)). destruct (Z.ltb_spec (Z.of_nat (List.length b) / q) 0); [lia|]. eauto. }
      destruct Hc as (cnt & Ec). exists cnt.
      assert (G : reach E 1 (b :: docs) (Shared 0 calc, [T_load b])).
      { apply (R_start E 1 docs b (Shared 0 calc) _ [] T_idle _ []); [exact H|]. apply TS_start; [exact Hb|reflexivity]. }
      pose proof (R_step E 1 (b :: docs) _ _ [] _ _ [] G (TS_load E b (Shared 0 calc))) as G'. cbn [sh_calc app] in G'.
      destruct (Z.eqb_spec (calc_num calc) 0); [congruence|]. rewrite Ec in G'. exact G'. }
  destruct G as (cnt & G). pose proof (R_step E 1 (b :: docs) _ _ [] _ _ [] G (TS_release E b cnt _)) as G1. cbn [sh_calc app] in G1.
  destruct (add_predict calc (Z.of_nat (List.length b)) (Z.of_nat (taken E b))) as [v|p v|]; cbn [after_update] in G1; [| |contradiction]; subst s'.
  - exact (R_step E 1 (b :: docs) _ _ [] _ _ [] G1 (TS_store E v _)).
  - pose proof (R_step E 1 (b :: docs) _ _ [] _ _ [] G1 (TS_store_per E p v _)) as G2. exact (R_step E 1 (b :: docs) _ _ [] _ _ [] G2 (TS_store E v _)).
Qed.

Definition empty_string : bytes := [34; 34].
Definition five : bytes := [53].

(** [n] empty strings. *)
Lemma strings_run E n : 0 <= n -> 16 + 2 * n < K ->
  exists docs, Forall (fun b => b = empty_string) docs /\ exists per, reach E 1 docs (Shared per (pack (16 + 2 * n) 1), [T_idle]) /\ (per = 0 \/ 0 < per < two63).
Proof.
  intros Hn. pattern n. apply natlike_ind; [|clear n Hn|exact Hn].
  - intros _. exists []. split; [constructor|]. exists 0. split; [apply R_init|]. now left.
  - intros n Hn IH HK. destruct IH as (docs & Hd & per & Hr & Hper); [lia|].
    assert (Hk : 0 <= 16 + 2 * n < K) by lia.
    exists (empty_string :: docs). split; [now constructor|].
    set (T := 16 + 2 * n) in *. replace (16 + 2 * Z.succ n) with (T + 2) in * by lia.
    assert (Hc : 0 < per < two63 \/ per = 0 /\ calc_num (pack T 1) <> 0 /\ 0 < calc_total (pack T 1) / calc_num (pack T 1) < two63).
    { rewrite pack_num, pack_total by (unfold K; lia). rewrite Z.div_1_r. unfold T, K, two63 in *. destruct Hper; [right|left]; lia. }
    pose proof (call_once E docs per (pack T 1) empty_string Hr ltac:(discriminate) Hc) as Hcall.
    change (Z.of_nat (List.length empty_string)) with 2 in Hcall. change (Z.of_nat (taken E empty_string)) with 0 in Hcall.
    rewrite add_predict_pack in Hcall by (unfold K in *; lia).
    destruct (T + 2 <? 2147483647).
    + exists per. split; [apply Hcall; reflexivity|exact Hper].
    + change (1 + 0 =? 0) with false in Hcall. change (1 + 0) with 1 in Hcall. rewrite Z.div_1_r, Z.mod_small in Hcall by lia.
      exists (T + 2). split; [apply Hcall; reflexivity|]. right. unfold K, two63 in *. lia.
Qed.

Lemma fives_run E docs0 n : 0 <= n -> n < 2147483647 -> reach E 1 docs0 (Shared K (pack 0 1), [T_idle]) ->
  exists docs, Forall (fun b => b = five) docs /\ reach E 1 (docs ++ docs0) (Shared K (pack n (n + 1)), [T_idle]).
Proof.
  intros Hn Hlt H0. revert Hlt. pattern n. apply natlike_ind; [|clear n Hn|exact Hn].
  - intros _. exists []. split; [constructor|exact H0].
  - intros n Hn IH Hlt. destruct IH as (docs & Hd & Hr); [lia|]. exists (five :: docs). split; [now constructor|].
    pose proof (call_once E _ K (pack n (n + 1)) five Hr ltac:(discriminate) ltac:(left; split; reflexivity)) as Hcall.
    change (Z.of_nat (List.length five)) with 1 in Hcall. change (Z.of_nat (taken E five)) with 1 in Hcall.
    rewrite add_predict_pack in Hcall by (unfold K in *; lia). destruct (Z.ltb_spec (n + 1) 2147483647); [|lia]. apply Hcall. reflexivity.
Qed.

Theorem predictor_panics E b : b <> [] -> exists docs s,
  Forall (fun d => d = bs """""" \/ d = bs "5") docs /\ reach E 1 (b :: docs) (s, [T_panic]).
Proof.
  intros Hb. destruct (strings_run E 2147483639) as (docs1 & D1 & per & R1 & Hper); [lia|unfold K; lia|].
  assert (R2 : reach E 1 (empty_string :: docs1) (Shared K (pack 0 1), [T_idle])).
  { change (16 + 2 * 2147483639) with 4294967294 in R1. apply (call_once E docs1 per (pack 4294967294 1)); [exact R1|discriminate| |].
    - destruct Hper as [->|Hper]; [right; split; [reflexivity|]; split; vm_compute; [discriminate|split; reflexivity]|now left].
    - vm_compute. reflexivity. }
  destruct (fives_run E _ 2147483646 ltac:(lia) ltac:(lia) R2) as (docs2 & D2 & R3).
  assert (R4 : reach E 1 (five :: docs2 ++ empty_string :: docs1) (Shared 0 (pack 0 1), [T_idle])).
  { change (2147483646 + 1) with 2147483647 in R3. apply (call_once E _ K (pack 2147483646 2147483647)); [exact R3|discriminate|left; split; reflexivity|vm_compute; reflexivity]. }
  exists (five :: docs2 ++ empty_string :: docs1), (Shared 0 (pack 0 1)). split.
  - constructor; [now right|]. apply Forall_app. split; [revert D2; apply Forall_impl; intros d ->; now right|].
    constructor; [now left|]. revert D1. apply Forall_impl. intros d ->. now left.
  - assert (G : reach E 1 (b :: five :: docs2 ++ empty_string :: docs1) (Shared 0 (pack 0 1), [T_load b])).
    { apply (R_start E 1 _ b (Shared 0 (pack 0 1)) _ [] T_idle _ []); [exact R4|]. apply TS_start; [exact Hb|reflexivity]. }
    exact (R_step E 1 _ _ _ [] _ _ [] G (TS_load E b (Shared 0 (pack 0 1)))).
Qed.

Theorem documents_take E b : (taken E b <= List.length b)%nat /\
  (forall w c t, b = w ++ c :: t -> Forall (fun x => In x [32; 9; 10; 13; 8]) w -> c = 91 \/ c = 123 -> (1 <= taken E b)%nat) /\
  (forall n src, unmarshal E b = Ok (VNum n src, None) -> (1 <= taken E b)%nat).
Proof.
  split; [apply taken_le|]. split.
  - intros w c t -> Hw Hc. apply (taken_pos E _ c t); [|tauto].
    induction Hw as [|x w Hx _ IH]; cbn [app q_skip].
    + destruct Hc as [-> | ->]; reflexivity.
    + replace (is_blank x) with true; [exact IH|]. cbn in Hx. unfold is_blank. lia.
  - intros n src Hu. destruct (q_skip b) as [|c t] eqn:Es; [|apply (taken_pos E _ c t Es); eauto].
    exfalso. unfold unmarshal, pres_ret in Hu. destruct b as [|c0 b0]; [discriminate|]. pose proof (run_unmarshal_spec E (c0 :: b0)) as H. unfold q_unmarshal in H. rewrite Es in H.
    destruct H as (s & Hr & _). rewrite Hr in Hu. discriminate.
Qed.
