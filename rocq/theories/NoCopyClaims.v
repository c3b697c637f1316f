(** C69: what UnmarshalNoCopy's documents show of the buffer. *)
From Verif Require Import Base Float64 Value Scan Unmarshal Pure ListLemmas PureProof UnmarshalProof SpecJson SpecValue
  ParseMore NoCopy SpecNoCopy NoCopyProof.

Theorem no_copy_view : forall (E : Env) (b : bytes),
  (exists v l buf, unmarshal_nocopy E b = Ok (v, None) /\ unmarshal E b = Ok (v, None) /\
     unmarshal_no_copy E b = Ok (l, buf) /\ List.length buf = List.length b /\ view buf l = v) \/
  (exists v e, unmarshal_nocopy E b = Ok (v, Some e) /\ unmarshal_no_copy E b = Err e).
Proof.
  intros E b. destruct b as [|c0 b0]; [right; cbn; eauto|]. set (b := c0 :: b0).
  pose proof (C01_proof E b) as (_ & (v0 & e0 & T & _) & _).
  pose proof (unmarshal_sim E b) as S. unfold unmarshal_nocopy, unmarshal, unmarshal_no_copy in *. cbn [b] in *.
  fold b in T, S |- *.
  destruct (run_unmarshal E b) as [v s|e s| |] eqn:R; cbn [pres_ret] in *; try discriminate.
  - destruct (l_unmarshal_iter E (pst0 b) 0) as [l s'|? ?| |]; try contradiction.
    destruct S as (-> & -> & _ & _). left. do 3 eexists. repeat split.
    now apply (C03_proof E b) in R.
  - destruct (l_unmarshal_iter E (pst0 b) 0) as [? ?|e' s'| |]; try contradiction.
    destruct S as (-> & -> & _). right. eauto.
Qed.

Lemma no_copy_run E b l buf : unmarshal_no_copy E b = Ok (l, buf) ->
  exists s, run_unmarshal E b = POk (view buf l) s /\ p_buf s = buf /\ wr (pst0 b) s 0 /\
            lay 0 (List.length b) (windows l).
Proof.
  pose proof (unmarshal_sim E b) as S. unfold unmarshal_no_copy. destruct b as [|c0 b0]; [discriminate|].
  set (b := c0 :: b0) in *.
  destruct (l_unmarshal_iter E (pst0 b) 0) as [lv s'|? ?| |]; intros H; inversion H; subst. clear H.
  destruct (run_unmarshal E b) as [v s|e s| |]; try contradiction.
  destruct S as (-> & -> & W & L). exists s. auto.
Qed.

Theorem no_copy_windows : forall (E : Env) (b : bytes) (l : loc) (buf : bytes),
  unmarshal_no_copy E b = Ok (l, buf) ->
  Forall (inside 0 (List.length b)) (windows l) /\ ForallOrdPairs apart (windows l).
Proof. intros E b l buf H. apply no_copy_run in H. destruct H as (s & _ & _ & _ & L). exact L. Qed.

(** *** Another buffer under the same document *)
Lemma map_ext_inv {A B} (f g : A -> B) l : map f l = map g l -> forall x, In x l -> f x = g x.
Proof.
  induction l as [|a l IH]; cbn [map]; intros H x; [intros []|]. injection H as H1 H2.
  intros [<-|Hx]; [assumption|now apply IH].
Qed.

Theorem view_same : forall (b b' : bytes) (l : loc),
  view b' l = view b l <-> (forall w, In w (windows l) -> cut b' w = cut b w).
Proof.
  intros b b' l. split; [|apply view_agree].
  induction l as [w|n w|i kvs IH|l IH|x|] using loc_ind2; cbn [windows view]; intros H w0 Hw; try (now elim Hw).
  - destruct Hw as [<-|[]]. congruence.
  - destruct Hw as [<-|[]]. congruence.
  - injection H as H. apply in_flat_map in Hw. destruct Hw as (e & He & Hw).
    pose proof (map_ext_inv _ _ _ H e He) as HE. cbn beta in HE. injection HE as H1 H2.
    destruct Hw as [<-|Hw]; [assumption|]. rewrite Forall_forall in IH. now apply (IH e He).
  - injection H as H. apply in_flat_map in Hw. destruct Hw as (e & He & Hw).
    pose proof (map_ext_inv _ _ _ H e He) as HE. rewrite Forall_forall in IH. now apply (IH e He).
Qed.

Theorem view_like : forall (b b' : bytes) (l : loc), same_but_texts (view b l) (view b' l).
Proof.
  intros b b' l. induction l as [w|n w|i kvs IH|l IH|x|] using loc_ind2; cbn [view]; try constructor.
  - induction IH as [|e r He _ IHr]; cbn [map]; constructor; [|assumption]. cbn [fst snd]. auto.
  - induction IH as [|e r He _ IHr]; cbn [map]; constructor; assumption.
Qed.

(** *** One byte written *)
Lemma nth_cut b w k : nth_error (cut b w) k = if (k <? snd w - fst w)%nat then nth_error b (fst w + k) else None.
Proof.
  unfold cut. generalize (snd w - fst w)%nat as n. generalize (fst w) as i. intros i n.
  revert n i k. induction b as [|c b IH]; intros n i k.
  - rewrite skipn_nil, firstn_nil. destruct k, i, (_ <? _)%nat; reflexivity.
  - destruct i as [|i].
    + cbn [skipn plus]. clear IH. revert n k. generalize (c :: b) as l. induction l as [|x l IHl]; intros n k.
      * rewrite firstn_nil. destruct k, (_ <? _)%nat; reflexivity.
      * destruct n as [|n]; [destruct k; reflexivity|]. destruct k as [|k]; [reflexivity|].
        cbn [firstn nth_error]. rewrite IHl. reflexivity.
    + cbn [skipn plus nth_error]. apply IH.
Qed.

Lemma nth_upd_at (b : bytes) i x : (i < List.length b)%nat -> nth_error (upd b i x) i = Some x.
Proof.
  revert i. induction b as [|c b IH]; intros [|i] H; cbn [List.length upd nth_error] in *; try lia; [reflexivity|].
  apply IH. lia.
Qed.

Lemma list_nth_eq (a b : bytes) : (forall k, nth_error a k = nth_error b k) -> a = b.
Proof.
  revert b. induction a as [|x a IH]; intros [|y b] H; try reflexivity.
  - specialize (H 0%nat). discriminate.
  - specialize (H 0%nat). discriminate.
  - pose proof (H 0%nat) as H0. injection H0 as ->. f_equal. apply IH. intros k. exact (H (S k)).
Qed.

Lemma cut_upd_in buf w p c : shows w p -> (p < List.length buf)%nat -> (snd w <= List.length buf)%nat ->
  cut (upd buf p c) w = upd (cut buf w) (p - fst w) c.
Proof.
  intros (H1 & H2) Hp Hw. apply list_nth_eq. intros k.
  assert (HL : (p - fst w < List.length (cut buf w))%nat).
  { unfold cut. rewrite firstn_length, skipn_length. lia. }
  destruct (Nat.eq_dec k (p - fst w)) as [->|Hk].
  - rewrite nth_upd_at by assumption. rewrite nth_cut.
    destruct (Nat.ltb_spec (p - fst w) (snd w - fst w)); [|lia].
    replace (fst w + (p - fst w))%nat with p by lia. now apply nth_upd_at.
  - rewrite nth_upd by assumption. rewrite !nth_cut. destruct (_ <? _)%nat; [|reflexivity].
    apply nth_upd. lia.
Qed.

Lemma cut_upd_out buf w p c : ~ shows w p -> cut (upd buf p c) w = cut buf w.
Proof.
  intros H. apply list_nth_eq. intros k. rewrite !nth_cut.
  destruct (Nat.ltb_spec k (snd w - fst w)); [|reflexivity]. apply nth_upd. unfold shows in H. lia.
Qed.

Lemma fop_nth ws : ForallOrdPairs apart ws -> forall i j w w', nth_error ws i = Some w -> nth_error ws j = Some w' ->
  i <> j -> apart w w'.
Proof.
  induction 1 as [|w ws Hw Hws IH]; intros i j u u'; [destruct i; discriminate|].
  rewrite Forall_forall in Hw.
  destruct i as [|i], j as [|j]; cbn [nth_error]; intros H1 H2 Hn; try congruence.
  - injection H1 as <-. apply Hw. now apply nth_error_In in H2.
  - injection H2 as <-. apply apart_sym. apply Hw. now apply nth_error_In in H1.
  - eapply IH; eauto.
Qed.

Theorem no_copy_write : forall (E : Env) (b : bytes) (l : loc) (buf : bytes) (p : nat) (c : Z),
  unmarshal_no_copy E b = Ok (l, buf) -> (p < List.length b)%nat ->
  (forall k w, nth_error (windows l) k = Some w ->
     (shows w p /\ cut (upd buf p c) w = upd (cut buf w) (p - fst w) c) \/
     (~ shows w p /\ cut (upd buf p c) w = cut buf w)) /\
  (forall k k' w w', nth_error (windows l) k = Some w -> nth_error (windows l) k' = Some w' ->
     shows w p -> shows w' p -> k = k').
Proof.
  intros E b l buf p c H Hp. pose proof (no_copy_windows _ _ _ _ H) as (I & A).
  apply no_copy_run in H. destruct H as (s & R & Hb & _ & _). apply C03_proof in R. destruct R as (HL & _ & _).
  rewrite Hb in HL. split.
  - intros k w Hk. rewrite Forall_forall in I. apply nth_error_In in Hk. apply I in Hk. unfold inside in Hk.
    destruct (le_lt_dec (fst w) p), (le_lt_dec (snd w) p);
      try (right; split; [unfold shows; lia|apply cut_upd_out; unfold shows; lia]).
    left. split; [unfold shows; lia|]. apply cut_upd_in; unfold shows; lia.
  - intros k k' w w' Hk Hk' S S'. destruct (Nat.eq_dec k k'); [assumption|].
    pose proof (fop_nth _ A _ _ _ _ Hk Hk' n). unfold shows, apart in *. lia.
Qed.

Theorem no_copy_shown : forall (E : Env) (b : bytes) (l : loc) (buf : bytes) (p : nat) (c : Z),
  unmarshal_no_copy E b = Ok (l, buf) -> (p < List.length b)%nat ->
  (view (upd buf p c) l <> view buf l <->
   (exists w, In w (windows l) /\ shows w p) /\ nth_error buf p <> Some c).
Proof.
  intros E b l buf p c H Hp. pose proof (no_copy_windows _ _ _ _ H) as (I & _).
  apply no_copy_run in H. destruct H as (s & R & Hb & _ & _). apply C03_proof in R. destruct R as (HL & _ & _).
  rewrite Hb in HL. rewrite Forall_forall in I.
  assert (Hdec : (exists w, In w (windows l) /\ shows w p) \/ (forall w, In w (windows l) -> ~ shows w p)).
  { clear. induction (windows l) as [|w ws [(u & Hu & Su)|IH]].
    - right. intros w [].
    - left. exists u. split; [now right|assumption].
    - destruct (le_lt_dec (fst w) p), (le_lt_dec (snd w) p).
      2:{ left. exists w. split; [now left|unfold shows; lia]. }
      all: right; intros u [<-|Hu]; [unfold shows; lia|now apply IH]. }
  split.
  - intros Hne. destruct Hdec as [D|D].
    + split; [assumption|]. intros Hc. apply Hne. apply view_same. intros w Hw.
      apply list_nth_eq. intros k. rewrite !nth_cut. destruct (_ <? _)%nat; [|reflexivity].
      now apply nth_upd_same.
    + elim Hne. apply view_same. intros w Hw. apply cut_upd_out. now apply D.
  - intros ((w & Hw & Hs) & Hc) Heq. rewrite view_same in Heq. specialize (Heq w Hw). apply I in Hw.
    unfold inside in Hw. apply Hc. destruct Hs as (S1 & S2).
    assert (Hk : nth_error (cut (upd buf p c) w) (p - fst w) = nth_error (cut buf w) (p - fst w)) by now rewrite Heq.
    rewrite !nth_cut in Hk. destruct (Nat.ltb_spec (p - fst w) (snd w - fst w)); [|lia].
    replace (fst w + (p - fst w))%nat with p in Hk by lia. rewrite nth_upd_at in Hk by lia. congruence.
Qed.

(** *** The buffer after the parse *)
Theorem no_copy_buffer : forall (E : Env) (b : bytes) (l : loc) (buf : bytes),
  unmarshal_no_copy E b = Ok (l, buf) ->
  exists s, run_unmarshal E b = POk (view buf l) s /\ p_buf s = buf /\
  forall p, nth_error buf p <> nth_error b p ->
    exists i j c q, In (i, j, c) (p_log s) /\ (i <= q <= p)%nat /\ (p < j)%nat /\ nth_error b q = Some 92.
Proof.
  intros E b l buf H. apply no_copy_run in H. destruct H as (s & R & Hb & W & _).
  exists s. split; [assumption|]. split; [assumption|]. intros p Hp. subst buf.
  destruct (W p Hp) as (i & j & c & q & H1 & H2 & H3 & H4 & _ & H5).
  exists i, j, c, q. repeat split; assumption.
Qed.

Theorem no_copy_clean : forall (E : Env) (b : bytes) (l : loc) (buf : bytes),
  unmarshal_no_copy E b = Ok (l, buf) -> ~ In 92 b -> buf = b.
Proof.
  intros E b l buf H Hn. apply no_copy_buffer in H. destruct H as (s & _ & _ & H).
  apply list_nth_eq. intros k.
  assert (D : nth_error buf k = nth_error b k \/ nth_error buf k <> nth_error b k).
  { destruct (nth_error buf k) as [x|], (nth_error b k) as [y|]; try (now left); try (right; discriminate).
    destruct (Z.eq_dec x y); [left; congruence|right; congruence]. }
  destruct D as [D|D]; [assumption|]. destruct (H k D) as (i & j & c & q & _ & _ & _ & H5).
  elim Hn. eapply nth_error_In. exact H5.
Qed.
