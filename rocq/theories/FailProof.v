(** The buffer after a failed parse (C03, C84). *)
From Verif Require Import Base Float64 Value Scan Unmarshal Pure ListLemmas PureProof UnmarshalProof SpecJson SpecValue SpecLax LaxParse
  SpecParseErrors ParseErrorsProof NoCopy NoCopyProof NoCopyClaims.

(** *** The string that fails *)
Definition step (b : bytes) (i se : nat) : res (bytes * nat * nat) :=
  let* c := bget b i in
  if c =? 34 then Err EOther
  else if c =? 92 then handle_escape b i se
  else if c <=? 127 then
    let* b1 := bset b se c in Ok (b1, S i, S se)
  else if rune_bytes2 c then shift b i se 2
  else if rune_bytes3 c then shift b i se 3
  else if rune_bytes4 c then shift b i se 4
  else Err ErrIllegalString.

Lemma str_left_step f b i se : str_left (S f) b i se =
  if (i <? List.length b)%nat then match step b i se with Ok (b', i', se') => str_left f b' i' se' | _ => b end else b.
Proof. reflexivity. Qed.

Lemma step_at b i se b1 i1 se1 : step b i se = Ok (b1, i1, se1) ->
  only_at b b1 se se1 /\ (se < se1)%nat /\
  (nth_error b i = Some 92 \/ (se = i -> (forall p, nth_error b1 p = nth_error b p) /\ se1 = i1 /\ (i <= i1)%nat)).
Proof.
  unfold step. destruct (bget b i) as [c|?| |] eqn:Hg; cbn [rbind]; try discriminate.
  assert (Hi : nth_error b i = Some c) by (unfold bget in Hg; destruct (nth_error b i); congruence).
  destruct (c =? 34); [discriminate|]. destruct (Z.eqb_spec c 92) as [->|Hc].
  { intros H. apply escape_at in H. destruct H. repeat split; try assumption. now left. }
  destruct (c <=? 127).
  { destruct (bset b se c) as [b2|?| |] eqn:Hb; cbn [rbind]; try discriminate.
    apply bset_inv in Hb. subst b2. intros H; inversion H; subst. split; [intros p Hp; apply nth_upd; lia|].
    split; [lia|]. right. intros ->. split; [|lia]. intros p. apply nth_upd_same. exact Hi. }
  assert (Hs : forall n1, (0 < n1)%nat -> shift b i se n1 = Ok (b1, i1, se1) ->
     only_at b b1 se se1 /\ (se < se1)%nat /\
     (nth_error b i = Some 92 \/ (se = i -> (forall p, nth_error b1 p = nth_error b p) /\ se1 = i1 /\ (i <= i1)%nat))).
  { intros n1 Hn1 H. apply shift_at in H. destruct H as (H1 & -> & -> & H2). split; [assumption|]. split; [lia|].
    right. intros ->. rewrite (H2 eq_refl). split; [reflexivity|lia]. }
  destruct (rune_bytes2 c); [apply Hs; lia|]. destruct (rune_bytes3 c); [apply Hs; lia|].
  destruct (rune_bytes4 c); [apply Hs; lia|discriminate].
Qed.

Lemma bset_len b i x b' : bset b i x = Ok b' -> List.length b' = List.length b.
Proof. intros H. apply bset_inv in H. subst. apply upd_length. Qed.
Lemma bwrite_len src : forall b d, List.length (bwrite b d src) = List.length b.
Proof. induction src as [|x src IH]; intros b d; cbn [bwrite]; [reflexivity|]. now rewrite IH, upd_length. Qed.
Lemma assign_len b d r b' n : assign_rune b d r = Ok (b', n) -> List.length b' = List.length b.
Proof.
  unfold assign_rune. intros H.
  destruct (r <=? 127); [|destruct (r <=? 2047); [|destruct (r <=? 65535)]]; bsets; inversion H; subst; now rewrite ?upd_length.
Qed.
Lemma shift_len b i se n b' i' se' : shift b i se n = Ok (b', i', se') -> List.length b' = List.length b.
Proof.
  unfold shift, memcpy. destruct (_ <? n)%nat; [discriminate|].
  destruct (Nat.eqb_spec se i) as [->|Hn]; cbn [rbind]; [intros H; now inversion H|].
  unfold bslice. destruct ((_ && _)%nat); cbn [rbind]; [|discriminate].
  destruct ((_ && _)%nat); cbn [rbind]; [|discriminate].
  intros H; inversion H; subst. apply bwrite_len.
Qed.
Lemma escape_len b i se b' i' se' : handle_escape b i se = Ok (b', i', se') -> List.length b' = List.length b.
Proof.
  unfold handle_escape. destruct (_ <? 2)%nat; [discriminate|].
  destruct (bget b (i + 1)) as [c|?| |]; cbn [rbind]; try discriminate.
  assert (P : forall x, (let* b' := bset b se x in Ok (b', (i + 2)%nat, S se)) = Ok (b', i', se') -> List.length b' = List.length b).
  { intros x H. destruct (bset b se x) as [b1|?| |] eqn:Hb; cbn [rbind] in H; try discriminate. apply bset_len in Hb. inversion H; subst. exact Hb. }
  repeat match goal with |- (if ?x then _ else _) = _ -> _ => destruct x; [try exact (P _)|] end; try discriminate.
  unfold handle_escape_unicode. destruct (_ <=? 6)%nat; [discriminate|].
  destruct (hex4 b (i + 2)) as [r|?| |]; cbn [rbind]; try discriminate.
  destruct ((r <=? 55295) || (57344 <=? r)).
  { destruct (assign_rune b se r) as [[b1 n]|?| |] eqn:Ha; cbn [rbind]; try discriminate.
    intros H; inversion H; subst. eapply assign_len; exact Ha. }
  destruct (_ <=? 12)%nat; [discriminate|].
  destruct (bget b (i + 6)) as [c6|?| |]; cbn [rbind]; try discriminate.
  destruct (bget b (i + 7)) as [c7|?| |]; cbn [rbind]; try discriminate.
  destruct (negb _); [discriminate|].
  destruct (hex4 b (i + 8)) as [ex|?| |]; cbn [rbind]; try discriminate.
  destruct (ex <? 56320); [discriminate|]. destruct (1023 <? ex - 56320); [discriminate|].
  destruct (assign_rune b se _) as [[b1 n]|?| |] eqn:Ha; cbn [rbind]; try discriminate.
  intros H; inversion H; subst. eapply assign_len; exact Ha.
Qed.
Lemma step_len b i se b1 i1 se1 : step b i se = Ok (b1, i1, se1) -> List.length b1 = List.length b.
Proof.
  unfold step. destruct (bget b i) as [c|?| |]; cbn [rbind]; try discriminate.
  destruct (c =? 34); [discriminate|]. destruct (c =? 92); [apply escape_len|].
  destruct (c <=? 127).
  { destruct (bset b se c) as [b2|?| |] eqn:Hb; cbn [rbind]; try discriminate. apply bset_len in Hb. intros H; inversion H; subst. exact Hb. }
  destruct (rune_bytes2 c); [apply shift_len|]. destruct (rune_bytes3 c); [apply shift_len|].
  destruct (rune_bytes4 c); [apply shift_len|discriminate].
Qed.

Lemma str_left_at f : forall b i se,
  List.length (str_left f b i se) = List.length b /\
  (forall p, (p < se)%nat -> nth_error (str_left f b i se) p = nth_error b p) /\
  (se = i -> forall p, nth_error (str_left f b i se) p <> nth_error b p -> exists q, (i <= q <= p)%nat /\ nth_error b q = Some 92).
Proof.
  induction f as [|f IH]; intros b i se; [repeat split; intros; now exfalso|]. rewrite str_left_step.
  destruct (i <? List.length b)%nat; [|repeat split; intros; now exfalso].
  destruct (step b i se) as [[[b1 i1] se1]|?| |] eqn:Hst; try (repeat split; intros; now exfalso).
  pose proof (step_len _ _ _ _ _ _ Hst) as SL. apply step_at in Hst as (S1 & S2 & S3).
  destruct (IH b1 i1 se1) as (L1 & L2 & L3).
  assert (HO : forall p, (p < se)%nat -> nth_error (str_left f b1 i1 se1) p = nth_error b p).
  { intros p Hp. rewrite L2 by lia. apply S1. now left. }
  split; [congruence|]. split; [exact HO|]. intros -> p Hp. destruct S3 as [S3|S3].
  - exists i. split; [|exact S3]. split; [lia|]. destruct (Nat.ltb_spec p i); [|assumption]. elim Hp. now apply HO.
  - destruct (S3 eq_refl) as (T1 & T2 & T3). rewrite <- T1 in Hp. destruct (L3 T2 p Hp) as (q & Q1 & Q2).
    exists q. rewrite <- T1. split; [lia|assumption].
Qed.

(** *** The parse *)
Lemma failed_state E b e s : run_unmarshal E b = PErr e s -> fell (pst0 b) s 0 e /\ (b <> [] -> no_copy_left E b = p_buf s) /\ (b <> [] -> unmarshal_no_copy E b = Err e).
Proof.
  intros R. pose proof (unmarshal_sim E b) as S. rewrite R in S.
  destruct (l_unmarshal_iter E (pst0 b) 0) as [? ?|e' s'| |] eqn:L; try contradiction. destruct S as (-> & -> & F).
  split; [exact F|]. unfold no_copy_left, unmarshal_no_copy. rewrite L. split; intros Hb; (destruct b; [congruence|reflexivity]).
Qed.

Lemma firstn_of_nth {A} (x y : list A) : forall n, (forall p, (p < n)%nat -> nth_error x p = nth_error y p) -> firstn n x = firstn n y.
Proof.
  intros n. revert x y. induction n as [|n IH]; intros x y H; [reflexivity|].
  pose proof (H 0%nat ltac:(lia)) as H0. destruct x as [|a x], y as [|c y]; cbn in H0; try discriminate; [reflexivity|].
  injection H0 as ->. cbn [firstn]. f_equal. apply IH. intros p Hp. apply (H (S p)). lia.
Qed.

Theorem failed_slices E b e s : run_unmarshal E b = PErr e s ->
  List.length (p_buf s) = List.length b /\
  forall i j c, In (i, j, c) (p_log s) -> (i <= j <= List.length b)%nat /\ firstn (j - i) (skipn i (p_buf s)) = c.
Proof.
  intros R. destruct (failed_state _ _ _ _ R) as ((s0 & e0 & (X & _) & Hlog & Hbuf) & _ & _).
  pose proof (ext_len _ _ _ _ X) as Hl0. pose proof (ext_order _ _ _ _ X) as Ho. cbn [pst0 p_buf] in Hl0, Ho.
  destruct X as (_ & (new & Hn & Hok) & _). cbn [pst0 p_log] in Hn. rewrite app_nil_r in Hn.
  assert (HB : List.length (p_buf s) = List.length (p_buf s0) /\ forall p, (p < e0)%nat -> nth_error (p_buf s) p = nth_error (p_buf s0) p).
  { destruct Hbuf as [->|(tt' & _ & _ & ->)]; [auto|]. unfold left_by_str. destruct (str_left_at (S (List.length (p_buf s0))) (p_buf s0) (S e0) (S e0)) as (L1 & L2 & _).
    split; [exact L1|]. intros p Hp. apply L2. lia. }
  destruct HB as [HB1 HB2]. split; [congruence|]. intros i j c Hin. rewrite Hlog, Hn in Hin. rewrite Forall_forall in Hok.
  specialize (Hok _ Hin). unfold log_ok in Hok. destruct Hok as (h1 & h2 & h3 & h4). split; [lia|].
  rewrite <- h4. rewrite <- !skipn_firstn_comm. replace (i + (j - i))%nat with j by lia. f_equal. apply firstn_of_nth. intros p Hp. apply HB2. lia.
Qed.

Lemma byte_dec (x y : option Z) : x = y \/ x <> y.
Proof. destruct x as [x|], y as [y|]; try (now left); try (right; discriminate). destruct (Z.eq_dec x y); [left; congruence|right; congruence]. Qed.

Theorem failed_buffer E b e : unmarshal_no_copy E b = Err e ->
  exists s, (b <> [] -> run_unmarshal E b = PErr e s /\ p_buf s = no_copy_left E b) /\
  List.length (no_copy_left E b) = List.length b /\
  forall p, nth_error (no_copy_left E b) p <> nth_error b p ->
    (exists i j c q, In (i, j, c) (p_log s) /\ (i <= q <= p)%nat /\ (p < j)%nat /\ nth_error b q = Some 92) \/
    (exists i q, nth_error b i = Some 34 /\ (i < q <= p)%nat /\ nth_error b q = Some 92 /\
       forall i' j' c', In (i', j', c') (p_log s) -> (j' <= i)%nat).
Proof.
  intros H. destruct b as [|c0 b0] eqn:Eb.
  { exists (pst0 []). split; [congruence|]. split; [reflexivity|]. intros p Hp. now elim Hp. }
  rewrite <- Eb in *. assert (Hb : b <> []) by (rewrite Eb; discriminate). clear Eb c0 b0.
  assert (R : exists s, run_unmarshal E b = PErr e s).
  { pose proof (unmarshal_sim E b) as S. unfold unmarshal_no_copy in H. destruct b; [congruence|].
    destruct (l_unmarshal_iter E (pst0 (z :: b)) 0) as [? ?|e' s'| |]; try discriminate. injection H as ->.
    destruct (run_unmarshal E (z :: b)) as [? ?|e2 s2| |]; try contradiction. destruct S as (-> & _). eauto. }
  destruct R as (s & R). destruct (failed_state _ _ _ _ R) as ((s0 & e0 & (X & Hwr) & Hlog & Hbuf) & Hleft & _). specialize (Hleft Hb).
  exists s. split; [intros _; split; [exact R|now symmetry]|]. rewrite Hleft.
  split; [eapply failed_slices; exact R|]. intros p Hp.
  destruct (byte_dec (nth_error (p_buf s0) p) (nth_error b p)) as [D|D].
  - right. destruct Hbuf as [Hbuf|(t & H34 & _ & Hbuf)]; [rewrite Hbuf in Hp; congruence|].
    apply bget_skipn in H34. unfold bget in H34. destruct (nth_error (p_buf s0) e0) as [c0|] eqn:N0; [|discriminate]. injection H34 as ->.
    rewrite <- D, Hbuf in Hp. unfold left_by_str in Hp.
    destruct (str_left_at (S (List.length (p_buf s0))) (p_buf s0) (S e0) (S e0)) as (_ & _ & L3).
    destruct (L3 eq_refl p Hp) as (q & Q1 & Q2). exists e0, q.
    assert (Hsk : forall k, (e0 <= k)%nat -> nth_error (p_buf s0) k = nth_error b k).
    { intros k Hk. apply (skipn_nth _ _ e0); [|exact Hk]. exact (ext_suffix _ _ _ _ X). }
    rewrite <- (Hsk e0) by lia. rewrite <- (Hsk q) by lia. split; [exact N0|]. split; [lia|]. split; [exact Q2|].
    intros i' j' c' Hin. rewrite Hlog in Hin. destruct X as (_ & (new & Hn & Hok) & _). cbn [pst0 p_log] in Hn. rewrite app_nil_r in Hn.
    rewrite Hn in Hin. rewrite Forall_forall in Hok. specialize (Hok _ Hin). unfold log_ok in Hok. lia.
  - left. destruct (Hwr p D) as (i & j & c & q & H1 & H2 & H3 & H4 & _ & H5).
    exists i, j, c, q. rewrite Hlog. repeat split; assumption.
Qed.

(** *** The string the parse stopped in *)
Lemma step_spec A G c t : (c =? 34) = false ->
  match q_char c t with
  | Ok (w, r1) =>
      exists G',
        step (A ++ G ++ c :: t) (List.length A + List.length G) (List.length A)
        = Ok ((A ++ w) ++ G' ++ r1, (List.length (A ++ w) + List.length G')%nat, List.length (A ++ w))
        /\ (List.length w + List.length G' + List.length r1 = List.length G + List.length (c :: t))%nat
  | Err e => step (A ++ G ++ c :: t) (List.length A + List.length G) (List.length A) = Err e
  | _ => False
  end.
Proof.
  intros H34. unfold step. assert (Hc : bget (A ++ G ++ c :: t) (List.length A + List.length G) = Ok c).
  { rewrite app_assoc. apply bget_at. now rewrite app_length. }
  rewrite Hc. cbn [rbind]. clear Hc. rewrite H34. clear H34. unfold q_char.
  destruct (Z.eqb_spec c 92) as [->|Hc92].
  { pose proof (handle_escape_spec A G t) as H. cbn zeta in H.
    destruct (q_escape t) as [[w r1]|e| |]; try contradiction; [|exact H].
    destruct H as (G' & H1 & HL & u & H2). exists G'. split; [exact H1|]. cbn [List.length]; lia. }
  destruct (c <=? 127).
  { destruct (put_spec A G [c] t c 0 eq_refl) as (G' & HG & HL').
    cbn [app] in HG. rewrite HG. cbn [rbind]. exists G'. split.
    - rewrite app_length. cbn [List.length] in *. apply ok3; [reflexivity|lia|lia].
    - simpl in *; lia. }
  destruct (rune_bytes2 c); [|destruct (rune_bytes3 c); [|destruct (rune_bytes4 c); [|reflexivity]]].
  - pose proof (shift_spec A G (c :: t) 2) as H. cbn zeta in H.
    destruct (q_take 2 (c :: t)) as [[w r1]|e| |]; try contradiction; [|exact H].
    destruct H as (G' & H1 & HL & H2). eauto.
  - pose proof (shift_spec A G (c :: t) 3) as H. cbn zeta in H.
    destruct (q_take 3 (c :: t)) as [[w r1]|e| |]; try contradiction; [|exact H].
    destruct H as (G' & H1 & HL & H2). eauto.
  - pose proof (shift_spec A G (c :: t) 4) as H. cbn zeta in H.
    destruct (q_take 4 (c :: t)) as [[w r1]|e| |]; try contradiction; [|exact H].
    destruct H as (G' & H1 & HL & H2). eauto.
Qed.

Lemma skipn_of_nth (x y : bytes) n : (forall p, (n <= p)%nat -> nth_error x p = nth_error y p) -> skipn n x = skipn n y.
Proof.
  intros H. apply list_nth_eq. intros k.
  assert (G : forall (l : bytes) m, nth_error (skipn m l) k = nth_error l (m + k)).
  { clear. intros l m. revert l. induction m as [|m IH]; intros l; [reflexivity|]. destruct l as [|a l]; cbn [skipn plus nth_error]; [now destruct k|apply IH]. }
  rewrite !G. apply H. lia.
Qed.

Lemma str_left_spec f : forall A G R e, Forall is_byte R -> q_str f R = Err e ->
  exists t s r, R = t ++ r /\ lstr t s /\ char_fails r e /\
    str_left f (A ++ G ++ R) (List.length A + List.length G) (List.length A) = A ++ s ++ skipn (List.length s) (G ++ R).
Proof.
  induction f as [|f IH]; intros A G R e Hb H; [discriminate|]. rewrite str_left_step. cbn [q_str] in H.
  destruct R as [|c t].
  { injection H as <-. exists [], [], []. split; [reflexivity|]. split; [apply LS_nil|]. split; [apply CF_end|]. cbn [List.length skipn app]. rewrite !app_nil_r.
    replace (List.length A + List.length G <? List.length (A ++ G))%nat with false by (rewrite app_length; symmetry; apply Nat.ltb_irrefl). reflexivity. }
  destruct (Nat.ltb_spec (List.length A + List.length G) (List.length (A ++ G ++ c :: t))) as [_|Hge];
    [|rewrite !app_length in Hge; simpl in Hge; lia].
  inversion Hb as [|? ? Hc Ht]; subst. destruct (c =? 34) eqn:E34; [discriminate|].
  pose proof (step_spec A G c t E34) as P.
  destruct (q_char c t) as [[w r1]|e1| |] eqn:Ec; try contradiction; cbn [rbind] in H.
  - destruct P as (G' & P1 & P2). pose proof P1 as P3. rewrite P1.
    destruct (q_char_inv c t w r1 Hc E34 Ec) as (x & Ex & _ & Hx).
    destruct (q_str f r1) as [[s r2]|e2| |] eqn:Es; cbn [rbind] in H; try discriminate. injection H as <-.
    assert (Hb1 : Forall is_byte r1) by (rewrite Ex in Hb; apply Forall_app in Hb; tauto).
    destruct (IH (A ++ w) G' r1 _ Hb1 Es) as (t' & s' & r' & H1 & H2 & H3 & H4). rewrite H4.
    exists (x ++ t'), (w ++ s'), r'. split; [rewrite Ex, H1; apply app_assoc|]. split; [now apply Hx|]. split; [exact H3|].
    apply step_at in P3 as (S1 & _ & _).
    assert (Hk : skipn (List.length (A ++ w)) ((A ++ w) ++ G' ++ r1) = skipn (List.length (A ++ w)) (A ++ G ++ c :: t)).
    { apply skipn_of_nth. intros p Hp. apply S1. now right. }
    rewrite skipn_app, skipn_all, Nat.sub_diag in Hk. cbn [skipn app] in Hk.
    rewrite app_length, (Nat.add_comm (List.length A)), <- skipn_skipn, skipn_app, skipn_all, Nat.sub_diag in Hk. cbn [skipn app] in Hk.
    rewrite Hk, skipn_skipn, app_length, <- !app_assoc. f_equal. f_equal. f_equal. f_equal. lia.
  - injection H as <-. rewrite P. exists [], [], (c :: t). split; [reflexivity|]. split; [constructor|]. split; [now apply char_fails_of|reflexivity].
Qed.

Theorem failed_exact E b e : Forall is_byte b -> b <> [] -> unmarshal_no_copy E b = Err e ->
  exists s i, run_unmarshal E b = PErr e s /\ p_buf s = no_copy_left E b /\
    (forall i' j' c', In (i', j', c') (p_log s) -> (j' <= i)%nat) /\
    (forall p, (p < i)%nat -> nth_error (no_copy_left E b) p <> nth_error b p ->
       exists i' j' c', In (i', j', c') (p_log s) /\ (i' <= p < j')%nat) /\
    (skipn i (no_copy_left E b) = skipn i b \/
     exists t u r, skipn i b = 34 :: t ++ r /\ lstr t u /\ char_fails r e /\
       skipn i (no_copy_left E b) = 34 :: u ++ skipn (List.length u) (t ++ r)).
Proof.
  intros Hbb Hb H. destruct (failed_buffer _ _ _ H) as (s & R & _ & _). destruct (R Hb) as (R1 & R2). clear R.
  destruct (failed_state _ _ _ _ R1) as ((s0 & e0 & (X & Hwr) & Hlog & Hbuf) & Hleft & _). specialize (Hleft Hb).
  exists s, e0. rewrite Hleft. split; [exact R1|]. split; [reflexivity|].
  pose proof (ext_suffix _ _ _ _ X) as Hsk. cbn [pst0 p_buf] in Hsk.
  split.
  { intros i' j' c' Hin. rewrite Hlog in Hin. destruct X as (_ & (new & Hn & Hok) & _). cbn [pst0 p_log] in Hn. rewrite app_nil_r in Hn.
    rewrite Hn in Hin. rewrite Forall_forall in Hok. specialize (Hok _ Hin). unfold log_ok in Hok. lia. }
  assert (HB2 : forall p, (p < S e0)%nat -> nth_error (p_buf s) p = nth_error (p_buf s0) p).
  { destruct Hbuf as [->|(t & _ & _ & ->)]; [auto|]. unfold left_by_str. intros p Hp. apply str_left_at. exact Hp. }
  split.
  { intros p Hp Hd. rewrite HB2 in Hd by lia. destruct (Hwr p Hd) as (i & j & c & q & H1 & H2 & H3 & H4 & _ & H5).
    exists i, j, c. rewrite Hlog. split; [exact H1|]. lia. }
  destruct Hbuf as [Hbuf|(t & H34 & Hq & Hbuf)]; [left; rewrite Hbuf; exact Hsk|right].
  rewrite Hsk in H34.
  assert (Hbt : Forall is_byte t).
  { apply Forall_forall. intros x Hx. rewrite Forall_forall in Hbb. apply Hbb. rewrite <- (firstn_skipn e0 b), H34. apply in_or_app. right. now right. }
  assert (He0 : (e0 <= List.length (p_buf s0))%nat).
  { pose proof (ext_order _ _ _ _ X). pose proof (ext_len _ _ _ _ X). cbn [pst0 p_buf] in *. lia. }
  assert (Hs0 : p_buf s0 = (firstn e0 (p_buf s0) ++ [34]) ++ [] ++ t).
  { rewrite <- app_assoc. cbn [app]. rewrite <- H34, <- Hsk. symmetry. apply firstn_skipn. }
  assert (Hl : List.length (firstn e0 (p_buf s0) ++ [34]) = S e0) by (rewrite app_length, firstn_length; cbn [List.length]; lia).
  pose proof (q_str_fuel (S (List.length t)) (S (List.length (p_buf s0))) t) as QF.
  assert (Hlt : (List.length t <= List.length (p_buf s0))%nat) by (rewrite Hs0, !app_length; lia).
  rewrite QF in Hq by lia. clear QF.
  destruct (str_left_spec _ (firstn e0 (p_buf s0) ++ [34]) [] t e Hbt Hq) as (x & u & r & U1 & U2 & U3 & U4).
  exists x, u, r. split; [rewrite H34, U1; reflexivity|]. split; [exact U2|]. split; [exact U3|].
  rewrite Hbuf. unfold left_by_str. rewrite <- Hs0, Hl in U4. cbn [List.length] in U4. rewrite Nat.add_0_r in U4. rewrite U4.
  rewrite <- app_assoc, skipn_app_at by (rewrite firstn_length; lia). cbn [app]. now rewrite U1.
Qed.

Theorem failed_clean E b e : unmarshal_no_copy E b = Err e -> ~ In 92 b -> no_copy_left E b = b.
Proof.
  intros H Hn. destruct (failed_buffer _ _ _ H) as (s & _ & _ & HB). apply list_nth_eq. intros k.
  destruct (byte_dec (nth_error (no_copy_left E b) k) (nth_error b k)) as [D|D]; [exact D|].
  exfalso. apply Hn. destruct (HB k D) as [(i & j & c & q & _ & _ & _ & Hq)|(i & q & _ & _ & Hq & _)]; eapply nth_error_In; exact Hq.
Qed.

Theorem failed_again E b e : unmarshal_no_copy E b = Err e -> ~ In 92 b -> unmarshal_no_copy E (no_copy_left E b) = Err e.
Proof. intros H Hn. now rewrite (failed_clean E b e H Hn). Qed.

Theorem left_success E b l buf : unmarshal_no_copy E b = Ok (l, buf) -> no_copy_left E b = buf.
Proof.
  unfold unmarshal_no_copy, no_copy_left. destruct b; [discriminate|].
  destruct (l_unmarshal_iter E (pst0 (z :: b)) 0); intros H; inversion H; reflexivity.
Qed.
