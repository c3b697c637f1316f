(** The documents of UnmarshalNoCopy: the loops that keep windows follow the loops that keep
    bytes; where the windows lie; what the buffer holds afterwards. *)
From Verif Require Import Base Float64 Value Scan Unmarshal Pure ListLemmas PureProof UnmarshalProof NoCopy SpecNoCopy.

(** *** Induction on documents *)
Section Ind.
Variable P : loc -> Prop.
Hypothesis HS : forall w, P (LStr w).
Hypothesis HN : forall n w, P (LNum n w).
Hypothesis HO : forall i kvs, Forall (fun e => P (snd (snd e))) kvs -> P (LObj i kvs).
Hypothesis HA : forall l, Forall P l -> P (LArr l).
Hypothesis HB : forall b, P (LBool b).
Hypothesis HU : P LNull.
Fixpoint loc_ind2 (l : loc) : P l :=
  match l with
  | LStr w => HS w
  | LNum n w => HN n w
  | LObj i kvs => HO i kvs
     ((fix go (kvs : list (window * (Z * loc))) : Forall (fun e => P (snd (snd e))) kvs :=
         match kvs with [] => Forall_nil _ | e :: r => Forall_cons e (loc_ind2 (snd (snd e))) (go r) end) kvs)
  | LArr l => HA l
     ((fix go (l : list loc) : Forall P l :=
         match l with [] => Forall_nil _ | x :: r => Forall_cons x (loc_ind2 x) (go r) end) l)
  | LBool b => HB b
  | LNull => HU
  end.
End Ind.

Definition kws (kvs : list (window * (Z * loc))) : list window :=
  flat_map (fun e => fst e :: windows (snd (snd e))) kvs.
Definition vent (buf : bytes) (e : window * (Z * loc)) : bytes * (Z * V) :=
  (cut buf (fst e), (fst (snd e), view buf (snd (snd e)))).

Lemma view_agree b b' l : (forall w, In w (windows l) -> cut b' w = cut b w) -> view b' l = view b l.
Proof.
  induction l as [w|n w|i kvs IH|l IH|x|] using loc_ind2; cbn [windows view]; intros H; try reflexivity.
  - now rewrite (H w) by now left.
  - now rewrite (H w) by now left.
  - f_equal. induction IH as [|[k [n c]] r Hc _ IHr]; [reflexivity|]. cbn [map fst snd flat_map] in *.
    rewrite (H k) by (now left). rewrite Hc by (intros w Hw; apply H; right; apply in_or_app; now left).
    rewrite IHr; [reflexivity|]. intros w Hw. apply H. right. apply in_or_app. now right.
  - f_equal. induction IH as [|c r Hc _ IHr]; [reflexivity|]. cbn [map flat_map] in *.
    rewrite Hc by (intros w Hw; apply H; apply in_or_app; now left).
    rewrite IHr; [reflexivity|]. intros w Hw. apply H. apply in_or_app. now right.
Qed.

Lemma vent_agree b b' kvs : (forall w, In w (kws kvs) -> cut b' w = cut b w) -> map (vent b') kvs = map (vent b) kvs.
Proof.
  intros H. pose proof (view_agree b b' (LObj 0 kvs)) as V. cbn [windows view] in V.
  specialize (V H). injection V. auto.
Qed.

Lemma views_agree b b' l : (forall w, In w (flat_map windows l) -> cut b' w = cut b w) -> map (view b') l = map (view b) l.
Proof.
  intros H. pose proof (view_agree b b' (LArr l)) as V. cbn [windows view] in V.
  specialize (V H). injection V. auto.
Qed.

(** *** Layout *)
Definition lay (lo hi : nat) (ws : list window) : Prop :=
  Forall (inside lo hi) ws /\ ForallOrdPairs apart ws.

Lemma apart_sym w w' : apart w w' -> apart w' w.
Proof. unfold apart. tauto. Qed.

Lemma fop_app ws ws' :
  ForallOrdPairs apart (ws ++ ws') <->
  ForallOrdPairs apart ws /\ ForallOrdPairs apart ws' /\ (forall w w', In w ws -> In w' ws' -> apart w w').
Proof.
  induction ws as [|w ws IH]; cbn [app].
  - split; [intros H; split; [constructor|]; split; [exact H|intros ? ? []]|tauto].
  - split.
    + intros H. inversion H as [|? ? H1 H2]; subst. apply IH in H2. destruct H2 as (A & B & C).
      apply Forall_app in H1. destruct H1 as (H1 & H1'). split; [now constructor|]. split; [assumption|].
      intros u u' [<-|Hu] Hu'; [|now apply C]. rewrite Forall_forall in H1'. now apply H1'.
    + intros (A & B & C). inversion A as [|? ? A1 A2]; subst. constructor.
      * apply Forall_app. split; [assumption|]. apply Forall_forall. intros u Hu. apply C; [now left|assumption].
      * apply IH. split; [assumption|]. split; [assumption|]. intros. apply C; [now right|assumption].
Qed.

Lemma inside_le lo hi lo' hi' w : (lo' <= lo)%nat -> (hi <= hi')%nat -> inside lo hi w -> inside lo' hi' w.
Proof. unfold inside. lia. Qed.

Lemma lay_le lo hi lo' hi' ws : (lo' <= lo)%nat -> (hi <= hi')%nat -> lay lo hi ws -> lay lo' hi' ws.
Proof. intros ? ? (A & B). split; [|assumption]. eapply Forall_impl; [|exact A]. intros; eapply inside_le; eauto. Qed.

Lemma lay_nil lo hi : lay lo hi [].
Proof. split; constructor. Qed.

Lemma lay_one lo hi i j : (lo <= i)%nat -> (i <= j)%nat -> (j <= hi)%nat -> lay lo hi [(i, j)].
Proof. intros. split; [constructor; [unfold inside; cbn; lia|constructor]|constructor; constructor]. Qed.

(** What lies before [m] and what lies behind it. *)
Lemma lay_app lo m hi ws ws' : (lo <= m)%nat -> (m <= hi)%nat -> lay lo m ws -> lay m hi ws' -> lay lo hi (ws ++ ws').
Proof.
  intros ? ? (A & B) (A' & B'). split.
  - apply Forall_app. split.
    + eapply Forall_impl; [|exact A]. intros; eapply inside_le; [| |eassumption]; lia.
    + eapply Forall_impl; [|exact A']. intros; eapply inside_le; [| |eassumption]; lia.
  - apply fop_app. split; [assumption|]. split; [assumption|]. intros w w' Hw Hw'.
    rewrite Forall_forall in A, A'. apply A in Hw. apply A' in Hw'. unfold inside, apart in *. lia.
Qed.

Lemma lay_tail lo hi w ws : lay lo hi (w :: ws) -> lay lo hi ws.
Proof. intros (A & B). inversion A; inversion B; subst. split; assumption. Qed.

Lemma cut_ext s s' off e w : ext s s' off e -> (snd w <= off)%nat -> cut (p_buf s') w = cut (p_buf s) w.
Proof.
  intros X H. unfold cut. apply (slice_frame _ _ _ _ off); [assumption|]. now apply ext_prefix in X.
Qed.

Lemma lay_cut s s' lo off e ws : lay lo off ws -> ext s s' off e ->
  forall w, In w ws -> cut (p_buf s') w = cut (p_buf s) w.
Proof.
  intros (A & _) X w Hw. rewrite Forall_forall in A. apply A in Hw. eapply cut_ext; [exact X|].
  unfold inside in Hw. lia.
Qed.

(** *** Storing under a key *)
Lemma put_view b k x kvs :
  map (vent b) (put b k x kvs) = aset (cut b k) (fst x, view b (snd x)) (map (vent b) kvs).
Proof.
  induction kvs as [|[k' x'] r IH]; [reflexivity|].
  change (map (vent b) ((k', x') :: r)) with ((cut b k', (fst x', view b (snd x'))) :: map (vent b) r).
  cbn [put aset]. destruct (beqb_spec (cut b k) (cut b k')) as [Hb|Hb].
  - cbn [map]. unfold vent at 1. cbn [fst snd]. now rewrite Hb.
  - cbn [map]. now rewrite IH.
Qed.

Lemma put_In b k x kvs w : In w (kws (put b k x kvs)) -> In w (k :: windows (snd x)) \/ In w (kws kvs).
Proof.
  induction kvs as [|[k' x'] r IH]; cbn [put].
  - unfold kws; cbn [flat_map fst snd]. rewrite app_nil_r. auto.
  - destruct (beqb (cut b k) (cut b k')); unfold kws; cbn [flat_map fst snd].
    + intros [<-|H]; [left; now left|]. apply in_app_or in H. destruct H; [left; now right|].
      right. right. apply in_or_app. now right.
    + intros [<-|H]; [right; now left|]. apply in_app_or in H. destruct H as [H|H]; [right; right; apply in_or_app; now left|].
      destruct (IH H) as [H'|H']; [now left|]. right. right. apply in_or_app. now right.
Qed.

Lemma put_lay b k x kvs lo hi : lay lo hi ((k :: windows (snd x)) ++ kws kvs) -> lay lo hi (kws (put b k x kvs)).
Proof.
  intros (A & B). split.
  - rewrite Forall_forall in *. intros w Hw. apply A. apply in_or_app. eapply put_In; eauto.
  - clear A. revert B. induction kvs as [|[k' x'] r IH]; cbn [put]; intros B.
    + unfold kws. cbn [flat_map fst snd]. exact B.
    + change (kws ((k', x') :: r)) with ((k' :: windows (snd x')) ++ kws r) in B.
      apply fop_app in B. destruct B as (B1 & B2 & B3). apply fop_app in B2. destruct B2 as (B2 & B4 & B5).
      destruct (beqb (cut b k) (cut b k')).
      * change (kws ((k, x) :: r)) with ((k :: windows (snd x)) ++ kws r). apply fop_app.
        split; [assumption|]. split; [assumption|]. intros w w' Hw Hw'. apply B3; [assumption|].
        apply in_or_app. now right.
      * change (kws ((k', x') :: put b k x r)) with ((k' :: windows (snd x')) ++ kws (put b k x r)).
        apply fop_app. split; [assumption|]. split.
        -- apply IH. apply fop_app. split; [assumption|]. split; [assumption|].
           intros w w' Hw Hw'. apply B3; [assumption|]. apply in_or_app. now right.
        -- intros w w' Hw Hw'. apply put_In in Hw'. destruct Hw' as [Hw'|Hw'].
           ++ apply apart_sym. apply B3; [assumption|]. apply in_or_app. now left.
           ++ now apply B5.
Qed.

(** *** What a parser writes *)
Lemma nth_upd (b : bytes) i x p : p <> i -> nth_error (upd b i x) p = nth_error b p.
Proof.
  revert i p. induction b as [|c b IH]; intros [|i] [|p] H; cbn [upd nth_error]; try reflexivity; try congruence.
  apply IH. congruence.
Qed.

Lemma nth_upd_same (b : bytes) i p x : nth_error b i = Some x -> nth_error (upd b i x) p = nth_error b p.
Proof.
  revert i p. induction b as [|c b IH]; intros [|i] [|p] H; cbn [upd nth_error] in *; try reflexivity; try congruence.
  apply IH. exact H.
Qed.

Lemma upd_length (b : bytes) i x : List.length (upd b i x) = List.length b.
Proof. revert i. induction b as [|c b IH]; intros [|i]; cbn [upd List.length]; auto. Qed.

Lemma nth_bwrite src : forall (b : bytes) dst p,
  (p < dst \/ dst + List.length src <= p)%nat -> nth_error (bwrite b dst src) p = nth_error b p.
Proof.
  induction src as [|x r IH]; intros b dst p H; cbn [bwrite List.length] in *; [reflexivity|].
  rewrite IH by lia. apply nth_upd. lia.
Qed.

(** Written between [se] and [se'] only. *)
Definition only_at (b b' : bytes) (se se' : nat) : Prop :=
  forall p, (p < se \/ se' <= p)%nat -> nth_error b' p = nth_error b p.

Lemma bset_inv b i x b' : bset b i x = Ok b' -> b' = upd b i x.
Proof. unfold bset. destruct (_ <? _)%nat; [|discriminate]. congruence. Qed.

Ltac bsets :=
  repeat match goal with
  | H : rbind (bset ?b ?i ?x) _ = Ok _ |- _ =>
      let b1 := fresh "b" in let Hb := fresh "Hb" in
      destruct (bset b i x) as [b1|?| |] eqn:Hb; cbn [rbind] in H; try discriminate H; apply bset_inv in Hb
  end.

Lemma assign_rune_at b se r b' n : assign_rune b se r = Ok (b', n) -> only_at b b' se (se + n) /\ (1 <= n)%nat.
Proof.
  unfold assign_rune. intros H.
  destruct (r <=? 127); [|destruct (r <=? 2047); [|destruct (r <=? 65535)]]; bsets; inversion H; subst;
    (split; [|lia]); intros p Hp; rewrite !nth_upd by lia; reflexivity.
Qed.

Lemma escape_at b i se b' i' se' :
  handle_escape b i se = Ok (b', i', se') -> only_at b b' se se' /\ (se < se')%nat.
Proof.
  unfold handle_escape. destruct (_ <? 2)%nat; [discriminate|].
  destruct (bget b (i + 1)) as [c|?| |]; cbn [rbind]; try discriminate.
  assert (P : forall x, (let* b' := bset b se x in Ok (b', (i + 2)%nat, S se)) = Ok (b', i', se') ->
            only_at b b' se se' /\ (se < se')%nat).
  { intros x H. bsets. inversion H; subst. split; [|lia]. intros p Hp. apply nth_upd. lia. }
  repeat match goal with |- (if ?x then _ else _) = _ -> _ => destruct x; [try exact (P _)|] end; try discriminate.
  unfold handle_escape_unicode. destruct (_ <=? 6)%nat; [discriminate|].
  destruct (hex4 b (i + 2)) as [r|?| |]; cbn [rbind]; try discriminate.
  destruct ((r <=? 55295) || (57344 <=? r)).
  { destruct (assign_rune b se r) as [[b1 n]|?| |] eqn:Ha; cbn [rbind]; try discriminate.
    intros H; inversion H; subst. destruct (assign_rune_at _ _ _ _ _ Ha). split; [assumption|lia]. }
  destruct (_ <=? 12)%nat; [discriminate|].
  destruct (bget b (i + 6)) as [c6|?| |]; cbn [rbind]; try discriminate.
  destruct (bget b (i + 7)) as [c7|?| |]; cbn [rbind]; try discriminate.
  destruct (negb _); [discriminate|].
  destruct (hex4 b (i + 8)) as [ex|?| |]; cbn [rbind]; try discriminate.
  destruct (ex <? 56320); [discriminate|]. destruct (1023 <? ex - 56320); [discriminate|].
  destruct (assign_rune b se _) as [[b1 n]|?| |] eqn:Ha; cbn [rbind]; try discriminate.
  intros H; inversion H; subst. destruct (assign_rune_at _ _ _ _ _ Ha). split; [assumption|lia].
Qed.

Lemma shift_at b i se n b' i' se' :
  shift b i se n = Ok (b', i', se') ->
  only_at b b' se se' /\ se' = (se + n)%nat /\ i' = (i + n)%nat /\ (se = i -> b' = b).
Proof.
  unfold shift, memcpy. destruct (_ <? n)%nat; [discriminate|].
  destruct (Nat.eqb_spec se i) as [->|Hn]; cbn [rbind].
  { intros H; inversion H; subst. repeat split. }
  unfold bslice. destruct ((_ && _)%nat); cbn [rbind]; [|discriminate].
  destruct ((_ && _)%nat); cbn [rbind]; [|discriminate].
  intros H; inversion H; subst. repeat split; [|congruence].
  intros p Hp. apply nth_bwrite. destruct Hp as [Hp|Hp]; [now left|right].
  rewrite firstn_length. lia.
Qed.

Lemma parse_str_loop_at f : forall b off i se b' n e,
  parse_str_loop f b off i se = Ok (b', n, e) -> (off <= se)%nat ->
  only_at b b' se (off + n) /\ (se <= off + n)%nat
  /\ (se = i -> forall p, nth_error b' p <> nth_error b p ->
        exists q, (i <= q)%nat /\ (q <= p)%nat /\ nth_error b q = Some 92).
Proof.
  induction f as [|f IH]; intros b off i se b' n e; cbn [parse_str_loop]; [discriminate|].
  destruct (_ <? _)%nat; [|discriminate].
  destruct (bget b i) as [c|?| |] eqn:Hg; cbn [rbind]; try discriminate.
  assert (Hi : nth_error b i = Some c) by (unfold bget in Hg; destruct (nth_error b i); congruence).
  destruct (c =? 34).
  { intros H Ho; inversion H; subst. split; [intros p Hp; reflexivity|]. split; [lia|]. intros _ p Hp. now elim Hp. }
  set (st := if c =? 92 then _ else _).
  assert (Hst : forall b1 i1 se1, st = Ok (b1, i1, se1) ->
     only_at b b1 se se1 /\ (se < se1)%nat /\ (c <> 92 -> se = i -> (forall p, nth_error b1 p = nth_error b p) /\ se1 = i1 /\ (i <= i1)%nat)).
  { intros b1 i1 se1. unfold st. destruct (Z.eqb_spec c 92) as [->|Hc].
    { intros H. apply escape_at in H. destruct H. repeat split; try assumption; congruence. }
    destruct (c <=? 127).
    { destruct (bset b se c) as [b2|?| |] eqn:Hb; cbn [rbind]; try discriminate.
      apply bset_inv in Hb. subst b2. intros H; inversion H; subst. split; [intros p Hp; apply nth_upd; lia|].
      split; [lia|]. intros _ ->. split; [|lia]. intros p. apply nth_upd_same. exact Hi. }
    assert (Hs : forall n1, (0 < n1)%nat -> shift b i se n1 = Ok (b1, i1, se1) ->
       only_at b b1 se se1 /\ (se < se1)%nat /\ (c <> 92 -> se = i -> (forall p, nth_error b1 p = nth_error b p) /\ se1 = i1 /\ (i <= i1)%nat)).
    { intros n1 Hn1 H. apply shift_at in H. destruct H as (H1 & -> & -> & H2). split; [assumption|]. split; [lia|].
      intros _ ->. rewrite (H2 eq_refl). split; [reflexivity|lia]. }
    destruct (rune_bytes2 c); [apply Hs; lia|]. destruct (rune_bytes3 c); [apply Hs; lia|].
    destruct (rune_bytes4 c); [apply Hs; lia|discriminate]. }
  destruct st as [[[b1 i1] se1]|?| |]; cbn [rbind]; try discriminate.
  specialize (Hst _ _ _ eq_refl). destruct Hst as (S1 & S2 & S3).
  intros H Ho. apply IH in H; [|lia]. destruct H as (L1 & L2 & L3).
  assert (HO : only_at b b' se (off + n)).
  { intros p Hp. rewrite L1 by lia. apply S1. lia. }
  split; [exact HO|]. split; [lia|]. intros -> p Hp.
  destruct (Z.eq_dec c 92) as [->|Hc].
  - exists i. split; [lia|]. split; [|assumption].
    destruct (Nat.ltb_spec p i); [|assumption]. elim Hp. apply HO. now left.
  - destruct (S3 Hc eq_refl) as (T1 & T2 & T3). rewrite <- T1 in Hp. destruct (L3 T2 p Hp) as (q & Q1 & Q2 & Q3).
    exists q. rewrite <- T1. repeat split; try assumption; lia.
Qed.

(** Every byte that differs lies in a slice handed out, behind a backslash of it. *)
Definition wr (s s' : pst) (off : nat) : Prop :=
  forall p, nth_error (p_buf s') p <> nth_error (p_buf s) p ->
  exists i j c q, In (i, j, c) (p_log s') /\ (i <= q)%nat /\ (q <= p)%nat /\ (p < j)%nat /\ (off <= q)%nat
                  /\ nth_error (p_buf s) q = Some 92.

Definition went (s s' : pst) (off e : nat) : Prop := ext s s' off e /\ wr s s' off.

Lemma wr_same s s' off : p_buf s' = p_buf s -> wr s s' off.
Proof. intros H p Hp. rewrite H in Hp. now elim Hp. Qed.

Lemma went_refl s off e : (off <= e)%nat -> (e <= List.length (p_buf s))%nat -> went s s off e.
Proof. intros. split; [now apply ext_refl|now apply wr_same]. Qed.

Lemma skipn_nth {A} (x y : list A) n q : skipn n x = skipn n y -> (n <= q)%nat -> nth_error x q = nth_error y q.
Proof.
  intros H Hq. replace q with (n + (q - n))%nat by lia.
  assert (G : forall (l : list A) k, nth_error l (n + k) = nth_error (skipn n l) k).
  { clear. induction n as [|n IH]; intros l k; [reflexivity|]. destruct l as [|a l]; cbn [skipn plus nth_error].
    - now destruct k.
    - apply IH. }
  now rewrite !G, H.
Qed.

Lemma went_trans s1 s2 s3 a b c : went s1 s2 a b -> went s2 s3 b c -> went s1 s3 a c.
Proof.
  intros (X1 & W1) (X2 & W2). split; [eapply ext_trans; eassumption|]. intros p Hp.
  pose proof (ext_order _ _ _ _ X1).
  assert (D : nth_error (p_buf s2) p = nth_error (p_buf s1) p \/ nth_error (p_buf s2) p <> nth_error (p_buf s1) p).
  { destruct (nth_error (p_buf s2) p) as [x|], (nth_error (p_buf s1) p) as [y|]; try (now left); try (right; discriminate).
    destruct (Z.eq_dec x y); [left; congruence|right; congruence]. }
  destruct D as [D|D].
  - rewrite <- D in Hp. destruct (W2 p Hp) as (i & j & x & q & H1 & H2 & H3 & H4 & H5 & H6).
    exists i, j, x, q. repeat split; try assumption; try lia.
    rewrite <- H6. symmetry. apply (skipn_nth _ _ b); [|assumption]. now apply ext_suffix in X1.
  - destruct (W1 p D) as (i & j & x & q & H1 & H2 & H3 & H4 & H5 & H6).
    exists i, j, x, q. repeat split; try assumption; try lia.
    destruct X2 as (_ & (new & -> & _) & _). apply in_or_app. now right.
Qed.

Lemma went_weaken s s' a b c : (a <= b)%nat -> went s s' b c -> went s s' a c.
Proof.
  intros H (X & W). split; [eapply ext_weaken; eassumption|]. intros p Hp.
  destruct (W p Hp) as (i & j & x & q & H1 & H2 & H3 & H4 & H5 & H6).
  exists i, j, x, q. repeat split; try assumption; lia.
Qed.

Lemma went_pool s s' off off' e : (off <= off')%nat -> went (pool_get s) s' (S off') e -> went s s' off e.
Proof.
  intros H (X & W). split; [eapply ext_pool; eassumption|]. intros p Hp.
  destruct (W p Hp) as (i & j & x & q & H1 & H2 & H3 & H4 & H5 & H6).
  exists i, j, x, q. repeat split; try assumption; lia.
Qed.

Lemma went_len s s' a b : went s s' a b -> List.length (p_buf s') = List.length (p_buf s).
Proof. intros (X & _). eapply ext_len; exact X. Qed.
Lemma went_order s s' a b : went s s' a b -> (a <= b <= List.length (p_buf s))%nat.
Proof. intros (X & _). eapply ext_order; exact X. Qed.

Lemma p_string_wr s off str j e s' : p_string s off = POk (str, j, e) s' -> wr s s' off.
Proof.
  unfold p_string, parse_str. destruct (parse_str_loop _ _ _ _ _) as [[[b1 n] e1]|?| |] eqn:Hl; cbn [lift]; try discriminate.
  destruct (bslice b1 (S off) (S off + n)) as [st|?| |]; cbn [lift]; try discriminate.
  intros H; inversion H; subst. clear H. apply parse_str_loop_at in Hl; [|lia]. destruct Hl as (L1 & L2 & L3).
  intros p Hp. cbn [log_slice set_buf p_buf p_log] in *.
  destruct (L3 eq_refl p Hp) as (q & Q1 & Q2 & Q3).
  exists (S off), (S off + n)%nat, str, q. split; [now left|]. repeat split; try assumption; try lia.
  destruct (Nat.ltb_spec p (S off + n)); [assumption|]. elim Hp. apply L1. now right.
Qed.

(** The state after a failure: the parser had come to [e], and failed there or in the string that begins there. *)
Definition fell (s s1 : pst) (off : nat) (a : err) : Prop :=
  exists s0 e, went s s0 off e /\ p_log s1 = p_log s0 /\
    (p_buf s1 = p_buf s0 \/
     exists t, skipn e (p_buf s0) = 34 :: t /\ q_str (S (List.length t)) t = Err a /\ p_buf s1 = left_by_str (p_buf s0) e).

(** *** The loops *)
Definition sim (s : pst) (off lo : nat) (p : pres (V * nat)) (l : pres (loc * nat)) : Prop :=
  match p, l with
  | POk (v, e) s1, POk (lv, e') s2 =>
      e' = e /\ s2 = s1 /\ v = view (p_buf s1) lv /\ went s s1 off e /\ lay lo e (windows lv)
  | PErr a s1, PErr a' s2 => a' = a /\ s2 = s1 /\ fell s s1 off a
  | PPanic, PPanic => True
  | PFuel, PFuel => True
  | _, _ => False
  end.

Lemma fell_ext s s' s1 off e a : went s s' off e -> fell s' s1 e a -> fell s s1 off a.
Proof. intros X (s0 & e0 & H & R). exists s0, e0. split; [eapply went_trans; eassumption|exact R]. Qed.

Lemma sim_ext s s' off e lo p l : went s s' off e -> sim s' e lo p l -> sim s off lo p l.
Proof.
  intros X. unfold sim. destruct p as [[v e1] s1|a s1| |], l as [[lv e2] s2|a' s2| |]; auto.
  - intros (H1 & H2 & H3 & H4 & H5). repeat split; try assumption; try apply H5.
    all: eapply went_trans; eassumption.
  - intros (H1 & H2 & H3). subst. split; [reflexivity|]. split; [reflexivity|]. eapply fell_ext; eassumption.
Qed.

Lemma sim_weaken s off off' lo p l :
  (off <= off')%nat -> (off' <= List.length (p_buf s))%nat -> sim s off' lo p l -> sim s off lo p l.
Proof. intros H1 H2. apply sim_ext. now apply went_refl. Qed.

Lemma sim_pool s off off' lo p l :
  (off <= off')%nat -> sim (pool_get s) (S off') lo p l -> sim s off lo p l.
Proof.
  intros H. unfold sim. destruct p as [[v e1] s1|a s1| |], l as [[lv e2] s2|a' s2| |]; auto.
  - intros (H1 & H2 & H3 & H4 & H5). split; [exact H1|]. split; [exact H2|]. split; [exact H3|]. split; [|exact H5].
    eapply went_pool; eassumption.
  - intros (H1 & H2 & s0 & e & H3 & H4). split; [exact H1|]. split; [exact H2|]. exists s0, e. split; [|exact H4]. eapply went_pool; eassumption.
Qed.

Lemma sim_bind s off lo lo' p l kp kl :
  sim s off lo' p l ->
  (forall lv e s', went s s' off e -> lay lo' e (windows lv) ->
     sim s' e lo (kp (view (p_buf s') lv) e s') (kl lv e s')) ->
  sim s off lo (pbind p (fun '(v, e) s' => kp v e s')) (pbind l (fun '(v, e) s' => kl v e s')).
Proof.
  intros H K. unfold sim in H. destruct p as [[v e1] s1|a s1| |], l as [[lv e2] s2|a' s2| |]; try contradiction;
    cbn [pbind]; try exact H.
  destruct H as (-> & -> & -> & X & L). eapply sim_ext; [exact X|]. now apply K.
Qed.

Lemma sim_err s off lo a : (off <= List.length (p_buf s))%nat -> sim s off lo (PErr a s) (PErr a s).
Proof.
  intros H. split; [reflexivity|]. split; [reflexivity|]. exists s, off. split; [now apply went_refl|]. split; [reflexivity|now left].
Qed.
Lemma sim_str s off off' lo a t : (off <= off')%nat -> skipn off' (p_buf s) = 34 :: t -> q_str (S (List.length t)) t = Err a ->
  sim s off lo (PErr a (set_buf s (left_by_str (p_buf s) off'))) (PErr a (set_buf s (left_by_str (p_buf s) off'))).
Proof.
  intros H Hs Hq. split; [reflexivity|]. split; [reflexivity|]. pose proof (skipn_cons_lt _ _ _ _ Hs) as Hl.
  exists s, off'. split; [apply went_refl; [exact H|lia]|]. split; [reflexivity|]. right.
  exists t. split; [exact Hs|]. split; [exact Hq|reflexivity].
Qed.

Section Main.
Variable E : Env.

Lemma p_scalar_buf s c off v e s' : p_scalar E s c off = Some (POk (v, e) s') -> p_buf s' = p_buf s.
Proof.
  unfold p_scalar, p_number.
  repeat match goal with |- (if ?x then _ else _) = _ -> _ => destruct x end; try discriminate;
    intros H; injection H as H.
  - destruct (parse_number E (p_buf s) off) as [[[w e1] r]|?| |]; cbn [lift] in H; try discriminate.
    destruct w; try discriminate. inversion H; subst. reflexivity.
  - destruct (parse_true (p_buf s) off); cbn [lift] in H; inversion H; subst; reflexivity.
  - destruct (parse_false (p_buf s) off); cbn [lift] in H; inversion H; subst; reflexivity.
  - destruct (parse_null (p_buf s) off); cbn [lift] in H; inversion H; subst; reflexivity.
Qed.

Lemma scalar_sim s c off t p :
  skipn off (p_buf s) = c :: t -> p_scalar E s c off = Some p ->
  sim s off off p (pbind p (fun '(v, e) s' => POk (scalar_at v off e, e) s')).
Proof.
  intros H. pose proof (p_scalar_refines E s c off t H) as R.
  pose proof (skipn_cons_lt _ _ _ _ H) as Hlt. intros Hp.
  assert (Hx : forall v e s', p = POk (v, e) s' -> went s s' off e).
  { intros v e s' ->. destruct (q_scalar E c (c :: t)) as [q|]; [|congruence].
    destruct R as (p' & Hp' & RF & _ & _). rewrite Hp in Hp'. injection Hp' as <-.
    unfold refines in RF. destruct q as [[v' rest]|?| |]; try discriminate.
    - destruct RF as (e1 & s1 & H1 & _ & H2). inversion H1; subst. split; [exact H2|].
      apply wr_same. eapply p_scalar_buf; eassumption.
    - destruct RF as (s1 & H1 & _). discriminate. }
  assert (L : forall lit v e1 e2, windows (scalar_at v off 0) = [] -> (forall e, scalar_at v off e = scalar_at v off 0) ->
      (forall b, v = view b (scalar_at v off 0)) ->
      Some (lift (parse_lit lit e1 e2 (p_buf s) off) s (fun e => POk (v, e) s)) = Some p ->
      sim s off off p (pbind p (fun '(v, e) s' => POk (scalar_at v off e, e) s'))).
  { intros lit v e1 e2 W0 Weq Wv Hs. injection Hs as <-.
    destruct (parse_lit lit e1 e2 (p_buf s) off) as [e|er| |]; cbn [lift pbind]; try exact I; [|apply sim_err; lia]. cbn [sim].
    split; [reflexivity|]. split; [reflexivity|]. rewrite Weq. split; [apply Wv|]. split; [eapply Hx; reflexivity|].
    rewrite W0. apply lay_nil. }
  unfold p_scalar in Hp.
  destruct (is_num_start c) eqn:En.
  - clear L. injection Hp as Hp. pose proof (parse_number_spec E (p_buf s) off c t H En) as P.
    unfold p_number in Hp.
    destruct (q_number E (c :: t)) as [[v rest]|er| |]; try contradiction.
    + destruct P as (e & reach & n & src & HP & -> & H1 & H2 & H3 & H4). rewrite HP in Hp. cbn [lift] in Hp.
      subst p. cbn [pbind sim scalar_at view windows].
      split; [reflexivity|]. split; [reflexivity|]. split; [|split; [eapply Hx; reflexivity|apply lay_one; lia]].
      cbn [log_slice pool_get p_buf]. unfold cut. cbn [fst snd]. now rewrite H4.
    + rewrite P in Hp. cbn [lift] in Hp. subst p. cbn [pbind]. apply sim_err; lia.
  - destruct (c =? 116); [eapply L; eauto; reflexivity|].
    destruct (c =? 102); [eapply L; eauto; reflexivity|].
    destruct (c =? 110); [eapply L; eauto; reflexivity|discriminate].
Qed.

(** A string section. *)
Lemma string_sim s off t :
  skipn off (p_buf s) = 34 :: t ->
  (exists er, p_string s off = PErr er (set_buf s (left_by_str (p_buf s) off)) /\ q_str (S (List.length t)) t = Err er) \/
  (exists str e s', p_string s off = POk (str, (S off + List.length str)%nat, e) s' /\ went s s' off e /\
     cut (p_buf s') (S off, (S off + List.length str)%nat) = str /\ (S off + List.length str < e)%nat).
Proof.
  intros H. pose proof (p_string_spec s off t H) as P. pose proof (p_string_refines s off t H) as R.
  destruct (q_str (S (List.length t)) t) as [[str rest]|e| |]; try contradiction.
  - right. destruct P as (e & s' & HP & H1 & H2 & H3 & H4 & H5 & H6). rewrite HP in R. cbn [pbind] in R.
    destruct R as (e2 & s2 & R1 & _ & R2). inversion R1; subst e2 s2.
    exists str, e, s'. split; [assumption|]. split; [split; [assumption|eapply p_string_wr; eassumption]|]. split; [|assumption].
    unfold cut. cbn [fst snd]. replace (S off + List.length str - S off)%nat with (List.length str) by lia. assumption.
  - left. eauto.
Qed.

Lemma loops_sim fuel :
  (forall s off right acc lo,
     (off <= right)%nat -> right = List.length (p_buf s) -> (lo <= off)%nat ->
     lay lo off (flat_map windows acc) ->
     sim s off lo (arr_loop E fuel s off right (map (view (p_buf s)) acc)) (l_arr E fuel s off right acc))
  /\
  (forall s off right incr kvs ks ke colon lo,
     (off <= right)%nat -> right = List.length (p_buf s) -> (lo <= off)%nat ->
     lay lo off (kws kvs) -> (ke = 0%nat \/ ((0 < ke)%nat /\ lay lo off ((ks, ke) :: kws kvs))) ->
     sim s off lo (obj_loop E fuel s off right (VObj incr (map (vent (p_buf s)) kvs) None) ks ke colon)
       (l_obj E fuel s off right incr kvs ks ke colon)).
Proof.
  induction fuel as [|f [IHa IHo]].
  { split; intros; exact I. }
  split.
  - intros s off right acc lo Hle Hright Hlo HL. subst right. cbn [arr_loop l_arr].
    destruct (Nat.ltb_spec off (List.length (p_buf s))) as [Hlt|Hge]; [|apply sim_err; lia].
    pose proof (skip_blanks_spec _ _ _ eq_refl Hle) as SB.
    destruct (q_skip (skipn off (p_buf s))) as [|c t]; [rewrite SB; cbn [lift]; apply sim_err; lia|].
    destruct SB as (off' & -> & H1 & H2 & H3). cbn [lift].
    rewrite (bget_skipn _ _ _ _ H1). cbn [lift].
    (* one more element, read up to [e] *)
    assert (Hnext : forall lv e s', went s s' off e -> lay off e (windows lv) ->
       sim s' e lo (arr_loop E f s' e (List.length (p_buf s)) (map (view (p_buf s)) acc ++ [view (p_buf s') lv]))
                   (l_arr E f s' e (List.length (p_buf s)) (acc ++ [lv]))).
    { intros lv e s' X Lv. pose proof (went_order _ _ _ _ X); pose proof (went_len _ _ _ _ X).
      rewrite <- (views_agree _ _ acc (lay_cut _ _ _ _ _ _ HL (proj1 X))).
      change [view (p_buf s') lv] with (map (view (p_buf s')) [lv]). rewrite <- map_app.
      apply IHa; [lia|lia|lia|]. rewrite flat_map_app. cbn [flat_map]. rewrite app_nil_r.
      apply (lay_app _ off); try assumption; lia. }
    destruct (c =? 93).
    { cbn [sim view windows]. split; [reflexivity|]. split; [reflexivity|]. split; [reflexivity|].
      split; [apply went_refl; lia|]. eapply lay_le; [| |exact HL]; lia. }
    destruct (c =? 44).
    { apply (sim_weaken _ _ (S off')); [lia|lia|]. apply IHa; [lia|reflexivity|lia|].
      eapply lay_le; [| |exact HL]; lia. }
    destruct (c =? 123).
    { apply (sim_bind _ _ _ off _ _ (fun v e s' => arr_loop E f s' e (List.length (p_buf s)) (map (view (p_buf s)) acc ++ [v]))
               (fun v e s' => l_arr E f s' e (List.length (p_buf s)) (acc ++ [v]))); [|exact Hnext].
      apply (sim_pool _ _ off'); [lia|].
      apply (IHo (pool_get s) (S off') _ 0 [] 0%nat 0%nat false off); cbn [pool_get p_buf]; try lia; apply lay_nil. }
    destruct (c =? 91).
    { apply (sim_bind _ _ _ off _ _ (fun v e s' => arr_loop E f s' e (List.length (p_buf s)) (map (view (p_buf s)) acc ++ [v]))
               (fun v e s' => l_arr E f s' e (List.length (p_buf s)) (acc ++ [v]))); [|exact Hnext].
      apply (sim_pool _ _ off'); [lia|].
      apply (IHa (pool_get s) (S off') _ [] off); cbn [pool_get p_buf]; try lia; apply lay_nil. }
    destruct (Z.eqb_spec c 34) as [->|Hc34].
    { destruct (string_sim s off' t H1) as [(er & -> & Hq)|(str & e & s' & -> & X & Hc & He)]; cbn [pbind]; [eapply sim_str; [lia|exact H1|exact Hq]|].
      assert (X' : went s s' off e) by (eapply went_weaken; [|exact X]; lia).
      apply (sim_ext _ s' _ e); [exact X'|].
      pose proof (Hnext (LStr (S off', (S off' + List.length str)%nat)) e s' X') as HN. cbn [view windows] in HN.
      rewrite Hc in HN. apply HN. apply lay_one; lia. }
    destruct (p_scalar E s c off') as [p|] eqn:Hp; [|apply sim_err; lia].
    pose proof (scalar_sim s c off' t p H1 Hp) as SC.
    apply (sim_weaken _ off) in SC; [|lia|lia].
    assert (Hpb : forall k : loc -> nat -> pst -> pres (loc * nat),
       pbind p (fun '(v, e) s' => k (scalar_at v off' e) e s') =
       pbind (pbind p (fun '(v, e) s' => POk (scalar_at v off' e, e) s')) (fun '(v, e) s' => k v e s')).
    { intros k. destruct p as [[? ?] ?|? ?| |]; reflexivity. }
    rewrite (Hpb (fun v e s' => l_arr E f s' e (List.length (p_buf s)) (acc ++ [v]))).
    apply (sim_bind _ _ _ off' _ _ (fun v e s' => arr_loop E f s' e (List.length (p_buf s)) (map (view (p_buf s)) acc ++ [v]))
               (fun v e s' => l_arr E f s' e (List.length (p_buf s)) (acc ++ [v]))); [exact SC|].
    intros lv e s' X Lv. apply Hnext; [assumption|]. eapply lay_le; [| |exact Lv]; lia.
  - intros s off right incr kvs ks ke colon lo Hle Hright Hlo HL HK. subst right. cbn [obj_loop l_obj].
    destruct (Nat.ltb_spec off (List.length (p_buf s))) as [Hlt|Hge]; [|apply sim_err; lia].
    pose proof (skip_blanks_spec _ _ _ eq_refl Hle) as SB.
    destruct (q_skip (skipn off (p_buf s))) as [|c t]; [rewrite SB; cbn [lift]; apply sim_err; lia|].
    destruct SB as (off' & -> & H1 & H2 & H3). cbn [lift].
    rewrite (bget_skipn _ _ _ _ H1). cbn [lift]. cbn zeta.
    assert (HL' : lay lo (S off') (kws kvs)) by (eapply lay_le; [| |exact HL]; lia).
    assert (HK' : ke = 0%nat \/ ((0 < ke)%nat /\ lay lo (S off') ((ks, ke) :: kws kvs))).
    { destruct HK as [HK|(HK & HK2)]; [now left|right]. split; [assumption|]. eapply lay_le; [| |exact HK2]; lia. }
    set (kp := fun (v : V) (e : nat) (s' : pst) =>
      lift (bslice (p_buf s') ks ke) s' (fun key : bytes =>
        lift (set_to_object E (VObj incr (map (vent (p_buf s)) kvs) None) key v) s'
          (fun obj' : V => obj_loop E f s' e (List.length (p_buf s)) obj' ks 0 false))).
    set (kl := fun (v : loc) (e : nat) (s' : pst) =>
      lift (bslice (p_buf s') ks ke) s' (fun _ : bytes =>
        l_obj E f s' e (List.length (p_buf s)) (wrap_u32 (incr + 1))
          (put (p_buf s') (ks, ke) (wrap_u32 (incr + 1), v) kvs) ks 0 false)).
    assert (Hstore : key_missing ke colon = false -> forall lv e s', went s s' off e -> lay off e (windows lv) ->
       sim s' e lo (kp (view (p_buf s') lv) e s') (kl lv e s')).
    { unfold key_missing. intros Hm lv e s' X Lv. pose proof (went_order _ _ _ _ X); pose proof (went_len _ _ _ _ X).
      destruct HK as [->|(K0 & K1)]; [discriminate|].
      assert (Hw : inside lo off (ks, ke)) by (destruct K1 as (K1 & _); inversion K1; assumption).
      destruct Hw as (W1 & W2 & W3). cbn [fst snd] in *.
      unfold kp, kl. rewrite (bslice_ok (p_buf s') ks ke (cut (p_buf s') (ks, ke))) by (try reflexivity; lia).
      cbn [lift set_to_object]. unfold add_caseless_key.
      rewrite <- (vent_agree _ _ kvs (lay_cut _ _ _ _ _ _ HL (proj1 X))).
      change (wrap_u32 (incr + 1), view (p_buf s') lv)
        with (fst (wrap_u32 (incr + 1), lv), view (p_buf s') (snd (wrap_u32 (incr + 1), lv))).
      rewrite <- put_view.
      apply IHo; [lia|lia|lia| |now left].
      apply put_lay. cbn [snd]. change ((ks, ke) :: windows lv) with ([(ks, ke)] ++ windows lv).
      destruct K1 as (K1 & K2). destruct Lv as (Lv1 & Lv2).
      inversion K1 as [|? ? K1a K1b]; subst. inversion K2 as [|? ? K2a K2b]; subst.
      split.
      - cbn [app]. constructor; [eapply inside_le; [| |exact K1a]; lia|]. apply Forall_app. split.
        + eapply Forall_impl; [|exact Lv1]. intros; eapply inside_le; [| |eassumption]; lia.
        + eapply Forall_impl; [|exact K1b]. intros; eapply inside_le; [| |eassumption]; lia.
      - assert (Hbef : forall w w', inside lo off w -> inside off e w' -> apart w w').
        { unfold inside, apart. intros. lia. }
        rewrite Forall_forall in *. cbn [app]. constructor.
        + apply Forall_forall. intros w Hw. apply in_app_or in Hw. destruct Hw as [Hw|Hw].
          * apply Hbef; [assumption|]. now apply Lv1.
          * now apply K2a.
        + apply fop_app. split; [assumption|]. split; [assumption|].
          intros w w' Hw Hw'. apply apart_sym. apply Hbef; [now apply K1b|now apply Lv1]. }
    destruct (c =? 125).
    { destruct (0 <? ke)%nat; [apply sim_err; lia|]. cbn [sim view windows].
      split; [reflexivity|]. split; [reflexivity|]. split; [reflexivity|]. split; [apply went_refl; lia|exact HL']. }
    destruct (c =? 44).
    { destruct (0 <? ke)%nat; [apply sim_err; lia|]. apply (sim_weaken _ _ (S off')); [lia|lia|].
      apply IHo; try assumption; try lia; reflexivity. }
    destruct (c =? 58).
    { destruct colon; [apply sim_err; lia|]. destruct (key_missing ke true); [apply sim_err; lia|].
      apply (sim_weaken _ _ (S off')); [lia|lia|]. apply IHo; try assumption; try lia; reflexivity. }
    destruct (c =? 123).
    { destruct (key_missing ke colon) eqn:Hm; [apply sim_err; lia|].
      apply (sim_bind _ _ _ off _ _ kp kl); [|now apply Hstore].
      apply (sim_pool _ _ off'); [lia|].
      apply (IHo (pool_get s) (S off') _ 0 [] 0%nat 0%nat false off); cbn [pool_get p_buf]; try lia; apply lay_nil. }
    destruct (c =? 91).
    { destruct (key_missing ke colon) eqn:Hm; [apply sim_err; lia|].
      apply (sim_bind _ _ _ off _ _ kp kl); [|now apply Hstore].
      apply (sim_pool _ _ off'); [lia|].
      apply (IHa (pool_get s) (S off') _ [] off); cbn [pool_get p_buf]; try lia; apply lay_nil. }
    destruct (Z.eqb_spec c 34) as [->|Hc34].
    { destruct (0 <? ke)%nat eqn:Hke.
      - destruct (negb colon) eqn:Hcol; [apply sim_err; lia|].
        assert (Hm : key_missing ke colon = false).
        { unfold key_missing. rewrite Hcol. apply Nat.ltb_lt in Hke. destruct (Nat.eqb_spec ke 0); [lia|reflexivity]. }
        destruct (string_sim s off' t H1) as [(er & -> & Hq)|(str & e & s' & -> & X & Hc & He)]; cbn [pbind]; [eapply sim_str; [lia|exact H1|exact Hq]|].
        assert (X' : went s s' off e) by (eapply went_weaken; [|exact X]; lia).
        apply (sim_ext _ s' _ e); [exact X'|].
        pose proof (Hstore Hm (LStr (S off', (S off' + List.length str)%nat)) e s' X') as HN. cbn [view windows] in HN.
        rewrite Hc in HN. apply HN. apply lay_one; lia.
      - destruct (string_sim s off' t H1) as [(er & -> & Hq)|(str & e & s' & -> & X & Hc & He)]; cbn [pbind]; [eapply sim_str; [lia|exact H1|exact Hq]|].
        assert (X' : went s s' off e) by (eapply went_weaken; [|exact X]; lia).
        apply (sim_ext _ s' _ e); [exact X'|]. pose proof (went_order _ _ _ _ X'); pose proof (went_len _ _ _ _ X').
        rewrite <- (vent_agree _ _ kvs (lay_cut _ _ _ _ _ _ HL (proj1 X'))).
        apply IHo; [lia|lia|lia|eapply lay_le; [| |exact HL]; lia|]. right. split; [lia|].
        destruct HL as (A & B). split.
        + constructor; [unfold inside; cbn [fst snd]; lia|].
          eapply Forall_impl; [|exact A]. intros; eapply inside_le; [| |eassumption]; lia.
        + constructor; [|assumption]. eapply Forall_impl; [|exact A].
          intros w Hw. unfold inside, apart in *. cbn [fst snd] in *. lia. }
    destruct (p_scalar E s c off') as [p|] eqn:Hp; [|apply sim_err; lia].
    destruct (key_missing ke colon) eqn:Hm; [apply sim_err; lia|].
    pose proof (scalar_sim s c off' t p H1 Hp) as SC.
    apply (sim_weaken _ off) in SC; [|lia|lia].
    assert (Hpb : forall k : loc -> nat -> pst -> pres (loc * nat),
       pbind p (fun '(v, e) s' => k (scalar_at v off' e) e s') =
       pbind (pbind p (fun '(v, e) s' => POk (scalar_at v off' e, e) s')) (fun '(v, e) s' => k v e s')).
    { intros k. destruct p as [[? ?] ?|? ?| |]; reflexivity. }
    match goal with |- sim _ _ _ ?P _ =>
      change (sim s off lo P (pbind p (fun '(v, e) s' => kl (scalar_at v off' e) e s'))) end.
    rewrite (Hpb kl).
    apply (sim_bind _ _ _ off' _ _ kp kl); [exact SC|].
    intros lv e s' X Lv. apply Hstore; [reflexivity|assumption|]. eapply lay_le; [| |exact Lv]; lia.
Qed.

Lemma unmarshal_sim b :
  match run_unmarshal E b, l_unmarshal_iter E (pst0 b) 0 with
  | POk v s, POk lv s' => s' = s /\ v = view (p_buf s) lv /\ wr (pst0 b) s 0 /\ lay 0 (List.length b) (windows lv)
  | PErr a s, PErr a' s' => a' = a /\ s' = s /\ fell (pst0 b) s 0 a
  | PPanic, PPanic => True
  | PFuel, PFuel => True
  | _, _ => False
  end.
Proof.
  unfold run_unmarshal, unmarshal_iter, l_unmarshal_iter. cbn zeta. cbn [pst0 p_buf].
  pose proof (skip_blanks_spec b 0 _ eq_refl ltac:(lia)) as SB.
  destruct (q_skip (skipn 0 b)) as [|c t]; [rewrite SB; cbn [lift]; apply (sim_err (pst0 b) 0 0); cbn [pst0 p_buf]; lia|].
  destruct SB as (off' & -> & H1 & H2 & H3). cbn [lift].
  rewrite (bget_skipn _ _ _ _ H1). cbn [lift].
  assert (Hfin : forall p l, sim (pst0 b) 0 0 p l ->
    match
      pbind p (fun '(v, e) s' => lift (skip_blanks (p_buf s') e (List.length b)) s' (fun '(_, reach') =>
         if reach' : bool then POk v s' else PErr ErrRawBytesUnrecognized s')),
      pbind l (fun '(v, e) s' => lift (skip_blanks (p_buf s') e (List.length b)) s' (fun '(_, reach') =>
         if reach' : bool then POk v s' else PErr ErrRawBytesUnrecognized s'))
    with
    | POk v s, POk lv s' => s' = s /\ v = view (p_buf s) lv /\ wr (pst0 b) s 0 /\ lay 0 (List.length b) (windows lv)
    | PErr a s, PErr a' s' => a' = a /\ s' = s /\ fell (pst0 b) s 0 a
    | PPanic, PPanic => True
    | PFuel, PFuel => True
    | _, _ => False
    end).
  { intros p l HS. unfold sim in HS.
    destruct p as [[v e1] s1|a s1| |], l as [[lv e2] s2|a' s2| |]; try contradiction; cbn [pbind]; try exact HS.
    destruct HS as (-> & -> & -> & X & L). pose proof (went_order _ _ _ _ X).
    destruct (skip_blanks (p_buf s1) e1 (List.length b)) as [[o r]|er| |]; cbn [lift]; auto.
    2: { split; [reflexivity|]. split; [reflexivity|]. exists s1, e1. split; [exact X|]. split; [reflexivity|now left]. }
    destruct r; [|split; [reflexivity|]; split; [reflexivity|]; exists s1, e1; split; [exact X|]; split; [reflexivity|now left]]. split; [reflexivity|]. split; [reflexivity|]. split; [apply X|]. eapply lay_le; [| |exact L]; cbn [pst0 p_buf] in *; lia. }
  set (pp := if c =? 123 then _ else _). set (ll := if c =? 123 then _ else _).
  apply (Hfin pp ll). clear Hfin. unfold pp, ll. clear pp ll.
  destruct (c =? 123).
  { apply (sim_pool _ _ off'); [lia|].
    apply (proj2 (loops_sim (S (List.length b))) (pool_get (pst0 b)) (S off') _ 0 [] 0%nat 0%nat false 0%nat);
      cbn [pool_get pst0 p_buf]; try lia; apply lay_nil. }
  destruct (c =? 91).
  { apply (sim_pool _ _ off'); [lia|].
    apply (proj1 (loops_sim (S (List.length b))) (pool_get (pst0 b)) (S off') _ [] 0%nat);
      cbn [pool_get pst0 p_buf]; try lia; apply lay_nil. }
  destruct (Z.eqb_spec c 34) as [->|Hc34].
  { destruct (string_sim (pst0 b) off' t H1) as [(er & -> & Hq)|(str & e & s' & -> & X & Hc & He)]; cbn [pbind]; [eapply sim_str; [lia|exact H1|exact Hq]|].
    cbn [sim view windows]. split; [reflexivity|]. split; [reflexivity|]. split; [now rewrite Hc|].
    split; [eapply went_weaken; [|exact X]; lia|]. apply lay_one; lia. }
  destruct (p_scalar E (pst0 b) c off') as [p|] eqn:Hp; [|apply sim_err; lia].
  pose proof (scalar_sim (pst0 b) c off' t p H1 Hp) as SC.
  apply (sim_weaken _ 0) in SC; [|lia|cbn [pst0 p_buf]; lia].
  unfold sim in *. destruct p as [[v e1] s1|a s1| |]; cbn [pbind] in *; auto.
  destruct SC as (A1 & A2 & A3 & A4 & A5). split; [exact A1|]. split; [exact A2|]. split; [exact A3|]. split; [exact A4|].
  eapply lay_le; [| |exact A5]; lia.
Qed.
End Main.
