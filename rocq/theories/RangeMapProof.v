(** Iteration over an object whose callback edits it. *)
From Verif Require Import Base Utf8 Float64 Value Scan Opt Marshal Access Path Edit Iter RangeEdit SpecRangeEdit ListLemmas ValueLemmas.

(** *** Calls *)
Lemma member_names v k : member v k <> None <-> In k (names v).
Proof.
  unfold member, names. change (map fst (object_of v)) with (akeys (object_of v)).
  destruct (alookup k (object_of v)) as [[id x]|] eqn:E0.
  - split; [|congruence]. intros _. now apply alookup_Some_key in E0.
  - apply alookup_None in E0. split; [congruence|]. contradiction.
Qed.
Lemma member_lookup v k : member v k = None <-> alookup k (object_of v) = None.
Proof. unfold member. destruct (alookup k (object_of v)) as [[? ?]|]; split; congruence. Qed.

Lemma o_exec_set_eq E W i kvs lo k x :
  o_exec E W (VObj i kvs lo) (OSet k x) =
  if uninitialized x then VObj i kvs lo
  else VObj (wrap_u32 (i + 1)) (aset k (wrap_u32 (i + 1), x) kvs) (add_caseless_key E k lo).
Proof. cbn. destruct x; reflexivity. Qed.

Lemma o_exec_members E W v a : object v -> object (o_exec E W v a) /\ is_members (o_exec E W v a) (changed (member v) a).
Proof.
  intros [(i & kvs & lo & ->) Hn]. destruct a as [k x|k].
  - rewrite o_exec_set_eq. cbn [changed]. destruct (uninitialized x) eqn:Ex.
    + split; [split; [eauto|exact Hn]|]. intros k'. destruct x; try discriminate Ex; reflexivity.
    + split; [split; [eauto|]|].
      * unfold names. cbn [object_of]. now apply (NoDup_aset k).
      * intros k'. assert (Hd : member (VObj (wrap_u32 (i + 1)) (aset k (wrap_u32 (i + 1), x) kvs) (add_caseless_key E k lo)) k' =
                           if beqb k k' then Some x else member (VObj i kvs lo) k').
        { unfold member. cbn [object_of]. destruct (beqb_spec k k') as [->|Hne].
          - now rewrite alookup_aset_same.
          - now rewrite alookup_aset_other by congruence. }
        rewrite Hd. destruct x; try discriminate Ex; reflexivity.
  - cbn [changed]. unfold o_exec, delete_at. cbn -[del_from_object]. unfold del_from_object.
    destruct (alookup k kvs) as [e|] eqn:Ek; cbn [fst].
    + split; [split; [eauto|]|].
      * unfold names. cbn [object_of]. now apply (NoDup_aremove k).
      * intros k'. unfold member. cbn [object_of]. destruct (beqb_spec k k') as [->|Hne].
        -- now rewrite alookup_aremove_same.
        -- now rewrite alookup_aremove_other by congruence.
    + split; [split; [eauto|exact Hn]|]. intros k'. unfold member. cbn [object_of].
      destruct (beqb_spec k k') as [->|Hne]; [|reflexivity]. now rewrite Ek.
Qed.

Lemma changed_ext f f' a : (forall k, f k = f' k) -> forall k, changed f a k = changed f' a k.
Proof. intros H k. destruct a as [k' x|k']; cbn [changed]; [destruct x|]; auto; now destruct (beqb k' k). Qed.

Lemma o_execs_members E W : forall l v mm v' mm', object v -> o_execs E W v mm l = (v', mm') ->
  object v' /\ v' = fold_left (o_exec E W) l v /\ forall f, is_members v f -> is_members v' (fold_left changed l f).
Proof.
  induction l as [|a l IH]; intros v mm v' mm' Ho He; cbn [o_execs fold_left] in *.
  - injection He as <- <-. auto.
  - destruct (o_exec_members E W v a Ho) as [Ho1 Hm1]. destruct (IH _ _ _ _ Ho1 He) as (Ho' & Hv' & Hf). split; [exact Ho'|].
    split; [exact Hv'|]. intros f Hm. apply Hf. intros k. rewrite Hm1. now apply changed_ext.
Qed.

(** *** What is still to come *)
Record tracked (v : V) (mm : list bytes * list bytes) : Prop := {
  tr_must : NoDup (fst mm);
  tr_may : NoDup (snd mm);
  tr_apart : forall k, In k (fst mm) -> In k (snd mm) -> False;
  tr_there : forall k, In k (fst mm) \/ In k (snd mm) -> member v k <> None;
}.

Lemma In_key_of k l x : In x (filter (key_of k) l) <-> x <> k /\ In x l.
Proof.
  rewrite filter_In. unfold key_of. destruct (beqb_spec k x) as [->|H]; cbn [negb]; intuition congruence.
Qed.

Lemma tracked_drop v must may k : tracked v (must, may) -> tracked v (filter (key_of k) must, filter (key_of k) may).
Proof.
  intros [a b c d]. constructor; cbn [fst snd] in *; try (now apply NoDup_filter).
  - intros x Hx Hy. apply In_key_of in Hx, Hy. apply (c x); tauto.
  - intros x Hx. rewrite !In_key_of in Hx. apply d. tauto.
Qed.

Lemma track_tracked E W v mm a : object v -> tracked v mm -> tracked (o_exec E W v a) (track v mm a (o_exec E W v a)).
Proof.
  intros Ho Ht. destruct (o_exec_members E W v a Ho) as [_ Hm]. destruct mm as [must may]. destruct a as [k x|k]; cbn [track].
  - assert (Hkeep : forall k', member v k' <> None -> member (o_exec E W v (OSet k x)) k' <> None).
    { intros k' Hk'. rewrite Hm. cbn [changed]. destruct x; auto; destruct (beqb k k'); congruence. }
    destruct Ht as [a b c d]. cbn [fst snd] in *.
    destruct (alookup k (object_of v)) as [[id y]|] eqn:E0; [constructor; cbn [fst snd]; auto|].
    destruct (alookup k (object_of (o_exec E W v (OSet k x)))) as [[id y]|] eqn:E1; [|constructor; cbn [fst snd]; auto].
    assert (Hk : member v k = None) by now apply member_lookup.
    constructor; cbn [fst snd]; auto.
    + constructor; [|exact b]. intros Hin. now apply (d k); auto.
    + intros k' Hin [<-|Hin']; [now apply (d k); auto|now apply (c k')].
    + intros k' [Hin|[<-|Hin]]; [auto| |auto]. rewrite member_lookup. congruence.
  - apply (tracked_drop _ _ _ k) in Ht. destruct Ht as [a b c d]. constructor; cbn [fst snd] in *; auto.
    intros k' Hin. rewrite Hm. cbn [changed]. rewrite (In_key_of k must), (In_key_of k may) in Hin.
    destruct (beqb_spec k k') as [->|Hne]; [tauto|]. apply d. rewrite !In_key_of. tauto.
Qed.

Lemma tracks E W : forall l v mm v' mm', object v -> tracked v mm -> o_execs E W v mm l = (v', mm') -> tracked v' mm'.
Proof.
  induction l as [|a l IH]; intros v mm v' mm' Ho Ht He; cbn [o_execs] in He.
  - now injection He as <- <-.
  - apply (IH _ _ _ _ (proj1 (o_exec_members E W v a Ho)) (track_tracked E W v mm a Ho Ht) He).
Qed.

(** Only settings: what is to come stays, and what comes in is new. *)
Lemma sets_track E W : forall l v must may v' mm', object v -> Forall (fun a => exists k y, a = OSet k y) l ->
  o_execs E W v (must, may) l = (v', mm') ->
  fst mm' = must /\ (forall k, In k (snd mm') -> In k may \/ member v k = None) /\
  (forall k, member v k <> None -> member v' k <> None).
Proof.
  induction l as [|a l IH]; intros v must may v' mm' Ho Hf He; cbn [o_execs] in He.
  - injection He as <- <-. cbn [fst snd]. auto.
  - inversion Hf as [|? ? (k & y & ->) Hf']; subst. destruct (o_exec_members E W v (OSet k y) Ho) as [Ho1 Hm].
    assert (Hkeep : forall k', member v k' <> None -> member (o_exec E W v (OSet k y)) k' <> None).
    { intros k' Hk'. rewrite Hm. cbn [changed]. destruct y; auto; destruct (beqb k k'); congruence. }
    destruct (track v (must, may) (OSet k y) (o_exec E W v (OSet k y))) as [must1 may1] eqn:Et.
    assert (Hone : must1 = must /\ forall k', In k' may1 -> In k' may \/ member v k' = None).
    { cbn [track] in Et. destruct (alookup k (object_of v)) as [[id z]|] eqn:E0; [injection Et as <- <-; auto|].
      destruct (alookup k (object_of (o_exec E W v (OSet k y)))) as [[id z]|]; injection Et as <- <-; auto.
      split; [reflexivity|]. intros k' [<-|Hin]; [right; now apply member_lookup|now left]. }
    destruct Hone as [-> Hmay]. destruct (IH _ _ _ _ _ Ho1 Hf' He) as (Hmust & Hmay' & Hk').
    split; [exact Hmust|]. split; [|auto]. intros k' Hin. destruct (Hmay' k' Hin) as [Hin'|Hnew]; [auto|].
    right. destruct (member v k') eqn:E0; [|reflexivity]. exfalso. apply (Hkeep k'); [congruence|exact Hnew].
Qed.

(** No new members: what is to come only gets less. *)
Lemma no_new_ext l : forall f f', (forall k, f k = f' k) -> no_new f l -> no_new f' l.
Proof.
  induction l as [|a l IH]; intros f f' Hff H; [constructor|].
  inversion H as [|? k ? Hr|? k x ? Hk Hr]; subst; constructor; try (now rewrite <- Hff);
    (eapply IH; [|exact Hr]); intros k0; now apply (changed_ext f f').
Qed.

Lemma no_new_track E W : forall l v must may v' mm', object v -> no_new (member v) l ->
  o_execs E W v (must, may) l = (v', mm') ->
  (forall k, In k (fst mm') -> In k must) /\ (forall k, In k (snd mm') -> In k may) /\
  (forall k, member v k = None -> member v' k = None) /\
  (forall k, In k must -> In k (fst mm') \/ member v' k = None).
Proof.
  induction l as [|a l IH]; intros v must may v' mm' Ho Hf He; cbn [o_execs] in He.
  - injection He as <- <-. cbn [fst snd]. auto.
  - destruct (o_exec_members E W v a Ho) as [Ho1 Hm].
    destruct (track v (must, may) a (o_exec E W v a)) as [must1 may1] eqn:Et.
    assert (Hone : (forall k, In k must1 -> In k must) /\ (forall k, In k may1 -> In k may) /\
                   (forall k, member v k = None -> member (o_exec E W v a) k = None) /\
                   (forall k, In k must -> In k must1 \/ member (o_exec E W v a) k = None) /\
                   no_new (member (o_exec E W v a)) l).
    { inversion Hf as [|? k ? Hr|? k x ? Hk Hr]; subst.
      - cbn [track] in Et. injection Et as <- <-.
        split; [intros k' Hk'; apply In_key_of in Hk'; tauto|]. split; [intros k' Hk'; apply In_key_of in Hk'; tauto|].
        split; [intros k' Hk'; rewrite Hm; cbn [changed]; now destruct (beqb k k')|].
        split; [|apply (no_new_ext _ _ _ (fun k => eq_sym (Hm k)) Hr)].
        intros k' Hk'. destruct (bytes_dec k' k) as [->|Hne].
        + right. rewrite Hm. cbn [changed]. now rewrite beqb_refl.
        + left. now apply In_key_of.
      - assert (Et' : (must1, may1) = (must, may)).
        { rewrite <- Et. cbn [track]. destruct (alookup k (object_of v)) as [[? ?]|] eqn:E0; [reflexivity|].
          apply member_lookup in E0. contradiction. }
        injection Et' as -> ->. split; [auto|]. split; [auto|].
        split; [|split; [auto|apply (no_new_ext _ _ _ (fun k => eq_sym (Hm k)) Hr)]].
        intros k' Hk'. rewrite Hm. cbn [changed]. destruct x; auto; (destruct (beqb_spec k k') as [<-|Hne]; [contradiction|exact Hk']). }
    destruct Hone as (H1 & H2 & H3 & H4 & H5). destruct (IH _ _ _ _ _ Ho1 H5 He) as (I1 & I2 & I3 & I4).
    split; [auto|]. split; [auto|]. split; [auto|]. intros k Hk. destruct (H4 k Hk) as [Hk1|Hk1]; auto.
Qed.

(** *** The loop *)
Section Loop.
Context {S : Type} (E : Env) (W : World) (cb : ocallback S).

Lemma map_replay mm st v t v' all : range_map E W cb mm st v t v' all -> object v -> forall f, is_members v f ->
  object v' /\ Forall (fun r => let '(w, k, x) := r in member w k = Some x) t /\
  exists f', oreplay cb st f t f' /\ is_members v' f'.
Proof.
  induction 1 as [may st v|must may st v k id x st' calls v' mm' Hin Hk Hcb He|must may st v k id x st' calls v1 mm1 t v' all Hin Hk Hcb He Hr IH];
    intros Ho f Hf.
  - split; [exact Ho|]. split; [constructor|]. exists f. split; [constructor|exact Hf].
  - destruct (o_execs_members E W _ _ _ _ _ Ho He) as (Ho' & _ & Hm). split; [exact Ho'|].
    split; [constructor; [unfold member; now rewrite Hk|constructor]|].
    eexists. split; [apply (OR_stop _ _ _ _ _ _ st' calls); [exact Hf|exact Hcb]|]. now apply Hm.
  - destruct (o_execs_members E W _ _ _ _ _ Ho He) as (Ho1 & _ & Hm).
    destruct (IH Ho1 _ (Hm f Hf)) as (Ho' & Hfor & f' & Hrep & Hm'). split; [exact Ho'|].
    split; [constructor; [unfold member; now rewrite Hk|exact Hfor]|].
    exists f'. split; [|exact Hm']. apply (OR_go _ _ _ _ _ _ st' calls); auto.
Qed.

Definition keys_told (t : list orecord) : list bytes := map fst (told t).

Lemma map_sets mm st v t v' all : range_map E W cb mm st v t v' all -> never_deletes cb -> object v -> tracked v mm ->
  NoDup (keys_told t) /\
  (forall k, In k (keys_told t) -> In k (fst mm) \/ In k (snd mm) \/ member v k = None) /\
  (all = true -> forall k, In k (fst mm) -> In k (keys_told t)).
Proof.
  intros H Hnd. induction H as [may st v|must may st v k id x st' calls v' mm' Hin Hk Hcb He|must may st v k id x st' calls v1 mm1 t v' all Hin Hk Hcb He Hr IH];
    intros Ho Ht.
  - split; [constructor|]. split; [intros ? []|]. intros _ k [].
  - cbn. split; [repeat constructor; intros []|]. split; [|discriminate]. intros k' [<-|[]]. tauto.
  - destruct (o_execs_members E W _ _ _ _ _ Ho He) as (Ho1 & _ & _).
    pose proof (tracks E W _ _ _ _ _ Ho (tracked_drop _ _ _ k Ht) He) as Ht1.
    pose proof (Hnd st v k x) as Hf. rewrite Hcb in Hf. cbn [fst snd] in Hf.
    destruct (sets_track E W _ _ _ _ _ _ Ho Hf He) as (Hmust & Hmay & Hkeep).
    destruct (IH Ho1 Ht1) as (I1 & I2 & I3). cbn [fst snd] in *. unfold keys_told in *. cbn [told map fst snd].
    assert (Hkv : member v k <> None) by (unfold member; rewrite Hk; discriminate).
    split; [|split].
    + constructor; [|exact I1]. intros Hin'. apply I2 in Hin'. rewrite Hmust, In_key_of in Hin'.
      destruct Hin' as [[Hne _]|[Hin'|Hnone]]; [congruence| |now apply (Hkeep k)].
      apply Hmay in Hin'. rewrite In_key_of in Hin'. tauto.
    + intros k' [<-|Hin']; [tauto|]. apply I2 in Hin'. rewrite Hmust, In_key_of in Hin'. destruct Hin' as [[_ Hin']|[Hin'|Hnone]]; [auto| |].
      * apply Hmay in Hin'. rewrite In_key_of in Hin'. tauto.
      * right. right. destruct (member v k') eqn:E0; [|reflexivity]. exfalso. apply (Hkeep k'); [congruence|exact Hnone].
    + intros Hall k' Hin'. destruct (bytes_dec k k') as [->|Hne]; [now left|]. right. apply (I3 Hall). rewrite Hmust, In_key_of. split; congruence.
Qed.

Lemma map_no_new mm st v t v' all : range_map E W cb mm st v t v' all -> makes_no_new cb -> object v -> tracked v mm ->
  NoDup (keys_told t) /\
  (forall k, In k (keys_told t) -> In k (fst mm) \/ In k (snd mm)) /\
  (forall k, member v k = None -> member v' k = None) /\
  (all = true -> forall k, In k (fst mm) -> In k (keys_told t) \/ member v' k = None).
Proof.
  intros H Hnn. induction H as [may st v|must may st v k id x st' calls v' mm' Hin Hk Hcb He|must may st v k id x st' calls v1 mm1 t v' all Hin Hk Hcb He Hr IH];
    intros Ho Ht.
  - split; [constructor|]. split; [intros ? []|]. split; [auto|]. intros _ k [].
  - pose proof (Hnn st v k x) as Hf. rewrite Hcb in Hf. cbn [fst snd] in Hf.
    destruct (no_new_track E W _ _ _ _ _ _ Ho Hf He) as (_ & _ & H3 & _).
    cbn. split; [repeat constructor; intros []|]. split; [intros k' [<-|[]]; tauto|]. split; [exact H3|discriminate].
  - destruct (o_execs_members E W _ _ _ _ _ Ho He) as (Ho1 & _ & _).
    pose proof (tracks E W _ _ _ _ _ Ho (tracked_drop _ _ _ k Ht) He) as Ht1.
    pose proof (Hnn st v k x) as Hf. rewrite Hcb in Hf. cbn [fst snd] in Hf.
    destruct (no_new_track E W _ _ _ _ _ _ Ho Hf He) as (Hmust & Hmay & Hnone & Hgone).
    destruct (IH Ho1 Ht1) as (I1 & I2 & I3 & I4). cbn [fst snd] in *. unfold keys_told in *. cbn [told map fst snd].
    assert (Hless : forall k', In k' (fst mm1) \/ In k' (snd mm1) -> k' <> k /\ (In k' must \/ In k' may)).
    { intros k' [Hk'|Hk']; [apply Hmust in Hk'|apply Hmay in Hk']; apply In_key_of in Hk'; tauto. }
    split; [|split; [|split]].
    + constructor; [|exact I1]. intros Hin'. apply I2, Hless in Hin'. tauto.
    + intros k' [<-|Hin']; [exact Hin|]. now apply I2, Hless in Hin'.
    + auto.
    + intros Hall k' Hin'. destruct (bytes_dec k k') as [->|Hne]; [left; now left|].
      destruct (Hgone k') as [Hg|Hg]; [apply In_key_of; split; congruence| |].
      * destruct (I4 Hall k' Hg); [left; now right|now right].
      * right. now apply I3.
Qed.
End Loop.

Lemma start_tracked v : object v -> tracked v (akeys (object_of v), []).
Proof.
  intros [_ Hn]. constructor; cbn [fst snd]; auto; [constructor|].
  intros k [Hk|[]]. now apply member_names.
Qed.

(** *** The loop that deletes *)
Lemma deleting_members_loop E W p mm st v t v' all : range_map E W (deleting_members p) mm st v t v' all ->
  object v -> tracked v mm -> snd mm = [] ->
  all = true /\ NoDup (keys_told t) /\
  (forall k x, In (k, x) (told t) <-> In k (fst mm) /\ member v k = Some x) /\
  (forall k, member v' k = if existsb (beqb k) (fst mm)
                           then match member v k with Some x => if p k x then None else Some x | None => None end
                           else member v k).
Proof.
  induction 1 as [may st v|must may st v k id x st' calls v' mm' Hin Hk Hcb He|must may st v k id x st' calls v1 mm1 t v' all Hin Hk Hcb He Hr IH];
    intros Ho Ht Hmay; [|discriminate Hcb|].
  - split; [reflexivity|]. split; [constructor|]. split; [|reflexivity]. cbn. tauto.
  - cbn [snd] in Hmay. subst may. destruct Hin as [Hin|[]].
    pose proof (tracks E W _ _ _ _ _ Ho (tracked_drop _ _ _ k Ht) He) as Ht1.
    destruct (o_execs_members E W _ _ _ _ _ Ho He) as (Ho1 & _ & Hmem).
    assert (Hkx : member v k = Some x) by (unfold member; now rewrite Hk).
    unfold deleting_members in Hcb. injection Hcb as _ <-.
    assert (Hmm : (forall k', In k' (fst mm1) <-> k' <> k /\ In k' must) /\ snd mm1 = [] /\
                  forall k', member v1 k' = if beqb k k' then (if p k x then None else Some x) else member v k').
    { specialize (Hmem (member v) (fun _ => eq_refl)).
      destruct (p k x); cbn [o_execs track] in He; injection He as <- <-; cbn [fst snd].
      - split; [intros k'; rewrite !In_key_of; tauto|]. split; [reflexivity|]. intros k'. rewrite Hmem. cbn [fold_left changed]. reflexivity.
      - split; [intros k'; apply In_key_of|]. split; [reflexivity|]. intros k'. destruct (beqb_spec k k') as [<-|]; [exact Hkx|reflexivity]. }
    destruct Hmm as (Hmust1 & Hmay1 & Hv1). destruct (IH Ho1 Ht1 Hmay1) as (Hall & Hnd & Htold & Hfin). cbn [fst snd] in *.
    split; [exact Hall|]. split; [|split].
    + unfold keys_told in *. cbn [told map fst snd]. constructor; [|exact Hnd]. intros Hink. apply in_map_iff in Hink.
      destruct Hink as ([k' x'] & E0 & Hin'). cbn [fst] in E0. subst k'. apply Htold in Hin'. destruct Hin' as [Hin' _]. apply Hmust1 in Hin'. tauto.
    + intros k' x'. cbn [told map fst snd In]. rewrite (Htold k' x'), Hmust1, Hv1. split.
      * intros [[= <- <-]|[[Hne Hin'] Hm']]; [auto|]. split; [exact Hin'|]. destruct (beqb_spec k k'); [congruence|exact Hm'].
      * intros [Hin' Hm']. destruct (bytes_dec k' k) as [->|Hne]; [left; congruence|]. right. split; [auto|]. destruct (beqb_spec k k'); [congruence|exact Hm'].
    + intros k'. rewrite Hfin, Hv1. destruct (beqb_spec k k') as [<-|Hne].
      * assert (existsb (beqb k) (fst mm1) = false) as ->.
        { destruct (existsb (beqb k) (fst mm1)) eqn:E0; [|reflexivity]. apply existsb_beqb_In, Hmust1 in E0. tauto. }
        assert (existsb (beqb k) must = true) as -> by now apply existsb_beqb_In. now rewrite Hkx.
      * assert (existsb (beqb k') (fst mm1) = existsb (beqb k') must) as ->; [|reflexivity].
        apply eq_true_iff_eq. rewrite !existsb_beqb_In, Hmust1. split; [tauto|]. intros Hin'. split; [congruence|exact Hin'].
Qed.

(** It can run through the members in any order. *)
Lemma deleting_members_runs E W p : forall ks must v st, object v -> (forall k, In k must <-> In k ks) -> NoDup ks ->
  (forall k, In k ks -> member v k <> None) ->
  exists t v', range_map E W (deleting_members p) (must, []) st v t v' true /\ keys_told t = ks.
Proof.
  induction ks as [|k ks IH]; intros must v st Ho Hmust Hnd Hthere.
  - destruct must as [|k must]; [|exfalso; now apply (Hmust k); left]. exists [], v. split; [constructor|reflexivity].
  - inversion Hnd as [|? ? Hnin Hnd']; subst.
    destruct (alookup k (object_of v)) as [[id x]|] eqn:Ek.
    2:{ exfalso. apply (Hthere k); [now left|]. now apply member_lookup. }
    destruct (o_execs E W v (filter (key_of k) must, []) (if p k x then [ODelete k] else [])) as [v1 mm1] eqn:He.
    destruct (o_execs_members E W _ _ _ _ _ Ho He) as (Ho1 & _ & Hmem). specialize (Hmem (member v) (fun _ => eq_refl)).
    assert (Hmm : exists must1, mm1 = (must1, []) /\ forall k', In k' must1 <-> In k' ks).
    { assert (Hb : forall k', k' <> k /\ In k' must <-> In k' ks).
      { intros k'. rewrite Hmust. cbn [In]. split; [intros [? [?|?]]; congruence|]. intros H. split; [intros ->; contradiction|auto]. }
      destruct (p k x); cbn [o_execs track filter] in He; injection He as _ <-; eexists; (split; [reflexivity|]).
      - intros k'. rewrite !In_key_of, <- Hb. tauto.
      - intros k'. rewrite In_key_of. apply Hb. }
    destruct Hmm as (must1 & -> & Hm1).
    destruct (IH must1 v1 tt Ho1 Hm1 Hnd') as (t & v' & Hr & Ht).
    { intros k' Hk'. rewrite Hmem. destruct (p k x); cbn [fold_left changed].
      - destruct (beqb_spec k k') as [->|]; [contradiction|]. apply Hthere. now right.
      - apply Hthere. now right. }
    exists ((v, k, x) :: t), v'. split.
    + apply (RM_go E W _ must [] st v k id x tt (if p k x then [ODelete k] else []) v1 (must1, []) t v' true); auto.
      left. apply Hmust. now left.
    + unfold keys_told in *. cbn [told map fst snd]. now rewrite <- Ht.
Qed.

(** *** The loop over entries gathered beforehand *)
Lemma entries_loop {S} E W (cb : ocallback S) : forall es st v t v', object v -> range_entries E W cb es st v = (t, v') ->
  told t = firstn (List.length t) es /\ ((forall st w k x, snd (cb st w k x) = true) -> told t = es) /\ object v' /\
  forall f, is_members v f -> exists f', oreplay cb st f t f' /\ is_members v' f'.
Proof.
  induction es as [|[k x] es IH]; intros st v t v' Ho He; cbn [range_entries] in He.
  - injection He as <- <-. split; [reflexivity|]. split; [reflexivity|]. split; [exact Ho|]. intros f Hf. exists f. split; [constructor|exact Hf].
  - destruct (cb st v k x) as [[st' calls] go] eqn:Hcb.
    destruct (o_execs E W v ([], []) calls) as [v1 mm1] eqn:Hx. destruct (o_execs_members E W _ _ _ _ _ Ho Hx) as (Ho1 & Hv1 & Hmem).
    rewrite <- Hv1 in He. destruct go.
    + destruct (range_entries E W cb es st' v1) as [t1 w1] eqn:E1. injection He as <- <-.
      destruct (IH _ _ _ _ Ho1 E1) as (Ht & Hall & Ho' & Hrep). cbn [told map fst snd List.length firstn].
      split; [f_equal; exact Ht|]. split; [intros Hg; f_equal; exact (Hall Hg)|]. split; [exact Ho'|].
      intros f Hf. destruct (Hrep _ (Hmem f Hf)) as (f' & Hr & Hm). exists f'. split; [|exact Hm].
      apply (OR_go _ _ _ _ _ _ st' calls); auto.
    + injection He as <- <-. cbn [told map fst snd List.length firstn]. split; [reflexivity|].
      split; [intros Hg; specialize (Hg st v k x); rewrite Hcb in Hg; discriminate|]. split; [exact Ho1|].
      intros f Hf. eexists. split; [apply (OR_stop _ _ _ _ _ _ st' calls); [exact Hf|exact Hcb]|]. now apply Hmem.
Qed.
