(** The order of last setting over histories (C23). *)
From Verif Require Import Base Utf8 Float64 Value Scan Unmarshal Pure Opt Marshal Access Path Edit
  SpecJson SpecValue SpecText SpecLax SpecOrder SpecOut SpecOpts SpecPath SpecHistory
  ListLemmas ValueLemmas ParseFacts ParseComplete SortProof OrderProof LaxParse MarshalProof RoundTrip SeqProof PathProof EditProof SetProof EditClaims
  HistoryProof HistoryClaims MarshalClaims ExampleWorld.

(** *** Distinct numbers *)
Definition dated (n : nat) (i : Z) (kvs : list kv) (_ : lower_t) : Prop :=
  NoDup (akeys kvs) /\
  (Z.of_nat n < two32 -> NoDup (map (fun e : kv => fst (snd e)) kvs) /\ Forall (fun e : kv => fst (snd e) <= i) kvs /\ 0 <= i <= Z.of_nat n).

Lemma NoDup_map_filter {A B} (f : A -> B) p l : NoDup (map f l) -> NoDup (map f (filter p l)).
Proof.
  induction l as [|x l IH]; cbn; intros H; [constructor|]. apply NoDup_cons_iff in H as (H1 & H2).
  destruct (p x); [|auto]. cbn. constructor; [|auto]. intros Hi. apply H1. apply in_map_iff in Hi as (y & <- & Hy).
  apply filter_In in Hy. now apply in_map.
Qed.
Lemma Forall_filter {A} (Q : A -> Prop) p l : Forall Q l -> Forall Q (filter p l).
Proof. rewrite !Forall_forall. intros H x Hx. apply filter_In in Hx. now apply H. Qed.

Lemma map_stamp_aset (k : bytes) id (x c : V) (l : list kv) : alookup k l = Some (id, x) ->
  map (fun e : kv => (fst e, fst (snd e))) (aset k (id, c) l) = map (fun e : kv => (fst e, fst (snd e))) l.
Proof.
  induction l as [|[k' [id' y]] r IH]; [discriminate|]. cbn. destruct (beqb_spec k k') as [->|Hn].
  - intros [= -> ->]. reflexivity.
  - intros H. cbn. f_equal. now apply IH.
Qed.
Lemma ids_of_stamps (l l' : list kv) :
  map (fun e : kv => (fst e, fst (snd e))) l = map (fun e : kv => (fst e, fst (snd e))) l' ->
  map (fun e : kv => fst (snd e)) l = map (fun e : kv => fst (snd e)) l' /\ akeys l = akeys l'.
Proof.
  intros H. apply (f_equal (map (@snd bytes Z))) in H as H1. apply (f_equal (map (@fst bytes Z))) in H as H2.
  rewrite !map_map in H1, H2. auto.
Qed.

Lemma dated_of_perm n i kvs lo l : dated n i kvs lo -> Permutation l kvs -> dated n i l lo.
Proof.
  intros (H1 & H2) Hp. split; [eapply Permutation_NoDup; [apply Permutation_map, Permutation_sym, Hp|exact H1]|].
  intros Hn. destruct (H2 Hn) as (G1 & G2 & G3). split; [|split; [|exact G3]].
  - eapply Permutation_NoDup; [apply Permutation_map, Permutation_sym, Hp|exact G1].
  - eapply Permutation_Forall; [apply Permutation_sym, Hp|exact G2].
Qed.

Lemma dated_set n i kvs lo k c lo' : dated n i kvs lo ->
  dated (S n) (wrap_u32 (i + 1)) (aset k (wrap_u32 (i + 1), c) kvs) lo'.
Proof.
  intros (H1 & H2). split; [now apply NoDup_aset|]. intros Hn. destruct H2 as (G1 & G2 & G3); [lia|].
  assert (Ew : wrap_u32 (i + 1) = i + 1) by (unfold wrap_u32; apply Z.mod_small; lia). rewrite Ew.
  pose proof (aset_perm k (i + 1, c) kvs H1) as Hp. split; [|split; [|lia]].
  - eapply Permutation_NoDup; [apply Permutation_map, Permutation_sym, Hp|]. rewrite map_app. apply NoDup_app_single; [now apply NoDup_map_filter|].
    intros Hi. apply in_map_iff in Hi as (e & He & Hi). apply filter_In in Hi as (Hi & _). rewrite Forall_forall in G2. apply G2 in Hi. cbn in *. lia.
  - eapply Permutation_Forall; [apply Permutation_sym, Hp|]. apply Forall_app. split; [|constructor; [cbn; lia|constructor]].
    apply Forall_filter. revert G2. apply Forall_impl. intros e. lia.
Qed.

Lemma aremove_filter {A} k (l : list (bytes * A)) : aremove k l = filter (neqk k) l.
Proof. induction l as [|[k' a] r IH]; [reflexivity|]. cbn. rewrite (beqb_sym k' k). destruct (beqb k k'); cbn; now rewrite IH. Qed.

Theorem history_dated E n v : history E n v -> all_obj (dated n) v.
Proof.
  apply (history_good E dated).
  - split; [constructor|]. intros _. split; [constructor|]. split; [constructor|]. cbn. lia.
  - intros n0 m i kvs lo Hm (H1 & H2). split; [exact H1|]. intros Hn. destruct H2 as (G1 & G2 & G3); [lia|]. repeat split; try assumption; lia.
  - intros n0 i kvs lo k id x c (H1 & H2) El. pose proof (map_stamp_aset k id x c kvs El) as Hs.
    destruct (ids_of_stamps _ _ Hs) as (Hi & Hk).
    split; [now rewrite Hk|]. intros Hn. destruct (H2 Hn) as (G1 & G2 & G3).
    rewrite Hi. split; [exact G1|]. split; [|exact G3].
    assert (G : Forall (fun z => z <= i) (map (fun e : kv => fst (snd e)) kvs)) by (apply Forall_map; exact G2).
    rewrite <- Hi in G. exact (proj1 (Forall_map _ _ _) G).
  - intros n0 i kvs lo k c. apply dated_set.
  - intros n0 i kvs lo k (H1 & H2) _. split; [now apply NoDup_aremove|]. intros Hn. destruct (H2 Hn) as (G1 & G2 & G3).
    rewrite aremove_filter. split; [now apply NoDup_map_filter|]. split; [now apply Forall_filter|exact G3].
  - intros n0 i kvs lo f (H1 & H2). split; [unfold akeys in *; rewrite map_map; exact H1|].
    intros Hn. destruct (H2 Hn) as (G1 & G2 & G3). rewrite map_map. split; [exact G1|]. split; [|exact G3].
    apply Forall_map. exact G2.
  - intros n0 i kvs lo H. exact H.
  - clear. intros n v. induction v as [ |s|nn src|i kvs lo IH|l IH|b| | | ] using V_ind'; intros H; try exact I.
    + apply fresh_obj in H as (_ & H1 & H2 & H3 & H4 & H). apply all_obj_obj. split; [split; [exact H1|auto]|].
      rewrite Forall_forall in *. auto.
    + apply fresh_arr in H. apply all_obj_arr. rewrite Forall_forall in *. auto.
Qed.

Lemma without_map {B} k (l : list (bytes * B)) : map fst (filter (neqk k) l) = without k (map fst l).
Proof.
  induction l as [|[k' e] r IH]; [reflexivity|]. cbn. unfold without in *. cbn.
  destruct (list_eq_dec Z.eq_dec k k') as [He|He]; destruct (beqb_spec k' k) as [Hb|Hb]; cbn; congruence.
Qed.

(** *** The order *)
Definition stamp_of (v : V) : option (Z * list (bytes * Z)) :=
  match v with VObj i kvs _ => Some (i, map (fun e : kv => (fst e, fst (snd e))) kvs) | _ => None end.

Definition ordered (n : nat) (s : option (Z * list (bytes * Z))) (ks : list bytes) : Prop :=
  exists i st, s = Some (i, st) /\ NoDup (map fst st) /\ 0 <= i <= Z.of_nat n /\
  exists st', Permutation st st' /\ ForallOrdPairs (fun x y : bytes * Z => snd x < snd y) st' /\ map fst st' = ks /\
    Forall (fun x => snd x <= i) st'.

Lemma stamp_put_child v h x c : child_at v h = Some x -> stamp_of (put_child v h c) = stamp_of v.
Proof.
  intros H. destruct v as [ |s|nn src|i kvs lo|l|b| | | ], h as [n|k]; try reflexivity. cbn in H. cbn [put_child].
  destruct (alookup k kvs) as [[id y]|] eqn:El; [|reflexivity]. cbn [stamp_of]. now rewrite (map_stamp_aset k id y c kvs El).
Qed.
Lemma stamp_find E W cl v p : stamp_of (fst (find_child E W cl v p)) = stamp_of v.
Proof.
  destruct v as [ |s|nn src|i kvs lo|l|b| | | ]; cbn [find_child]; try reflexivity.
  destruct (any_to_string p); try reflexivity. destruct (find_key E W cl a kvs lo). reflexivity.
Qed.
Lemma stamp_locate_f E W cl n v p o : stamp_of (fst (locate_f E W n cl v p o)) = stamp_of v.
Proof.
  destruct n as [|n]; [reflexivity|]. cbn [locate_f]. destruct (peel p o) as [[q r]|]; [|reflexivity].
  pose proof (stamp_find E W cl v q) as F. destruct (find_child E W cl v q) as [v' [h|e| |]]; cbn [fst] in F; try exact F.
  destruct r as [|q' r']; [exact F|]. destruct (child_at v' h) as [c|] eqn:Ec; [|exact F].
  destruct (locate_f E W n cl c q' r') as [c' t]. cbn [fst]. now rewrite (stamp_put_child _ _ _ _ Ec).
Qed.
Lemma stamp_locate E W cl v p o : stamp_of (fst (locate E W cl v p o)) = stamp_of v.
Proof. apply stamp_locate_f. Qed.
Lemma stamp_get E W cl v p o : stamp_of (fst (get E W cl v p o)) = stamp_of v.
Proof. unfold get. pose proof (stamp_locate E W cl v p o) as H. destruct (locate E W cl v p o). exact H. Qed.
Lemma stamp_put_at v h hs c : stamp_of (put_at v (h :: hs) c) = stamp_of v.
Proof. cbn [put_at]. destruct (child_at v h) as [x|] eqn:Ec; [|reflexivity]. now apply (stamp_put_child _ _ x). Qed.
Lemma stamp_forget v : stamp_of (forget v) = stamp_of v.
Proof. destruct v; try reflexivity. cbn. now rewrite map_map. Qed.

(** A place found is not the document itself. *)
Lemma locate_f_ne E W cl n v p o v' hs : locate_f E W n cl v p o = (v', Ok hs) -> exists h t, hs = h :: t.
Proof.
  destruct n as [|n]; [discriminate|]. cbn [locate_f]. destruct (peel p o) as [[q r]|]; [|discriminate].
  destruct (find_child E W cl v q) as [u [h|e| |]]; try discriminate.
  destruct r as [|q' r']; [intros [= _ <-]; eauto|]. destruct (child_at u h); [|discriminate].
  destruct (locate_f E W n cl v0 q' r') as [c' [t|e| |]]; try discriminate. cbn. intros [= _ <-]. eauto.
Qed.

Lemma obj_stamp v s : stamp_of v = Some s -> exists i kvs lo, v = VObj i kvs lo.
Proof. destruct v; try discriminate. eauto. Qed.

Lemma stamp_insert_f E W af n v c p o v' x : (exists s, stamp_of v = Some s) -> insert_f E W n af v c p o = (v', Ok x) ->
  stamp_of v' = stamp_of v.
Proof.
  intros (s & Hs). destruct n as [|n]; [discriminate|]. cbn [insert_f]. destruct (peel p o) as [[q r]|]; [|discriminate].
  destruct (is_nil v); [destruct af; discriminate|]. destruct (not_exist v); [discriminate|].
  destruct r as [|q' r'].
  - apply obj_stamp in Hs as (i & kvs & lo & ->). discriminate.
  - pose proof (stamp_locate E W false v q (removelast (q' :: r'))) as F.
    destruct (locate E W false v q (removelast (q' :: r'))) as [v1 [hs|e| |]] eqn:El; cbn [fst] in F; try discriminate.
    destruct (locate_f_ne _ _ _ _ _ _ _ _ _ El) as (h & t & ->).
    destruct (sub_at v1 (h :: t)) as [d|] eqn:Es; [|discriminate]. destruct d; try discriminate.
    destruct (insert_f E W n af (VArr l) c (last (q' :: r') PNil) []) as [d' rr]. intros H. apply (f_equal fst) in H. cbn [fst] in H. rewrite <- H.
    rewrite stamp_put_at. exact F.

Qed.

Lemma ordered_set n v ks k c lo' i kvs lo : v = VObj i kvs lo -> ordered n (stamp_of v) ks -> Z.of_nat (S n) < two32 ->
  ordered (S n) (stamp_of (VObj (wrap_u32 (i + 1)) (aset k (wrap_u32 (i + 1), c) kvs) lo')) (without k ks ++ [k]).
Proof.
  intros -> (i' & st & [= <- <-] & Hnd & Hi & st' & Hp & Hs & Hk & Hb) Hn.
  assert (Ew : wrap_u32 (i + 1) = i + 1) by (unfold wrap_u32; apply Z.mod_small; lia). rewrite Ew.
  rewrite map_map in Hnd. cbn [fst] in Hnd.
  exists (i + 1), (map (fun e : kv => (fst e, fst (snd e))) (aset k (i + 1, c) kvs)). split; [reflexivity|].
  split; [rewrite map_map; now apply NoDup_aset|]. split; [lia|].
  exists (filter (neqk k) st' ++ [(k, i + 1)]). split; [|split; [|split]].
  - rewrite (Permutation_map _ (aset_perm k (i + 1, c) kvs Hnd)), map_app. apply Permutation_app_tail.
    rewrite <- (filter_perm _ _ _ Hp). clear. induction kvs as [|[k' [id x]] r IH]; [reflexivity|]. cbn.
    destruct (negb (beqb k' k)); cbn; [now constructor|exact IH].
  - apply ForallOrdPairs_snoc; [now apply ForallOrdPairs_filter|]. apply Forall_filter. revert Hb. apply Forall_impl. cbn. intros; lia.
  - rewrite map_app. cbn [map fst]. f_equal. rewrite <- Hk. apply without_map.
  - apply Forall_app. split; [|constructor; [cbn; lia|constructor]]. apply Forall_filter. revert Hb. apply Forall_impl. cbn. intros; lia.
Qed.

Lemma ordered_without n v ks k lo' i kvs lo : v = VObj i kvs lo -> ordered n (stamp_of v) ks ->
  ordered n (stamp_of (VObj i (aremove k kvs) lo')) (without k ks).
Proof.
  intros -> (i' & st & [= <- <-] & Hnd & Hi & st' & Hp & Hs & Hk & Hb).
  rewrite map_map in Hnd. cbn [fst] in Hnd.
  exists i, (map (fun e : kv => (fst e, fst (snd e))) (aremove k kvs)). split; [reflexivity|].
  split; [rewrite map_map; now apply NoDup_aremove|]. split; [exact Hi|].
  exists (filter (neqk k) st'). split; [|split; [|split]].
  - rewrite aremove_filter, <- (filter_perm _ _ _ Hp). clear. induction kvs as [|[k' [id x]] r IH]; [reflexivity|]. cbn.
    destruct (negb (beqb k' k)); cbn; [now constructor|exact IH].
  - now apply ForallOrdPairs_filter.
  - rewrite <- Hk. apply without_map.
  - now apply Forall_filter.
Qed.

Lemma ordered_keys n v ks i kvs lo : v = VObj i kvs lo -> ordered n (stamp_of v) ks -> forall k, In k ks <-> In k (akeys kvs).
Proof.
  intros -> (i' & st & [= <- <-] & _ & _ & st' & Hp & _ & <- & _) k.
  assert (H : Permutation (map fst st') (akeys kvs)).
  { rewrite <- (Permutation_map fst Hp), map_map. reflexivity. }
  split; apply Permutation_in; [exact H|now apply Permutation_sym].
Qed.
Lemma ordered_more n m s ks : (n <= m)%nat -> ordered n s ks -> ordered m s ks.
Proof. intros H (i & st & H1 & H2 & H3 & H4). exists i, st. repeat split; try assumption; lia. Qed.

(** Set on an object with a name first. *)
Lemma set_obj_result E i kvs lo x k o v' c : set_at E (VObj i kvs lo) x (PStr k) o = (v', Ok c) ->
  (exists e, (o = [] \/ ~ In k (akeys kvs)) /\
     v' = VObj (wrap_u32 (i + 1)) (aset k (wrap_u32 (i + 1), e) kvs) (add_caseless_key E k lo)) \/
  (o <> [] /\ In k (akeys kvs) /\ stamp_of v' = stamp_of (VObj i kvs lo)).
Proof.
  unfold set_at. destruct (snd x); [discriminate|]. generalize (psum (PStr k :: o)). intros m. cbn [set_f peel].
  change (uninitialized (VObj i kvs lo)) with false. cbn iota. destruct (uninitialized (fst x)); [discriminate|].
  destruct o as [|q r].
  - cbn. intros [= <- <-]. left. eauto.
  - cbn [any_to_string]. destruct (alookup k kvs) as [[id y]|] eqn:El.
    + match goal with |- context [set_f E ?n y ?c q r] => destruct (set_f E n y c q r) as [y' rr] end. intros [= <- _]. right. split; [discriminate|].
      split; [eapply alookup_Some_key; eassumption|]. cbn [stamp_of]. now rewrite (map_stamp_aset k id y y' kvs El).
    + destruct (new_container q) as [y| | |]; try discriminate. match goal with |- context [set_f E ?n y ?c q r] => destruct (set_f E n y c q r) as [y' [rr| | |]] end; try discriminate.
      cbn [set_to_object]. intros [= <- _]. left. exists y'. split; [right; now apply alookup_None|reflexivity].
Qed.

Lemma without_notin k ks : ~ In k ks -> without k ks = ks.
Proof. apply notin_remove. Qed.

Lemma append_obj_result E W fr i kvs lo x k o v' c : Forall plain o -> append_at E W fr (VObj i kvs lo) x (PStr k :: o) = (v', Ok c) ->
  (exists e, ~ In k (akeys kvs) /\
     v' = VObj (wrap_u32 (i + 1)) (aset k (wrap_u32 (i + 1), e) kvs) (add_caseless_key E k lo)) \/
  (In k (akeys kvs) /\ stamp_of v' = stamp_of (VObj i kvs lo)).
Proof.
  intros Ho. unfold append_at. change (is_nil (VObj i kvs lo)) with false. change (not_exist (VObj i kvs lo)) with false. cbn iota.
  assert (Hj : joint_params (PStr k :: o) = Some (PStr k :: o)) by (destruct o; reflexivity). rewrite Hj.
  assert (Hloc : forall v1 r, locate E W false (VObj i kvs lo) (PStr k) o = (v1, r) -> v1 = VObj i kvs lo).
  { intros v1 r H. pose proof (locate_same E W (VObj i kvs lo) (PStr k) o) as Hs. rewrite H in Hs. exact Hs. }
  destruct (locate E W false (VObj i kvs lo) (PStr k) o) as [v1 [hs|e| |]] eqn:El; try discriminate.
  - pose proof (Hloc _ _ eq_refl) as ->. destruct (locate_f_ne _ _ _ _ _ _ _ _ _ El) as (h & t & ->).
    destruct (sub_at (VObj i kvs lo) (h :: t)) as [d|] eqn:Es; [|discriminate]. destruct d; try discriminate. intros H. apply (f_equal fst) in H. cbn [fst] in H. rewrite <- H.
    right. split; [|now rewrite stamp_put_at].
    assert (Hh : h = HKey k /\ In k (akeys kvs)).
    { clear -El. unfold locate in El. revert El. generalize (psum (PStr k :: o)). intros m El. cbn [locate_f peel find_child any_to_string] in El. unfold find_key in El.
      destruct (alookup k kvs) as [e|] eqn:Ek.
      - destruct o as [|q r]; [injection El as <- _; split; [reflexivity|eapply alookup_Some_key; eassumption]|].
        cbn [child_at] in El. rewrite Ek in El. destruct e. match goal with H : context [locate_f E W ?n false ?y q r] |- _ => destruct (locate_f E W n false y q r) as [c' [tl| | |]] end; try discriminate.
        cbn in El. injection El as _ <- _. split; [reflexivity|eapply alookup_Some_key; eassumption].
      - discriminate. }
    apply Hh.
  - destruct e; try discriminate. pose proof (Hloc _ _ eq_refl) as ->.
    destruct (set_at E (VObj i kvs lo) (arg_v (VArr [fst x])) (PStr k) o) as [v2 [u| | |]] eqn:Es; try discriminate.
    intros [= <- _]. destruct (set_obj_result _ _ _ _ _ _ _ _ _ Es) as [(e & H & ->)|(H1 & H2 & H3)].
    + left. exists e. split; [|reflexivity]. destruct H as [->|H]; [|exact H].
      clear -El. unfold locate in El. cbn in El. unfold find_key in El. destruct (alookup k kvs) eqn:Ek; [discriminate|]. now apply alookup_None.
    + right. auto.
Qed.

Theorem set_history_ordered E n v ks : set_history E n v ks -> Z.of_nat n < two32 -> ordered n (stamp_of v) ks.
Proof.
  induction 1 as [|b ms v Hb Hu Hl|n v ks W cl p o H IH|n v ks x k o v' c H IH Ho Hs Hk|n v ks x k o v' c H IH Ho Hs Hne Hk
    |n v ks W fr x k o v' c H IH Ho Hs Hk|n v ks W fr x k o v' c H IH Ho Hs Hk|n v ks W x p o v' c H IH Hs|n v ks W x p o v' c H IH Hs
    |n v ks W k v' H IH Hs|n v ks W k k' i kvs lo H IH Hs Hk1 Hk2|n v ks W cl p q o v' H IH Hp Hs
    |n v ks x p o H IH Hf|n v ks W x p o H IH Hf|n v ks W x p o H IH Hf|n v ks W fr x ps H IH Hf|n v ks W cl p o H IH Hf]; intros Hn.
  - exists 0, []. repeat split; try constructor; try (cbn; lia). exists []. repeat split; constructor.
  - assert (Ev : v = to_V E (JObj ms)).
    { pose proof (q_unmarshal_lax E b (JObj ms) Hl) as Hq. pose proof (proj1 (unmarshal_lax E b v Hb) Hu) as (j & Hj & ->).
      pose proof (q_unmarshal_lax E b j Hj). congruence. }
    subst v. cbn [to_V]. change (fold_left _ ms new_object) with (put_all E ms (VObj 0 [] None)). clear Hb Hu Hl b.
    assert (G : forall l done i kvs lo, ordered (List.length done) (stamp_of (VObj i kvs lo)) (map fst (last_wins done)) ->
      Z.of_nat (List.length (done ++ l)) < two32 ->
      ordered (List.length (done ++ l)) (stamp_of (put_all E l (VObj i kvs lo))) (map fst (last_wins (done ++ l)))).
    { induction l as [|[k x] l IHl]; intros done i kvs lo Hd Hlt; [rewrite app_nil_r in *; exact Hd|].
      cbn [put_all fold_left]. unfold oput at 2. cbn [set_to_object fst snd].
      replace (done ++ (k, x) :: l) with ((done ++ [(k, x)]) ++ l) in * by (rewrite <- app_assoc; reflexivity).
      apply IHl; [|exact Hlt]. rewrite last_wins_snoc, map_app. cbn [map fst].
      rewrite app_length in *. cbn [List.length] in *. rewrite app_length in Hlt. cbn [List.length] in Hlt.
      replace (List.length done + 1)%nat with (S (List.length done)) by lia.
      rewrite without_map. apply (ordered_set _ _ _ _ _ _ _ _ _ eq_refl Hd). lia. }
    apply (G ms [] 0 [] None); [|exact Hn].
    exists 0, []. repeat split; try constructor; try (cbn; lia). exists []. repeat split; constructor.
  - rewrite stamp_get. auto.
  - assert (IH' : ordered n (stamp_of v) ks) by (apply IH; lia). pose proof IH' as (i & st & Hst & _). apply obj_stamp in Hst as (i1 & kvs & lo & ->).
    destruct (set_obj_result _ _ _ _ _ _ _ _ _ Hs) as [(e & _ & ->)|(H1 & H2 & _)].
    + now apply (ordered_set _ _ _ _ _ _ _ _ _ eq_refl IH').
    + destruct Hk as [->|Hk]; [contradiction|]. exfalso. apply Hk. now apply (ordered_keys _ _ _ _ _ _ eq_refl IH').
  - specialize (IH Hn). pose proof IH as (i & st & Hst & _). apply obj_stamp in Hst as (i1 & kvs & lo & ->).
    destruct (set_obj_result _ _ _ _ _ _ _ _ _ Hs) as [(e & [->|H1] & ->)|(_ & _ & H1)].
    + contradiction.
    + exfalso. apply H1. now apply (ordered_keys _ _ _ _ _ _ eq_refl IH).
    + now rewrite H1.
  - assert (IH' : ordered n (stamp_of v) ks) by (apply IH; lia). pose proof IH' as (i & st & Hst & _). apply obj_stamp in Hst as (i1 & kvs & lo & ->).
    destruct (append_obj_result _ _ _ _ _ _ _ _ _ _ _ Ho Hs) as [(e & _ & ->)|(H2 & _)].
    + rewrite <- (without_notin k ks Hk) at 1. now apply (ordered_set _ _ _ _ _ _ _ _ _ eq_refl IH').
    + exfalso. apply Hk. now apply (ordered_keys _ _ _ _ _ _ eq_refl IH').
  - specialize (IH Hn). pose proof IH as (i & st & Hst & _). apply obj_stamp in Hst as (i1 & kvs & lo & ->).
    destruct (append_obj_result _ _ _ _ _ _ _ _ _ _ _ Ho Hs) as [(e & H1 & ->)|(_ & H1)].
    + exfalso. apply H1. now apply (ordered_keys _ _ _ _ _ _ eq_refl IH).
    + now rewrite H1.
  - specialize (IH Hn). unfold insert_before in Hs. destruct (snd x); [discriminate|].
    erewrite stamp_insert_f; [exact IH| |exact Hs]. destruct IH as (i & st & Hst & _). eauto.
  - specialize (IH Hn). unfold insert_after in Hs. destruct (snd x); [discriminate|].
    erewrite stamp_insert_f; [exact IH| |exact Hs]. destruct IH as (i & st & Hst & _). eauto.
  - specialize (IH Hn). pose proof IH as (i & st & Hst & _). apply obj_stamp in Hst as (i1 & kvs & lo & ->).
    unfold delete_at in Hs. revert Hs. generalize (psum (PStr k :: [])). intros m Hs. cbn [delete_f peel delete_here any_to_string] in Hs. unfold del_from_object in Hs.
    destruct (alookup k kvs); [|discriminate]. injection Hs as <-. exact (ordered_without _ _ _ _ _ _ _ _ eq_refl IH).
  - specialize (IH Hn). pose proof IH as (i1 & st & Hst & _). apply obj_stamp in Hst as (i2 & kvs1 & lo1 & ->).
    unfold delete_at in Hs. revert Hs. generalize (psum (PStr k :: [])). intros m Hs. cbn [delete_f peel delete_here any_to_string] in Hs. unfold del_from_object in Hs.
    assert (HK : forall k0, kvs = aremove k0 kvs1 -> k0 = k').
    { intros k0 ->. apply (ordered_keys _ _ _ _ _ _ eq_refl IH) in Hk1. destruct (bytes_dec k' k0) as [->|Hne]; [reflexivity|].
      exfalso. apply Hk2. apply In_akeys_aremove. auto. }
    destruct (alookup k kvs1).
    + injection Hs as <- <- <-. rewrite (HK k eq_refl) at 1. exact (ordered_without _ _ _ _ _ _ _ _ eq_refl IH).
    + destruct (first_existing _ _) as [k0|]; [|discriminate]. injection Hs as <- <- <-. rewrite (HK k0 eq_refl) at 1.
      exact (ordered_without _ _ _ _ _ _ _ _ eq_refl IH).
  - specialize (IH Hn). unfold delete_at in Hs. revert Hs. generalize (psum (p :: q :: o)). intros m Hs. cbn [delete_f] in Hs. rewrite (peel_plain _ _ Hp) in Hs.
    pose proof (stamp_locate E W cl v p (removelast (q :: o))) as F.
    destruct (locate E W cl v p (removelast (q :: o))) as [v1 [hs|e| |]] eqn:El; cbn [fst] in F; try discriminate.
    destruct (locate_f_ne _ _ _ _ _ _ _ _ _ El) as (h & t & ->).
    destruct (sub_at v1 (h :: t)) as [d|]; [|discriminate]. match goal with H : context [delete_f E W ?n cl d ?a ?b] |- _ => destruct (delete_f E W n cl d a b) as [d' rr] end.
    apply (f_equal fst) in Hs. cbn [fst] in Hs. rewrite <- Hs, stamp_put_at, F. exact IH.
  - rewrite set_at_failed by assumption. auto.
  - rewrite insert_before_failed by assumption. auto.
  - rewrite insert_after_failed by assumption. auto.
  - replace (fst (append_at E W fr v x ps)) with v; [auto|]. symmetry. destruct fr; now apply append_failed.
  - rewrite <- stamp_forget, (delete_at_forget E W cl v p o Hf), stamp_forget. auto.
Qed.

(** *** The order in the output *)
Lemma sorted_unique (l l' : list (bytes * Z)) : Permutation l l' ->
  ForallOrdPairs (fun x y => snd x < snd y) l -> ForallOrdPairs (fun x y => snd x < snd y) l' -> l = l'.
Proof.
  revert l'. induction l as [|x l IH]; intros l' Hp H1 H2; [now apply Permutation_nil in Hp|].
  destruct l' as [|y l']; [apply Permutation_sym, Permutation_nil in Hp; discriminate|].
  inversion H1 as [|? ? F1 G1]; subst. inversion H2 as [|? ? F2 G2]; subst. rewrite Forall_forall in F1, F2.
  assert (x = y).
  { pose proof (Permutation_in x Hp (or_introl eq_refl)) as [->|Hx]; [reflexivity|].
    pose proof (Permutation_in y (Permutation_sym Hp) (or_introl eq_refl)) as [->|Hy]; [reflexivity|].
    apply F2 in Hx. apply F1 in Hy. lia. }
  subst y. f_equal. apply IH; try assumption. now apply Permutation_cons_inv in Hp.
Qed.

Lemma stamps_by_id (kvs : list kv) : by_id kvs -> ForallOrdPairs (fun x y : bytes * Z => snd x < snd y) (map (fun e : kv => (fst e, fst (snd e))) kvs).
Proof.
  induction 1 as [|x l F _ IH]; [constructor|]. cbn [map]. constructor; [|exact IH]. apply Forall_map. exact F.
Qed.

Theorem set_order_output E W o n v ks :
  set_history E n v ks -> Z.of_nat n < two32 ->
  opt_ws o -> o_omit_null o = false -> json_typed v -> all_text str_ok (fun _ src => rfc_lit src) v ->
  o_less o = None -> o_keyseq o = [] -> o_setseq o = true ->
  exists b ms, marshal_opt E W o v = Ok b /\ json_doc b (JObj ms) /\ Forall2 fixed ks (map fst ms).
Proof.
  intros H Hn Hw Hom Ht Ha Hl Hk Hs. pose proof (set_history_ordered E n v ks H Hn) as (i & st & Hst & _ & _ & st' & Hp & Hso & Hks & _).
  destruct (sorted_json E W o (fun kvs => NoDup (map (fun x => fst (snd x)) kvs) -> by_id kvs) v Hw Hom Ht Ha) as (b & j & Hb & Hd & Hsh).
  { eapply all_objs_impl2; [|apply typed_nodup, Ht]. intros kvs Hnd pi path kvs' He Hp' Hids.
    assert (Hids' : NoDup (map (fun x : kv => fst (snd x)) kvs)) by (eapply Permutation_NoDup; [apply Permutation_map, Permutation_sym, Hp'|exact Hids]).
    exact (in_order_setseq E W o kvs Hnd Hids' Hl Hk Hs pi path kvs' He Hp'). }
  apply obj_stamp in Hst as Hv. destruct Hv as (i1 & kvs & lo & ->). injection Hst as -> <-.
  inversion Hsh as [| | | | |? ? ? kvs' ms Hp' Hord HF]; subst. exists b, ms. split; [exact Hb|]. split; [exact Hd|].
  assert (Hids : NoDup (map (fun x : kv => fst (snd x)) kvs')).
  { assert (G : NoDup (map snd st')) by (clear -Hso; induction Hso as [|x l F _ IH]; cbn; constructor; [|exact IH]; intros Hi; apply in_map_iff in Hi as (y & Hy & Hi); rewrite Forall_forall in F; apply F in Hi; lia).
    assert (Hpp : Permutation (map snd st') (map (fun x : kv => fst (snd x)) kvs')).
    { rewrite <- (Permutation_map snd Hp), map_map. cbn [snd]. now apply Permutation_map. }
    now apply (Permutation_NoDup Hpp). }
  specialize (Hord Hids). apply stamps_by_id in Hord.
  assert (Es : st' = map (fun e : kv => (fst e, fst (snd e))) kvs').
  { apply sorted_unique; try assumption. rewrite <- Hp. now apply Permutation_map. }
  rewrite Es, map_map. cbn [fst]. unfold kept in HF. rewrite <- ?Hom in HF. clear -HF.
  induction HF as [|x m l l' (Hx & _) _ IH]; [constructor|]. cbn [map]. now constructor.
Qed.

Theorem history_order_output E W o n v :
  history E n v -> Z.of_nat n < two32 ->
  opt_ws o -> o_omit_null o = false -> json_typed v -> all_text str_ok (fun _ src => rfc_lit src) v ->
  o_less o = None -> o_keyseq o = [] -> o_setseq o = true ->
  exists b j, marshal_opt E W o v = Ok b /\ json_doc b j /\ shows num_text false by_id v j.
Proof.
  intros H Hn Hw Hom Ht Ha Hl Hk Hs. apply order_setseq; try assumption.
  apply history_dated in H. clear -H Hn. induction v as [ |s|nn src|i kvs lo IH|l IH|b| | | ] using V_ind'; try exact I.
  - apply all_obj_obj in H as ((_ & Hd) & H). destruct (Hd Hn) as (Hd' & _). apply all_objs_obj. split; [exact Hd'|].
    rewrite Forall_forall in *. auto.
  - apply all_obj_arr in H. apply all_objs_arr. rewrite Forall_forall in *. auto.
Qed.

(** Below a member, Set is Set on the member. *)
Theorem set_inside E i kvs lo x k id c q r c' y : NoDup (map fst kvs) -> In (k, (id, c)) kvs ->
  set_at E c x q r = (c', Ok y) ->
  exists kvs', set_at E (VObj i kvs lo) x (PStr k) (q :: r) = (VObj i kvs' lo, Ok y) /\
    In (k, (id, c')) kvs' /\ map (fun e : kv => (fst e, fst (snd e))) kvs' = map (fun e : kv => (fst e, fst (snd e))) kvs /\
    forall e : kv, fst e <> k -> In e kvs' <-> In e kvs.
Proof.
  intros Hn Hi Hs. pose proof (alookup_NoDup_In _ _ _ Hn Hi) as El. unfold set_at in *.
  destruct (snd x); [discriminate|]. change (set_c E (VObj i kvs lo) (fst x) (PStr k) (q :: r)) with (set_f E (S (psum (PStr k :: q :: r))) (VObj i kvs lo) (fst x) (PStr k) (q :: r)).
  exists (aset k (id, c') kvs).
  assert (Hu : uninitialized (fst x) = false).
  { destruct (uninitialized (fst x)) eqn:Hu; [|reflexivity]. cbn [set_f] in Hs. destruct (peel q r) as [[q' r']|]; [|discriminate].
    destruct (uninitialized c); [discriminate|]. rewrite Hu in Hs. discriminate. }
  split; [|split; [|split]].
  - assert (F : set_f E (psum (PStr k :: q :: r)) c (fst x) q r = (c', Ok y)).
    { rewrite <- Hs. apply set_f_fuel; [cbn; lia|lia]. }
    cbn [set_f peel]. change (uninitialized (VObj i kvs lo)) with false. rewrite Hu. cbn iota. cbn [any_to_string]. now rewrite El, F.
  - apply alookup_In. apply alookup_aset_same.
  - now apply (map_stamp_aset k id c).
  - intros [k1 e1] Hne. cbn [fst] in Hne. assert (Hn' : NoDup (akeys (aset k (id, c') kvs))) by now apply NoDup_aset.
    split; intros Hin.
    + apply (alookup_NoDup_In _ _ _ Hn') in Hin. rewrite alookup_aset_other in Hin by congruence. now apply alookup_In.
    + apply alookup_In. rewrite alookup_aset_other by congruence. now apply alookup_NoDup_In.
Qed.

(** *** The counter wraps *)
Definition wrap_doc (m : Z) : V :=
  VObj (wrap_u32 (1 + m)) [(bs "a", (1, VBool true)); (bs "b", (wrap_u32 (1 + m), VBool false))] None.

Lemma wrap_history E m : set_history E (S (S m)) (wrap_doc (Z.of_nat (S m))) [bs "a"; bs "b"].
Proof.
  induction m as [|m IH].
  - change [bs "a"; bs "b"] with (without (bs "b") [bs "a"] ++ [bs "b"]).
    apply (sh_set E 1 (VObj 1 [(bs "a", (1, VBool true))] None) [bs "a"] (arg_v (VBool false)) (bs "b") [] _ (VBool false)); [|apply Forall_nil|reflexivity|now left].
    change [bs "a"] with (without (bs "a") [] ++ [bs "a"]).
    apply (sh_set E 0 new_object [] (arg_v (VBool true)) (bs "a") [] _ (VBool true)); [apply sh_new|apply Forall_nil|reflexivity|now left].
  - change [bs "a"; bs "b"] with (without (bs "b") [bs "a"; bs "b"] ++ [bs "b"]).
    apply (sh_set E (S (S m)) (wrap_doc (Z.of_nat (S m))) [bs "a"; bs "b"] (arg_v (VBool false)) (bs "b") [] _ (VBool false)); [exact IH|apply Forall_nil| |now left].
    assert (Ew : wrap_u32 (1 + Z.of_nat (S (S m))) = wrap_u32 (wrap_u32 (1 + Z.of_nat (S m)) + 1)).
    { unfold wrap_u32. rewrite Zplus_mod_idemp_l. f_equal. lia. }
    unfold wrap_doc. rewrite Ew. generalize (wrap_u32 (1 + Z.of_nat (S m))). intros z. reflexivity.
Qed.

Definition set_sequence : opt := combine_options opt0 [OSetSeq].

Theorem wrapped_order E W : exists n v, set_history E n v [bs "a"; bs "b"] /\
  marshal_opt E W set_sequence v = Ok (bs "{""b"":false,""a"":true}").
Proof.
  exists (S (S (Z.to_nat (two32 - 2)))), (wrap_doc (Z.of_nat (S (Z.to_nat (two32 - 2))))).
  split; [apply wrap_history|].
  replace (Z.of_nat (S (Z.to_nat (two32 - 2)))) with (two32 - 1) by (rewrite Nat2Z.inj_succ, Z2Nat.id; [lia|vm_compute; discriminate]).
  rewrite (output_determined E W world1).
  - vm_compute. reflexivity.
  - vm_compute. repeat split. repeat constructor; cbn; intuition discriminate.
  - vm_compute. repeat split. repeat constructor; cbn; intuition discriminate.
Qed.
