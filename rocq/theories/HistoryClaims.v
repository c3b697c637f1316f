(** Statements about histories in the form of the properties. *)
From Verif Require Import Base Utf8 Float64 Value Scan Unmarshal Opt Marshal Access Path Edit SpecPath SpecHistory
  ListLemmas ValueLemmas SortProof PathProof EditProof SetProof EditClaims HistoryProof.

(** *** C22: the index agrees with the members *)

Definition coherent (E : Env) (_ : Z) (kvs : list kv) (lo : lower_t) : Prop :=
  NoDup (akeys kvs) /\
  match lo with
  | None => True
  | Some m =>
    (forall k, In k (akeys kvs) -> exists ks, alookup (to_lower E k) m = Some ks /\ In k ks) /\
    (forall lk ks k, alookup lk m = Some ks -> In k ks -> to_lower E k = lk /\ In k (akeys kvs))
  end.

Lemma In_sadd k x l : In x (sadd k l) <-> x = k \/ In x l.
Proof.
  unfold sadd. destruct (existsb (beqb k) l) eqn:Ex.
  - apply existsb_beqb_In in Ex. intuition congruence.
  - rewrite in_app_iff. cbn. intuition congruence.
Qed.
Lemma In_sdel k x l : In x (sdel k l) <-> x <> k /\ In x l.
Proof.
  unfold sdel. rewrite filter_In. destruct (beqb_spec k x); cbn; intuition congruence.
Qed.

Definition lists (E : Env) (keys : list bytes) (m : list (bytes * list bytes)) : Prop :=
  (forall k, In k keys -> exists ks, alookup (to_lower E k) m = Some ks /\ In k ks) /\
  (forall lk ks k, alookup lk m = Some ks -> In k ks -> to_lower E k = lk /\ In k keys).

Lemma add_lists E keys keys' k m : lists E keys m -> (forall x, In x keys' <-> x = k \/ In x keys) ->
  exists m', add_caseless_key E k (Some m) = Some m' /\ lists E keys' m'.
Proof.
  intros (H1 & H2) Hk. eexists. split; [reflexivity|]. split.
  - intros x Hx. apply Hk in Hx. destruct (bytes_dec (to_lower E x) (to_lower E k)) as [He|He].
    + rewrite He, alookup_aset_same. eexists. split; [reflexivity|]. apply In_sadd.
      destruct Hx as [->|Hx]; [now left|right]. destruct (H1 _ Hx) as (ks & Hl & Hi). rewrite He in Hl. now rewrite Hl.
    + rewrite alookup_aset_other by assumption. destruct Hx as [->|Hx]; [contradiction|]. apply (H1 _ Hx).
  - intros lk ks x. destruct (bytes_dec lk (to_lower E k)) as [->|He].
    + rewrite alookup_aset_same. intros [= <-] Hx. apply In_sadd in Hx as [->|Hx]; [rewrite Hk; auto|].
      destruct (alookup (to_lower E k) m) as [ks|] eqn:El; [|destruct Hx]. rewrite Hk. destruct (H2 _ _ _ El Hx). auto.
    + rewrite alookup_aset_other by assumption. intros El Hx. rewrite Hk. destruct (H2 _ _ _ El Hx). auto.
Qed.

Lemma fold_lists E : forall keys done m, lists E done m ->
  exists m', fold_left (fun lo k => add_caseless_key E k lo) keys (Some m) = Some m' /\ lists E (done ++ keys) m'.
Proof.
  induction keys as [|k keys IH]; intros done m H.
  - exists m. rewrite app_nil_r. auto.
  - cbn [fold_left]. destruct (add_lists E done (done ++ [k]) k m H) as (m' & -> & H').
    { intros x. rewrite in_app_iff. cbn. intuition. }
    destruct (IH _ _ H') as (m'' & -> & H''). rewrite <- app_assoc in H''. eauto.
Qed.

Lemma init_lists E i kvs lo : coherent E i kvs lo -> exists m, init_caseless E kvs lo = Some m /\ lists E (akeys kvs) m.
Proof.
  intros (Hn & H). destruct lo as [m|]; [exists m; split; [reflexivity|exact H]|].
  destruct (fold_lists E (akeys kvs) [] []) as (m & Hm & Hl).
  { split; [intros k []|]. discriminate. }
  exists m. split; [exact Hm|exact Hl].
Qed.

Lemma coherent_put E i kvs lo k id x c : coherent E i kvs lo -> alookup k kvs = Some (id, x) ->
  coherent E i (aset k (id, c) kvs) lo.
Proof.
  intros (Hn & H) El. assert (Hk : akeys (aset k (id, c) kvs) = akeys kvs).
  { rewrite akeys_aset. apply alookup_Some_key in El. apply existsb_beqb_In in El. now rewrite El. }
  unfold coherent. rewrite Hk. auto.
Qed.
Lemma coherent_set E i kvs lo k c : coherent E i kvs lo ->
  coherent E (wrap_u32 (i + 1)) (aset k (wrap_u32 (i + 1), c) kvs) (add_caseless_key E k lo).
Proof.
  intros (Hn & H). split; [now apply NoDup_aset|]. destruct lo as [m|]; [|exact I].
  destruct (add_lists E (akeys kvs) (akeys (aset k (wrap_u32 (i + 1), c) kvs)) k m H) as (m' & -> & H').
  { intros x. apply In_akeys_aset. }
  exact H'.
Qed.
Lemma In_akeys_aremove {A} k x (l : list (bytes * A)) : In x (akeys (aremove k l)) <-> x <> k /\ In x (akeys l).
Proof.
  induction l as [|[k' a] r IH]; cbn [aremove]; [cbn; intuition|]. destruct (beqb_spec k k') as [->|Hne].
  - rewrite IH. cbn. intuition congruence.
  - cbn. rewrite IH. intuition congruence.
Qed.
Lemma coherent_del E i kvs lo k : coherent E i kvs lo -> coherent E i (aremove k kvs) (del_caseless_key E k lo).
Proof.
  intros (Hn & H). split; [now apply NoDup_aremove|]. destruct lo as [m|]; [|exact I]. destruct H as (H1 & H2).
  cbn [del_caseless_key]. destruct (alookup (to_lower E k) m) as [ks|] eqn:El.
  - assert (Hg : lists E (akeys (aremove k kvs)) (aset (to_lower E k) (sdel k ks) m)).
    { split.
      - intros x Hx. apply In_akeys_aremove in Hx as (Hne & Hx). destruct (H1 _ Hx) as (ks' & Hl & Hi).
        destruct (bytes_dec (to_lower E x) (to_lower E k)) as [He|He].
        + rewrite He, alookup_aset_same. eexists. split; [reflexivity|]. apply In_sdel. split; [assumption|]. rewrite He in Hl. congruence.
        + rewrite alookup_aset_other by assumption. eauto.
      - intros lk ks' x. rewrite In_akeys_aremove. destruct (bytes_dec lk (to_lower E k)) as [->|He].
        + rewrite alookup_aset_same. intros [= <-] Hx. apply In_sdel in Hx as (Hne & Hx). destruct (H2 _ _ _ El Hx). auto.
        + rewrite alookup_aset_other by assumption. intros Hl Hx. destruct (H2 _ _ _ Hl Hx) as (Ht & Hi).
          split; [assumption|]. split; [|assumption]. intros ->. now rewrite Ht in He. }
    destruct (sdel k ks) as [|y ys] eqn:Ed; [|exact Hg]. destruct Hg as (G1 & G2). split.
    + intros x Hx. destruct (G1 _ Hx) as (ks' & Hl & Hi). destruct (bytes_dec (to_lower E x) (to_lower E k)) as [He|He].
      * rewrite He, alookup_aset_same in Hl. injection Hl as <-. destruct Hi.
      * rewrite alookup_aset_other in Hl by assumption. rewrite alookup_aremove_other by assumption. eauto.
    + intros lk ks' x Hl Hi. destruct (bytes_dec lk (to_lower E k)) as [->|He].
      * now rewrite alookup_aremove_same in Hl.
      * rewrite alookup_aremove_other in Hl by assumption. apply (G2 lk ks' x); [|assumption]. now rewrite alookup_aset_other.
  - split.
    + intros x Hx. apply In_akeys_aremove in Hx as (Hne & Hx). eauto.
    + intros lk ks x Hl Hi. destruct (H2 _ _ _ Hl Hi) as (Ht & Hx). split; [assumption|]. apply In_akeys_aremove. split; [|assumption].
      intros ->. rewrite Ht in El. congruence.
Qed.
Lemma coherent_init E i kvs lo : coherent E i kvs lo -> coherent E i kvs (init_caseless E kvs lo).
Proof. intros H. destruct (init_lists _ _ _ _ H) as (m & -> & Hl). split; [apply H|exact Hl]. Qed.

Lemma fresh_arr n l : fresh n (VArr l) <-> Forall (fresh n) l.
Proof. induction l as [|x r IH]; [cbn; intuition|]. rewrite Forall_cons_iff, <- IH. reflexivity. Qed.
Lemma fresh_obj n i kvs lo : fresh n (VObj i kvs lo) <-> lo = None /\ NoDup (akeys kvs) /\
  NoDup (map (fun e : kv => fst (snd e)) kvs) /\ 0 <= i <= Z.of_nat n /\ Forall (fun e : kv => fst (snd e) <= i) kvs /\
  Forall (fun e : kv => fresh n (snd (snd e))) kvs.
Proof.
  cbn [fresh]. do 5 apply and_iff_compat_l. induction kvs as [|[k [id x]] r IH]; [cbn; intuition|].
  rewrite Forall_cons_iff, <- IH. reflexivity.
Qed.
Lemma fresh_coherent E n v : fresh n v -> all_obj (coherent E) v.
Proof.
  induction v as [ |s|nn src|i kvs lo IH|l IH|b| | | ] using V_ind'; intros H; try exact I.
  - apply fresh_obj in H as (-> & Hn & _ & _ & _ & H). apply all_obj_obj. split; [split; [exact Hn|exact I]|].
    rewrite Forall_forall in *. auto.
  - apply fresh_arr in H. apply all_obj_arr. rewrite Forall_forall in *. auto.
Qed.

Theorem history_coherent E n v : history E n v -> all_obj (coherent E) v.
Proof.
  apply (history_good E (fun _ => coherent E)).
  - split; [constructor|exact I].
  - auto.
  - intros n0. apply coherent_put.
  - intros n0. apply coherent_set.
  - intros. now apply coherent_del.
  - intros n0 i kvs lo f (H & _). split; [|exact I]. unfold akeys in *. rewrite map_map. exact H.
  - intros n0. apply coherent_init.
  - apply fresh_coherent.
Qed.

(** Which key a caseless search picks. *)
Definition picked (E : Env) (W : World) (k : bytes) (kvs : list kv) (lo : lower_t) : option bytes :=
  match alookup k kvs with Some _ => Some k | None => first_existing kvs (caseless_keys E W k (init_caseless E kvs lo)) end.

Lemma first_existing_None kvs ks : first_existing (kvs : list kv) ks = None -> forall k, In k ks -> ~ In k (akeys kvs).
Proof.
  induction ks as [|x r IH]; [intros _ k []|]. cbn. destruct (alookup x kvs) eqn:El; [discriminate|].
  intros H k [<-|Hk]; [now apply alookup_None|]. now apply IH.
Qed.

Lemma picked_spec E W i k kvs lo : coherent E i kvs lo ->
  match picked E W k kvs lo with
  | Some k' => caseless_match E k kvs k'
  | None => forall k', In k' (map fst kvs) -> ~ same_letters E k k'
  end.
Proof.
  intros HC. unfold picked. destruct (alookup k kvs) as [e|] eqn:El.
  - split; [eapply alookup_Some_key; eassumption|]. split; reflexivity.
  - destruct (init_lists _ _ _ _ HC) as (m & -> & H1 & H2). unfold caseless_keys.
    destruct (alookup (to_lower E k) m) as [ks|] eqn:Em.
    + destruct (first_existing _ _) as [k'|] eqn:Ef.
      * apply first_existing_In in Ef as (Hi & Hk). apply (Permutation_in _ (go_range_perm W _ ks)) in Hi.
        destruct (H2 _ _ _ Em Hi) as (Ht & _). split; [exact Hk|]. split; [symmetry; exact Ht|].
        intros H. apply alookup_None in El. contradiction.
      * intros k' Hk Hs. destruct (H1 _ Hk) as (ks' & Hl & Hi). unfold same_letters in Hs. rewrite <- Hs, Em in Hl. injection Hl as <-.
        apply (first_existing_None _ _ Ef k'); [|exact Hk]. exact (Permutation_in _ (Permutation_sym (go_range_perm W _ ks)) Hi).
    + cbn. intros k' Hk Hs. destruct (H1 _ Hk) as (ks' & Hl & _). unfold same_letters in Hs. congruence.
Qed.

Theorem caseless_get_spec E W n i kvs lo k : history E n (VObj i kvs lo) ->
  (exists k' id x, caseless_match E k kvs k' /\ In (k', (id, x)) kvs /\
     snd (caseless_get E W (VObj i kvs lo) (PStr k) []) = Ok x) \/
  ((forall k', In k' (map fst kvs) -> ~ same_letters E k k') /\
   snd (caseless_get E W (VObj i kvs lo) (PStr k) []) = Err ErrNotFound).
Proof.
  intros H. apply history_coherent in H. apply all_obj_obj in H as (HC & _).
  pose proof (picked_spec E W i k kvs lo HC) as Hp.
  assert (Hg : snd (caseless_get E W (VObj i kvs lo) (PStr k) []) =
               match picked E W k kvs lo with
               | Some k' => match alookup k' kvs with Some (_, x) => Ok x | None => Panic end
               | None => Err ErrNotFound
               end).
  { unfold caseless_get, get, locate, picked. cbn [locate_f peel find_child any_to_string]. unfold find_key.
    destruct (alookup k kvs) as [[id x]|] eqn:El.
    - cbn. now rewrite El.
    - destruct (first_existing _ _) as [k'|]; [|reflexivity]. cbn. destruct (alookup k' kvs) as [[id x]|]; reflexivity. }
  rewrite Hg. destruct (picked E W k kvs lo) as [k'|].
  - left. destruct (alookup k' kvs) as [[id x]|] eqn:El.
    + exists k', id, x. split; [exact Hp|]. split; [|reflexivity]. now apply alookup_In.
    + destruct Hp as (Hk & _). apply alookup_None in El. contradiction.
  - right. auto.
Qed.

Lemma removed_key E i kvs lo k lo' : coherent E i kvs lo -> In k (map fst kvs) ->
  removed (PStr k) (VObj i kvs lo) (VObj i (aremove k kvs) lo').
Proof.
  intros (Hn & _) Hk. apply in_map_iff in Hk as ([k' e] & <- & Hk). cbn [fst].
  apply in_split in Hk as (a & b & ->). unfold akeys in Hn. rewrite map_app in Hn. cbn in Hn.
  assert (Ha : ~ In k' (map fst (a ++ b))).
  { rewrite map_app. now apply NoDup_remove_2. }
  assert (Hr : forall l : list kv, ~ In k' (map fst l) -> aremove k' l = l).
  { intros l. induction l as [|[k e'] r IH]; [reflexivity|]. cbn. intros H. destruct (beqb_spec k' k) as [->|_]; [tauto|].
    f_equal. apply IH. tauto. }
  assert (Hr2 : forall l1 l2 : list kv, aremove k' (l1 ++ l2) = aremove k' l1 ++ aremove k' l2).
  { induction l1 as [|[k e'] r IH]; intros l2; [reflexivity|]. cbn. destruct (beqb k' k); [apply IH|]. cbn. f_equal. apply IH. }
  rewrite Hr2. cbn [aremove]. rewrite beqb_refl. rewrite map_app, in_app_iff in Ha.
  rewrite (Hr a), (Hr b) by tauto. constructor. rewrite map_app, in_app_iff. tauto.
Qed.

Theorem caseless_delete_spec E W n i kvs lo k : history E n (VObj i kvs lo) ->
  (exists k' v', caseless_match E k kvs k' /\ caseless_delete E W (VObj i kvs lo) (PStr k) [] = (v', Ok tt) /\
     removed (PStr k') (VObj i kvs lo) v') \/
  ((forall k', In k' (map fst kvs) -> ~ same_letters E k k') /\
   exists v', caseless_delete E W (VObj i kvs lo) (PStr k) [] = (v', Err ErrNotFound) /\ forget v' = forget (VObj i kvs lo)).
Proof.
  intros H. apply history_coherent in H. apply all_obj_obj in H as (HC & _).
  pose proof (picked_spec E W i k kvs lo HC) as Hp. unfold picked in Hp.
  unfold caseless_delete, delete_at. cbn [delete_f psum psize Nat.add peel delete_here any_to_string]. unfold del_from_object.
  destruct (alookup k kvs) as [e|].
  - left. do 2 eexists. split; [exact Hp|]. split; [reflexivity|]. apply (removed_key E); [exact HC|apply Hp].
  - destruct (first_existing _ _) as [k'|].
    + left. do 2 eexists. split; [exact Hp|]. split; [reflexivity|]. apply (removed_key E); [exact HC|apply Hp].
    + right. split; [exact Hp|]. eexists. split; reflexivity.
Qed.

(** A path is followed step by step. *)
Lemma child_put_same v h x c : child_at v h = Some x -> child_at (put_child v h c) h = Some c.
Proof.
  intros H. destruct v as [ |s|nn src|i kvs lo|l|b| | | ], h as [n|k]; cbn in H; try discriminate.
  - destruct (alookup k kvs) as [[id y]|] eqn:El; [|discriminate]. cbn [put_child]. rewrite El. cbn. now rewrite alookup_aset_same.
  - cbn. revert n H. induction l as [|y r IH]; intros [|n] H; cbn in *; try discriminate; auto.
Qed.

Theorem caseless_chain E W v p q r : plain p ->
  snd (get E W true v p (q :: r)) =
  match snd (get E W true v p []) with
  | Ok c => snd (get E W true c q r)
  | e => e
  end.
Proof.
  intros P. unfold get. rewrite (locate_more _ _ _ _ _ _ _ P), (locate_one _ _ _ _ _ P).
  pose proof (find_child_h E W true v p) as Fh. destruct (find_child E W true v p) as [v' [h|e| |]]; try reflexivity.
  destruct (Fh _ _ eq_refl) as (c & Ec). rewrite Ec. cbn [snd rbind sub_at]. rewrite Ec.
  destruct (locate E W true c q r) as [c' [t|e| |]]; try reflexivity. cbn [snd rbind sub_at].
  now rewrite (child_put_same _ _ _ _ Ec).
Qed.

Lemma alookup_map_snd {A B} (f : A -> B) k (l : list (bytes * A)) :
  alookup k (map (fun e => (fst e, f (snd e))) l) = option_map f (alookup k l).
Proof. induction l as [|[k' a] r IH]; [reflexivity|]. cbn. destruct (beqb k k'); [reflexivity|exact IH]. Qed.

Lemma child_forget v h : child_at (forget v) h = option_map forget (child_at v h).
Proof.
  destruct v as [ |s|nn src|i kvs lo|l|b| | | ], h as [n|k]; try reflexivity.
  - cbn [forget child_at].
    rewrite (alookup_map_snd (fun e : Z * V => (fst e, forget (snd e)))). destruct (alookup k kvs) as [[id x]|]; reflexivity.
  - cbn. apply nth_error_map.
Qed.
Lemma sub_forget : forall hs v, sub_at (forget v) hs = option_map forget (sub_at v hs).
Proof.
  induction hs as [|h hs IH]; intros v; [reflexivity|]. cbn [sub_at]. rewrite child_forget.
  destruct (child_at v h) as [c|]; [|reflexivity]. apply IH.
Qed.
Lemma find_forget E W v p : snd (find_child E W false (forget v) p) = snd (find_child E W false v p).
Proof.
  destruct v as [ |s|nn src|i kvs lo|l|b| | | ]; try reflexivity; cbn [forget find_child].
  - destruct (any_to_string p) as [k| | |]; try reflexivity. unfold find_key.
    rewrite (alookup_map_snd (fun e : Z * V => (fst e, forget (snd e)))). destruct (alookup k kvs) as [[id x]|]; reflexivity.
  - cbn [snd]. now rewrite map_length.
Qed.
Lemma locate_f_view E W : forall n v p o, snd (locate_f E W n false (forget v) p o) = snd (locate_f E W n false v p o).
Proof.
  induction n as [|n IH]; intros v p o; [reflexivity|]. cbn [locate_f]. destruct (peel p o) as [[q r]|]; [|reflexivity].
  pose proof (find_forget E W v q) as Hf. pose proof (find_child_forget E W false v q) as F1.
  pose proof (find_child_forget E W false (forget v) q) as F2.
  pose proof (find_child_pair E W v q) as P1. pose proof (find_child_pair E W (forget v) q) as P2.
  destruct (find_child E W false v q) as [v1 h1]. destruct (find_child E W false (forget v) q) as [v2 h2].
  cbn [fst snd] in *. subst h2. injection P1 as -> _. injection P2 as -> _.
  destruct h1 as [h|e| |]; try reflexivity. destruct r as [|q' r']; [reflexivity|].
  rewrite child_forget. destruct (child_at v h) as [c|]; [|reflexivity]. cbn [option_map].
  pose proof (IH c q' r') as Ic. destruct (locate_f E W n false c q' r') as [c1 t1].
  destruct (locate_f E W n false (forget c) q' r') as [c2 t2]. cbn [fst snd] in *. now subst t2.
Qed.
Lemma get_view_forget E W v p o : same_view (snd (get E W false (forget v) p o)) (snd (get E W false v p o)).
Proof.
  unfold get, locate. pose proof (locate_f_view E W (S (psum (p :: o))) v p o) as H.
  pose proof (locate_f_forget E W false (S (psum (p :: o))) v p o) as F1.
  pose proof (locate_f_forget E W false (S (psum (p :: o))) (forget v) p o) as F2.
  destruct (locate_f E W (S (psum (p :: o))) false v p o) as [v1 t1].
  destruct (locate_f E W (S (psum (p :: o))) false (forget v) p o) as [v2 t2]. cbn [fst snd] in *. subst t2.
  destruct t1 as [hs|e| |]; try reflexivity. cbn [rbind].
  pose proof (sub_forget hs v1) as S1. pose proof (sub_forget hs v2) as S2.
  rewrite F1 in S1. rewrite F2 in S2.
  assert (Hff : forall u, forget (forget u) = forget u).
  { clear. induction u as [ |s|n src|i kvs lo IH|l IH|b| | | ] using V_ind'; try reflexivity; cbn [forget]; f_equal; rewrite map_map.
    - apply map_ext_in. intros [k [id x]] Hin. cbn. rewrite Forall_forall in IH. pose proof (IH _ Hin) as Hx. cbn in Hx. now rewrite Hx.
    - apply map_ext_in. intros x Hin. rewrite Forall_forall in IH. auto. }
  rewrite Hff in S2. rewrite S1 in S2.
  destruct (sub_at v1 hs) as [c1|], (sub_at v2 hs) as [c2|]; cbn in S2; try discriminate; cbn; congruence.
Qed.
Lemma same_view_trans a b c : same_view a b -> same_view b c -> same_view a c.
Proof. destruct a, b, c; cbn; congruence. Qed.
Lemma same_view_sym a b : same_view a b -> same_view b a.
Proof. destruct a, b; cbn; congruence. Qed.

Theorem ordinary_get_unaffected E W W' v q r p o :
  same_view (snd (get E W false (fst (get E W' true v q r)) p o)) (snd (get E W false v p o)).
Proof.
  eapply same_view_trans; [apply same_view_sym, get_view_forget|]. rewrite get_forget. apply get_view_forget.
Qed.
