(** The lemmas of RangeEditProof.v and RangeMapProof.v put together. *)
From Verif Require Import Base Utf8 Float64 Value Scan Opt Marshal Access Path Edit Iter RangeEdit SpecRangeEdit
  ListLemmas SortProof RangeEditProof RangeMapProof.

Lemma calls_agree E W g m s a : slice_ok m s ->
  let ms' := a_exec g (m, s) a in
  slice_ok (fst ms') (snd ms') /\ view (fst ms') (snd ms') = edited (view m s) a /\
  VArr (view (fst ms') (snd ms')) =
  fst (match a with
       | ASet x p => set_at E (VArr (view m s)) (arg_v x) (PInt p) []
       | ABefore x p => insert_before E W (VArr (view m s)) (arg_v x) (PInt p) []
       | AAfter x p => insert_after E W (VArr (view m s)) (arg_v x) (PInt p) []
       | ABegin x => append_beginning E W (VArr (view m s)) (arg_v x) []
       | AEnd x => append_end E W (VArr (view m s)) (arg_v x) []
       | ADelete p => let '(v, _) := delete_at E W false (VArr (view m s)) (PInt p) [] in (v, Ok VNull)
       | ASort W' less => (match sort_array W' (VArr (view m s)) (Some less) with Ok v => v | _ => VNil end, Ok VNull)
       end).
Proof.
  intros Ho ms'. destruct (exec_all g m s a Ho) as [H1 H2]. split; [exact H1|]. split; [exact H2|].
  unfold ms'. rewrite H2. apply edited_tree.
Qed.

Lemma array_live S g (cb : acallback S) st m s t ms' : slice_ok m s -> range_array_live g cb st (m, s) = (t, ms') ->
  replay cb st (view m s) t (view (fst ms') (snd ms')) /\ in_turn t /\
  (List.length t <= List.length (view m s))%nat /\
  (never_stops cb -> List.length t = List.length (view m s)) /\ slice_ok (fst ms') (snd ms').
Proof.
  intros Ho Hr. unfold range_array_live in Hr. cbn [fst snd] in Hr.
  destruct (range_replay g cb _ _ _ _ _ _ Ho _ _ Hr) as (H1 & H2 & H3 & H4 & H5).
  rewrite (view_len m s Ho). auto.
Qed.

Lemma array_in_place S g (cb : acallback S) st m s t ms' : slice_ok m s -> needs_no_room cb ->
  range_array_live g cb st (m, s) = (t, ms') ->
  forall w i x, In (w, i, x) t -> i < Z.of_nat (List.length w) -> nth_error w (Z.to_nat i) = Some x.
Proof.
  intros Ho Hn Hr w i x Hin Hi. pose proof (range_no_room g cb Hn _ _ _ _ _ Ho _ _ Hr) as H. rewrite Forall_forall in H.
  now apply (H _ Hin).
Qed.

Lemma array_sorts S g (cb : acallback S) st m s t ms' : slice_ok m s -> only_sorts cb ->
  range_array_live g cb st (m, s) = (t, ms') ->
  Permutation (view (fst ms') (snd ms')) (view m s) /\
  (forall w i x, In (w, i, x) t -> Permutation w (view m s) /\ nth_error w (Z.to_nat i) = Some x) /\ incl (delivered t) (view m s).
Proof.
  intros Ho Hn Hr. destruct (array_live _ _ _ _ _ _ _ _ Ho Hr) as (H1 & H2 & H3 & _ & _).
  destruct (replay_sorts cb Hn _ _ _ _ H1) as [Hp Hw]. split; [exact Hp|]. rewrite Forall_forall in Hw.
  assert (Hall : forall w i x, In (w, i, x) t -> Permutation w (view m s) /\ nth_error w (Z.to_nat i) = Some x).
  { intros w i x Hin. pose proof (Hw _ Hin) as Hpw. cbn [fst] in Hpw. split; [exact Hpw|].
    apply (array_in_place S g cb st m s t ms' Ho (fun st w i x => sorts_no_room _ (Hn st w i x) w) Hr _ _ _ Hin).
    destruct (In_nth_error _ _ Hin) as (n & En). rewrite (H2 _ _ _ _ En), (Permutation_length Hpw).
    apply Nat2Z.inj_lt. apply Nat.lt_le_trans with (List.length t); [|exact H3]. apply (proj1 (nth_error_Some t n)). intros Hno. pose proof (eq_trans (eq_sym Hno) En) as Hd. discriminate Hd. }
  split; [exact Hall|]. intros x Hx. apply in_map_iff in Hx. destruct Hx as ([[w i] y] & <- & Hin).
  destruct (Hall _ _ _ Hin) as [Hpw Hnth]. apply (Permutation_in _ Hpw). now apply nth_error_In in Hnth.
Qed.

Lemma array_sorting g W less k m s t ms' : slice_ok m s -> (k < List.length (view m s))%nat ->
  range_array_live g (sorting_at k W less) tt (m, s) = (t, ms') ->
  let l := view m s in let l' := view (fst ms') (snd ms') in
  l' = go_sort W less l /\ delivered t = firstn (S k) l ++ skipn (S k) l' /\
  (Permutation (delivered t) l <-> Permutation (firstn (S k) l) (firstn (S k) l')).
Proof.
  intros Ho Hk Hr l l'. unfold range_array_live in Hr. cbn [fst snd] in Hr. rewrite (view_len m s Ho) in Hk.
  destruct (sorting_loop g W less k _ _ 0%nat _ _ Ho eq_refl (Nat.le_0_l k) eq_refl Hk _ _ Hr) as [H1 H2].
  subst l l'. rewrite H2. split; [reflexivity|]. cbn [skipn] in H1. split; [exact H1|]. rewrite H1.
  pose proof (go_sort_perm W less (view m s)) as Hp. split; intros H.
  - apply (Permutation_app_inv_r (skipn (S k) (go_sort W less (view m s)))). rewrite firstn_skipn.
    exact (perm_trans H (Permutation_sym Hp)).
  - apply (perm_trans (Permutation_app_tail _ H)). rewrite firstn_skipn. exact Hp.
Qed.

Lemma array_appends S g (cb : acallback S) st m s t ms' : slice_ok m s -> only_appends cb ->
  range_array_live g cb st (m, s) = (t, ms') -> delivered t = firstn (List.length t) (view m s).
Proof.
  intros Ho Hn Hr. unfold range_array_live in Hr. cbn [fst snd] in Hr. destruct Ho as [Ha Hl].
  exact (range_appends g cb (sl_arr s) (sl_len s) Hn _ 0%nat _ _ _ (conj Ha Hl) Ha (fun _ => le_n _) Hl (le_n _) _ _ Hr).
Qed.

Lemma array_deleting g p m s t ms' : slice_ok m s -> range_array_live g (deleting p) tt (m, s) = (t, ms') ->
  view (fst ms') (snd ms') = every_other p (view m s) /\
  (view (fst ms') (snd ms') = filter (fun x => negb (p x)) (view m s) <-> ~ neighbours p (view m s)).
Proof.
  intros Ho Hr. unfold range_array_live in Hr. cbn [fst snd] in Hr.
  assert (view (fst ms') (snd ms') = every_other p (view m s)) as ->.
  { rewrite (deleting_loop g p _ _ _ _ _ Ho eq_refl) with (2 := Hr); [reflexivity|]. now rewrite (view_len m s Ho). }
  split; [reflexivity|]. exact (every_other_right p _ _ (le_n _)).
Qed.

Lemma for_range_arr S g (cb : acallback S) st m s t ms' : slice_ok m s -> for_range_arr_live g cb st (m, s) = (t, ms') ->
  replay cb st (view m s) t (view (fst ms') (snd ms')) /\ in_turn t /\
  delivered t = firstn (List.length t) (view m s) /\
  (never_stops cb -> delivered t = view m s).
Proof.
  intros Ho Hr. unfold for_range_arr_live in Hr.
  assert (Hv : view (m ++ [view m s]) s = view m s).
  { unfold view, cells. now rewrite app_nth1 by apply Ho. }
  assert (Ho' : slice_ok (m ++ [view m s]) s).
  { destruct Ho as [Ha Hl]. split; [rewrite app_length; lia|]. unfold cells in *. now rewrite app_nth1. }
  assert (Hn : nth (List.length m) (m ++ [view m s]) [] = view m s) by now rewrite nth_middle.
  destruct (range_replay g cb _ _ _ _ _ _ Ho' _ _ Hr) as (H1 & H2 & H3 & H4 & H5). rewrite Hv in H1.
  assert (Hd : delivered t = firstn (List.length t) (view m s)).
  { refine (range_elsewhere g cb (List.length m) (view m s) _ 0%nat _ _ _ Ho' _ _ Hn _ _ _ Hr).
    - rewrite app_length. cbn. lia.
    - destruct Ho. lia.
    - rewrite (view_len m s Ho). cbn. lia. }
  split; [exact H1|]. split; [exact H2|]. split; [exact Hd|].
  intros Hs. rewrite Hd, (H4 Hs), <- (view_len m s Ho). apply firstn_all.
Qed.

(** *** Objects *)
Lemma object_live S E W (cb : ocallback S) st v t v' all : object v -> range_objects_live E W cb st v t v' all ->
  object v' /\ Forall (fun r => let '(w, k, x) := r in member w k = Some x) t /\
  exists f', oreplay cb st (member v) t f' /\ is_members v' f'.
Proof. intros Ho Hr. exact (map_replay E W cb _ _ _ _ _ _ Hr Ho (member v) (fun _ => eq_refl)). Qed.

Lemma object_sets S E W (cb : ocallback S) st v t v' all : object v -> never_deletes cb -> range_objects_live E W cb st v t v' all ->
  NoDup (map fst (told t)) /\ (all = true -> forall k, In k (names v) -> In k (map fst (told t))).
Proof.
  intros Ho Hn Hr. destruct (map_sets E W cb _ _ _ _ _ _ Hr Hn Ho (start_tracked v Ho)) as (H1 & _ & H3). split; [exact H1|exact H3].
Qed.

Lemma object_no_new S E W (cb : ocallback S) st v t v' all : object v -> makes_no_new cb -> range_objects_live E W cb st v t v' all ->
  NoDup (map fst (told t)) /\ (forall k, In k (map fst (told t)) -> In k (names v)) /\
  (all = true -> forall k, In k (names v) -> In k (map fst (told t)) \/ ~ In k (names v')).
Proof.
  intros Ho Hn Hr. destruct (map_no_new E W cb _ _ _ _ _ _ Hr Hn Ho (start_tracked v Ho)) as (H1 & H2 & _ & H4).
  split; [exact H1|]. split; [intros k Hk; now destruct (H2 k Hk) as [H|[]]|].
  intros Hall k Hk. destruct (H4 Hall k Hk) as [H|H]; [now left|right]. rewrite <- member_names. congruence.
Qed.

Lemma members_Permutation v t : object v -> NoDup (keys_told t) ->
  (forall k x, In (k, x) (told t) <-> In k (names v) /\ member v k = Some x) ->
  Permutation (told t) (entries (object_of v)).
Proof.
  intros [_ Hn] Hnd Ht. apply NoDup_Permutation.
  - apply (NoDup_map_inv fst). exact Hnd.
  - apply (NoDup_map_inv fst). unfold entries. rewrite map_map. exact Hn.
  - intros [k x]. rewrite Ht. unfold entries. rewrite in_map_iff. unfold names, member. split.
    + intros [_ Hm]. destruct (alookup k (object_of v)) as [[id y]|] eqn:E0; [|discriminate]. injection Hm as ->.
      exists (k, (id, x)). split; [reflexivity|]. now apply alookup_In.
    + intros ([k' [id y]] & [= -> ->] & Hin). split; [apply in_map_iff; exists (k, (id, x)); auto|].
      now rewrite (alookup_NoDup_In _ _ _ Hn Hin).
Qed.

Lemma object_deleting E W p v t v' all : object v -> range_objects_live E W (deleting_members p) tt v t v' all ->
  Permutation (told t) (entries (object_of v)) /\
  forall k, member v' k = match member v k with Some x => if p k x then None else Some x | None => None end.
Proof.
  intros Ho Hr. destruct (deleting_members_loop E W p _ _ _ _ _ _ Hr Ho (start_tracked v Ho) eq_refl) as (_ & Hnd & Ht & Hf).
  cbn [fst] in *. split; [exact (members_Permutation v t Ho Hnd Ht)|].
  intros k. rewrite Hf. destruct (existsb (beqb k) (akeys (object_of v))) eqn:E0; [reflexivity|].
  destruct (member v k) eqn:E1; [|reflexivity]. exfalso.
  assert (In k (names v)) as Hin by (apply member_names; congruence). apply existsb_beqb_In in Hin.
  unfold names in Hin. change (map fst (object_of v)) with (akeys (object_of v)) in Hin. congruence.
Qed.

Lemma object_deleting_runs E W p v ks : object v -> Permutation ks (names v) ->
  exists t v', range_objects_live E W (deleting_members p) tt v t v' true /\ map fst (told t) = ks.
Proof.
  intros Ho Hp. apply (deleting_members_runs E W p ks _ v tt Ho).
  - intros k. split; [apply (Permutation_in _ (Permutation_sym Hp))|apply (Permutation_in _ Hp)].
  - apply (Permutation_NoDup (Permutation_sym Hp)). apply Ho.
  - intros k Hk. apply member_names. apply (Permutation_in _ Hp Hk).
Qed.

Lemma range_list_all {A} (l : list A) : forall acc, range_list (fun s e => (s ++ [e], true)) l acc = acc ++ l.
Proof.
  induction l as [|x l IH]; intros acc; cbn [range_list]; [now rewrite app_nil_r|]. rewrite IH, <- app_assoc. reflexivity.
Qed.

Lemma object_by_set S E W path (cb : ocallback S) st v t v' : object v -> range_by_set_live E W path cb st v = (t, v') ->
  exists es, range_objects_by_set W path v (Some (fun s e => (s ++ [e], true))) [] = Ok es /\
  Permutation es (entries (object_of v)) /\ told t = firstn (List.length t) es /\
  ((forall st w k x, snd (cb st w k x) = true) -> told t = es) /\
  object v' /\ exists f', oreplay cb st (member v) t f' /\ is_members v' f'.
Proof.
  intros Ho Hr. unfold range_by_set_live in Hr. pose proof Ho as [(i & kvs & lo & ->) Hn]. cbn [object_of] in Hr.
  exists (entries (go_sort W (fun a b : kv => fst (snd a) <=? fst (snd b)) (go_range W path kvs))). split.
  - cbn [range_objects_by_set api_is_object on_value vtype_of vtype_eqb rbind negb object_of].
    now rewrite range_list_all.
  - split.
    + unfold entries. apply Permutation_map. cbn [object_of]. rewrite go_sort_perm. apply go_range_perm.
    + destruct (entries_loop E W cb _ _ _ _ _ Ho Hr) as (H1 & H2 & H3 & H4).
      split; [exact H1|]. split; [exact H2|]. split; [exact H3|]. exact (H4 _ (fun _ => eq_refl)).
Qed.
