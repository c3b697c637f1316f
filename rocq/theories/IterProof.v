(** Iteration and SortArray. *)
From Verif Require Import Base Float64 Value Scan Unmarshal Opt Marshal Access Path Edit Iter SpecJson SpecValue SpecLax SpecOrder SpecPath SpecHistory SpecIter
  ListLemmas SortProof OrderProof OrderHistory.

Lemma range_visits {S A} (cb : S -> A -> S * bool) es : forall s, visits cb es s (range_list cb es s).
Proof.
  induction es as [|x es IH]; intros s; cbn [range_list].
  - exists [], [], true. repeat split; constructor.
  - destruct (cb s x) as [s1 [|]] eqn:E.
    + destruct (IH s1) as (calls & rest & go & -> & H & Hr). exists (x :: calls), rest, go. repeat split; [econstructor; eassumption|exact Hr].
    + exists [x], es, false. repeat split; [now constructor|discriminate].
Qed.
(** What is visited determines the result. *)
Lemma visits_unique {S A} (cb : S -> A -> S * bool) es : forall s s', visits cb es s s' -> s' = range_list cb es s.
Proof.
  intros s s' (calls & rest & go & -> & H & Hr). induction H as [s|s x s' E|s x s1 l go s' E _ IH]; cbn [app range_list].
  - now rewrite (Hr eq_refl).
  - now rewrite E.
  - rewrite E. now apply IH.
Qed.

Lemma indexed_positions {A} (l : list A) : forall i, List.length (indexed i l) = List.length l /\
  forall n x, nth_error l n = Some x -> nth_error (indexed i l) n = Some (i + Z.of_nat n, x).
Proof.
  induction l as [|y l IH]; intros i; cbn [indexed]; (split; [|intros [|n] x; cbn [nth_error]]); try discriminate; try reflexivity.
  - cbn. f_equal. apply IH.
  - intros [= <-]. do 2 f_equal. lia.
  - intros H. destruct (IH (i + 1)) as (_ & G). rewrite (G _ _ H). do 2 f_equal. lia.
Qed.

Theorem range_array_visits {S} (cb : S -> Z * V -> S * bool) l s : exists es s',
  range_array (VArr l) (Some cb) s = Ok s' /\ positions l es /\ visits cb es s s' /\
  iter_array (VArr l) = Ok es /\ for_range_arr (VArr l) = Ok l.
Proof.
  exists (indexed 0 l), (range_list cb (indexed 0 l) s). split; [reflexivity|]. split.
  { destruct (indexed_positions l 0) as (H1 & H2). split; [exact H1|]. intros n x H. rewrite (H2 _ _ H). reflexivity. }
  split; [apply range_visits|]. split; reflexivity.
Qed.

Lemma aset_all_keys (l : list (bytes * V)) : forall m, NoDup (akeys m ++ map fst l) ->
  fold_left (fun m e => aset (fst e) (snd e) m) l m = m ++ l.
Proof.
  induction l as [|[k x] l IH]; intros m Hn; [now rewrite app_nil_r|]. cbn [fold_left fst snd].
  assert (Hk : ~ In k (akeys m)).
  { intros Hi. cbn in Hn. apply NoDup_remove_2 in Hn. apply Hn. apply in_or_app. now left. }
  assert (E : aset k x m = m ++ [(k, x)]).
  { clear -Hk. induction m as [|[k' y] m IH]; [reflexivity|]. cbn in *. destruct (beqb_spec k k') as [->|_]; [exfalso; auto|]. cbn. rewrite IH; auto. }
  rewrite E. rewrite IH; [now rewrite <- app_assoc|]. unfold akeys. rewrite map_app, <- app_assoc. exact Hn.
Qed.

Theorem range_objects_visits {S} W path (cb : S -> bytes * V -> S * bool) i kvs lo s : exists es s',
  range_objects W path (VObj i kvs lo) (Some cb) s = Ok s' /\ Permutation es (members kvs) /\ visits cb es s s' /\
  iter_objects W path (VObj i kvs lo) = Ok es /\
  (NoDup (map fst kvs) -> for_range_obj W path (VObj i kvs lo) = Ok es).
Proof.
  exists (go_range W path (members kvs)). eexists. split; [reflexivity|]. split; [apply go_range_perm|]. split; [apply range_visits|]. split; [reflexivity|].
  intros Hn. unfold for_range_obj, on_value, entries, object_of. f_equal. apply aset_all_keys. cbn [akeys map app].
  eapply Permutation_NoDup; [apply Permutation_map, Permutation_sym, go_range_perm|]. unfold members. rewrite map_map. exact Hn.
Qed.

Lemma le_sorted W (l : list kv) : NoDup (map (fun e : kv => fst (snd e)) l) ->
  by_id (go_sort W (fun a b : kv => fst (snd a) <=? fst (snd b)) l).
Proof.
  intros Hn.
  assert (HS : ForallOrdPairs (fun x y : kv => (fst (snd y) <? fst (snd x)) = false) (go_sort W (fun a b : kv => fst (snd a) <=? fst (snd b)) l)).
  { apply go_sort_sorted with (R := fun x y : kv => fst (snd x) <? fst (snd y)).
    - split; [|split].
      + intros x. apply Z.ltb_irrefl.
      + intros x y z. rewrite !Z.ltb_lt. lia.
      + intros x y z. rewrite !Z.ltb_ge. lia.
    - intros a b x y Hne Hx Hy. destruct (Z.eq_dec (fst (snd x)) (fst (snd y))) as [He|He]; [|destruct (Z.leb_spec (fst (snd x)) (fst (snd y))), (Z.ltb_spec (fst (snd x)) (fst (snd y))); try reflexivity; lia].
      exfalso. apply Hne. eapply (proj1 (NoDup_nth_error _) Hn); [rewrite map_length; apply nth_error_Some; congruence|].
      rewrite !nth_error_map, Hx, Hy. cbn. now rewrite He. }
  assert (Hn' : NoDup (map (fun e : kv => fst (snd e)) (go_sort W (fun a b : kv => fst (snd a) <=? fst (snd b)) l))).
  { eapply Permutation_NoDup; [apply Permutation_map, Permutation_sym, go_sort_perm|exact Hn]. }
  clear Hn. revert HS Hn'. generalize (go_sort W (fun a b : kv => fst (snd a) <=? fst (snd b)) l). intros l' HS. induction HS as [|x r F _ IH]; intros Hn; constructor.
  - rewrite Forall_forall in *. intros y Hy. specialize (F y Hy). apply Z.ltb_ge in F. inversion Hn as [|? ? Hni _]; subst.
    assert (fst (snd x) <> fst (snd y)) by (intros He; apply Hni; apply in_map_iff; now exists y). lia.
  - apply IH. now inversion Hn.
Qed.

Theorem range_by_set_visits {S} E W path (cb : S -> bytes * V -> S * bool) n v ks s : set_history E n v ks -> Z.of_nat n < two32 ->
  exists i kvs lo es s', v = VObj i kvs lo /\ range_objects_by_set W path v (Some cb) s = Ok s' /\
    Permutation es (members kvs) /\ map fst es = ks /\ visits cb es s s'.
Proof.
  intros H Hn. pose proof (set_history_ordered E n v ks H Hn) as (i & st & Hst & _ & _ & st' & Hp & Hso & Hks & _).
  apply obj_stamp in Hst as Hv. destruct Hv as (i1 & kvs & lo & ->). injection Hst as -> <-.
  set (l := go_sort W (fun a b : kv => fst (snd a) <=? fst (snd b)) (go_range W path kvs)).
  assert (Pl : Permutation l kvs) by (unfold l; rewrite go_sort_perm; apply go_range_perm).
  exists i, kvs, lo, (members l). eexists. split; [reflexivity|]. split; [reflexivity|]. split; [now apply Permutation_map|]. split; [|apply range_visits].
  assert (Hids : NoDup (map (fun x : kv => fst (snd x)) (go_range W path kvs))).
  { assert (G : NoDup (map snd st')) by (clear -Hso; induction Hso as [|x l F _ IH]; cbn; constructor; [|exact IH]; intros Hi; apply in_map_iff in Hi as (y & Hy & Hi); rewrite Forall_forall in F; apply F in Hi; lia).
    eapply Permutation_NoDup; [|exact G]. rewrite <- (Permutation_map snd Hp), map_map. cbn [snd]. apply Permutation_map. symmetry. apply go_range_perm. }
  pose proof (stamps_by_id _ (le_sorted W _ Hids)) as Hord. fold l in Hord.
  assert (Es : st' = map (fun e : kv => (fst e, fst (snd e))) l).
  { apply sorted_unique; try assumption. rewrite <- Hp. apply Permutation_map. now symmetry. }
  rewrite <- Hks, Es. unfold members. rewrite !map_map. reflexivity.
Qed.

Theorem range_by_set_any {S} W path (cb : S -> bytes * V -> S * bool) i kvs lo s : exists kvs' s',
  range_objects_by_set W path (VObj i kvs lo) (Some cb) s = Ok s' /\ Permutation kvs' kvs /\ visits cb (members kvs') s s' /\
  (NoDup (map (fun e => fst (snd e)) kvs) -> by_id kvs').
Proof.
  exists (go_sort W (fun a b : kv => fst (snd a) <=? fst (snd b)) (go_range W path kvs)). eexists. split; [reflexivity|].
  split; [rewrite go_sort_perm; apply go_range_perm|]. split; [apply range_visits|]. intros Hn. apply le_sorted.
  eapply Permutation_NoDup; [|exact Hn]. apply Permutation_map. symmetry. apply go_range_perm.
Qed.

Theorem range_nothing {S} W path v (f : S -> bytes * V -> S * bool) (g : S -> Z * V -> S * bool) s : v <> VNil ->
  ((forall i kvs lo, v <> VObj i kvs lo) -> range_objects W path v (Some f) s = Ok s /\ range_objects_by_set W path v (Some f) s = Ok s /\
     iter_objects W path v = Ok [] /\ for_range_obj W path v = Ok []) /\
  ((forall l, v <> VArr l) -> range_array v (Some g) s = Ok s /\ iter_array v = Ok [] /\ for_range_arr v = Ok []) /\
  range_objects W path v None s = Ok s /\ range_objects_by_set W path v None s = Ok s /\ range_array v None s = Ok s.
Proof.
  intros Hv. assert (G : go_range W path (@nil (bytes * V)) = []) by (apply Permutation_nil, Permutation_sym, go_range_perm).
  split; [|split].
  - intros Ho. destruct v; try congruence; try (exfalso; now eapply Ho); repeat split; try reflexivity;
      unfold iter_objects, for_range_obj, on_value, entries, object_of; cbn [map]; now rewrite G.
  - intros Ha. destruct v; try congruence; try (exfalso; now eapply Ha); repeat split; reflexivity.
  - destruct v; try congruence; repeat split; reflexivity.
Qed.

(** *** SortArray *)
Theorem sort_array_sorts W l less : exists l',
  sort_array W (VArr l) (Some less) = Ok (VArr l') /\ Permutation l' l /\
  forall R, strict_weak_order R ->
    (forall i j x y, i <> j -> nth_error l i = Some x -> nth_error l j = Some y -> less x y = R x y) ->
    ForallOrdPairs (fun x y => R y x = false) l'.
Proof.
  exists (go_sort W less l). split; [reflexivity|]. split; [apply go_sort_perm|]. intros R H1 H2. now apply go_sort_sorted.
Qed.
Theorem sort_array_other W v less : sort_array W v None = Ok v /\
  ((forall l, v <> VArr l) -> v <> VNil -> sort_array W v less = Ok v).
Proof.
  split; [reflexivity|]. intros Ha Hn. destruct less; [|reflexivity]. destruct v; try congruence; reflexivity.
Qed.
Theorem visits_determined {S A} (cb : S -> A -> S * bool) es s s1 s2 : visits cb es s s1 -> visits cb es s s2 -> s1 = s2.
Proof. intros H1 H2. now rewrite (visits_unique _ _ _ _ H1), (visits_unique _ _ _ _ H2). Qed.

(** The order after the counter wrapped. *)
Theorem wrapped_sequence E : exists n v, set_history E n v [bs "a"; bs "b"] /\
  forall W path, range_objects_by_set W path v (Some (fun s x => (s ++ [x], true))) [] =
    Ok [(bs "b", VBool false); (bs "a", VBool true)].
Proof.
  exists (S (S (Z.to_nat (two32 - 2)))), (wrap_doc (Z.of_nat (S (Z.to_nat (two32 - 2))))).
  split; [apply wrap_history|].
  replace (Z.of_nat (S (Z.to_nat (two32 - 2)))) with (two32 - 1) by (rewrite Nat2Z.inj_succ, Z2Nat.id; [lia|vm_compute; discriminate]).
  intros W path. change (wrap_doc (two32 - 1)) with (VObj 0 [(bs "a", (1, VBool true)); (bs "b", (0, VBool false))] None).
  edestruct (range_by_set_any W path (fun (s : list (bytes * V)) x => (s ++ [x], true)) 0 [(bs "a", (1, VBool true)); (bs "b", (0, VBool false))] None [])
    as (kvs' & s' & Hr & Hp & Hv & Ho).
  rewrite Hr. f_equal. apply visits_unique in Hv. rewrite Hv. symmetry in Hp. apply Permutation_length_2_inv in Hp as [-> | ->]; [|reflexivity].
  exfalso. assert (H : by_id [(bs "a", (1, VBool true)); (bs "b", (0, VBool false))]).
  { apply Ho. repeat constructor; cbn; intuition discriminate. }
  inversion H as [|? ? F _]; subst. inversion F; subst. cbn in *. lia.
Qed.
