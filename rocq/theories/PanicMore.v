(** Further proofs for C64: accessors, comparison, containment, iteration. *)
From Coq Require Import Permutation.
From Verif Require Import Base Utf8 Float64 Value Scan Unmarshal Opt Marshal Access Path Edit Iter Compare Contain Base64
  SpecJson SpecValue SpecPath SpecGet SpecNil SpecPanic
  ListLemmas ValueLemmas SortProof GetProof PathProof EditProof SetClaims EditClaims GetClaims HistoryClaims PanicProof SafeProof.
Open Scope nat_scope.

Section More.
Variable E : Env.
Variable W : World.

(** *** Accessors *)
Lemma num_of_panic v : num_of E v = Panic <-> v = VNil \/ long_blank v.
Proof.
  destruct v as [ |s|n src|i kvs lo|l|b| | | ]; cbn [num_of number_from_not_number rbind]; unfold new_int64; cbn [rbind];
    try (split; [discriminate|intros [H|(s' & H & _)]; discriminate]); [|split; auto].
  destruct s as [|c s]; cbn [rbind].
  - split; [discriminate|]. intros [H|(s' & [= <-] & H & _)]; [discriminate|congruence].
  - pose proof (text_panic E (c :: s)) as T. pose proof (text_nofuel E (c :: s)) as F. split.
    + intros H. right. exists (c :: s). split; [reflexivity|]. split; [discriminate|]. apply T.
      destruct (number_of_text E (c :: s)) as [v|e| |] eqn:En; cbn [rbind] in H; try discriminate; [|reflexivity].
      destruct (text_number _ _ _ En) as (n & t & ->). discriminate.
    + intros [H|(s' & [= <-] & _ & H)]; [discriminate|]. apply T in H. now rewrite H.
Qed.
Lemma num_of_nofuel v : num_of E v <> Fuel.
Proof.
  destruct v as [ |s|n src|i kvs lo|l|b| | | ]; cbn [num_of number_from_not_number rbind]; unfold new_int64; cbn [rbind]; try discriminate.
  destruct s as [|c s]; [discriminate|]. pose proof (text_nofuel E (c :: s)) as F. destruct (number_of_text E (c :: s)) as [v|e| |] eqn:En; cbn [rbind]; try discriminate; try congruence.
  destruct (text_number _ _ _ En) as (n & t & ->). discriminate.
Qed.
Lemma accessor {A} (f : num -> A) v : (let* n := num_of E v in Ok (f n)) = Panic <-> v = VNil \/ long_blank v.
Proof. rewrite <- num_of_panic. destruct (num_of E v); cbn; split; try discriminate; auto. Qed.
Lemma on_value_panic {A} (f : V -> A) v : on_value f v = Panic <-> v = VNil.
Proof. destruct v; cbn; split; try discriminate; auto. Qed.

Theorem accessors_panic v :
  (api_int E v = Panic <-> v = VNil \/ long_blank v) /\ (api_uint E v = Panic <-> v = VNil \/ long_blank v) /\
  (api_int64 E v = Panic <-> v = VNil \/ long_blank v) /\ (api_uint64 E v = Panic <-> v = VNil \/ long_blank v) /\
  (api_int32 E v = Panic <-> v = VNil \/ long_blank v) /\ (api_uint32 E v = Panic <-> v = VNil \/ long_blank v) /\
  (api_float64 E v = Panic <-> v = VNil \/ long_blank v) /\ (api_float32 E v = Panic <-> v = VNil \/ long_blank v) /\
  (api_bool v = Panic <-> v = VNil) /\ (api_bytes v = Panic <-> v = VNil) /\
  (api_len v = Panic <-> v = VNil) /\ (value_type v = Panic <-> v = VNil).
Proof.
  do 8 (split; [apply accessor|]). split; [destruct v; cbn; split; try discriminate; auto|]. split; [destruct v; cbn; split; try discriminate; auto|].
  split; apply on_value_panic.
Qed.

(** *** Comparison *)
Theorem compare_panics l r :
  let bad := l = VNil \/ (exists n s, l = VNum n s) /\ r = VNil in
  (greater_than l r = Panic <-> bad) /\ (greater_or_equal l r = Panic <-> bad) /\
  (less_than l r = Panic <-> bad) /\ (less_or_equal l r = Panic <-> bad).
Proof.
  intros bad.
  assert (G : forall (f : V -> V -> res (bool * bool)), (f = greater_than_ok \/ f = greater_or_equal_ok) ->
    (f l r = Panic <-> bad) /\ f l r <> Fuel).
  { unfold bad. intros f [-> | ->]; destruct l as [ |?|nl sl|? ? ?|?|?| | | ]; cbn;
      try (split; [split; [discriminate|intros [H|((? & ? & H) & _)]; discriminate]|discriminate]); try (split; [split; auto|discriminate]);
      destruct r as [ |?|nr sr|? ? ?|?|?| | | ]; cbn; try destruct (beqb sl sr); split; try discriminate;
      (split; [discriminate|intros [H|(_ & H)]; discriminate]) || (split; auto; intros _; right; split; [eauto|reflexivity]). }
  destruct (G _ (or_introl eq_refl)) as (G1 & F1). destruct (G _ (or_intror eq_refl)) as (G2 & F2).
  unfold greater_than, greater_or_equal, less_than, less_or_equal.
  assert (B : forall (m : res (bool * bool)) (g : bool -> bool -> bool), (let* (r, ok) := m in Ok (g r ok)) = Panic <-> m = Panic).
  { intros m g. destruct m as [[? ?]|?| |]; cbn; split; try discriminate; auto. }
  split; [rewrite <- G1; exact (B _ (fun r _ => r))|]. split; [rewrite <- G2; exact (B _ (fun r _ => r))|].
  split; [rewrite <- G2; exact (B _ (fun r ok => if ok then negb r else false))|rewrite <- G1; exact (B _ (fun r ok => if ok then negb r else false))].
Qed.

(** *** Containment *)
Lemma forallb_nopanic {A} (f : A -> res bool) l : (forall x, In x l -> f x <> Panic) -> res_forallb f l <> Panic.
Proof.
  induction l as [|x r IH]; intros H; cbn; [discriminate|]. specialize (H x (or_introl eq_refl)) as Hx.
  destruct (f x) as [b|e| |]; cbn; try discriminate; [|congruence]. destruct b; [|discriminate]. apply IH. intros y Hy. apply H. now right.
Qed.
Lemma window_nopanic f n : forall s, (forall x, f x <> Panic) -> any_window f n s <> Panic.
Proof.
  induction n as [|n IH]; intros s H; cbn; [discriminate|]. specialize (H s) as Hs. destruct (f s) as [b|e| |]; cbn; try discriminate; [|congruence]. destruct b; [discriminate|auto].
Qed.
Lemma array_nopanic path v sub : v <> VNil -> sub <> VNil -> array_has_subset E W path v sub <> Panic.
Proof.
  intros Nv Ns. unfold array_has_subset.
  assert (LV : exists n, api_len v = Ok n) by (destruct v; cbn; eauto; congruence). destruct LV as (lv & ->).
  assert (LS : exists n, api_len sub = Ok n) by (destruct sub; cbn; eauto; congruence). destruct LS as (ls & ->). cbn [rbind].
  destruct (_ =? _)%Z; [discriminate|]. destruct (_ =? _)%Z; [discriminate|]. destruct (_ <? _)%Z; [discriminate|].
  apply window_nopanic. intros s. unfold sub_equal. destruct (_ <? _)%Z; [discriminate|]. apply forallb_nopanic. intros x _.
  unfold must_get. pose proof (get_panics E W false [] v (PInt (s + fst x)) ltac:(repeat constructor)) as G.
  assert (N : snd (get E W false v (PInt (s + fst x)) []) <> Panic).
  { intros H. apply G in H. apply on_way_cons in H as [H|(d & _ & H)]; [congruence|now apply on_way_nil in H|exact I]. }
  destruct (get E W false v (PInt (s + fst x)) []) as [v' [c|e| |]]; cbn in *; try discriminate. congruence.
Qed.
Lemma contains_here_nopanic : forall sub, no_nil sub -> forall path v, contains_here E W path v sub <> Panic.
Proof.
  induction sub as [ |s|nn src|i kvs lo IH|l IH|b| | | ] using V_ind'; intros N path v; destruct v eqn:Ev; cbn [contains_here]; try discriminate; try contradiction;
    cbn [value_type on_value rbind vtype_of vtype_eqb negb]; try discriminate.
  - apply no_nil_obj in N. apply forallb_nopanic. intros [k f] Hin. apply (Permutation_in _ (go_range_perm W path _)) in Hin. apply in_map_iff in Hin as ([k0 [id0 x0]] & [= <- <-] & Hin).
    cbn [fst snd].
    assert (G : snd (get E W false (VObj incr kvs0 lower) (PStr k0) []) <> Panic).
    { intros H. apply get_panics in H; [|repeat constructor]. apply on_way_cons in H as [H|(d & _ & H)]; [discriminate|now apply on_way_nil in H|exact I]. }
    destruct (snd (get E W false (VObj incr kvs0 lower) (PStr k0) [])) as [vv|e| |]; try discriminate; [|congruence].
    rewrite Forall_forall in IH, N. exact (IH _ Hin (N _ Hin) _ _).
  - apply array_nopanic; discriminate.
Qed.
Theorem contains_panics v sub ps : ~ nil_at sub -> Forall plain ps ->
  (contains E W v sub ps = Panic <-> v <> VNil /\ ps <> [] /\ nil_met E W false v ps).
Proof.
  intros N HP. apply no_nil_iff in N. rewrite met_iff. unfold contains.
  assert (C : forall w, contains_here E W [] w sub <> Panic) by (intros w; now apply contains_here_nopanic).
  assert (T : v = VNil \/ v <> VNil) by (destruct v; (now left) || (right; discriminate)). destruct T as [-> |Nv]; [split; [discriminate|intros [H _]; congruence]|].
  assert (M : (match v with VNil => Ok false | _ => match ps with [] => contains_here E W [] v sub | p :: ps0 =>
     match snd (get E W false v p ps0) with Ok VNil => Panic | Ok w => contains_here E W [] w sub | Err _ => Ok false | Panic => Panic | Fuel => Fuel end end end)
    = match ps with [] => contains_here E W [] v sub | p :: ps0 =>
     match snd (get E W false v p ps0) with Ok VNil => Panic | Ok w => contains_here E W [] w sub | Err _ => Ok false | Panic => Panic | Fuel => Fuel end end)
    by (destruct v; congruence). rewrite M. clear M.
  destruct ps as [|p r]; [split; [intros H; now destruct (C v)|intros (_ & H & _); congruence]|].
  rewrite <- (get_panics E W false r v p HP). cbn [got]. pose proof (get_no_fuel E W false v p r) as F.
  destruct (snd (get E W false v p r)) as [w|e| |].
  - assert (T : w = VNil \/ w <> VNil) by (destruct w; (now left) || (right; discriminate)). destruct T as [-> |Nw].
    + split; auto. intros _. split; [exact Nv|]. split; [discriminate|now right].
    + assert (M : (match w with VNil => Panic | _ => contains_here E W [] w sub end) = contains_here E W [] w sub) by (destruct w; congruence). rewrite M.
      split; [intros H; now destruct (C w)|]. intros (_ & _ & [H|H]); congruence.
  - split; [discriminate|]. intros (_ & _ & [H|H]); discriminate.
  - split; auto. intros _. split; [exact Nv|]. split; [discriminate|now left].
  - congruence.
Qed.

(** *** Iteration, sorting, the Must forms *)
Lemma range_panic {A} (f : res A) b v : (b = api_is_object v \/ b = api_is_array v) -> f <> Panic -> forall s, (let* o := b in if negb o then Ok s else f) = Panic <-> v = VNil.
Proof. intros [-> | ->] Hf s; destruct v; cbn; split; try discriminate; auto; congruence. Qed.
Theorem iteration_panics S path v (f : option (callback S (bytes * V))) (g : option (callback S (Z * V))) s :
  (range_objects W path v f s = Panic <-> v = VNil) /\ (range_objects_by_set W path v f s = Panic <-> v = VNil) /\
  (range_array v g s = Panic <-> v = VNil) /\ (iter_objects W path v = Panic <-> v = VNil) /\ (for_range_obj W path v = Panic <-> v = VNil) /\
  (iter_array v = Panic <-> v = VNil) /\ (for_range_arr v = Panic <-> v = VNil).
Proof.
  split; [unfold range_objects; apply range_panic; [auto|destruct f; discriminate]|].
  split; [unfold range_objects_by_set; apply range_panic; [auto|destruct f; discriminate]|].
  split; [unfold range_array; apply range_panic; [auto|destruct g; discriminate]|].
  repeat split; apply on_value_panic.
Qed.
Theorem sort_panics v less : sort_array W v less = Panic <-> v = VNil /\ less <> None.
Proof.
  unfold sort_array. destruct less as [f|]; [|split; [discriminate|intros [_ H]; congruence]]. destruct v; cbn; split; try discriminate; try (intros [H _]; discriminate); auto.
  intros _. split; [reflexivity|discriminate].
Qed.
Lemma must_panic {A} (r : V * res A) : snd (must r) = Panic <-> snd r = Panic.
Proof. destruct r as [v [a|e| |]]; cbn; split; try discriminate; auto. Qed.
Theorem must_panics v x p o ps cl :
  snd (must_set_at E v x p o) <> Panic /\
  (snd (must_insert_before E W v x p o) = Panic <-> snd (insert_before E W v x p o) = Panic) /\
  (snd (must_insert_after E W v x p o) = Panic <-> snd (insert_after E W v x p o) = Panic) /\
  (snd (must_append_beginning E W v x ps) = Panic <-> snd (append_beginning E W v x ps) = Panic) /\
  (snd (must_append_end E W v x ps) = Panic <-> snd (append_end E W v x ps) = Panic) /\
  (snd (must_delete E W cl v p o) = Panic <-> snd (delete_at E W cl v p o) = Panic) /\
  (snd (must_get E W cl v p o) = Panic <-> snd (get E W cl v p o) = Panic).
Proof.
  split; [unfold must_set_at; rewrite must_panic; apply set_no_panic|]. do 5 (split; [apply must_panic|]).
  unfold must_get. destruct (get E W cl v p o) as [v' [c|e| |]]; cbn; split; try discriminate; auto.
Qed.
(** Caseless: nil at once, then the same. *)
Theorem caseless_panics v p ps : Forall plain (p :: ps) ->
  (snd (caseless_get E W v p ps) = Panic <-> nil_on_way E W true v (p :: ps)) /\
  (snd (caseless_delete E W v p ps) = Panic <-> nil_on_way E W true v (p :: ps)).
Proof.
  intros HP. inversion HP as [|? ? P _]; subst. unfold caseless_get, caseless_delete.
  destruct v as [ |s|n src|i kvs lo|l|b| | | ]; try (split; [now apply get_panics|now apply delete_panics]);
    try (split; (rewrite (get_panics E W false ps _ p HP) || rewrite (delete_panics E W false _ p ps HP)); rewrite !(on_way_cons E W _ _ p ps P), !(get_single E W _ _ p P); cbn;
      split; (intros [H|(d & H & _)]; discriminate)).
  split; (split; [intros _; exists [], p, ps; split; reflexivity|reflexivity]).
Qed.
End More.
