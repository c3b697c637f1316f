(** Parsing and marshalling again with OmitNull (C60). *)
From Verif Require Import Base Utf8 Float64 Value Scan Unmarshal Pure Opt Marshal ListLemmas SpecJson SpecValue SpecLax SpecText SpecOrder SpecOut SpecOpts SpecCanon
  UnmarshalProof ValueLemmas NumProof ParseComplete ParseFacts SortProof Utf8Proof EscapeProof MarshalProof OrderProof LaxNum LaxParse
  RoundTrip NumFacts SeqProof LaxFacts MarshalFacts IndentProof LaxSame CanonProof StackOutProof SpecOmit.

Definition null_free (kvs : list (bytes * (Z * V))) : Prop := Forall (fun e => snd (snd e) <> VNull) kvs.

(** No member of a tree is null. *)
Fixpoint no_nulls (j : jv) : Prop :=
  match j with
  | JArr l => (fix go (l : list jv) : Prop := match l with [] => True | x :: r => no_nulls x /\ go r end) l
  | JObj ms => (fix go (l : list (bytes * jv)) : Prop := match l with [] => True | (_, x) :: r => (x <> JNull /\ no_nulls x) /\ go r end) ms
  | _ => True
  end.
Lemma no_nulls_arr l : no_nulls (JArr l) <-> Forall no_nulls l.
Proof.
  cbn. induction l as [|x l IH]; [split; auto|]. rewrite IH. split.
  - intros [H1 H2]; constructor; auto.
  - intros H; inversion H; auto.
Qed.
Lemma no_nulls_obj l : no_nulls (JObj l) <-> Forall (fun m => snd m <> JNull /\ no_nulls (snd m)) l.
Proof.
  cbn. induction l as [|[k x] l IH]; [split; auto|]. rewrite IH. split.
  - intros [H1 H2]; constructor; auto.
  - intros H; inversion H; auto.
Qed.

(** A value without null members is written the same with and without OmitNull. *)
Section Same.
Variable E : Env.
Variable W : World.
Variable o : opt.
Notation o1 := (with_nulls o).

Lemma members_same pi path cnt : forall l first,
  Forall (fun x => snd (snd x) <> VNull /\ forall pi path cnt, marshal_to E W o (snd (snd x)) pi path cnt = marshal_to E W o1 (snd (snd x)) pi path cnt) l ->
  write_members o pi path cnt first (map (mk_entry E W o) l) = write_members o1 pi path cnt first (map (mk_entry E W o1) l).
Proof.
  induction l as [|x l IH]; intros first H; [reflexivity|]. inversion H as [|? ? [Hn Hx] Hr]; subst.
  cbn [map write_members mk_entry e_key e_val e_run].
  rewrite (IH false Hr). rewrite Hx. destruct (snd (snd x)); try reflexivity. congruence.
Qed.
Lemma elems_same v pi path cnt : forall l i,
  Forall (fun x => forall pi path cnt, marshal_to E W o x pi path cnt = marshal_to E W o1 x pi path cnt) l ->
  write_elems o v pi path cnt i (map (marshal_to E W o) l) = write_elems o1 v pi path cnt i (map (marshal_to E W o1) l).
Proof.
  induction l as [|x l IH]; intros i H; [reflexivity|]. inversion H as [|? ? Hx Hr]; subst.
  cbn [map write_elems]. rewrite Hx, (IH _ Hr). reflexivity.
Qed.
Lemma marshal_same v : all_objs null_free v -> forall pi path cnt, marshal_to E W o v pi path cnt = marshal_to E W o1 v pi path cnt.
Proof.
  induction v as [| s | n src | i kvs lo IH | l IH | b | | | ] using V_ind'; intros Hn pi path cnt; try reflexivity.
  - apply all_objs_obj in Hn as [Hk Hn]. rewrite !marshal_obj. destruct kvs as [|kv kvs]; [reflexivity|].
    change (order_kvs W o1) with (order_kvs W o).
    rewrite (members_same pi path (S cnt) (order_kvs W o pi path (kv :: kvs)) true); [reflexivity|].
    eapply Permutation_Forall; [apply Permutation_sym, order_kvs_perm|]. unfold null_free in Hk. rewrite Forall_forall in *. intros x Hx. split; [now apply Hk|].
    apply IH; [exact Hx|now apply Hn].
  - apply all_objs_arr in Hn. cbn [marshal_to]. destruct l as [|x l]; [reflexivity|].
    rewrite (elems_same (VArr (x :: l)) pi path (S cnt) (x :: l) 0); [reflexivity|]. rewrite Forall_forall in *. auto.
Qed.
Lemma marshal_opt_same v : all_objs null_free v -> marshal_opt E W o v = marshal_opt E W o1 v.
Proof. intros H. unfold marshal_opt. rewrite (marshal_same v H). reflexivity. Qed.
End Same.

(** What is written with OmitNull, or of a value without null members, has none. *)
Lemma shows_no_nulls (NT : num -> bytes -> jv -> Prop) om ORD : (forall n src j, NT n src j -> exists lit, j = JNum lit) ->
  forall v j, shows NT om ORD v j -> om = true \/ all_objs null_free v -> no_nulls j /\ (j = JNull -> v = VNull).
Proof.
  intros HN. induction v as [| s | n src | i kvs lo IH | l IH | b | | | ] using V_ind'; intros j H Ho;
    inversion H as [|b' Eb Ej|n0 src0 j0 HN0 En Ej|s0 s' Hf Es Ej|l0 l' Hl El Ej|i0 kvs0 lo0 kvs' ms Hp Hor Hm Ek Ej]; subst; try (split; [exact I|discriminate]); auto.
  - apply HN in HN0 as (lit & ->). split; [exact I|discriminate].
  - split; [|discriminate]. apply no_nulls_obj.
    assert (Hk : forall x, In x (kept om kvs') -> snd (snd x) <> VNull /\ (om = true \/ all_objs null_free (snd (snd x))) /\ In x kvs).
    { intros x Hx. assert (Hx' : In x kvs').
      { unfold kept in Hx. destruct om; [|exact Hx]. now apply filter_In in Hx. }
      apply (Permutation_in _ (Permutation_sym Hp)) in Hx'. split; [|split; [|exact Hx']].
      - destruct Ho as [->|Ho]; [apply filter_In in Hx as [_ Hx]; intros G; rewrite G in Hx; discriminate|].
        apply all_objs_obj in Ho as [Ho _]. unfold null_free in Ho. rewrite Forall_forall in Ho. now apply Ho.
      - destruct Ho as [Ho|Ho]; [now left|right]. apply all_objs_obj in Ho as [_ Ho]. rewrite Forall_forall in Ho. now apply Ho. }
    clear H Hor Hp. rewrite Forall_forall in IH. revert Hk Hm. generalize (kept om kvs'). intros ks Hk Hm.
    induction Hm as [|x m ks ms [F S] Hm IHm]; constructor; [|apply IHm; intros y Hy; apply Hk; now right].
    destruct (Hk x) as (A & B & C); [now left|]. destruct (IH x C _ S B) as [D D']. split; [intros G; now apply A, D'|exact D].
  - split; [|discriminate]. apply no_nulls_arr.
    assert (Ho' : om = true \/ Forall (all_objs null_free) l) by (destruct Ho as [Ho|Ho]; [now left|right; now apply all_objs_arr]).
    clear H Ho. induction Hl as [|x m ks ms S Hm IHm]; constructor; inversion IH as [|? ? Hx Hr]; subst.
    + apply (Hx _ S). destruct Ho' as [Ho|Ho]; [now left|right; now inversion Ho].
    + apply IHm; [exact Hr|]. destruct Ho' as [Ho|Ho]; [now left|right; now inversion Ho].
  - split; [exact I|reflexivity].
Qed.

Lemma tree_null_free (PN : bytes -> num -> Prop) v : forall j, tree_of PN j v -> no_nulls j -> all_objs null_free v.
Proof.
  induction v as [| s | n src | i kvs lo IH | l IH | b | | | ] using V_ind'; intros j H Hj; try exact I;
    inversion H as [| | | |l0 l' Hl E0 E1|l0 i0 kvs0 lo0 Hnd Hk Hx E0 E1]; subst.
  - apply no_nulls_obj in Hj. apply all_objs_obj. unfold null_free.
    assert (G : forall e, In e kvs -> exists y, In y (map snd l0) /\ tree_of PN y (snd (snd e)) /\ y <> JNull /\ no_nulls y).
    { intros [k [id x]] He. cbn [snd].
      assert (Hin : In k (map fst l0)) by (apply Hk; apply in_map_iff; exists (k, (id, x)); auto).
      destruct (last_one _ _ Hin) as (l1 & y & l2 & -> & Hn).
      destruct (Hx l1 k y l2 eq_refl Hn) as (id' & x' & Hi' & Ht).
      apply (alookup_NoDup_In _ _ _ Hnd) in Hi' as A2. apply (alookup_NoDup_In _ _ _ Hnd) in He as A1. rewrite A1 in A2. injection A2 as -> ->.
      exists y. split; [apply in_map_iff; exists (k, y); split; [reflexivity|apply in_elt]|]. split; [exact Ht|].
      rewrite Forall_forall in Hj. apply (Hj (k, y)), in_elt. }
    split; apply Forall_forall; intros e He; destruct (G e He) as (y & _ & Ht & Hy & Hyn).
    + intros Ev. rewrite Ev in Ht. inversion Ht; subst. congruence.
    + rewrite Forall_forall in IH. exact (IH e He y Ht Hyn).
  - apply no_nulls_arr in Hj. apply all_objs_arr. clear H. induction Hl as [|y x l0 l' Hy Hl IHl]; constructor; inversion IH; inversion Hj; subst; eauto.
Qed.

Lemma shows_texts (NT : num -> bytes -> jv -> Prop) om ORD v : (forall n src j, NT n src j -> exists lit, j = JNum lit) ->
  all_text (Forall is_byte) (fun _ _ => True) v -> forall j, shows NT om ORD v j -> texts well_formed j.
Proof.
  intros HN. induction v as [| s | n src | i kvs lo IH | l IH | b | | | ] using V_ind'; intros Ht j H;
    inversion H as [|b' Eb Ej|n0 src0 j0 HN0 En Ej|s0 s' Hf Es Ej|l0 l' Hl El Ej|i0 kvs0 lo0 kvs' ms Hp Hor Hm Ek Ej]; subst; try exact I.
  - cbn in *. eapply fixed_wf; eassumption.
  - apply HN in HN0 as (lit & ->). exact I.
  - apply all_text_obj in Ht. apply texts_obj.
    assert (Hk : forall x, In x (kept om kvs') -> In x kvs).
    { intros x Hx. apply (Permutation_in _ (Permutation_sym Hp)). unfold kept in Hx. destruct om; [|exact Hx]. now apply filter_In in Hx. }
    clear H Hor Hp. rewrite Forall_forall in IH, Ht. revert Hk Hm. generalize (kept om kvs'). intros ks Hk Hm.
    induction Hm as [|x m ks ms [F S] Hm IHm]; constructor; [|apply IHm; intros y Hy; apply Hk; now right].
    destruct (Ht x (Hk x (or_introl eq_refl))) as [A B]. split; [eapply fixed_wf; eassumption|]. eapply IH; [|exact B|exact S]. apply Hk. now left.
  - apply all_text_arr in Ht. apply texts_arr. clear - IH Ht Hl.
    induction Hl; constructor; inversion IH; inversion Ht; subst; auto.
Qed.

(** The first pass: what it leaves. *)
Lemma first_pass E W o v : o_omit_null o = true \/ all_objs null_free v -> opt_ws o -> json_typed v -> all_text (Forall is_byte) (fun _ src => lax_num src) v ->
  exists b v', marshal_opt E W o v = Ok b /\ unmarshal E b = Ok (v', None) /\ json_typed v' /\
    all_text well_formed (fun _ src => lax_num src) v' /\ all_objs null_free v' /\
    (Z.of_nat (List.length b) < two32 -> all_objs (fun kvs => NoDup (map (fun x => fst (snd x)) kvs)) v').
Proof.
  intros Ho Hws Hty Ht.
  destruct (marshal_accepted E W o (fun _ src => lax_num src) v Hws Hty (fun _ _ H => H) Ht) as (b & j & Hm & Hj & Hs).
  assert (HN : forall (n : num) src j, j = JNum src /\ lax_num src -> exists lit, j = JNum lit) by (intros n src j0 [-> _]; eauto).
  assert (Hu := unmarshal_of_lax E b j Hj). exists b, (to_V E j). split; [exact Hm|]. split; [exact Hu|].
  assert (Hl : all_lits lax_num j) by (destruct Hj as (w1 & b1 & w2 & _ & _ & Hv & _); exact (proj1 lax_lits b1 j Hv)).
  split.
  { destruct (unmarshal_total E b) as (v' & e & He & Hq). rewrite Hu in He. injection He as <- <-. exact Hq. }
  split.
  - apply to_V_texts; [exact Hl|]. eapply shows_texts; [exact HN| |exact Hs]. eapply all_text_impl; [| |exact Ht]; auto.
  - split; [eapply tree_null_free; [apply to_V_tree, Hl|]; eapply shows_no_nulls; [exact HN|exact Hs|exact Ho]|].
    intros Hlen. apply to_V_ids. destruct Hj as (w1 & b1 & w2 & -> & _ & Hv & _). rewrite !app_length in Hlen. apply (proj1 (lax_small two32) b1 j Hv). lia.
Qed.

Section Claims.
Variable E : Env.
Variables W W' W'' : World.
Variable o : opt.
Variable v : V.
Hypothesis Hom : o_omit_null o = true.
Hypothesis Hws : opt_ws o.
Hypothesis Hty : json_typed v.
Hypothesis Ht : all_text (Forall is_byte) (fun _ src => lax_num src) v.

Definition omit_passes : Prop := exists b v' b' v'',
  marshal_opt E W o v = Ok b /\ unmarshal E b = Ok (v', None) /\
  marshal_opt E W' o v' = Ok b' /\ unmarshal E b' = Ok (v'', None) /\ marshal_opt E W'' o v'' = Ok b' /\
  all_objs (fun kvs => Forall (fun x => snd (snd x) <> VNull) kvs) v'.

Lemma omit_keyed (lt : bytes -> bytes -> Prop) : (forall a b, lt a b -> lt b a -> False) ->
  (forall W kvs, NoDup (akeys kvs) -> in_order E W (with_nulls o) (by_key lt) kvs) -> omit_passes.
Proof using Hom Hws Hty Ht.
  intros Has Hin. destruct (first_pass E W o v (or_introl Hom) Hws Hty Ht) as (b & v' & H1 & H2 & H3 & H4 & H5 & _).
  destruct (keyed_fix_point E lt Has W' W'' (with_nulls o) v' Hin eq_refl) as (b' & v'' & G1 & G2 & _ & _ & G5); auto using wf_text_bytes.
  destruct (first_pass E W' o v' (or_introl Hom) Hws H3 (wf_text_bytes _ H4)) as (b2 & v2 & K1 & K2 & _ & _ & K5 & _).
  rewrite <- (marshal_opt_same E W' o v' H5), K1 in G1. injection G1 as ->. rewrite K2 in G2. injection G2 as ->.
  exists b, v', b', v''. repeat (split; [assumption|]). split; [|exact H5]. rewrite (marshal_opt_same E W'' o v'' K5).
  apply G5. eapply wf_objs; [|exact H4]. apply wf_kept.
Qed.
Theorem omit_sorted_twice : o_less o = Some default_string_sequence -> omit_passes.
Proof using Hom Hws Hty Ht. intros Ho. apply (omit_keyed blt blt_asym). intros W2 kvs Hn. now apply in_order_default. Qed.
Theorem omit_keyseq_twice : o_less o = None -> o_keyseq o <> [] -> omit_passes.
Proof using Hom Hws Hty Ht.
  intros Ho Hk. apply (omit_keyed _ (seq_asym (o_keyseq o))). intros W2 kvs Hn.
  change (o_keyseq o) with (o_keyseq (with_nulls o)). now apply in_order_keyseq.
Qed.
Theorem omit_setseq_twice : o_less o = None -> o_keyseq o = [] -> o_setseq o = true ->
  (forall b, marshal_opt E W o v = Ok b -> Z.of_nat (List.length b) < two32) ->
  exists b v', marshal_opt E W o v = Ok b /\ unmarshal E b = Ok (v', None) /\
    all_objs (fun kvs => Forall (fun x => snd (snd x) <> VNull) kvs) v' /\
    forall b', marshal_opt E W' o v' = Ok b' -> Z.of_nat (List.length b') < two32 ->
    exists v'', unmarshal E b' = Ok (v'', None) /\ marshal_opt E W'' o v'' = Ok b'.
Proof using Hom Hws Hty Ht.
  intros H1 H2 H3 Hlen. destruct (first_pass E W o v (or_introl Hom) Hws Hty Ht) as (b & v' & A & B & C & D & F & G).
  exists b, v'. split; [exact A|]. split; [exact B|]. split; [exact F|]. intros b' Hb' Hl.
  destruct (first_pass E W' o v' (or_introl Hom) Hws C (wf_text_bytes _ D)) as (b2 & v2 & K1 & K2 & _ & _ & K5 & _).
  rewrite Hb' in K1. injection K1 as <-.
  destruct (seq_fix_point E W' W'' (with_nulls o) v') as (b2 & v'' & G1 & G2 & _ & _ & _ & G3); auto using wf_text_bytes.
  { intros b2 Hb2. rewrite <- (marshal_opt_same E W' o v' F), Hb' in Hb2. now injection Hb2 as <-. }
  rewrite <- (marshal_opt_same E W' o v' F), Hb' in G1. injection G1 as <-. rewrite K2 in G2. injection G2 as ->.
  exists v''. split; [exact K2|]. rewrite (marshal_opt_same E W'' o v'' K5). apply G3. eapply wf_objs; [|exact D]. apply wf_distinct.
Qed.
End Claims.

(** *** Exactly when the first output is reproduced *)

Definition lives (kvs : list (bytes * (Z * V))) : list (bytes * (Z * V)) :=
  map (fun e => (fst e, (fst (snd e), without_nulls (snd (snd e))))) (filter (fun x => negb (is_null (snd (snd x)))) kvs).
Lemma without_nulls_obj i kvs lo : without_nulls (VObj i kvs lo) = VObj i (lives kvs) lo.
Proof.
  cbn [without_nulls]. f_equal. unfold lives. induction kvs as [|[k [id x]] l IH]; [reflexivity|].
  cbn [flat_map filter snd]. rewrite IH. destruct x; reflexivity.
Qed.
Lemma in_lives e kvs : In e (lives kvs) -> exists x, In x kvs /\ fst e = fst x /\ fst (snd e) = fst (snd x) /\ snd (snd e) = without_nulls (snd (snd x)).
Proof.
  unfold lives. intros H. apply in_map_iff in H as (x & <- & Hx). apply filter_In in Hx as [Hx _]. exists x. auto.
Qed.
Lemma NoDup_sub {A B} (f : A -> B) (p : A -> bool) l : NoDup (map f l) -> NoDup (map f (filter p l)).
Proof.
  induction l as [|x l IH]; intros H; [constructor|]. cbn in *. inversion H as [|? ? Hn Hd]; subst. destruct (p x); [|auto].
  cbn. constructor; [|auto]. intros Hi. apply Hn. apply in_map_iff in Hi as (y & Ey & Hy). apply filter_In in Hy as [Hy _]. apply in_map_iff. eauto.
Qed.
Lemma lives_keys kvs : NoDup (map fst kvs) -> NoDup (map fst (lives kvs)).
Proof. intros H. unfold lives. rewrite map_map. cbn [fst]. now apply NoDup_sub. Qed.
Lemma lives_ids kvs : NoDup (map (fun x => fst (snd x)) kvs) -> NoDup (map (fun x => fst (snd x)) (lives kvs)).
Proof. intros H. unfold lives. rewrite map_map. cbn [fst snd]. now apply NoDup_sub. Qed.

Lemma without_typed v : json_typed v -> json_typed (without_nulls v).
Proof.
  induction v as [| s | n src | i kvs lo IH | l IH | b | | | ] using V_ind'; intros H; try exact H.
  - rewrite without_nulls_obj. apply json_typed_obj in H as [Hn H]. apply json_typed_obj. split; [now apply lives_keys|].
    apply Forall_forall. intros e He. apply in_lives in He as (x & Hx & _ & _ & ->). rewrite Forall_forall in *. auto.
  - cbn [without_nulls]. apply json_typed_arr in H. apply json_typed_arr, Forall_map. rewrite Forall_forall in *. auto.
Qed.
Lemma without_text PS PN v : all_text PS PN v -> all_text PS PN (without_nulls v).
Proof.
  induction v as [| s | n src | i kvs lo IH | l IH | b | | | ] using V_ind'; intros H; try exact H.
  - rewrite without_nulls_obj. apply all_text_obj in H. apply all_text_obj.
    apply Forall_forall. intros e He. apply in_lives in He as (x & Hx & Ek & _ & Ev). rewrite Forall_forall in *. cbn in *. rewrite Ek, Ev.
    split; [apply (H x Hx)|]. apply IH; [exact Hx|apply (H x Hx)].
  - cbn [without_nulls]. apply all_text_arr in H. apply all_text_arr, Forall_map. rewrite Forall_forall in *. auto.
Qed.
Definition ids_apart (kvs : list (bytes * (Z * V))) : Prop := NoDup (map (fun x => fst (snd x)) kvs).
Lemma without_ids v : all_objs ids_apart v -> all_objs ids_apart (without_nulls v).
Proof.
  induction v as [| s | n src | i kvs lo IH | l IH | b | | | ] using V_ind'; intros H; try exact H.
  - rewrite without_nulls_obj. apply all_objs_obj in H as [Hn H]. apply all_objs_obj. split; [now apply lives_ids|].
    apply Forall_forall. intros e He. apply in_lives in He as (x & Hx & _ & _ & ->). rewrite Forall_forall in *. auto.
  - cbn [without_nulls]. apply all_objs_arr in H. apply all_objs_arr, Forall_map. rewrite Forall_forall in *. auto.
Qed.

Section Shown.
Variable P : kvt -> kvt -> Prop.
Hypothesis HP : forall x y x' y', fst x = fst x' -> fst (snd x) = fst (snd x') -> fst y = fst y' -> fst (snd y) = fst (snd y') -> P x y -> P x' y'.
Lemma lives_ord kvs : ForallOrdPairs P kvs -> ForallOrdPairs P (lives kvs).
Proof using HP.
  unfold lives. induction 1 as [|x l Hx Hl IH]; [constructor|]. cbn [filter]. destruct (negb _); [|exact IH].
  cbn [map]. constructor; [|exact IH]. apply Forall_map, Forall_forall. intros y Hy. apply filter_In in Hy as [Hy _].
  rewrite Forall_forall in Hx. eapply HP; [| | | |exact (Hx y Hy)]; reflexivity.
Qed.
Lemma lives_perm kvs kvs' : Permutation kvs kvs' -> Permutation (lives kvs) (lives kvs').
Proof using.
  intros H. unfold lives. apply Permutation_map. induction H; cbn [filter]; [constructor| | |etransitivity; eassumption].
  - destruct (negb _); [now constructor|assumption].
  - destruct (negb _), (negb _); first [apply perm_swap|reflexivity].
Qed.
Lemma shows_without (NT : num -> bytes -> jv -> Prop) v : forall j,
  shows NT true (ForallOrdPairs P) v j -> shows NT false (ForallOrdPairs P) (without_nulls v) j.
Proof using HP.
  induction v as [| s | n src | i kvs lo IH | l IH | b | | | ] using V_ind'; intros j H;
    inversion H as [|b' Eb Ej|n0 src0 j0 HN0 En Ej|s0 s' Hf Es Ej|l0 l' Hl El Ej|i0 kvs0 lo0 kvs' ms Hp Hor Hm Ek Ej]; subst; try (constructor; assumption).
  - rewrite without_nulls_obj. apply (SH_obj _ _ _ i (lives kvs) lo (lives kvs') ms); [now apply lives_perm|now apply lives_ord|].
    cbn [kept] in *. unfold lives. apply Forall2_map_l. cbn [fst snd].
    assert (Hk : forall x, In x (filter (fun x => negb (is_null (snd (snd x)))) kvs') -> In x kvs).
    { intros x Hx. apply (Permutation_in _ (Permutation_sym Hp)). now apply filter_In in Hx. }
    clear H Hor Hp. rewrite Forall_forall in IH. revert Hk Hm. generalize (filter (fun x : bytes * (Z * V) => negb (is_null (snd (snd x)))) kvs'). intros ks Hk Hm.
    induction Hm as [|x m ks ms [F S] Hm IHm]; constructor; [|apply IHm; intros y Hy; apply Hk; now right].
    split; [exact F|]. apply IH; [apply Hk; now left|exact S].
  - cbn [without_nulls]. constructor. apply Forall2_map_l. clear H.
    induction Hl; constructor; inversion IH; subst; auto.
Qed.
End Shown.

Section Exact.
Variable E : Env.
Variable P : kvt -> kvt -> Prop.
Hypothesis Pasym : forall x y, P x y -> P y x -> False.
Hypothesis HP : forall x y x' y', fst x = fst x' -> fst (snd x) = fst (snd x') -> fst y = fst y' -> fst (snd y) = fst (snd y') -> P x y -> P x' y'.
Notation ORD := (ForallOrdPairs P).
Variable o : opt.
Notation o1 := (with_nulls o).
Variable G : V -> Prop.
Hypothesis HG : forall W o' u, o' = o \/ o' = o1 -> json_typed u -> G u -> all_objs (in_order E W o' ORD) u.
Variable Q : list kvt -> Prop.
Hypothesis Hws : opt_ws o.
Hypothesis Hom : o_omit_null o = true.

Lemma num_words (W : World) o' NT v : (NT = num_text) -> all_text (Forall is_byte) (fun _ src => lax_num src) v -> all_text (Forall is_byte) (num_written E o' NT lval) v.
Proof using.
  intros -> Ht. eapply all_text_impl; [| |exact Ht]; [auto|]. intros n src Hs. exists src, (JNum src). destruct (lax_num_cons src Hs) as (c & t & ->).
  split; [reflexivity|]. split; [now constructor|reflexivity].
Qed.
Lemma runs W o' v : opt_ws o' -> o' = o \/ o' = o1 -> json_typed v -> G v -> all_text (Forall is_byte) (fun _ src => lax_num src) v ->
  exists b j, marshal_opt E W o' v = Ok b /\ lax_doc b j /\ shows num_text (o_omit_null o') ORD v j.
Proof using HG.
  intros [Hw1 Hw2] Ho Hty Hg Ht. destruct (marshal_lax E W o' num_text ORD Hw1 Hw2 v Hty (num_words W o' num_text v eq_refl Ht) (HG W o' v Ho Hty Hg)) as [_ Hrun].
  destruct (Hrun None [] 0%nat) as (b & j & Hb & Hv & Hs). exists b, j. split; [now apply marshal_opt_run|]. split; [|exact Hs].
  exists [], b, []; rewrite app_nil_r; repeat split; auto; constructor.
Qed.
Lemma lax_nonempty v : all_text (Forall is_byte) (fun _ src => lax_num src) v -> all_text (Forall is_byte) (fun _ src => src <> []) v.
Proof using.
  intros Ht. eapply all_text_impl; [| |exact Ht]; [auto|]. intros _ src Hs ->. destruct (lax_num_cons [] Hs) as (c & t & Hc). discriminate.
Qed.
Lemma renders W v : json_typed v -> G v -> all_text (Forall is_byte) (fun _ src => lax_num src) v ->
  exists j, shows num_text false ORD v j /\ marshal_opt E W o1 v = Ok (render (lay_of o1) 0 (spell (o_esc o1) j)).
Proof using HG.
  intros Hty Hg Ht. destruct (marshal_spell E W o1 ORD eq_refl v Hty (lax_nonempty v Ht) (HG W o1 v (or_intror eq_refl) Hty Hg) None []) as (j & Hj & Hr).
  exists j. split; [exact Hj|]. apply marshal_opt_run; [exact Hty|apply Hr].
Qed.

(** Two outputs that show the same tree are the same. *)
Lemma omit_exact W W' v : json_typed v -> G v -> G (without_nulls v) -> (forall b j, marshal_opt E W o v = Ok b -> lax_doc b j -> G (to_V E j)) ->
  all_text (Forall is_byte) (fun _ src => lax_num src) v ->
  (forall b v', marshal_opt E W o1 (without_nulls v) = Ok b -> unmarshal E b = Ok (v', None) -> (marshal_opt E W' o1 v' = Ok b <-> all_objs Q (without_nulls v))) ->
  exists b v', marshal_opt E W o v = Ok b /\ unmarshal E b = Ok (v', None) /\
    (marshal_opt E W' o v' = Ok b <-> marshal_opt E W o1 (without_nulls v) = Ok b /\ all_objs Q (without_nulls v)).
Proof using HG HP Hom Hws Pasym.
  intros Hty Hg Hgs Hgt Ht HQ.
  destruct (runs W o v Hws (or_introl eq_refl) Hty Hg Ht) as (b & j & Hb & Hd & Hs). rewrite Hom in Hs.
  assert (Hu := unmarshal_of_lax E b j Hd). exists b, (to_V E j). split; [exact Hb|]. split; [exact Hu|].
  assert (Hs1 := shows_without P HP num_text v j Hs).
  assert (Ht1 := without_text _ _ _ Ht). assert (Hty1 := without_typed v Hty).
  destruct (runs W o1 (without_nulls v) Hws (or_intror eq_refl) Hty1 Hgs Ht1) as (b1 & j1 & Hb1 & Hd1 & Hj1).
  destruct (renders W (without_nulls v) Hty1 Hgs Ht1) as (j2 & Hj2 & Hr2).
  assert (Ht0 : all_text (Forall is_byte) (fun _ _ => True) (without_nulls v)) by (eapply all_text_impl; [| |exact Ht1]; auto).
  assert (j1 = j) by (eapply (shown_unique P Pasym); eassumption). subst j1.
  assert (j2 = j) by (eapply (shown_unique P Pasym); eassumption). subst j2.
  assert (Hu1 := unmarshal_of_lax E b1 j Hd1). specialize (HQ b1 (to_V E j) Hb1 Hu1).
  destruct (first_pass E W o v (or_introl Hom) Hws Hty Ht) as (b3 & v3 & A1 & A2 & A3 & A4 & A5 & _).
  rewrite Hb in A1. injection A1 as <-. rewrite Hu in A2. injection A2 as <-.
  rewrite (marshal_opt_same E W' o _ A5). split.
  - intros H.
    assert (Hg' := Hgt b j Hb Hd). assert (At := wf_text_bytes _ A4).
    destruct (runs W' o1 (to_V E j) Hws (or_intror eq_refl) A3 Hg' At) as (b4 & j4 & C1 & C2 & C3).
    destruct (renders W' (to_V E j) A3 Hg' At) as (j5 & D1 & D2).
    assert (At0 : all_text (Forall is_byte) (fun _ _ => True) (to_V E j)) by (eapply all_text_impl; [| |exact At]; auto).
    assert (j5 = j4) by (eapply (shown_unique P Pasym); eassumption). subst j5.
    rewrite H in C1. injection C1 as <-. assert (j4 = j) by (eapply lax_doc_same; eassumption). subst j4.
    rewrite H in D2. injection D2 as Eb. rewrite Hb1 in Hr2. injection Hr2 as Eb1.
    split; [rewrite Hb1; congruence|]. apply HQ. rewrite H. congruence.
  - intros [H1 H2]. rewrite Hb1 in H1. injection H1 as <-. now apply HQ.
Qed.
End Exact.

Section ExactClaims.
Variable E : Env.
Variables W W' : World.
Variable o : opt.
Variable v : V.
Hypothesis Hom : o_omit_null o = true.
Hypothesis Hws : opt_ws o.
Hypothesis Hty : json_typed v.
Hypothesis Ht : all_text (Forall is_byte) (fun _ src => lax_num src) v.

Lemma omit_keyed_exact (lt : bytes -> bytes -> Prop) : (forall a b, lt a b -> lt b a -> False) ->
  (forall W o' kvs, o' = o \/ o' = with_nulls o -> NoDup (akeys kvs) -> in_order E W o' (by_key lt) kvs) ->
  exists b v', marshal_opt E W o v = Ok b /\ unmarshal E b = Ok (v', None) /\
    (marshal_opt E W' o v' = Ok b <-> marshal_opt E W (with_nulls o) (without_nulls v) = Ok b /\ all_objs (order_kept lt) (without_nulls v)).
Proof using Hom Hws Hty Ht.
  intros Has Hin.
  apply (omit_exact E (fun x y => lt (fst x) (fst y)) (fun x y => Has _ _)) with (G := fun _ => True); auto.
  - intros x y x' y' -> _ -> _ H. exact H.
  - intros W2 o' u Ho. induction u as [| s | n src | i kvs lo IH | l IH | b | | | ] using V_ind'; intros Hu _; try exact I.
    + apply json_typed_obj in Hu as [Hnd Hu]. apply all_objs_obj. split; [now apply Hin|]. rewrite Forall_forall in *. auto.
    + apply json_typed_arr in Hu. apply all_objs_arr. rewrite Forall_forall in *. auto.
  - intros b v' Hb Hu.
    destruct (keyed_fix_point E lt Has W W' (with_nulls o) (without_nulls v)) as (b1 & v1 & G1 & G2 & _ & _ & G5);
      auto using without_typed, without_text.
    rewrite Hb in G1. injection G1 as <-. rewrite Hu in G2. injection G2 as <-. exact G5.
Qed.
Theorem omit_sorted_exact : o_less o = Some default_string_sequence ->
  exists b v', marshal_opt E W o v = Ok b /\ unmarshal E b = Ok (v', None) /\
    (marshal_opt E W' o v' = Ok b <-> marshal_opt E W (with_nulls o) (without_nulls v) = Ok b /\ all_objs (order_kept blt) (without_nulls v)).
Proof using Hom Hws Hty Ht. intros Ho. apply (omit_keyed_exact blt blt_asym). intros W2 o' kvs [->| ->] Hn; now apply in_order_default. Qed.
Theorem omit_keyseq_exact : o_less o = None -> o_keyseq o <> [] ->
  exists b v', marshal_opt E W o v = Ok b /\ unmarshal E b = Ok (v', None) /\
    (marshal_opt E W' o v' = Ok b <->
     marshal_opt E W (with_nulls o) (without_nulls v) = Ok b /\ all_objs (order_kept (seq_before (o_keyseq o))) (without_nulls v)).
Proof using Hom Hws Hty Ht.
  intros Ho Hk. apply (omit_keyed_exact _ (seq_asym (o_keyseq o))). intros W2 o' kvs [->| ->] Hn; [now apply in_order_keyseq|].
  change (o_keyseq o) with (o_keyseq (with_nulls o)). now apply in_order_keyseq.
Qed.
Theorem omit_setseq_exact : o_less o = None -> o_keyseq o = [] -> o_setseq o = true ->
  all_objs (fun kvs => NoDup (map (fun x => fst (snd x)) kvs)) v ->
  (forall b, marshal_opt E W o v = Ok b -> Z.of_nat (List.length b) < two32) ->
  (forall b, marshal_opt E W (with_nulls o) (without_nulls v) = Ok b -> Z.of_nat (List.length b) < two32) ->
  exists b v', marshal_opt E W o v = Ok b /\ unmarshal E b = Ok (v', None) /\
    (marshal_opt E W' o v' = Ok b <-> marshal_opt E W (with_nulls o) (without_nulls v) = Ok b /\ all_objs names_distinct (without_nulls v)).
Proof using Hom Hws Hty Ht.
  intros H1 H2 H3 Hid Hl1 Hl2.
  apply (omit_exact E (fun x y => fst (snd x) < fst (snd y)) (fun x y H H' => Z.lt_asymm _ _ H H')) with (G := all_objs ids_apart); auto using without_ids.
  - intros x y x' y' _ -> _ -> H. exact H.
  - intros W2 o' u Ho. induction u as [| s | n src | i kvs lo IH | l IH | b | | | ] using V_ind'; intros Hu Hi; try exact I.
    + apply json_typed_obj in Hu as [Hnd Hu]. apply all_objs_obj in Hi as [Hi Hi2]. apply all_objs_obj.
      split; [destruct Ho as [->| ->]; now apply in_order_setseq|]. rewrite Forall_forall in *. auto.
    + apply json_typed_arr in Hu. apply all_objs_arr in Hi. apply all_objs_arr. rewrite Forall_forall in *. auto.
  - intros b j Hb Hj. apply to_V_ids. specialize (Hl1 b Hb). destruct Hj as (w1 & b1 & w2 & -> & _ & Hv & _). rewrite !app_length in Hl1.
    apply (proj1 (lax_small two32) b1 j Hv). lia.
  - intros b v' Hb Hu.
    destruct (seq_fix_point E W W' (with_nulls o) (without_nulls v)) as (b1 & v1 & G1 & G2 & _ & _ & _ & G5);
      auto using without_typed, without_text. { now apply without_ids. }
    rewrite Hb in G1. injection G1 as <-. rewrite Hu in G2. injection G2 as <-. exact G5.
Qed.
End ExactClaims.
