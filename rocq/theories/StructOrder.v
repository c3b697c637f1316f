(** The set sequence of what Import makes of structs. *)
From Verif Require Import Base Utf8 Float64 Value Scan Unmarshal Opt Marshal Access Path Edit Iter Base64 GoValue Import
  SpecJson SpecText SpecOrder SpecHistory SpecValue SpecPath SpecIter SpecNil SpecImport SpecParts SpecOpts SpecSeq ListLemmas ValueLemmas SortProof IterProof
  MarshalTotal MarshalClaims UnmarshalProof OrderProof OrderHistory HistoryProof ParseMore ImportProof ImportTotal PartsProof PartsMore PartsRest.
Local Open Scope Z_scope.

Local Notation last_wins := SpecOrder.last_wins.
Definition ids_of (kvs : list kv) : list Z := map (fun e : kv => fst (snd e)) kvs.
Definition drop (k : bytes) (es : list (bytes * V)) : list (bytes * V) := filter (fun e => negb (beqb k (fst e))) es.
Definition live (kcs : list (bytes * V)) : list (bytes * V) := filter (fun e => negb (uninitialized (snd e))) kcs.

(** *** Lists *)
Lemma by_id_nodup kvs : by_id kvs -> NoDup (ids_of kvs).
Proof.
  induction 1 as [|x l F _ IH]; cbn; constructor; [|exact IH]. intros Hi. apply in_map_iff in Hi as (y & Hy & Hi).
  rewrite Forall_forall in F. apply F in Hi. lia.
Qed.
Lemma by_id_unique (l l' : list kv) : Permutation l l' -> by_id l -> by_id l' -> l = l'.
Proof.
  intros Hp H1 H2. apply (OrderProof.sorted_unique (fun x y : kv => fst (snd x) < fst (snd y))); try assumption.
  intros x y _ _ A B. lia.
Qed.
Lemma gather_all (l : list (bytes * V)) : forall s, range_list gather l s = s ++ l.
Proof. induction l as [|e l IH]; intros s; cbn [range_list gather]; [now rewrite app_nil_r|]. rewrite IH, <- app_assoc. reflexivity. Qed.

Lemma sequence_is i kvs lo kvs' : Permutation kvs' kvs -> by_id kvs' -> in_set_order (VObj i kvs lo) (entries kvs').
Proof.
  intros Hp Hb W path. cbn [range_objects_by_set api_is_object on_value vtype_of vtype_eqb rbind negb object_of].
  set (l := go_sort W _ _).
  assert (Pl : Permutation l kvs) by (unfold l; rewrite go_sort_perm; apply go_range_perm).
  assert (Bl : by_id l).
  { apply le_sorted. apply (Permutation_NoDup (l := ids_of kvs')); [|now apply by_id_nodup]. apply Permutation_map.
    rewrite Hp. symmetry. apply go_range_perm. }
  rewrite gather_all. cbn [app]. f_equal. f_equal. apply by_id_unique; try assumption. now rewrite Hp.
Qed.
Lemma sequence_unique v es es' : in_set_order v es -> in_set_order v es' -> forall W : World, es = es'.
Proof. intros H1 H2 W. specialize (H1 W []). specialize (H2 W []). congruence. Qed.

Lemma aset_perm {A} k (a : A) l : NoDup (map fst l) ->
  Permutation (aset k a l) (filter (fun e => negb (beqb k (fst e))) l ++ [(k, a)]).
Proof.
  induction l as [|[k' b] l IH]; cbn [aset map fst filter app]; intros H; [reflexivity|].
  inversion H as [|? ? H1 H2]; subst. destruct (beqb_spec k k') as [->|N]; cbn [negb].
  - rewrite Permutation_cons_append. apply Permutation_app_tail. clear -H1. induction l as [|[k2 b2] l IH]; [reflexivity|].
    cbn [filter fst]. destruct (beqb_spec k' k2) as [->|N]; [destruct H1; now left|]. cbn [negb]. constructor. apply IH. intros Hi. apply H1. now right.
  - cbn [app]. constructor. now apply IH.
Qed.
Lemma filter_entries k (l : list kv) : entries (filter (fun e : kv => negb (beqb k (fst e))) l) = drop k (entries l).
Proof. unfold entries, drop. induction l as [|e l IH]; [reflexivity|]. cbn [filter map fst]. destruct (beqb k (fst e)); cbn [negb map]; now rewrite IH. Qed.
Lemma by_id_filter f (l : list kv) : by_id l -> by_id (filter f l).
Proof.
  induction 1 as [|x l F _ IH]; [constructor|]. cbn [filter]. destruct (f x); [|exact IH]. constructor; [|exact IH].
  rewrite Forall_forall in *. intros y Hy. apply filter_In in Hy as (Hy & _). auto.
Qed.
Lemma by_id_snoc (l : list kv) x : by_id l -> Forall (fun e : kv => fst (snd e) < fst (snd x)) l -> by_id (l ++ [x]).
Proof.
  induction 1 as [|y l F _ IH]; intros H; [constructor; [constructor|constructor]|]. inversion H as [|? ? H1 H2]; subst. cbn [app]. constructor.
  - apply Forall_app. split; [exact F|]. constructor; [exact H1|constructor].
  - exact (IH H2).
Qed.
Lemma drop_names k es : map fst (drop k es) = without k (map fst es).
Proof.
  unfold drop, without. induction es as [|[k' x] es IH]; [reflexivity|]. cbn [filter map fst remove].
  destruct (beqb_spec k k') as [->|N]; destruct (list_eq_dec Z.eq_dec _ _) as [D|D]; try congruence; cbn [negb map fst]; now rewrite IH.
Qed.
Lemma drop_in k es e : In e (drop k es) <-> In e es /\ fst e <> k.
Proof.
  unfold drop. rewrite filter_In. destruct (beqb_spec k (fst e)) as [->|N]; cbn [negb]; split; intros (H1 & H2); split; auto; try discriminate; congruence.
Qed.
Lemma drop_nodup k es : NoDup (map fst es) -> NoDup (map fst (drop k es ++ [(k, VNull)])).
Proof.
  intros H. rewrite map_app. cbn [map fst]. apply (Permutation_NoDup (Permutation_cons_append _ _)). constructor.
  - intros Hi. apply in_map_iff in Hi as (e & He & Hi). apply drop_in in Hi as (_ & Hi). congruence.
  - unfold drop. clear -H. induction es as [|e es IH]; [constructor|]. inversion H as [|? ? H1 H2]; subst. cbn [filter].
    destruct (negb _); [|exact (IH H2)]. cbn [map]. constructor; [|exact (IH H2)]. intros Hi. apply H1.
    apply in_map_iff in Hi as (e' & He & Hi). apply filter_In in Hi as (Hi & _). apply in_map_iff. eauto.
Qed.

(** Repeated names. *)
Lemma last_drop {A} k (c : A) es : forall r,
  last_wins (filter (fun e => negb (beqb k (fst e))) es ++ (k, c) :: r) = last_wins (es ++ (k, c) :: r).
Proof.
  induction es as [|[k' x] es IH]; intros r; [reflexivity|]. cbn [filter fst]. destruct (beqb_spec k k') as [->|N]; cbn [negb].
  - rewrite IH. cbn [app]. cbn [last_wins]. destruct (in_dec _ _ _) as [_|D]; [reflexivity|]. destruct D. rewrite map_app. apply in_or_app. right. now left.
  - cbn [app last_wins]. rewrite IH.
    destruct (in_dec (list_eq_dec Z.eq_dec) k' (map fst (filter _ es ++ _))) as [D|D]; destruct (in_dec (list_eq_dec Z.eq_dec) k' (map fst (es ++ _))) as [D'|D']; try reflexivity; exfalso.
    + apply D'. rewrite map_app, in_app_iff in D |- *. destruct D as [D|D]; [left|now right]. apply in_map_iff in D as (e & He & D).
      apply filter_In in D as (D & _). apply in_map_iff. eauto.
    + apply D. rewrite map_app, in_app_iff in D' |- *. destruct D' as [D'|D']; [left|now right]. apply in_map_iff in D' as (e & He & D').
      apply in_map_iff. exists e. split; [exact He|]. apply filter_In. split; [exact D'|]. destruct (beqb_spec k (fst e)); [congruence|reflexivity].
Qed.
Lemma last_nodup {A} (es : list (bytes * A)) : NoDup (map fst es) -> last_wins es = es.
Proof.
  induction es as [|[k x] es IH]; [reflexivity|]. cbn [map fst last_wins]. intros H. inversion H as [|? ? H1 H2]; subst.
  destruct (in_dec _ _ _); [contradiction|]. now rewrite IH.
Qed.
Fixpoint put_each (es kcs : list (bytes * V)) : list (bytes * V) :=
  match kcs with [] => es | (k, c) :: r => put_each (drop k es ++ [(k, c)]) r end.
Lemma put_each_last kcs : forall es, NoDup (map fst es) -> put_each es kcs = last_wins (es ++ kcs).
Proof.
  induction kcs as [|[k c] kcs IH]; intros es H; cbn [put_each]; [now rewrite app_nil_r, last_nodup|]. rewrite IH.
  - rewrite <- app_assoc. cbn [app]. apply last_drop.
  - pose proof (drop_nodup k es H) as G. rewrite map_app in *. exact G.
Qed.

(** *** An object that is being filled *)
Definition filling (E : Env) (m : nat) (v : V) (es : list (bytes * V)) : Prop :=
  set_history E m v (map fst es) /\ NoDup (map fst es) /\
  exists i kvs lo kvs', v = VObj i kvs lo /\ NoDup (map fst kvs) /\ Permutation kvs' kvs /\ by_id kvs' /\ entries kvs' = es /\
    i = Z.of_nat m /\ Forall (fun e : kv => fst (snd e) <= i) kvs.

Lemma filling_new E : filling E 0 new_object [].
Proof.
  split; [constructor|]. split; [constructor|]. exists 0, [], None, []. split; [reflexivity|]. split; [constructor|].
  split; [constructor|]. split; [constructor|]. split; [reflexivity|]. split; [reflexivity|constructor].
Qed.
Lemma filling_sequence E m v es : filling E m v es -> in_set_order v es.
Proof. intros (_ & _ & i & kvs & lo & kvs' & -> & _ & Hp & Hb & <- & _). now apply sequence_is. Qed.
Lemma filling_count E m v es : filling E m v es -> member_count v = List.length es.
Proof. intros (_ & _ & i & kvs & lo & kvs' & -> & _ & Hp & _ & <- & _). cbn [member_count]. unfold entries. rewrite map_length. symmetry. now apply Permutation_length. Qed.

Lemma filling_set E m v es k c : filling E m v es -> Z.of_nat m + 1 < two32 ->
  exists v', must_op (set_at E v (arg_v c) (PStr k) []) = Ok v' /\
    if uninitialized c then v' = v else filling E (S m) v' (drop k es ++ [(k, c)]).
Proof.
  intros (Hh & Hne & i & kvs & lo & kvs' & -> & Hn & Hp & Hb & He & Hi & Hle) Hm.
  assert (Hset : set_at E (VObj i kvs lo) (arg_v c) (PStr k) [] =
    if uninitialized c then (VObj i kvs lo, Err ErrValueUninitialized) else
      match set_to_object E (VObj i kvs lo) k c with Ok v' => (v', Ok c) | Err e => (VObj i kvs lo, Err e) | Panic => (VObj i kvs lo, Panic) | Fuel => (VObj i kvs lo, Fuel) end).
  { unfold set_at, arg_v. cbn [snd fst set_f peel psum]. cbn [uninitialized is_nil not_exist orb]. fold (uninitialized c).
    destruct (uninitialized c); reflexivity. }
  rewrite Hset. destruct (uninitialized c) eqn:Eu; [eexists; split; reflexivity|]. cbn [set_to_object] in *.
  eexists. split; [reflexivity|]. cbn [fst].
  assert (Hw : wrap_u32 (i + 1) = i + 1) by (unfold wrap_u32; apply Z.mod_small; fold two32; lia).
  rewrite Hw in *. split; [|split].
  - rewrite map_app, drop_names. cbn [map fst]. eapply sh_set; [exact Hh|constructor|exact Hset|now left].
  - pose proof (drop_nodup k es Hne) as G. rewrite map_app in *. exact G.
  - eexists _, _, _, (filter (fun e : kv => negb (beqb k (fst e))) kvs' ++ [(k, (i + 1, c))]).
    split; [reflexivity|]. split; [now apply aset_names|]. split; [|split; [|split; [|split]]].
    + rewrite (aset_perm k (i + 1, c) kvs Hn). apply Permutation_app_tail. clear -Hp.
      induction Hp as [|x l l' _ IH|x y l|l l' l'' _ IH1 _ IH2]; cbn [filter]; [reflexivity| | |now rewrite IH1].
      * destruct (negb _); [now constructor|exact IH].
      * destruct (negb _), (negb _); try reflexivity. apply perm_swap.
    + apply by_id_snoc; [now apply by_id_filter|]. rewrite Forall_forall. intros e Hi'. apply filter_In in Hi' as (Hi' & _). cbn [fst snd].
      apply (Permutation_in _ Hp) in Hi'. rewrite Forall_forall in Hle. specialize (Hle e Hi'). cbn beta in Hle. lia.
    + unfold entries. rewrite map_app. change (map (fun e : kv => (fst e, snd (snd e)))) with entries. rewrite filter_entries, He. reflexivity.
    + lia.
    + rewrite Forall_forall in *. intros [k' [id x]] Hi'. cbn [fst snd]. apply (aset_in k _ kvs Hn) in Hi' as [(_ & [= -> _])|(_ & Hi')]; [lia|].
      specialize (Hle _ Hi'). cbn [fst snd] in Hle. lia.
Qed.
Lemma filling_all E kcs : forall m v es, filling E m v es -> Z.of_nat (m + List.length (live kcs)) < two32 ->
  exists v', set_all E v kcs = Ok v' /\ filling E (m + List.length (live kcs)) v' (put_each es (live kcs)).
Proof.
  induction kcs as [|[k c] kcs IH]; intros m v es H Hm.
  - exists v. split; [reflexivity|]. cbn. now rewrite Nat.add_0_r.
  - cbn [set_all]. cbn [live filter snd] in *. fold (live kcs) in *. destruct (uninitialized c) eqn:Eu; cbn [negb] in *.
    + assert (Hset : must_op (set_at E v (arg_v c) (PStr k) []) = Ok v).
      { destruct H as (_ & _ & i & kvs & lo & kvs' & -> & _). unfold set_at, arg_v. cbn [snd fst set_f peel psum].
        cbn [uninitialized is_nil not_exist orb]. fold (uninitialized c). rewrite Eu. reflexivity. }
      rewrite Hset. cbn [rbind]. now apply IH.
    + cbn [List.length] in *. destruct (filling_set E m v es k c H) as (v' & -> & Hv); [lia|]. rewrite Eu in Hv. cbn [rbind put_each].
      rewrite <- Nat.add_succ_comm in Hm |- *. now apply IH.
Qed.

(** *** The fields *)
Section Struct.
Variable E : Env.
Variable W : World.
Variable d : opt.
Notation imp := (import_val E W d).
Notation ign opts := (o_ignore_omitempty (combine_options d opts)).

Lemma single_filling kcs v : NoDup (map fst (live kcs)) -> set_all E new_object kcs = Ok v -> Z.of_nat (member_count v) < two32 ->
  filling E (List.length (live kcs)) v (live kcs).
Proof.
  intros Hn Hs Hc.
  assert (L : List.length (live kcs) = member_count v).
  { assert (Hl : Forall (fun kc : bytes * V => uninitialized (snd kc) = false) (live kcs)).
    { apply Forall_forall. intros e He. apply filter_In in He as (_ & He). now apply Bool.negb_true_iff. }
    assert (G : forall l v0 i0 kvs0 lo0, v0 = VObj i0 kvs0 lo0 -> set_all E v0 l = set_all E v0 (live l)).
    { induction l as [|[k c] l IH]; intros v0 i0 kvs0 lo0 ->; [reflexivity|]. cbn [live filter snd]. fold (live l).
      destruct (uninitialized c) eqn:Eu; cbn [negb set_all].
      - unfold set_at at 1, arg_v. cbn [snd fst set_f peel psum]. cbn [uninitialized is_nil not_exist orb]. fold (uninitialized c). rewrite Eu.
        unfold must_op. cbn [snd fst rbind]. eapply IH. reflexivity.
      - unfold set_at, arg_v. cbn [snd fst set_f peel psum]. cbn [uninitialized is_nil not_exist orb]. fold (uninitialized c). rewrite Eu.
        cbn [at_last_param any_to_string set_to_object]. unfold must_op. cbn [snd fst rbind]. eapply IH. reflexivity. }
    rewrite (G kcs new_object 0 [] None eq_refl) in Hs.
    destruct (set_all_fresh E (live kcs) 0 [] None Hl) as (i & es & lo & H1 & H2); [exact Hn|].
    change new_object with (VObj 0 [] None) in Hs. rewrite H1 in Hs. injection Hs as <-. cbn [app member_count]. rewrite <- H2. unfold members. now rewrite map_length. }
  destruct (filling_all E kcs 0 new_object [] (filling_new E)) as (v' & Hs' & Hf); [cbn [Nat.add]; now rewrite L|].
  rewrite Hs in Hs'. injection Hs' as <-. cbn [Nat.add] in Hf. rewrite put_each_last in Hf by constructor. cbn [app] in Hf.
  now rewrite last_nodup in Hf.
Qed.

Lemma fields_filling r ex fs : forall vs kss,
  Forall2 (fun e v => imp (GStruct [e]) r ex = Ok v) fs vs ->
  Forall2 (fun e kcs => part E W d r ex e = Ok kcs /\ NoDup (map fst (live kcs))) fs kss ->
  forall m acc es, filling E m acc es -> Z.of_nat (m + counts vs) < two32 ->
  exists v, set_fields E acc (map (part E W d r ex) fs) = Ok v /\
    Forall2 in_set_order vs (map live kss) /\
    filling E (m + counts vs) v (last_wins (es ++ List.concat (map live kss))).
Proof.
  induction fs as [|e fs IH]; intros vs kss Hf Hk; inversion Hf as [|? w ? vs' Hw Hf']; subst; inversion Hk as [|? kcs ? kss' (Hp & Hn) Hk']; subst; intros m acc es Ha Hm.
  - exists acc. cbn [map List.concat set_fields counts fold_right]. rewrite app_nil_r, Nat.add_0_r. split; [reflexivity|]. split; [constructor|].
    rewrite last_nodup; [exact Ha|apply Ha].
  - cbn [map set_fields]. rewrite Hp. cbn [rbind]. apply import_one in Hw as (kcs0 & Hp0 & Hs0). rewrite Hp in Hp0. injection Hp0 as <-.
    cbn [counts fold_right] in Hm. fold (counts vs') in Hm.
    pose proof (single_filling kcs w Hn Hs0 ltac:(lia)) as Hsf. pose proof (filling_count _ _ _ _ Hsf) as Hc.
    destruct (filling_all E kcs m acc es Ha) as (acc' & -> & Ha'); [rewrite <- Hc; lia|]. cbn [rbind].
    rewrite put_each_last in Ha' by apply Ha.
    destruct (IH vs' kss' Hf' Hk' _ _ _ Ha') as (v & Ev & Hs & Hv); [rewrite <- Hc; lia|].
    exists v. split; [exact Ev|]. split; [constructor; [exact (filling_sequence _ _ _ _ Hsf)|exact Hs]|].
    cbn [counts fold_right List.concat map]. fold (counts vs'). rewrite Hc, Nat.add_assoc.
    assert (Hl : forall a b : list (bytes * V), last_wins (last_wins a ++ b) = last_wins (a ++ b)).
    { clear. induction a as [|[k x] a IH]; intros b; [reflexivity|]. cbn [last_wins app].
      destruct (in_dec _ k (map fst a)) as [D|D].
      - rewrite IH. destruct (in_dec _ k (map fst (a ++ b))) as [D'|D']; [reflexivity|]. destruct D'. rewrite map_app. apply in_or_app. now left.
      - cbn [app last_wins]. rewrite IH.
        assert (Hiff : In k (map fst (last_wins a ++ b)) <-> In k (map fst (a ++ b))).
        { rewrite !map_app, !in_app_iff. enough (G : In k (map fst (last_wins a)) <-> In k (map fst a)) by tauto.
          clear. induction a as [|[k' x'] a IH]; [reflexivity|]. cbn [last_wins]. destruct (in_dec _ k' (map fst a)) as [D|D]; cbn [map fst In]; rewrite IH; [|reflexivity].
          split; [now right|]. intros [<-|H]; assumption. }
        destruct (in_dec _ k (map fst (last_wins a ++ b))); destruct (in_dec _ k (map fst (a ++ b))); tauto || reflexivity. }
    rewrite Hl in Hv. rewrite <- app_assoc in Hv. exact Hv.
Qed.

(** The names of an object that Import makes differ. *)
Lemma method_object m ex i kvs lo : parse_json_marshaler E m ex = Ok (VObj i kvs lo) -> NoDup (map fst kvs).
Proof.
  destruct m as [| |r]; cbn [parse_json_marshaler]; try discriminate. destruct r as [b| | |]; try discriminate. intros H.
  apply json_value in H as (v & _ & Ht & [(Hd & _)|(<- & _)]); [discriminate|]. apply typed_nodup in Ht. inversion Ht; subst; assumption.
Qed.
Lemma append_array l : forall a v, append_all E W (VArr a) l = Ok v -> exists a', v = VArr a'.
Proof.
  induction l as [|c l IH]; intros a v H; cbn [append_all] in H; [injection H as <-; eauto|]. destruct c as [c| | |]; try discriminate. cbn [rbind] in H.
  change (must_op (append_end E W (VArr a) (arg_v c) [])) with (Ok (VArr (a ++ [c]))) in H. cbn [rbind] in H. exact (IH _ _ H).
Qed.
Lemma object_names g : distinct_names g -> forall r ex i kvs lo, imp g r ex = Ok (VObj i kvs lo) -> NoDup (map fst kvs).
Proof.
  induction g as [ |b|z|z|f|f|l IH| |l IH|b|x| |m IH| | |g IH|g IH|fs IH|v|v|m|m| ] using gov_ind'; intros Hd r ex i kvs lo H; cbn [import_val] in H.
  - unfold omit_or in H. destruct (_ && _); discriminate.
  - unfold parse_bool, omit_or in H. destruct (_ && _); [discriminate|]. destruct (x_str ex); discriminate.
  - unfold parse_int, omit_or in H. destruct (_ && _); [discriminate|]. destruct (x_str ex); discriminate.
  - unfold parse_uint, omit_or in H. destruct (_ && _); [discriminate|]. destruct (x_str ex); discriminate.
  - unfold parse_float in H. destruct (_ && _); [discriminate|]. destruct (x_str ex); [destruct (must_marshal _ _ _ _ _); discriminate|discriminate].
  - unfold parse_float in H. destruct (_ && _); [discriminate|]. destruct (x_str ex); [destruct (must_marshal _ _ _ _ _); discriminate|discriminate].
  - apply append_array in H as (a' & H). discriminate.
  - unfold omit_or in H. destruct (_ && _); discriminate.
  - destruct l as [|x l]; [unfold omit_or in H; destruct (_ && _); discriminate|]. apply append_array in H as (a' & H). discriminate.
  - unfold interface, omit_or in H. destruct (can_interface r); [|discriminate]. destruct (_ && _); discriminate.
  - unfold omit_or in H. destruct (_ && _); discriminate.
  - unfold omit_or in H. destruct (_ && _); discriminate.
  - destruct m as [|e m]; [unfold omit_or in H; destruct (_ && _); [discriminate|injection H as <- <- <-; constructor]|].
    apply (entries_filled E _ _ _ new_filled) in H as ((i' & kvs' & lo' & [= <- <- <-] & Hn) & _). exact Hn.
  - discriminate.
  - unfold omit_or in H. destruct (_ && _); discriminate.
  - assert (Hg : distinct_names g) by (intros i0 kvs0 lo0 Hc; exact (Hd _ _ _ (cv_ptr _ _ Hc))).
    destruct g; try exact (IH Hg _ _ _ _ _ H). unfold interface in H. destruct (can_interface r); [|discriminate]. now apply method_object in H.
  - assert (Hg : distinct_names g) by (intros i0 kvs0 lo0 Hc; exact (Hd _ _ _ (cv_iface _ _ Hc))). exact (IH Hg _ _ _ _ _ H).
  - apply (fields_filled E _ _ _ new_filled) in H as ((i' & kvs' & lo' & [= <- <- <-] & Hn) & _). exact Hn.
  - unfold interface in H. destruct (can_interface r); [|discriminate].
    destruct v as [ |s|n src|i0 kvs0 lo0|l|b| | | ]; try discriminate. rewrite copy_obj in H. injection H as <- <- <-.
    rewrite map_map. cbn [fst]. exact (Hd _ _ _ (cv_val _)).
  - unfold interface in H. destruct (can_interface r); [|discriminate]. now apply method_object in H.
  - unfold interface in H. destruct (can_interface r); [|discriminate]. now apply method_object in H.
  - unfold interface in H. destruct (can_interface r); [|discriminate]. destruct m as [| |o]; cbn [parse_text_marshaler] in H; try discriminate.
    destruct o as [b| | |]; try discriminate. cbn [rbind] in H. unfold omit_or in H. destruct (_ && _); discriminate.
  - discriminate.
Qed.
Lemma live_nodup kcs : NoDup (map fst kcs) -> NoDup (map fst (live kcs)).
Proof.
  intros H. induction kcs as [|e kcs IH]; [constructor|]. inversion H as [|? ? H1 H2]; subst. cbn [live filter]. fold (live kcs).
  destruct (negb _); [|exact (IH H2)]. cbn [map]. constructor; [|exact (IH H2)]. intros Hi. apply H1.
  apply in_map_iff in Hi as (e' & He & Hi). apply filter_In in Hi as (Hi & _). apply in_map_iff. eauto.
Qed.
Lemma part_names f g r ex kcs : (gf_anon f = true -> distinct_names g) -> part E W d r ex (f, g) = Ok kcs -> NoDup (map fst (live kcs)).
Proof.
  intros Hd H. apply live_nodup. unfold part in H. destruct (gf_anon f).
  - specialize (Hd eq_refl). unfold parse_anonymous in H. destruct (read_anonymous_tag f ex) as (name, ex').
    destruct (beqb name (bs "-")); [injection H as <-; constructor|].
    destruct (is_nil_ptr g).
    { injection H as <-. destruct (should_omit ex'); [constructor|]. constructor; [intros []|constructor]. }
    destruct (imp g (ro_field r f) ex') as [c| | |] eqn:Ec; try discriminate. cbn [rbind] in H.
    assert (S1 : forall x, NoDup (map fst (if x_priv ex' then [] else [(name, x)] : list (bytes * V)))) by (intros x; destruct (x_priv ex'); constructor; [intros []|constructor]).
    destruct c as [ |s|n src|i kvs lo|l|b| | | ]; try (injection H as <-; first [exact (S1 _)|constructor]).
    cbn [range_objects_by_set api_is_object on_value vtype_of vtype_eqb rbind negb object_of] in H.
    change (fun (s : list (bytes * V)) e => (s ++ [e], true)) with gather in H. rewrite gather_all in H. injection H as <-. cbn [app].
    unfold entries. rewrite map_map. cbn [fst]. apply (Permutation_NoDup (l := map fst kvs)); [|exact (object_names g Hd _ _ _ _ _ Ec)].
    apply Permutation_map. symmetry. rewrite go_sort_perm. apply go_range_perm.
  - unfold parse_field in H. destruct (negb _); [injection H as <-; constructor|]. destruct (read_field_tag f ex) as (name, ex').
    destruct (beqb name (bs "-")); [injection H as <-; constructor|]. destruct (imp g _ _) as [c| | |]; try discriminate. cbn [rbind] in H.
    injection H as <-. destruct (is_nil c); [constructor|]. constructor; [intros []|constructor].
Qed.

Theorem struct_sequence opts fs vs : embeds_distinct fs ->
  Forall2 (fun e v => import E W d opts (GStruct [e]) = Ok (v, None)) fs vs -> Z.of_nat (counts vs) < two32 ->
  exists ess v, Forall2 in_set_order vs ess /\ import E W d opts (GStruct fs) = Ok (v, None) /\
    in_set_order v (last_wins (List.concat ess)) /\ set_history E (counts vs) v (map fst (last_wins (List.concat ess))).
Proof.
  intros Hd H Hc. set (ex := Ext false false false (ign opts)).
  assert (H' : Forall2 (fun e v => imp (GStruct [e]) RNone ex = Ok v) fs vs).
  { clear -H. induction H as [|e v fs vs He _ IH]; constructor; [now apply import_ok in He|exact IH]. }
  assert (Hk : exists kss, Forall2 (fun e kcs => part E W d RNone ex e = Ok kcs /\ NoDup (map fst (live kcs))) fs kss).
  { clear -H' Hd. induction H' as [|[f g] v fs vs He _ IH]; [exists []; constructor|]. inversion Hd as [|? ? D1 D2]; subst.
    destruct (IH D2) as (kss & Hk). apply import_one in He as (kcs & Hp & _). exists (kcs :: kss). constructor; [|exact Hk].
    split; [exact Hp|]. exact (part_names f g _ _ _ D1 Hp). }
  destruct Hk as (kss & Hk). destruct (fields_filling RNone ex fs vs kss H' Hk 0 new_object [] (filling_new E) Hc) as (v & Ev & Hs & Hv).
  exists (map live kss), v. split; [exact Hs|]. split; [apply import_ok; exact Ev|]. cbn [app Nat.add] in Hv. split; [exact (filling_sequence _ _ _ _ Hv)|apply Hv].
Qed.

(** What the sequence shows: every member. *)
Lemma sequence_perm i kvs lo es : in_set_order (VObj i kvs lo) es -> Permutation es (entries kvs).
Proof.
  intros H. specialize (H W []). cbn [range_objects_by_set api_is_object on_value vtype_of vtype_eqb rbind negb object_of] in H.
  rewrite gather_all in H. injection H as <-. cbn [app]. unfold entries. apply Permutation_map. rewrite go_sort_perm. apply go_range_perm.
Qed.
Lemma sequence_members v es : an_object v -> in_set_order v es -> NoDup (map fst es) /\ forall k x, In (k, x) es <-> member v k x.
Proof.
  intros (i & kvs & lo & -> & Hn) H. apply sequence_perm in H. split.
  - apply (Permutation_NoDup (l := map fst kvs)); [|exact Hn]. rewrite H. unfold entries. rewrite map_map. cbn [fst]. reflexivity.
  - intros k x. rewrite member_obj. split.
    + intros Hi. apply (Permutation_in _ H) in Hi. apply in_map_iff in Hi as ([k' [id x']] & [= <- <-] & Hi). eauto.
    + intros (id & Hi). apply (Permutation_in _ (Permutation_sym H)). apply in_map_iff. exists (k, (id, x)). auto.
Qed.
Lemma sequence_count v es : an_object v -> in_set_order v es -> member_count v = List.length es.
Proof. intros (i & kvs & lo & -> & _) H. apply sequence_perm, Permutation_length in H. unfold entries in H. rewrite map_length in H. symmetry. exact H. Qed.
Lemma sequence_one i kvs lo : (List.length kvs <= 1)%nat -> in_set_order (VObj i kvs lo) (entries kvs).
Proof.
  intros H. apply sequence_is; [reflexivity|]. destruct kvs as [|e [|e' kvs]]; [constructor|constructor; constructor|cbn in H; lia].
Qed.

(** *** Fields that are not embedded *)
Lemma plain_single o f key opts g v : plain_field f key opts -> import E W d o (GStruct [(f, g)]) = Ok (v, None) ->
  exists i kvs lo, v = VObj i kvs lo /\ (kvs = [] \/ exists id x, kvs = [(key, (id, x))]).
Proof.
  intros Hf H. pose proof (field_left_out E W d o f key opts g v Hf H) as ((i & kvs & lo & -> & Hn) & Hnone & Hsome).
  exists i, kvs, lo. split; [reflexivity|].
  assert (Ha : forall k id x, In (k, (id, x)) kvs -> k = key).
  { intros k id x Hi. destruct (beqb_spec k key) as [->|N]; [reflexivity|]. exfalso.
    assert (Hd : ~ forall k x, ~ member (VObj i kvs lo) k x) by (intros G; apply (G k x), member_obj; eauto).
    destruct Hsome as (y & Hy); [rewrite Hnone; exact Hd|]. destruct (proj1 (Hy k x)) as (-> & _); [apply member_obj; eauto|congruence]. }
  destruct kvs as [|[k1 [id1 x1]] [|[k2 [id2 x2]] kvs]]; [now left|right|exfalso].
  - exists id1, x1. rewrite (Ha k1 id1 x1); [reflexivity|now left].
  - rewrite (Ha k1 id1 x1), (Ha k2 id2 x2) in Hn; [|right; now left|now left]. inversion Hn as [|? ? H1 _]; subst. apply H1. now left.
Qed.
Lemma plain_sequence o fs keys v : Forall2 (fun e key => exists opts, plain_field (fst e) key opts) fs keys ->
  NoDup keys -> Z.of_nat (List.length fs) < two32 -> import E W d o (GStruct fs) = Ok (v, None) ->
  exists es n, in_set_order v es /\ left_of (map fst es) keys /\ (forall k x, In (k, x) es <-> member v k x) /\
    set_history E n v (map fst es) /\ Z.of_nat n < two32.
Proof.
  intros Hf Hk Hl H.
  assert (Hv : exists vs, Forall2 (fun e v => import E W d o (GStruct [e]) = Ok (v, None)) fs vs).
  { pose proof (struct_each E W d o fs v H) as G. clear -G. induction G as [|e fs (w & Hw) _ (vs & IH)]; [exists []; constructor|].
    exists (w :: vs). now constructor. }
  destruct Hv as (vs & Hv).
  assert (Hc : (counts vs <= List.length fs)%nat /\
    forall ess, Forall2 in_set_order vs ess -> left_of (map fst (List.concat ess)) keys).
  { clear -Hf Hv. revert keys Hf. induction Hv as [|[f g] w fs vs Hw _ IH]; intros keys Hf; inversion Hf as [|? key ? keys' (opts & Hp) Hf']; subst.
    - split; [cbn; lia|]. intros ess He. inversion He; subst. constructor.
    - destruct (IH keys' Hf') as (IH1 & IH2). cbn [fst] in Hp.
      destruct (plain_single o f key opts g w Hp Hw) as (i & kvs & lo & -> & Hkvs).
      cbn [counts fold_right member_count List.length]. fold (counts vs). split; [destruct Hkvs as [->|(id & x & ->)]; cbn [List.length]; lia|].
      intros ess He. inversion He as [|? es ? ess' He1 He2]; subst. apply sequence_perm in He1. cbn [List.concat]. rewrite map_app.
      destruct Hkvs as [->|(id & x & ->)]; cbn [entries map fst snd] in He1.
      + apply Permutation_sym, Permutation_nil in He1. subst es. cbn [map app]. constructor. exact (IH2 _ He2).
      + apply Permutation_sym, Permutation_length_1_inv in He1. subst es. cbn [map app fst]. constructor. exact (IH2 _ He2). }
  destruct Hc as (Hc & Hleft).
  destruct (struct_sequence o fs vs) as (ess & v' & Hs & Hi & Ho & Hh).
  - clear -Hf. induction Hf as [|e key fs keys (opts & (_ & Ha & _)) _ IH]; constructor; [|exact IH]. intros G. congruence.
  - exact Hv.
  - lia.
  - rewrite H in Hi. injection Hi as <-. specialize (Hleft ess Hs).
    assert (Hn : NoDup (map fst (List.concat ess))).
    { revert Hk Hleft. generalize (map fst (List.concat ess)). clear. intros l Hn Hl. revert Hn.
      assert (Hin : forall (l l' : list bytes), left_of l l' -> forall x, In x l -> In x l').
      { induction 1 as [|x l0 l' _ IH|x l0 l' _ IH]; intros y Hy; [exact Hy| |right; auto]. destruct Hy as [->|Hy]; [now left|right; auto]. }
      induction Hl as [|x l l' Hl IH|x l l' Hl IH]; intros Hn; [constructor| |inversion Hn; auto]. inversion Hn as [|? ? H1 H2]; subst.
      constructor; [|auto]. intros Hx. apply H1. exact (Hin _ _ Hl _ Hx). }
    rewrite (last_nodup _ Hn) in *. exists (List.concat ess), (counts vs). split; [exact Ho|]. split; [exact Hleft|].
    split; [|split; [exact Hh|lia]]. apply sequence_members; [|exact Ho].
    apply import_ok in H. rewrite import_fields_eq in H. apply (fields_filled E _ _ _ new_filled) in H. apply H.
Qed.

(** *** Embedded structs *)
Theorem embedded_sequence o f g gs w es : embedded_field f -> struct_of g = Some gs ->
  import E W d o (GStruct gs) = Ok (w, None) -> in_set_order w es -> Z.of_nat (member_count w) < two32 ->
  exists v, import E W d o (GStruct [(f, g)]) = Ok (v, None) /\ in_set_order v es.
Proof.
  intros Hf Hg Hw Ho Hc. apply import_ok in Hw. pose proof Hw as Hfil. rewrite import_fields_eq in Hfil. apply (fields_filled E _ _ _ new_filled) in Hfil as (Hobj & Htyp).
  destruct (sequence_members w es Hobj Ho) as (Hnd & Hm).
  assert (Hlive : live es = es).
  { assert (Ht : forall k x, In (k, x) es -> uninitialized x = false).
    { intros k x Hi. apply Hm, Htyp in Hi. destruct (uninitialized x) eqn:Eu; [|reflexivity]. apply uninit_typeless in Eu. contradiction. }
    clear -Ht. induction es as [|[k x] es IH]; [reflexivity|]. cbn [live filter snd]. fold (live es). rewrite (Ht k x) by now left. cbn [negb].
    f_equal. apply IH. intros k' x' Hi. apply (Ht k' x'). now right. }
  assert (Hpart : part E W d RNone (Ext false false false (ign o)) (f, g) = Ok es).
  { rewrite (embedded_part E W d o f g gs Hf Hg), Hw. cbn [rbind]. destruct Hobj as (i & kvs & lo & -> & _). exact (Ho W []). }
  destruct (filling_all E es 0 new_object [] (filling_new E)) as (v & Hs & Hv).
  { cbn [Nat.add]. rewrite Hlive, <- (sequence_count w es Hobj Ho). exact Hc. }
  exists v. split; [apply import_ok, import_one; eauto|]. apply filling_sequence in Hv. rewrite Hlive, put_each_last in Hv by constructor.
  cbn [app] in Hv. now rewrite (last_nodup _ Hnd) in Hv.
Qed.

(** *** As encoding/json *)
Lemma one_member ms v : (List.length ms <= 1)%nat -> shows_tree E (TObj ms) v -> exists es, in_set_order v es /\ map fst es = map fst ms /\ (member_count v = List.length es).
Proof.
  intros Hl H. destruct v as [ |s|n src|i kvs lo|l|b| | | ]; try (destruct H; fail). apply shows_obj in H as (Hn & Hk & _).
  assert (Hp : Permutation (map fst kvs) (map fst ms)).
  { apply NoDup_Permutation; [exact Hn| |exact Hk]. destruct ms as [|m [|m' ms]]; [constructor|constructor; [intros []|constructor]|cbn in Hl; lia]. }
  assert (Hlen : List.length kvs = List.length ms) by (apply Permutation_length in Hp; now rewrite !map_length in Hp).
  exists (entries kvs). split; [apply sequence_one; lia|]. split; [|cbn [member_count]; unfold entries; now rewrite map_length].
  unfold entries. rewrite map_map. cbn [fst]. destruct ms as [|m [|m' ms]]; [|cbn [map] in *|cbn in Hl; lia].
  - now apply Permutation_sym, Permutation_nil in Hp.
  - now apply Permutation_sym, Permutation_length_1_inv in Hp.
Qed.
Lemma NoDup_app_inv {A} (l l' : list A) : NoDup (l ++ l') -> NoDup l /\ NoDup l'.
Proof.
  induction l as [|x l IH]; cbn [app]; intros H; [split; [constructor|exact H]|]. inversion H as [|? ? H1 H2]; subst. destruct (IH H2) as (I1 & I2).
  split; [|exact I2]. constructor; [|exact I1]. intros Hi. apply H1, in_or_app. now left.
Qed.
Lemma alike_cons i f g fs : alike i (GStruct ((f, g) :: fs)) -> alike i (GStruct [(f, g)]) /\ alike i (GStruct fs).
Proof. cbn [alike]. intros (H1 & H2). auto. Qed.
Lemma distinct_cons f g fs : distinct_names (GStruct ((f, g) :: fs)) -> distinct_names g /\ distinct_names (GStruct fs).
Proof.
  intros H. split; intros i kvs lo Hc; apply (H i kvs lo); [exact (cv_struct ((f, g) :: fs) f g _ (or_introl eq_refl) Hc)|].
  inversion Hc; subst. eapply cv_struct; [right; eassumption|assumption].
Qed.
Lemma distinct_of g gs : struct_of g = Some gs -> distinct_names g -> distinct_names (GStruct gs).
Proof.
  intros Hg H i kvs lo Hc. apply (H i kvs lo). destruct g as [ |b|z|z|f|f|l|l|b|s|m| |[g|]|g|fs|v|v|m|m| ]; try discriminate; [destruct g; try discriminate|];
    injection Hg as ->; [constructor; exact Hc|exact Hc].
Qed.
Lemma distinct_embeds fs : distinct_names (GStruct fs) -> embeds_distinct fs.
Proof.
  intros H. apply Forall_forall. intros [f g] Hi _ i kvs lo Hc. apply (H i kvs lo). eapply cv_struct; [exact Hi|exact Hc].
Qed.
Lemma concat_count vs ess : Forall2 in_set_order vs ess -> Forall an_object vs -> counts vs = List.length (List.concat ess).
Proof.
  induction 1 as [|v es vs ess Hs _ IH]; intros Hf; [reflexivity|]. inversion Hf as [|? ? H1 H2]; subst. cbn [counts fold_right List.concat].
  fold (counts vs). rewrite app_length, (IH H2), (sequence_count v es H1 Hs). reflexivity.
Qed.
Lemma import_object o fs v : import E W d o (GStruct fs) = Ok (v, None) -> an_object v.
Proof. intros H. apply import_ok in H. rewrite import_fields_eq in H. apply (fields_filled E _ _ _ new_filled) in H. apply H. Qed.
Lemma singles_objects o fs vs : Forall2 (fun e v => import E W d o (GStruct [e]) = Ok (v, None)) fs vs -> Forall an_object vs.
Proof.
  induction 1 as [|e v fs vs H _ IH]; constructor; [|exact IH]. apply import_ok in H. rewrite import_fields_eq in H. apply (fields_filled E _ _ _ new_filled) in H. apply H.
Qed.

Hypothesis HE : forall f fmt bits, fmt_float E f fmt (-1) bits <> [].
Definition follows o fs (ms : list (bytes * tree)) : Prop :=
  exists vs ess, Forall2 (fun e v => import E W d o (GStruct [e]) = Ok (v, None)) fs vs /\ Forall2 in_set_order vs ess /\
    map fst (List.concat ess) = map fst ms.
Lemma follows_struct o fs ms : distinct_names (GStruct fs) -> NoDup (map fst ms) -> Z.of_nat (List.length ms) < two32 -> follows o fs ms ->
  exists v es, import E W d o (GStruct fs) = Ok (v, None) /\ in_set_order v es /\ map fst es = map fst ms /\
    member_count v = List.length ms /\ set_history E (List.length ms) v (map fst ms).
Proof.
  intros Hd Hn Hl (vs & ess & Hv & Hs & Hm). pose proof (singles_objects o fs vs Hv) as Ho. pose proof (concat_count vs ess Hs Ho) as Hc.
  assert (Hlen : List.length (List.concat ess) = List.length ms) by (apply (f_equal (@List.length _)) in Hm; now rewrite !map_length in Hm).
  destruct (struct_sequence o fs vs (distinct_embeds fs Hd) Hv) as (ess' & v & Hs' & Hi & Ho' & Hh); [lia|].
  assert (Ee : ess' = ess).
  { clear -Hs Hs' W. revert ess' Hs'. induction Hs as [|w es vs ess H _ IH]; intros ess' Hs'; inversion Hs' as [|? ? ? ? H1 H2]; subst; [reflexivity|].
    rewrite (IH _ H2), (sequence_unique _ _ _ H H1 W). reflexivity. }
  subst ess'. assert (Hnd : NoDup (map fst (List.concat ess))) by now rewrite Hm. rewrite (last_nodup _ Hnd) in *.
  exists v, (List.concat ess). split; [exact Hi|]. split; [exact Ho'|]. split; [exact Hm|]. rewrite Hc, Hlen, Hm in Hh. split; [|exact Hh].
  rewrite (sequence_count v _ (import_object o fs v Hi) Ho'). exact Hlen.
Qed.

Theorem fields_follow o fs ms : enc_fields (ign o) fs ms -> alike (ign o) (GStruct fs) -> distinct_names (GStruct fs) ->
  NoDup (map fst ms) -> Z.of_nat (List.length ms) < two32 -> follows o fs ms.
Proof.
  revert fs ms. assert (Hone : forall f g fs ms ms1, enc_fields (ign o) [(f, g)] ms1 -> (List.length ms1 <= 1)%nat ->
    (alike (ign o) (GStruct fs) -> distinct_names (GStruct fs) -> NoDup (map fst ms) -> Z.of_nat (List.length ms) < two32 -> follows o fs ms) ->
    alike (ign o) (GStruct ((f, g) :: fs)) -> distinct_names (GStruct ((f, g) :: fs)) -> NoDup (map fst (ms1 ++ ms)) ->
    Z.of_nat (List.length (ms1 ++ ms)) < two32 -> follows o ((f, g) :: fs) (ms1 ++ ms)).
  { intros f g fs ms ms1 H1 Hl IH Ha Hd Hn Hb. apply alike_cons in Ha as (Ha1 & Ha2). apply distinct_cons in Hd as (Hd1 & Hd2).
    rewrite map_app in Hn. rewrite app_length in Hb. apply NoDup_app_inv in Hn as (Hn1 & Hn2).
    destruct (IH Ha2 Hd2 Hn2) as (vs & ess & Hv & Hs & Hm); [lia|].
    assert (Henc : enc (ign o) (GStruct [(f, g)]) (TObj ms1)) by (constructor; assumption).
    destruct (import_alike E W d HE o (GStruct [(f, g)]) (TObj ms1) Ha1 Henc) as (v & Hi & Hsh).
    destruct (one_member ms1 v Hl Hsh) as (es & He1 & He2 & _).
    exists (v :: vs), (es :: ess). split; [now constructor|]. split; [now constructor|]. cbn [List.concat]. now rewrite !map_app, Hm, He2. }
  intros fs ms H. induction H as [|f g fs ms Hsk Hf IH|f g gs fs ns ms opts Ha Hs Ht Hp Hg Hn IHn Hf IH|f fs ms opts Ha Hs Ht Hp Hf IH
    |f g fs ms name opts He Hx Hp Ho Hi Hv Hf IH|f g fs ms t name opts He Hx Ht Hp Hc Hno Hns Henc Hf IH|f g fs ms t name opts He Hx Ht Hp Hc Hno Hst Hq Henc Hf IH].
  - intros _ _ _ _. exists [], []. split; [constructor|]. split; [constructor|reflexivity].
  - apply (Hone f g fs ms []); [|cbn; lia|exact IH]. constructor; [exact Hsk|constructor].
  - intros Hal Hd Hnd Hb. apply alike_cons in Hal as (Ha1 & Ha2). apply distinct_cons in Hd as (Hd1 & Hd2).
    rewrite map_app in Hnd. rewrite app_length in Hb. apply NoDup_app_inv in Hnd as (Hn1 & Hn2).
    destruct (IH Ha2 Hd2 Hn2) as (vs & ess & Hv & Hso & Hm); [lia|].
    assert (Hfld : embedded_field f /\ alike (ign o) (GStruct gs)).
    { cbn [alike] in Ha1. destruct Ha1 as ((Hnm & Hfa) & _). destruct (Hfa [] opts Hp) as (Hsp & _ & Hcase). split.
      - split; [exact Ha|]. exists [], opts. split; [exact Hp|]. split; [exact Hsp|]. exact Hnm.
      - destruct Hcase as [Hcase|[(_ & Hcase)|[(_ & _ & _ & [(_ & A)|(-> & _)])|(_ & Hcase & _)]]]; [contradiction|congruence| |discriminate|].
        + destruct g as [ |b|z|z|f0|f0|l|l|b|s|m| |[g|]|g|fs0|v|v|m|m| ]; try discriminate; [destruct g; try discriminate|]; injection Hg as ->; exact A.
        + destruct (Hcase Ha) as (Hcase' & _). congruence. }
    destruct Hfld as (Hemb & Hgs). pose proof (distinct_of g gs Hg Hd1) as Hdg.
    destruct (follows_struct o gs ns Hdg Hn1 ltac:(lia) (IHn Hgs Hdg Hn1 ltac:(lia))) as (w & es & Hw & Hwo & Hwn & Hwc & _).
    destruct (embedded_sequence o f g gs w es Hemb Hg Hw Hwo) as (v & Hvi & Hvo); [rewrite Hwc; lia|].
    exists (v :: vs), (es :: ess). split; [now constructor|]. split; [now constructor|]. cbn [List.concat]. now rewrite !map_app, Hm, Hwn.
  - apply (Hone f (GPtr None) fs ms []); [|cbn; lia|exact IH]. eapply enc_embedded_nil; try eassumption. constructor.
  - apply (Hone f g fs ms []); [|cbn; lia|exact IH]. eapply enc_omitted; try eassumption. constructor.
  - apply (Hone f g fs ms [(field_key f name, t)]); [|cbn; lia|exact IH]. eapply enc_field; try eassumption. constructor.
  - apply (Hone f g fs ms [(field_key f name, TQuoted t)]); [|cbn; lia|exact IH]. eapply enc_quoted; try eassumption. constructor.
Qed.

Theorem json_sequence o fs ms : alike (ign o) (GStruct fs) -> enc (ign o) (GStruct fs) (TObj ms) -> distinct_names (GStruct fs) ->
  Z.of_nat (List.length ms) < two32 ->
  exists v es, import E W d o (GStruct fs) = Ok (v, None) /\ in_set_order v es /\ map fst es = map fst ms.
Proof.
  intros Ha He Hd Hl. inversion He as [| | | | | | | | | | | | | | | | |fs' ms' Hf Hn| | | | | | ]; subst.
  destruct (follows_struct o fs ms Hd Hn Hl (fields_follow o fs ms Hf Ha Hd Hn Hl)) as (v & es & H1 & H2 & H3 & _). eauto.
Qed.
End Struct.

(** *** Texts *)
Lemma shows_sequenced v : forall j, shows num_text false by_id v j -> sequenced v j.
Proof.
  induction v as [ |s|n src|i kvs lo IH|l IH|b| | | ] using V_ind'; intros j H; inversion H; subst; try (apply sq_other; discriminate).
  - rename kvs' into l'. eapply (sq_obj _ _ _ (entries l')); [apply sequence_is; [now symmetry|assumption]|].
    match goal with H : Forall2 _ (kept false l') ?ms0 |- _ => rename H into HF end.
    assert (Hall : Forall (fun e : kv => forall j, shows num_text false by_id (snd (snd e)) j -> sequenced (snd (snd e)) j) l').
    { rewrite Forall_forall in *. intros e Hi. apply IH. match goal with Hp : Permutation kvs l' |- _ => apply (Permutation_in _ (Permutation_sym Hp)) end. exact Hi. }
    cbn [kept] in HF. clear -HF Hall. induction HF as [|x y l ms (H1 & H2) _ IHl]; [constructor|]. inversion Hall as [|? ? A1 A2]; subst.
    cbn [entries map]. constructor; [cbn [fst snd]; auto|]. exact (IHl A2).
  - apply sq_arr. match goal with H : Forall2 _ l _ |- _ => rename H into HF end. clear -IH HF. induction HF as [|x y l l' Hxy _ IHl]; constructor; inversion IH; auto.
Qed.
Theorem sequence_text (E : Env) (W : World) (o : opt) n v : history E n v -> Z.of_nat n < two32 ->
  opt_ws o -> o_omit_null o = false -> json_typed v -> all_text str_ok (fun _ src => rfc_lit src) v ->
  o_less o = None -> o_keyseq o = [] -> o_setseq o = true ->
  exists b j, marshal_opt E W o v = Ok b /\ json_doc b j /\ sequenced v j.
Proof.
  intros H Hn Hw Hom Ht Ha Hl Hk Hs. destruct (history_order_output E W o n v H Hn Hw Hom Ht Ha Hl Hk Hs) as (b & j & H1 & H2 & H3).
  exists b, j. split; [exact H1|]. split; [exact H2|]. now apply shows_sequenced.
Qed.
Theorem import_text (E : Env) (W : World) (d o : opt) opts n g v : (forall x, contains_value g x -> history E n x) ->
  (forall b, contains_text E W d g b -> Forall is_byte b) -> import E W d opts g = Ok (v, None) ->
  Z.of_nat (n + data_size E W d g) < two32 ->
  opt_ws o -> o_omit_null o = false -> json_typed v -> all_text str_ok (fun _ src => rfc_lit src) v ->
  o_less o = None -> o_keyseq o = [] -> o_setseq o = true ->
  exists b j, marshal_opt E W o v = Ok b /\ json_doc b j /\ sequenced v j.
Proof. intros Hv Hb Hi Hn. apply (sequence_text E W o (n + data_size E W d g)); [|exact Hn]. exact (h_import E n W d opts g v None Hv Hb Hi). Qed.
