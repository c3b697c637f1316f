(** Parsing what Marshal writes. *)
From Verif Require Import Base Utf8 Float64 Value Scan Unmarshal Pure Opt Marshal ListLemmas SpecJson SpecValue SpecLax SpecText SpecOpts
  UnmarshalProof ValueLemmas NumProof ParseComplete ParseFacts SortProof EscapeProof MarshalProof LaxNum LaxParse.

(** *** Trees of accepted texts *)

Lemma lax_lits :
  (forall t j, lval t j -> all_lits lax_num j) /\
  (forall t l, lelems t l -> Forall (all_lits lax_num) l) /\
  (forall t l, lmembers t l -> Forall (fun kx => all_lits lax_num (snd kx)) l).
Proof.
  apply lax_mutind; try (intros; exact I); try (intros; constructor; assumption); try (intros; assumption).
  - intros t l _ H. now apply all_lits_arr.
  - intros t l _ H. now apply all_lits_obj.
Qed.

Lemma to_V_tree E j : all_lits lax_num j -> tree_of lax_value j (to_V E j).
Proof.
  induction j as [ |b|lit|s|l IH|l IH] using jv_ind'; intros Hl; try constructor.
  - cbn [all_lits] in Hl. destruct (lax_number_value E lit Hl) as (n & Hn & Hv). cbn [to_V]. rewrite Hn. now constructor.
  - apply all_lits_arr in Hl. induction IH as [|x l Hx _ IHl]; cbn [map]; [constructor|].
    inversion Hl; subst. constructor; auto.
  - apply all_lits_obj in Hl. cbn [to_V]. change (fold_left _ l new_object) with (put_all E l (VObj 0 [] None)).
    destruct (put_all_obj E l 0 [] None) as (i' & kvs & lo & -> & H1 & H2 & H3 & H4). constructor.
    + apply H1. constructor.
    + intros k. unfold akeys in H2. rewrite H2. cbn. tauto.
    + intros l1 k x l2 El Hn. destruct (H4 l1 k x l2 El Hn) as (id & Hid). exists id, (to_V E x).
      split; [now apply alookup_In|]. subst l. rewrite Forall_forall in IH, Hl.
      apply (IH (k, x)); [apply in_elt|]. apply (Hl (k, x)). apply in_elt.
Qed.

Theorem unmarshal_accepts E b : Forall is_byte b -> forall v,
  unmarshal E b = Ok (v, None) -> exists j, lax_doc b j /\ tree_of lax_value j v.
Proof.
  intros Hb v H. apply unmarshal_lax in H as (j & Hj & ->); [|assumption]. exists j. split; [assumption|].
  apply to_V_tree. destruct Hj as (w1 & t & w2 & _ & _ & Hj & _). now apply (proj1 lax_lits t).
Qed.

Lemma unmarshal_of_lax E b j : lax_doc b j -> unmarshal E b = Ok (to_V E j, None).
Proof.
  intros H. pose proof (q_unmarshal_lax E b j H) as Q0. unfold unmarshal. destruct b as [|c b]; [discriminate|].
  pose proof (run_unmarshal_spec E (c :: b)) as R. rewrite Q0 in R. destruct R as (s' & -> & _). reflexivity.
Qed.

Theorem unmarshal_lax_tree E b j : lax_doc b j ->
  exists v, unmarshal E b = Ok (v, None) /\ tree_of lax_value j v.
Proof.
  intros H. exists (to_V E j). split; [now apply unmarshal_of_lax|].
  apply to_V_tree. destruct H as (w1 & t & w2 & _ & _ & Hj & _). now apply (proj1 lax_lits t).
Qed.

(** *** Strings of accepted texts are bytes *)

Lemma utf8_bytes cp : scalar cp -> Forall is_byte (utf8 cp).
Proof.
  unfold scalar, utf8, is_byte. intros Hs.
  destruct (Z.ltb_spec cp 128); [|destruct (Z.ltb_spec cp 2048); [|destruct (Z.ltb_spec cp 65536)]];
    repeat constructor; lia.
Qed.
Lemma pair_bytes_bytes cp : Forall is_byte (pair_bytes cp).
Proof. unfold pair_bytes, is_byte. repeat constructor; lia. Qed.

Lemma lstr_bytes t s : lstr t s -> Forall is_byte t -> Forall is_byte s.
Proof.
  induction 1 as [|c t s Hc H34 H92 Hl IH|c x t s Hc Hl IH|c x y t s Hc Hl IH|c x y z t s Hc Hl IH
    |c d t s Hd Hl IH|h cp t s Hh Hsc Hl IH|h1 h2 hi lo t s Hh1 Hhi Hh2 Hlo Hl IH]; intros Hb.
  - constructor.
  - inversion Hb; subst. constructor; auto.
  - inversion Hb as [|? ? B1 Hb1]; subst. inversion Hb1; subst. constructor; [assumption|]. constructor; auto.
  - inversion Hb as [|? ? B1 Hb1]; subst. inversion Hb1 as [|? ? B2 Hb2]; subst. inversion Hb2; subst. repeat (constructor; [assumption|]). auto.
  - inversion Hb as [|? ? B1 Hb1]; subst. inversion Hb1 as [|? ? B2 Hb2]; subst. inversion Hb2 as [|? ? B3 Hb3]; subst. inversion Hb3; subst.
    repeat (constructor; [assumption|]). auto.
  - inversion Hb as [|? ? B1 Hb1]; subst. inversion Hb1; subst. constructor; auto.
    unfold is_byte. destruct Hd as [Hd|[_ ->]]; [destruct Hd|]; lia.
  - inversion Hb as [|? ? B1 Hb1]; subst. inversion Hb1 as [|? ? B2 Hb2]; subst. apply Forall_app in Hb2 as [_ Hb2].
    apply Forall_app. split; [now apply utf8_bytes|auto].
  - inversion Hb as [|? ? B1 Hb1]; subst. inversion Hb1 as [|? ? B2 Hb2]; subst. apply Forall_app in Hb2 as [_ Hb2].
    inversion Hb2 as [|? ? B3 Hb3]; subst. inversion Hb3 as [|? ? B4 Hb4]; subst. apply Forall_app in Hb4 as [_ Hb4].
    apply Forall_app. split; [apply pair_bytes_bytes|auto].
Qed.

Fixpoint j_bytes (j : jv) : Prop :=
  match j with
  | JStr s => Forall is_byte s
  | JArr l => (fix go (l : list jv) : Prop := match l with [] => True | x :: r => j_bytes x /\ go r end) l
  | JObj l => (fix go (l : list (bytes * jv)) : Prop :=
                 match l with [] => True | (k, x) :: r => Forall is_byte k /\ j_bytes x /\ go r end) l
  | _ => True
  end.
Lemma j_bytes_arr l : j_bytes (JArr l) <-> Forall j_bytes l.
Proof.
  cbn. induction l as [|x l IH]; [split; auto|]. rewrite IH. split.
  - intros [H1 H2]; constructor; auto.
  - intros H; inversion H; auto.
Qed.
Lemma j_bytes_obj l : j_bytes (JObj l) <-> Forall (fun x => Forall is_byte (fst x) /\ j_bytes (snd x)) l.
Proof.
  cbn. induction l as [|[k x] l IH]; [split; auto|]. rewrite IH. split.
  - intros (H1 & H2 & H3); constructor; auto.
  - intros H; inversion H as [|? ? [H1 H2] H3]; auto.
Qed.

Lemma lax_bytes :
  (forall t j, lval t j -> Forall is_byte t -> j_bytes j) /\
  (forall t l, lelems t l -> Forall is_byte t -> Forall j_bytes l) /\
  (forall t l, lmembers t l -> Forall is_byte t -> Forall (fun x => Forall is_byte (fst x) /\ j_bytes (snd x)) l).
Proof.
  apply lax_mutind; try (intros; exact I); try (intros; constructor).
  - intros t s H Hb. apply Forall_inv_tail, Forall_app in Hb as [Hb _]. exact (lstr_bytes _ _ H Hb).
  - intros t l _ IH Hb. apply Forall_inv_tail, Forall_app in Hb as [Hb _]. apply j_bytes_arr. auto.
  - intros t l _ IH Hb. apply Forall_inv_tail, Forall_app in Hb as [Hb _]. apply j_bytes_obj. auto.
  - intros w t l _ _ IH Hb. apply Forall_app in Hb as [_ Hb]. apply Forall_inv_tail in Hb. auto.
  - rewrite !Forall_app in *. tauto.
  - rewrite !Forall_app in *. tauto.
  - intros w t l _ _ IH Hb. apply Forall_app in Hb as [_ Hb]. apply Forall_inv_tail in Hb. auto.
  - cbn [fst snd]. repeat (rewrite Forall_app in * || rewrite Forall_cons_iff in * ). split; [|tauto].
    eapply lstr_bytes; [eassumption|tauto].
  - repeat (rewrite Forall_app in * || rewrite Forall_cons_iff in * ). tauto.
Qed.

(** *** Values of accepted texts *)

Lemma all_text_put_all E PS PN l : forall i kvs lo,
  Forall (fun x => PS (fst x) /\ all_text PS PN (to_V E (snd x))) l ->
  all_text PS PN (VObj i kvs lo) -> all_text PS PN (put_all E l (VObj i kvs lo)).
Proof.
  induction l as [|[k x] l IH]; intros i kvs lo Hl Ho; [exact Ho|].
  inversion Hl as [|? ? [H1 H2] H3]; subst. cbn [put_all fold_left]. unfold oput at 2. cbn [set_to_object fst snd].
  apply IH; [assumption|]. apply all_text_obj. apply all_text_obj in Ho. apply Forall_aset; [assumption|].
  intros k' <-. split; assumption.
Qed.

Lemma to_V_text E j : all_lits lax_num j -> j_bytes j ->
  all_text (Forall is_byte) (fun n src => q_number E src = Ok (VNum n src, [])) (to_V E j).
Proof.
  induction j as [ |b|lit|s|l IH|l IH] using jv_ind'; intros Hl Hb; try exact I.
  - cbn [all_lits] in Hl. destruct (lax_number E lit Hl) as (n & Hn). cbn [to_V]. rewrite Hn. exact Hn.
  - exact Hb.
  - apply all_lits_arr in Hl. apply j_bytes_arr in Hb. cbn [to_V]. apply all_text_arr, Forall_map.
    rewrite Forall_forall in *. auto.
  - apply all_lits_obj in Hl. apply j_bytes_obj in Hb. cbn [to_V].
    change (fold_left _ l new_object) with (put_all E l (VObj 0 [] None)).
    apply all_text_put_all; [|exact I]. rewrite Forall_forall in *.
    intros x Hx. split; [now apply Hb|]. apply IH; [assumption|now apply Hl|now apply Hb].
Qed.

Lemma parsed_text E b v : Forall is_byte b -> unmarshal E b = Ok (v, None) ->
  json_typed v /\ all_text (Forall is_byte) (fun n src => q_number E src = Ok (VNum n src, [])) v.
Proof.
  intros Hb H. split.
  - destruct (unmarshal_total E b) as (v' & e & He & Ht). rewrite H in He. injection He as <- <-. exact Ht.
  - apply unmarshal_lax in H as (j & (w1 & t & w2 & -> & _ & Hj & _) & ->); [|assumption].
    apply Forall_app in Hb as [_ Hb]. apply Forall_app in Hb as [Hb _].
    apply to_V_text; [now apply (proj1 lax_lits t)|now apply (proj1 lax_bytes t)].
Qed.

(** *** Round trip *)

Lemma put_all_nodup E l : forall i kvs lo,
  NoDup (akeys kvs ++ map fst l) ->
  exists i' new lo', put_all E l (VObj i kvs lo) = VObj i' (kvs ++ new) lo' /\
    Forall2 (fun m x => fst x = fst m /\ snd (snd x) = to_V E (snd m)) l new.
Proof.
  induction l as [|[k x] l IH]; intros i kvs lo Hn.
  - exists i, [], lo. rewrite app_nil_r. split; [reflexivity|constructor].
  - cbn [map fst] in Hn. cbn [put_all fold_left]. unfold oput at 2. cbn [set_to_object fst snd].
    assert (Hk : ~ In k (akeys kvs)).
    { apply NoDup_remove_2 in Hn. intros H. apply Hn. apply in_or_app. now left. }
    assert (Ha : forall a, aset k a kvs = kvs ++ [(k, a)]).
    { intros a. clear -Hk. induction kvs as [|[k' a'] r IHr]; [reflexivity|]. cbn [aset].
      destruct (beqb_spec k k') as [->|Nk]; [exfalso; apply Hk; now left|].
      cbn [app]. f_equal. apply IHr. intros H. apply Hk. now right. }
    rewrite Ha. destruct (IH (wrap_u32 (i + 1)) (kvs ++ [(k, (wrap_u32 (i + 1), to_V E x))]) (add_caseless_key E k lo)) as (i' & new & lo' & Hp & Hf).
    { unfold akeys in *. rewrite map_app. cbn [map fst]. rewrite <- app_assoc. exact Hn. }
    exists i', ((k, (wrap_u32 (i + 1), to_V E x)) :: new), lo'. split.
    + etransitivity; [exact Hp|]. now rewrite <- app_assoc.
    + constructor; [split; reflexivity|exact Hf].
Qed.

Lemma Forall2_keys_nodup (kvs : list (bytes * (Z * V))) (ms : list (bytes * jv)) :
  Forall2 (fun x m => fixed (fst x) (fst m)) kvs ms ->
  NoDup (map fst kvs) -> names_distinct kvs -> NoDup (map fst ms).
Proof.
  induction 1 as [|x m kvs ms Hx H IH]; intros Hn Hd; cbn; [constructor|].
  cbn in Hn. inversion Hn as [|? ? Hni Hn']; subst. constructor.
  - intros Hin. apply in_map_iff in Hin as (m' & Em & Hin).
    assert (Hex : exists x', In x' kvs /\ fixed (fst x') (fst m')).
    { clear -H Hin. induction H as [|y m kvs ms Hy H IH]; [contradiction|].
      destruct Hin as [->|Hin]; [exists y; split; [now left|assumption]|].
      destruct (IH Hin) as (x' & H1 & H2). exists x'. split; [now right|assumption]. }
    destruct Hex as (x' & Hx' & Hf). apply Hni. rewrite Em in Hf.
    rewrite (Hd (fst x) (fst x') (fst m)); [now apply in_map|now left|right; now apply in_map|assumption|assumption].
  - apply IH; [assumption|]. intros k1 k2 s H1 H2. apply Hd; now right.
Qed.

Lemma names_distinct_perm kvs kvs' : Permutation kvs kvs' -> names_distinct kvs -> names_distinct kvs'.
Proof.
  intros P H k1 k2 s H1 H2. apply (Permutation_map fst), Permutation_sym in P.
  apply H; eapply Permutation_in; try exact P; assumption.
Qed.
Lemma names_distinct_filter f kvs : names_distinct kvs -> names_distinct (filter f kvs).
Proof.
  intros H k1 k2 s H1 H2. apply H; rewrite in_map_iff in *.
  - destruct H1 as (x & <- & Hx). apply filter_In in Hx. exists x. tauto.
  - destruct H2 as (x & <- & Hx). apply filter_In in Hx. exists x. tauto.
Qed.
Lemma NoDup_map_filter {A B} (g : A -> B) f l : NoDup (map g l) -> NoDup (map g (filter f l)).
Proof.
  induction l as [|x l IH]; cbn; intros H; [constructor|]. inversion H; subst. destruct (f x); cbn; auto.
  constructor; auto. rewrite in_map_iff in *. intros (y & Ey & Hy). apply filter_In in Hy. apply H2. exists y. tauto.
Qed.

Lemma kept_perm om kvs kvs' : Permutation kvs kvs' -> Permutation (kept om kvs) (kept om kvs').
Proof.
  intros P. unfold kept. destruct om; [|assumption].
  induction P; cbn; repeat (match goal with |- context [negb ?b] => destruct (negb b) end); cbn; eauto using Permutation; try constructor; assumption.
Qed.
Lemma kept_In om kvs x : In x (kept om kvs) -> In x kvs.
Proof. unfold kept. destruct om; [|auto]. intros H. apply filter_In in H. tauto. Qed.

(** Written as a tree, and read back. *)
Lemma shows_same E NR om ORD v : forall j,
  json_typed v -> all_objs names_distinct v ->
  shows (fun n src j => j = JNum src /\ exists n', q_number E src = Ok (VNum n' src, []) /\ NR n src n') om ORD v j ->
  same_json NR om v (to_V E j).
Proof.
  induction v as [| s | n src | i kvs lo IH | l IH | b | | | ] using V_ind'; intros j Ht Ho Hs;
    inversion Hs as [|b' Eb Ej|n0 src0 j0 HN En Ej|s0 s' Hf Es Ej|l0 l' Hl El Ej|i0 kvs0 lo0 kvs' ms Hp Hor Hm Ek Ej]; subst; try contradiction.
  - now constructor.
  - destruct HN as (-> & n' & Hq & Hr). cbn [to_V]. rewrite Hq. now constructor.
  - apply json_typed_obj in Ht as [Hnd Ht]. apply all_objs_obj in Ho as [Hd Ho].
    assert (Hkd : NoDup (map fst (kept om kvs')) /\ names_distinct (kept om kvs') /\ forall x, In x (kept om kvs') -> In x kvs).
    { assert (H1 : NoDup (map fst kvs')) by (eapply Permutation_NoDup; [apply Permutation_map; exact Hp|exact Hnd]).
      assert (H2 : names_distinct kvs') by (eapply names_distinct_perm; eassumption).
      assert (H3 : forall x, In x kvs' -> In x kvs) by (intros x; apply Permutation_in; now symmetry).
      unfold kept. destruct om; [|auto]. split; [now apply NoDup_map_filter|]. split; [now apply names_distinct_filter|].
      intros x Hx. apply filter_In in Hx. apply H3. tauto. }
    destruct Hkd as (Hn' & Hd' & Hin).
    assert (Hms : NoDup (map fst ms)).
    { eapply Forall2_keys_nodup; [|exact Hn'|exact Hd']. clear -Hm. induction Hm as [|x m kvs2 ms2 [Hf _] Hm IHm]; constructor; assumption. }
    cbn [to_V]. change (fold_left _ ms new_object) with (put_all E ms (VObj 0 [] None)).
    destruct (put_all_nodup E ms 0 [] None) as (i' & new & lo' & -> & Hnew); [exact Hms|].
    cbn [app]. apply (SJ_obj _ _ i kvs lo (kept om kvs') i' new lo'); [now apply kept_perm|].
    clear Hp Hn' Hd' Hms Hs Hor. revert new Hnew. induction Hm as [|x m kvs2 ms [Hf Hsh] Hm IHm]; intros new Hnew.
    + inversion Hnew; subst. constructor.
    + inversion Hnew as [|? y ? new' [E1 E2] Hnew']; subst. constructor.
      * rewrite E1, E2. split; [assumption|]. rewrite Forall_forall in IH, Ht, Ho.
        assert (Hx : In x kvs) by (apply Hin; now left). apply (IH x Hx); [now apply Ht|now apply Ho|exact Hsh].
      * apply IHm; [|exact Hnew']. intros z Hz. apply Hin. now right.
  - apply json_typed_arr in Ht. apply all_objs_arr in Ho. cbn [to_V]. constructor.
    clear Hs. revert IH Ht Ho. induction Hl as [|x j l l' Hx Hl IHl]; intros IH Ht Ho; cbn [map]; [constructor|].
    inversion IH; inversion Ht; inversion Ho; subst. constructor; auto.
  - constructor.
  - constructor.
Qed.

Lemma all_text_impl (PS PS' : bytes -> Prop) (PN PN' : num -> bytes -> Prop) :
  (forall s, PS s -> PS' s) -> (forall n src, PN n src -> PN' n src) ->
  forall v, all_text PS PN v -> all_text PS' PN' v.
Proof.
  intros H1 H2. induction v as [| s | n src | i kvs lo IH | l IH | b | | | ] using V_ind'; try exact (fun x => x).
  - apply H1.
  - apply H2.
  - rewrite !all_text_obj. rewrite !Forall_forall in *. intros H x Hx. split; [apply H1; now apply H|].
    apply IH; [assumption|]. now apply H.
  - rewrite !all_text_arr. rewrite !Forall_forall in *. auto.
Qed.

Lemma marshal_opt_run E W o v b : json_typed v -> marshal_to E W o v None [] 0 = Ok (b, None) -> marshal_opt E W o v = Ok b.
Proof.
  intros Ht H. unfold marshal_opt. destruct v; try contradiction; rewrite H; reflexivity.
Qed.

Lemma lax_num_cons lit : lax_num lit -> exists c t, lit = c :: t.
Proof. intros H. destruct (lax_num_head _ H) as (c & t & -> & _). eauto. Qed.

(** Any value whose numbers have an accepted text is written as an accepted
    text of its tree. *)
Theorem marshal_accepted E W o (PN : num -> bytes -> Prop) v :
  opt_ws o -> json_typed v -> (forall n src, PN n src -> lax_num src) -> all_text (Forall is_byte) PN v ->
  exists b j, marshal_opt E W o v = Ok b /\ lax_doc b j /\
    shows (fun n src j => j = JNum src /\ PN n src) (o_omit_null o) any_order v j.
Proof.
  intros [Hp Hi] Ht Hl Ha.
  destruct (marshal_lax E W o (fun n src j => j = JNum src /\ PN n src) any_order Hp Hi v Ht) as [_ H];
    [|apply all_objs_all; apply in_any_order|].
  { eapply all_text_impl; [|intros n src Hn|exact Ha]; [auto|].
    destruct (lax_num_cons src (Hl _ _ Hn)) as (c & t & Es).
    exists src, (JNum src). split; [rewrite Es; reflexivity|]. split; [constructor; eauto|auto]. }
  destruct (H None [] 0%nat) as (b & j & Hr & Hj & Hs). exists b, j.
  split; [now apply marshal_opt_run|]. split; [|assumption].
  exists [], b, []. rewrite app_nil_r. repeat split; try constructor. assumption.
Qed.

Lemma shows_impl (NT NT' : num -> bytes -> jv -> Prop) om (ORD ORD' : list (bytes * (Z * V)) -> Prop) :
  (forall n src j, NT n src j -> NT' n src j) -> (forall kvs, ORD kvs -> ORD' kvs) ->
  forall v j, shows NT om ORD v j -> shows NT' om ORD' v j.
Proof.
  intros H HO. induction v as [| s | n src | i kvs lo IH | l IH | b | | | ] using V_ind'; intros j Hs;
    inversion Hs as [|b' Eb Ej|n0 src0 j0 HN En Ej|s0 s' Hf Es Ej|l0 l' Hl El Ej|i0 kvs0 lo0 kvs' ms Hp Hor Hm Ek Ej]; subst; try (constructor; auto; fail).
  - apply (SH_obj _ _ _ i kvs lo kvs' ms Hp); [auto|].
    assert (Hin : forall x, In x (kept om kvs') -> In x kvs).
    { intros x Hx. apply kept_In in Hx. exact (Permutation_in x (Permutation_sym Hp) Hx). }
    clear Hp Hs Hor. induction Hm as [|x m kvs2 ms [Hf Hsh] Hm IHm]; constructor.
    + split; [assumption|]. rewrite Forall_forall in IH. apply (IH x); [apply Hin; now left|assumption].
    + apply IHm. intros z Hz. apply Hin. now right.
  - constructor. clear Hs. induction Hl as [|x j l l' Hx Hl IHl]; inversion IH; subst; constructor; auto.
Qed.

(** C05, general form. *)
Theorem round_trip E W o NR (PN : num -> bytes -> Prop) v :
  opt_ws o -> json_typed v ->
  (forall n src, PN n src -> exists n', q_number E src = Ok (VNum n' src, []) /\ NR n src n') ->
  all_text (Forall is_byte) PN v ->
  exists b v', marshal_opt E W o v = Ok b /\ unmarshal E b = Ok (v', None) /\
    (all_objs names_distinct v -> same_json NR (o_omit_null o) v v').
Proof.
  intros Ho Ht Hn Ha.
  destruct (marshal_accepted E W o PN v Ho Ht) as (b & j & Hm & Hj & Hs); [|exact Ha|].
  { intros n src H. destruct (Hn _ _ H) as (n' & Hq & _). now apply q_number_lax in Hq. }
  exists b, (to_V E j). split; [assumption|]. split; [now apply unmarshal_of_lax|].
  intros Hd. apply (shows_same E NR (o_omit_null o) any_order); [assumption|assumption|]. eapply shows_impl; [| |exact Hs]; [|auto].
  cbn. intros n src j' [-> H]. auto.
Qed.

Theorem round_trip_text E W o v :
  opt_ws o -> json_typed v -> all_text (Forall is_byte) (fun _ src => lax_num src) v ->
  exists b v', marshal_opt E W o v = Ok b /\ unmarshal E b = Ok (v', None) /\
    (all_objs names_distinct v -> same_json (fun _ src n' => lax_value src n') (o_omit_null o) v v').
Proof.
  intros Ho Ht Ha. apply (round_trip E W o _ (fun _ src => lax_num src)); try assumption.
  intros n src H. destruct (lax_number_value E src H) as (n' & H1 & H2). eauto.
Qed.

Theorem round_trip_parsed E W o b v :
  opt_ws o -> Forall is_byte b -> unmarshal E b = Ok (v, None) ->
  exists b' v', marshal_opt E W o v = Ok b' /\ unmarshal E b' = Ok (v', None) /\
    (all_objs names_distinct v -> same_json (fun n _ n' => n = n') (o_omit_null o) v v').
Proof.
  intros Ho Hb H. destruct (parsed_text E b v Hb H) as [Ht Ha].
  apply (round_trip E W o _ _ v Ho Ht) with (2 := Ha). eauto.
Qed.
