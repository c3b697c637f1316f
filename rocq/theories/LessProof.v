(** Marshal with a less function sorts (C24). *)
From Verif Require Import Base Utf8 Float64 Value Scan Unmarshal Opt Marshal ListLemmas SpecJson SpecValue SpecLax SpecText SpecOpts SpecOrder SpecOut SpecSpell SpecLess
  UnmarshalProof ValueLemmas SortProof MarshalProof OrderProof OutSpell OutExact OutClaims MarshalClaims EscapeProof RoundTrip SpecHistory HistoryProof OrderHistory ExampleWorld.

Section Spell.
Variable o : opt.
Variable f : less_func.
Hypothesis Hf : o_less o = Some f.
Hypothesis Hweak : less_weak f.
Variable E : Env.
Variable W : World.

Definition runs_so (v : V) (run : option pinfo -> list key -> nat -> mres) : Prop :=
  v <> VNil /\ forall p pi path cnt, info_of p pi -> exists v', arranged f p v v' /\ run pi path cnt = Ok (spell o v' cnt, None).

Lemma arranged_null p v v' : arranged f p v v' -> is_null v = is_null v'.
Proof. intros []; reflexivity. Qed.

Lemma info_down p pi v s : info_of p pi -> info_of (p ++ [s]) (Some (new_parent_info v pi (step_key s))).
Proof.
  intros H. destruct (p ++ [s]) as [|s0 r] eqn:Ep; [destruct p; discriminate|]. rewrite <- Ep. unfold info_of. rewrite Ep, <- Ep.
  eexists. split; [reflexivity|]. rewrite map_app. destruct p as [|s1 p]; cbn [info_of] in H.
  - subst pi. reflexivity.
  - destruct H as (q & -> & <-). reflexivity.
Qed.

Lemma members_so p pi path cnt : info_of p pi -> forall es,
  Forall (fun e => runs_so (e_val e) (e_run e)) es -> exists kvs',
  Forall2 (fun e y => e_key e = fst y /\ e_id e = fst (snd y) /\ arranged f (p ++ [SKey (e_key e)]) (e_val e) (snd (snd y))) es kvs' /\
  forall first, write_members o pi path cnt first es = Ok (sp_members o (spell o) cnt first kvs').
Proof.
  intros Hpi. induction es as [|e r IH]; intros H; [exists []; repeat split; constructor|].
  inversion H as [|? ? [Hn Hr] Hes]; subst. destruct (IH Hes) as (kvs' & H1 & H3).
  destruct (Hr (p ++ [SKey (e_key e)]) (Some (new_parent_info (e_val e) pi (string_key (e_key e)))) (path ++ [string_key (e_key e)]) cnt)
    as (v' & Hra & Hrun); [now apply (info_down p pi _ (SKey (e_key e)))|].
  exists ((e_key e, (e_id e, v')) :: kvs'). split; [constructor; [auto|exact H1]|].
  intros first. cbn [write_members sp_members]. fold (sp_members o (spell o) cnt).
  pose proof (arranged_null _ _ _ Hra) as Hnull. unfold out. rewrite <- Hnull, Hf.
  destruct (e_val e) eqn:Ev; try congruence; cbn [is_null]; rewrite ?andb_false_r, ?andb_true_r;
    try (rewrite Hrun; cbn [rbind]; rewrite H3; cbn [rbind]; unfold colon; reflexivity).
  destruct (o_omit_null o); [apply H3|]. rewrite Hrun; cbn [rbind]; rewrite H3; cbn [rbind]; unfold colon; reflexivity.
Qed.

Lemma elems_so v p pi path cnt : info_of p pi -> forall l runs i, Forall2 runs_so l runs -> exists l',
  List.length l = List.length l' /\
  (forall n x y, nth_error l n = Some x -> nth_error l' n = Some y -> arranged f (p ++ [SIdx (i + n)]) x y) /\
  write_elems o v pi path cnt (Z.of_nat i) runs = Ok (sp_elems o (spell o) cnt (negb (0 <? Z.of_nat i)) l').
Proof.
  intros Hpi l runs i H. revert i. induction H as [|x run l runs [Hn Hr] _ IH]; intros i.
  - exists []. split; [reflexivity|]. split; [intros [|n] ? ? A; discriminate A|reflexivity].
  - destruct (IH (S i)) as (l' & H1 & H2 & H3).
    destruct (Hr (p ++ [SIdx i]) (Some (new_parent_info v pi (int_key (Z.of_nat i)))) (path ++ [int_key (Z.of_nat i)]) cnt)
      as (x' & Hra & Hrun); [now apply (info_down p pi _ (SIdx i))|].
    exists (x' :: l'). split; [cbn; now rewrite H1|]. split.
    + intros [|n] a b A B; cbn in A, B.
      * injection A as <-. injection B as <-. now rewrite Nat.add_0_r.
      * rewrite Nat.add_succ_r. exact (H2 n a b A B).
    + cbn [write_elems sp_elems]. fold (sp_elems o (spell o) cnt). rewrite Hf, Hrun. cbn [rbind].
      replace (Z.of_nat i + 1) with (Z.of_nat (S i)) by lia. rewrite H3. cbn [rbind].
      replace (0 <? Z.of_nat (S i)) with true by lia. cbn [negb]. destruct (0 <? Z.of_nat i); reflexivity.
Qed.

Lemma less_sorted pi path kvs kvs1 : NoDup (akeys kvs) ->
  order_entries W o pi path (map (mk_entry E W o) kvs) = map (mk_entry E W o) kvs1 -> Permutation kvs kvs1 ->
  ForallOrdPairs (none_greater f pi) kvs1.
Proof.
  intros Hn He P. destruct (Hweak pi) as (lt & Hsw & Hag).
  pose proof (order_sorted W o pi path (mk_entry E W o) kvs kvs1 (fun x y => f pi (fst x) (fst y) (snd (snd x)) (snd (snd y)))
    (fun x y => lt (fst x, snd (snd x)) (fst y, snd (snd y))) (fun x => ltac:(destruct x as [? [? ?]]; reflexivity)) Hn) as S.
  eapply ForallOrdPairs_strict; [eapply perm_NoDup_keys; eassumption| |apply S].
  - intros x y Hx Hy Hxy H. unfold none_greater. rewrite Hag; [exact H|]. intros Ek. apply Hxy.
    apply Permutation_sym in P. eapply NoDup_keys_eq; [exact Hn| | |now symmetry]; eapply Permutation_in; eassumption.
  - unfold kv_less. now rewrite Hf.
  - destruct Hsw as (S1 & S2 & S3). split; [|split]; intros; eauto.
  - intros x y _ _ Hxy. now apply Hag.
  - exact He.
Qed.

Lemma marshal_so : forall v, json_typed v -> all_text (fun _ => True) (fun _ src => src <> []) v -> runs_so v (marshal_to E W o v).
Proof.
  induction v as [| s | n src | i kvs lo IH | l IH | b | | | ] using V_ind'; intros Ht Ha; try contradiction.
  - split; [discriminate|]. intros p pi path cnt _. exists (VStr s). split; [constructor; discriminate|reflexivity].
  - split; [discriminate|]. intros p pi path cnt _. cbn in Ha. destruct src as [|c src]; [congruence|].
    exists (VNum n (c :: src)). split; [constructor; discriminate|reflexivity].
  - split; [discriminate|]. intros p pi path cnt Hpi.
    apply json_typed_obj in Ht. apply all_text_obj in Ha. destruct Ht as [Hnd Ht].
    cbn [marshal_to]. change (map _ kvs) with (map (mk_entry E W o) kvs).
    destruct kvs as [|kv0 kvs0] eqn:Ek.
    { exists (VObj i [] lo). split; [apply (AR_obj f p pi i [] lo [] []); auto; constructor|reflexivity]. }
    rewrite <- Ek in *. assert (Hne : kvs <> []) by (rewrite Ek; discriminate).
    assert (Hne' : map (mk_entry E W o) kvs <> []) by (rewrite Ek; discriminate).
    destruct (map (mk_entry E W o) kvs) as [|e0 es0] eqn:Ee; [congruence|]. rewrite <- Ee. clear e0 es0 Ee Hne' Ek kv0 kvs0.
    pose proof (order_entries_perm W o pi path (map (mk_entry E W o) kvs)) as P.
    remember (order_entries W o pi path (map (mk_entry E W o) kvs)) as es eqn:Eo.
    apply Permutation_map_inv in P as (kvs1 & Ees & P).
    destruct (members_so p pi path (S cnt) Hpi es) as (kvs' & H1 & H3).
    { rewrite Ees. apply Forall_map. eapply Permutation_Forall; [exact P|].
      rewrite Forall_forall in IH, Ht, Ha |- *. intros x Hx.
      apply (IH x Hx); [now apply Ht|apply (Ha x Hx)]. }
    rewrite Ees in H1. apply (proj1 (Forall2_map_l (mk_entry E W o) _ kvs1 kvs')) in H1.
    exists (VObj i kvs' lo). split.
    + apply (AR_obj f p pi i kvs lo kvs1 kvs'); [exact P|exact Hpi| |exact H1]. apply (less_sorted pi path kvs); congruence || assumption.
    + rewrite H3. cbn [rbind spell]. destruct kvs' as [|y kvs']; [|reflexivity].
      inversion H1; subst. apply Permutation_sym, Permutation_nil in P. congruence.
  - split; [discriminate|]. intros p pi path cnt Hpi.
    apply json_typed_arr in Ht. apply all_text_arr in Ha.
    cbn [marshal_to]. destruct l as [|x l0] eqn:El.
    { exists (VArr []). split; [apply AR_arr; [reflexivity|intros [|n] ? ? A; discriminate A]|reflexivity]. }
    rewrite <- El in *.
    destruct (elems_so (VArr l) p pi path (S cnt) Hpi l (map (marshal_to E W o) l) 0) as (l' & H1 & H2 & H3).
    { clear El. induction l as [|y l IHl]; [constructor|].
      inversion IH; inversion Ht; inversion Ha; subst. cbn [map]. constructor; auto. }
    change (Z.of_nat 0) with 0 in H3. rewrite H3.
    exists (VArr l'). split; [apply AR_arr; [exact H1|exact H2]|].
    cbn [rbind spell]. destruct l' as [|y l']; [|reflexivity]. subst l. discriminate H1.
  - split; [discriminate|]. intros p pi path cnt _. exists (VBool b). split; [constructor; discriminate|reflexivity].
  - split; [discriminate|]. intros p pi path cnt _. exists VNull. split; [constructor; discriminate|reflexivity].
Qed.
End Spell.

(** *** The spelling is a text that is accepted *)

Section Lax.
Variable o : opt.
Hypothesis Hpre : ws (o_prefix o).
Hypothesis Hind : ws (o_indent_str o).
Notation om := (o_omit_null o).

Definition to_lax (v : V) : Prop := forall cnt, exists j, lval (spell o v cnt) j /\ spelled om v j.

Lemma indent_after j cnt r : o_indent o = true -> after_num j (nl_indent o cnt ++ r).
Proof. intros H. unfold nl_indent. rewrite H. destruct j; try exact I. cbn. unfold number_byte, digit. lia. Qed.

Lemma members_after j cnt w : ws w -> forall l first, after_num j (sp_members o (spell o) cnt first l ++ w).
Proof.
  intros Hw. induction l as [|[k [id x]] l IH]; intros first; cbn [sp_members]; [now apply ws_after_num|].
  destruct (out o x); [apply IH|]. destruct first; cbn [app]; [|destruct j; try exact I; cbn; unfold number_byte, digit; lia].
  destruct j; try exact I. unfold nl_indent, quoted. destruct (o_indent o); cbn; unfold number_byte, digit; lia.
Qed.

Lemma members_lax cnt : forall l, Forall (fun x => Forall is_byte (fst x) /\ to_lax (snd (snd x))) l -> forall first, exists ms,
  (forall w, ws w -> lmembers (sp_members o (spell o) cnt first l ++ w) ms) /\
  Forall2 (fun x m => fixed (fst x) (fst m) /\ spelled om (snd (snd x)) (snd m)) (kept om l) ms.
Proof.
  induction 1 as [|[k [id x]] l [Hk Hx] _ IH]; intros first.
  - exists []. split; [intros w Hw; apply LM_end; now apply ws_lblanks|]. unfold kept. destruct om; constructor.
  - cbn [sp_members fst snd] in *. fold (sp_members o (spell o) cnt). destruct (out o x) eqn:Eo.
    + destruct (IH true) as (ms & H1 & H2). exists ms. split; [exact H1|]. rewrite kept_out; [exact H2|].
      now apply (out_left o (k, (id, x))).
    + destruct (IH false) as (ms & H1 & H2). destruct (Hx cnt) as (j & Hj & Hs).
      exists ((fix_utf8 k, j) :: ms). split.
      * intros w Hw. assert (HM : lmembers (nl_indent o cnt ++ quoted (o_esc o) k ++ colon o ++ spell o x cnt ++ sp_members o (spell o) cnt false l ++ w) ((fix_utf8 k, j) :: ms)).
        { unfold quoted, colon.
          replace (_ ++ _) with (nl_indent o cnt ++ 34 :: escape_string (o_esc o) k ++ 34 :: [] ++ 58 :: (if o_indent o then [32] else []) ++ spell o x cnt ++ sp_members o (spell o) cnt false l ++ w)
            by (repeat (rewrite <- app_assoc || cbn [app]); destruct (o_indent o); reflexivity).
          apply LM_cons; auto using ws_lblanks, ws_nil, ws_nl_indent.
          - now apply escape_string_lstr.
          - apply ws_lblanks. destruct (o_indent o); [repeat constructor; unfold is_ws; lia|constructor].
          - now apply members_after. }
        destruct first; repeat (rewrite <- app_assoc || cbn [app]); [exact HM|].
        apply (LM_comma []); [constructor|exact HM].
      * rewrite kept_in; [|now apply (not_out o (k, (id, x)))]. constructor; [|exact H2]. split; [now apply fix_fixed|exact Hs].
Qed.

Lemma elems_lax cnt : forall l, Forall to_lax l -> forall first, exists js,
  (forall w, ws w -> lelems (sp_elems o (spell o) cnt first l ++ w) js) /\ Forall2 (spelled om) l js.
Proof.
  induction 1 as [|x l Hx _ IH]; intros first.
  - exists []. split; [intros w Hw; apply LE_end; now apply ws_lblanks|constructor].
  - destruct (IH false) as (js & H1 & H2). destruct (Hx cnt) as (j & Hj & Hs). exists (j :: js). split; [|now constructor].
    intros w Hw. cbn [sp_elems]. fold (sp_elems o (spell o) cnt).
    assert (HE : lelems (nl_indent o cnt ++ spell o x cnt ++ sp_elems o (spell o) cnt false l ++ w) (j :: js)).
    { apply LE_cons; auto using ws_lblanks, ws_nl_indent.
      destruct l; cbn [sp_elems app]; [now apply ws_after_num|destruct j; try exact I; cbn; unfold number_byte, digit; lia]. }
    destruct first; repeat (rewrite <- app_assoc || cbn [app]); [exact HE|]. apply (LE_comma []); [constructor|exact HE].
Qed.

Lemma spell_lax : forall v, json_typed v -> all_text (Forall is_byte) (fun _ src => lax_num src) v -> to_lax v.
Proof.
  induction v as [| s | n src | i kvs lo IH | l IH | b | | | ] using V_ind'; intros Ht Ha cnt; try contradiction.
  - exists (JStr (fix_utf8 s)). split; [apply LV_str; now apply escape_string_lstr|constructor; now apply fix_fixed].
  - exists (JNum src). split; [now constructor|constructor].
  - apply json_typed_obj in Ht. apply all_text_obj in Ha. destruct Ht as [_ Ht].
    destruct (members_lax (S cnt) kvs) with (first := true) as (ms & H1 & H2).
    { rewrite Forall_forall in *. intros x Hx. destruct (Ha x Hx). split; [assumption|]. apply (IH x Hx); [now apply Ht|assumption]. }
    exists (JObj ms). split; [|now constructor]. cbn [spell]. destruct kvs as [|kv kvs].
    + replace ms with (@nil (bytes * jv)); [apply (LV_obj []), LM_end; constructor|]. unfold kept in H2. cbn in H2. destruct om; now inversion H2.
    + rewrite app_assoc. apply LV_obj, H1. now apply ws_nl_indent.
  - apply json_typed_arr in Ht. apply all_text_arr in Ha.
    destruct (elems_lax (S cnt) l) with (first := true) as (js & H1 & H2).
    { rewrite Forall_forall in *. auto. }
    exists (JArr js). split; [|now constructor]. cbn [spell]. destruct l as [|x l].
    + inversion H2. apply (LV_arr []), LE_end. constructor.
    + rewrite app_assoc. apply LV_arr, H1. now apply ws_nl_indent.
  - exists (JBool b). split; [destruct b; constructor|constructor].
  - exists JNull. split; constructor.
Qed.
End Lax.

Lemma from_left {A B} (R : A -> B -> Prop) l l' y : Forall2 R l l' -> In y l' -> exists x, In x l /\ R x y.
Proof. induction 1 as [|a b l l' H _ IH]; cbn; [tauto|]. intros [<-|Hy]; [eauto|]. destruct (IH Hy) as (x & ? & ?). eauto. Qed.

Lemma pointwise {A B} (R : A -> B -> Prop) : forall l l', List.length l = List.length l' ->
  (forall n x y, nth_error l n = Some x -> nth_error l' n = Some y -> R x y) -> Forall2 R l l'.
Proof.
  induction l as [|x l IH]; intros [|y l'] HL H; try discriminate; constructor.
  - exact (H 0%nat x y eq_refl eq_refl).
  - apply IH; [cbn in HL; congruence|]. intros n. exact (H (S n)).
Qed.

Lemma arranged_rearranged f : forall v p v', arranged f p v v' -> rearranged v v'.
Proof.
  induction v as [| s | n src | i kvs lo IH | l IH | b | | | ] using V_ind'; intros p v' A; inversion A; subst;
    try (constructor; discriminate || assumption).
  - eapply RA_obj; [eassumption|].
    assert (IH' : Forall (fun x => forall p v', arranged f p (snd (snd x)) v' -> rearranged (snd (snd x)) v') kvs1)
      by (eapply Permutation_Forall; eassumption).
    match goal with H : Forall2 _ kvs1 kvs' |- _ => revert IH'; clear -H; induction H as [|x y a b (E1 & E2 & HA) _ IHa]; intros IH'; constructor end.
    + inversion IH'; subst. eauto.
    + inversion IH'; subst. auto.
  - apply RA_arr, pointwise; [assumption|]. rewrite Forall_forall in IH. intros n x y Hx Hy.
    apply (IH x (nth_error_In _ _ Hx) (p ++ [SIdx n])). auto.
Qed.

Theorem less_sorts E W o f v : opt_ws o -> o_less o = Some f -> less_weak f -> json_typed v ->
  all_text (Forall is_byte) (fun _ src => lax_num src) v ->
  exists v' b j, arranged f [] v v' /\ marshal_opt E W o v = Ok b /\ lax_doc b j /\ spelled (o_omit_null o) v' j.
Proof.
  intros [Hp Hi] Hf Hw Ht Ha.
  destruct (marshal_so o f Hf Hw E W v Ht) as [Hn H].
  { eapply all_text_impl; [| |exact Ha]; [auto|]. intros ? src H. destruct (lax_num_cons src H) as (c & r & ->). discriminate. }
  destruct (H [] None [] 0%nat eq_refl) as (v' & A & R).
  pose proof (arranged_rearranged f _ _ _ A) as RA.
  destruct (spell_lax o Hp Hi v' (rearr_typed _ _ RA Ht) (rearr_text _ _ _ _ RA Ha) 0%nat) as (j & Hj & Hs).
  exists v', (spell o v' 0), j. split; [exact A|]. split; [|split; [|exact Hs]].
  - unfold marshal_opt. destruct v; try contradiction; rewrite R; reflexivity.
  - exists [], (spell o v' 0), []. rewrite app_nil_r. repeat split; auto; constructor.
Qed.

Theorem sorted_lax E W o ORD v : opt_ws o -> json_typed v -> all_text (Forall is_byte) (fun _ src => lax_num src) v ->
  all_objs (in_order E W o ORD) v ->
  exists b j, marshal_opt E W o v = Ok b /\ lax_doc b j /\ shows num_text (o_omit_null o) ORD v j.
Proof.
  intros [Hp Hi] Ht Ha Ho. destruct (marshal_lax E W o num_text ORD Hp Hi v Ht) as [_ H]; [|exact Ho|].
  { eapply all_text_impl; [|intros n src Hn|exact Ha]; [auto|].
    destruct (lax_num_cons src Hn) as (c & t & Es).
    exists src, (JNum src). split; [rewrite Es; reflexivity|]. split; [now constructor|reflexivity]. }
  destruct (H None [] 0%nat) as (b & j & Hr & Hj & Hs). exists b, j.
  split; [now apply marshal_opt_run|]. split; [|assumption].
  exists [], b, []. rewrite app_nil_r. repeat split; try constructor. assumption.
Qed.

Theorem default_lax E W o v : opt_ws o -> json_typed v -> all_text (Forall is_byte) (fun _ src => lax_num src) v ->
  o_less o = Some default_string_sequence ->
  exists b j, marshal_opt E W o v = Ok b /\ lax_doc b j /\ shows num_text (o_omit_null o) (by_key blt) v j.
Proof.
  intros Hw Ht Ha Hl. apply sorted_lax; try assumption.
  eapply all_objs_impl2; [|apply typed_nodup, Ht]. intros kvs Hn. now apply in_order_default.
Qed.

Theorem keyseq_lax E W o v : opt_ws o -> json_typed v -> all_text (Forall is_byte) (fun _ src => lax_num src) v ->
  o_less o = None -> o_keyseq o <> [] ->
  exists b j, marshal_opt E W o v = Ok b /\ lax_doc b j /\ shows num_text (o_omit_null o) (by_key (seq_before (o_keyseq o))) v j.
Proof.
  intros Hw Ht Ha Hl Hs. apply sorted_lax; try assumption.
  eapply all_objs_impl2; [|apply typed_nodup, Ht]. intros kvs Hn. now apply in_order_keyseq.
Qed.

(** The order of setting (C23). *)
Theorem set_order_lax E W o n v ks :
  set_history E n v ks -> Z.of_nat n < two32 ->
  opt_ws o -> json_typed v -> all_text (Forall is_byte) (fun _ src => lax_num src) v ->
  o_less o = None -> o_keyseq o = [] -> o_setseq o = true ->
  exists i kvs lo kvs' b ms, v = VObj i kvs lo /\ Permutation kvs kvs' /\ map fst kvs' = ks /\
    marshal_opt E W o v = Ok b /\ lax_doc b (JObj ms) /\
    Forall2 (fun x m => fixed (fst x) (fst m) /\ shows num_text (o_omit_null o) any_order (snd (snd x)) (snd m)) (kept (o_omit_null o) kvs') ms.
Proof.
  intros H Hn Hw Ht Ha Hl Hk Hs. pose proof (set_history_ordered E n v ks H Hn) as (i & st & Hst & _ & _ & st' & Hp & Hso & Hks & _).
  destruct (sorted_lax E W o (fun kvs => NoDup (map (fun x => fst (snd x)) kvs) -> by_id kvs) v Hw Ht Ha) as (b & j & Hb & Hd & Hsh).
  { eapply all_objs_impl2; [|apply typed_nodup, Ht]. intros kvs Hnd pi path kvs' He Hp' Hids.
    assert (Hids' : NoDup (map (fun x : kvt => fst (snd x)) kvs)) by (eapply Permutation_NoDup; [apply Permutation_map, Permutation_sym, Hp'|exact Hids]).
    exact (in_order_setseq E W o kvs Hnd Hids' Hl Hk Hs pi path kvs' He Hp'). }
  apply obj_stamp in Hst as Hv. destruct Hv as (i1 & kvs & lo & ->). injection Hst as -> <-.
  inversion Hsh as [| | | | |? ? ? kvs' ms Hp' Hord HF]; subst. exists i, kvs, lo, kvs', b, ms.
  split; [reflexivity|]. split; [exact Hp'|].
  assert (Hids : NoDup (map (fun x : kvt => fst (snd x)) kvs')).
  { assert (G : NoDup (map snd st')) by (clear -Hso; induction Hso as [|x l F _ IH]; cbn; constructor; [|exact IH]; intros Hi; apply in_map_iff in Hi as (y & Hy & Hi); rewrite Forall_forall in F; apply F in Hi; lia).
    assert (Hpp : Permutation (map snd st') (map (fun x : kvt => fst (snd x)) kvs')).
    { rewrite <- (Permutation_map snd Hp), map_map. cbn [snd]. now apply Permutation_map. }
    now apply (Permutation_NoDup Hpp). }
  specialize (Hord Hids). apply stamps_by_id in Hord.
  assert (Es : st' = map (fun e : kvt => (fst e, fst (snd e))) kvs').
  { apply sorted_unique; try assumption. rewrite <- Hp. now apply Permutation_map. }
  split; [rewrite Es, map_map; reflexivity|]. split; [exact Hb|]. split; [exact Hd|].
  clear -HF. induction HF as [|x m l l' (Hx & Hy) _ IH]; [constructor|]. constructor; [|exact IH].
  split; [exact Hx|]. eapply shows_impl; [| |exact Hy]; [auto|intros; exact I].
Qed.

Theorem history_order_lax E W o n v :
  history E n v -> Z.of_nat n < two32 ->
  opt_ws o -> json_typed v -> all_text (Forall is_byte) (fun _ src => lax_num src) v ->
  o_less o = None -> o_keyseq o = [] -> o_setseq o = true ->
  exists b j, marshal_opt E W o v = Ok b /\ lax_doc b j /\ shows num_text (o_omit_null o) by_id v j.
Proof.
  intros H Hn Hw Ht Ha Hl Hk Hs. apply sorted_lax; try assumption.
  assert (Hid : all_objs (fun kvs => NoDup (map (fun x => fst (snd x)) kvs)) v).
  { apply history_dated in H. clear -H Hn. induction v as [ |s|nn src|i kvs lo IH|l IH|b| | | ] using V_ind'; try exact I.
    - apply all_obj_obj in H as ((_ & Hd) & H). destruct (Hd Hn) as (Hd' & _). apply all_objs_obj. split; [exact Hd'|].
      rewrite Forall_forall in *. auto.
    - apply all_obj_arr in H. apply all_objs_arr. rewrite Forall_forall in *. auto. }
  eapply all_objs_impl2; [|apply all_objs_conj; [apply typed_nodup, Ht|exact Hid]]. intros kvs [Hnd Hi]. now apply in_order_setseq.
Qed.
