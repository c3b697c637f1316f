(** C87: the writer with its buffer, counter and table. *)
From Verif Require Import Base Float64 Value Opt Marshal Writer SpecJson SpecValue SpecText SpecOpts SpecNil
  ListLemmas ValueLemmas SortProof OrderProof MarshalTotal MarshalProof MarshalClaims.

Lemma put_put a b t : put b (put a t) = put (a ++ b) t.
Proof. unfold put. cbn. now rewrite <- app_assoc. Qed.
Lemma put_nil t : put [] t = t.
Proof. destruct t. unfold put. cbn. now rewrite app_nil_r. Qed.
Lemma put_times_eq n b t : put_times n b t = put (List.concat (repeat b n)) t.
Proof.
  revert t. induction n as [|n IH]; intros t; [symmetry; apply put_nil|]. cbn [put_times repeat List.concat]. now rewrite IH, put_put.
Qed.
Lemma put_line_eq o t cnt : t_cnt t = Z.of_nat cnt -> put_line o t = put (nl_indent o cnt) t.
Proof.
  intros H. unfold put_line, nl_indent, write_indent. destruct (o_indent o); [|symmetry; apply put_nil].
  rewrite put_times_eq, !put_put, H, Nat2Z.id. reflexivity.
Qed.

(** The table. *)
Lemma table_lookup k l : forall i m, alookup k (table i l m) = match seq_index i l k with Some j => Some j | None => alookup k m end.
Proof.
  induction l as [|x l IH]; intros i m; [reflexivity|]. cbn [table seq_index]. rewrite IH.
  destruct (seq_index (i + 1) l k); [reflexivity|]. destruct (beqb k x) eqn:Ex.
  - apply beqb_eq in Ex. subst x. apply alookup_aset_same.
  - apply alookup_aset_other. intros ->. rewrite beqb_refl in Ex. discriminate.
Qed.

Lemma set_table_other k es : forall m, ~ In k (map we_key es) -> alookup k (fold_left (fun m e => aset (we_key e) (we_id e) m) es m) = alookup k m.
Proof.
  induction es as [|e es IH]; intros m H; [reflexivity|]. cbn [fold_left]. rewrite IH by (intros X; apply H; now right).
  apply alookup_aset_other. intros ->. apply H. now left.
Qed.
Lemma set_table_in es : NoDup (map we_key es) -> forall m e, In e es ->
  alookup (we_key e) (fold_left (fun m e => aset (we_key e) (we_id e) m) es m) = Some (we_id e).
Proof.
  induction es as [|e0 es IH]; intros Hn m e He; [destruct He|]. inversion Hn as [|? ? H1 H2]; subst. cbn [fold_left]. destruct He as [->|He].
  - rewrite set_table_other by assumption. apply alookup_aset_same.
  - now apply IH.
Qed.

Section Writer.
Variable E : Env.
Variable W : World.
Variable o : opt.

Definition good (t : wst) : Prop := match t_seq t with None => True | Some m => forall k, alookup k m = seq_index 0 (o_keyseq o) k end.
Notation run := (option pinfo -> list key -> nat -> mres).
Notation wrun := (option pinfo -> list key -> wst -> res (wst * option err)).
Definition after (t : wst) (b : bytes) (t' : wst) : Prop := t_buf t' = t_buf t ++ b /\ t_cnt t' = t_cnt t /\ good t'.
Definition refl_run (f : run) (g : wrun) : Prop := forall pi path cnt t, t_cnt t = Z.of_nat cnt -> good t ->
  match f pi path cnt with
  | Ok (b, e) => exists t', g pi path t = Ok (t', e) /\ after t b t'
  | Panic => g pi path t = Panic
  | _ => False
  end.
Definition mk_ent (f : V -> run) (x : kvt) : entry := Entry (fst x) (fst (snd x)) (snd (snd x)) (f (snd (snd x))).
Definition mk_went (g : V -> wrun) (x : kvt) : wentry := WEntry (fst x) (fst (snd x)) (snd (snd x)) (g (snd (snd x))).

Lemma need_good t : good t -> good (need_table o t) /\ exists m, t_seq (need_table o t) = Some m /\ forall k, alookup k m = seq_index 0 (o_keyseq o) k.
Proof.
  unfold good, need_table. destruct (t_seq t) as [m|] eqn:Es; [rewrite Es; eauto|]. intros _. cbn [t_seq].
  assert (H : forall k, alookup k (table 0 (o_keyseq o) []) = seq_index 0 (o_keyseq o) k).
  { intros k. rewrite table_lookup. destruct (seq_index 0 (o_keyseq o) k); reflexivity. }
  eauto.
Qed.

Lemma in_order_eq (g : V -> wrun) pi path kvs t : NoDup (map fst kvs) -> good t -> exists t',
  ordered_members W o pi path (map (mk_went g) kvs) t = (map (mk_went g) (order_kvs W o pi path kvs), t') /\ after t [] t'.
Proof.
  intros Hn Hg. unfold ordered_members, order_kvs, kv_less. rewrite go_range_map.
  assert (Hk : NoDup (map we_key (map (mk_went g) (go_range W path kvs)))).
  { rewrite map_map. cbn [mk_went we_key]. eapply Permutation_NoDup; [|exact Hn]. apply Permutation_map. symmetry. apply go_range_perm. }
  destruct (o_less o) as [f|].
  { exists t. split; [|split; [now rewrite app_nil_r|auto]]. f_equal. rewrite go_sort_map. reflexivity. }
  destruct (o_keyseq o) as [|x l] eqn:Eseq.
  - destruct (o_setseq o); (exists t; split; [|split; [now rewrite app_nil_r|auto]]); [|reflexivity]. f_equal. rewrite go_sort_map. f_equal.
    apply go_sort_ext. intros a b Ha Hb. unfold table_less, set_table.
    rewrite !(set_table_in _ Hk) by (apply in_map; assumption). reflexivity.
  - destruct (need_good t Hg) as (G & m & Em & Hm). exists (need_table o t). split.
    + f_equal. rewrite Em, go_sort_map. f_equal. apply go_sort_ext. intros a b Ha Hb. unfold table_less, seq_less. rewrite !Hm, Eseq. reflexivity.
    + split; [|split; [|exact G]]; unfold need_table; destruct (t_seq t); cbn; now rewrite ?app_nil_r.
Qed.

Lemma after_put t b : good t -> after t b (put b t).
Proof. intros H. repeat split. exact H. Qed.
Lemma after_trans t b t1 c t2 : after t b t1 -> after t1 c t2 -> after t (b ++ c) t2.
Proof. intros (A1 & A2 & A3) (B1 & B2 & B3). split; [rewrite B1, A1; now rewrite app_assoc|split; [congruence|exact B3]]. Qed.

Lemma children_eq (f : V -> run) (g : V -> wrun) kvs : Forall (fun e : kvt => refl_run (f (snd (snd e))) (g (snd (snd e)))) kvs ->
  forall pi path cnt first t, t_cnt t = Z.of_nat cnt -> good t ->
  match write_members o pi path cnt first (map (mk_ent f) kvs) with
  | Ok b => exists t', write_children o pi path (negb first) (map (mk_went g) kvs) t = Ok t' /\ after t b t'
  | Panic => write_children o pi path (negb first) (map (mk_went g) kvs) t = Panic
  | _ => False
  end.
Proof.
  induction 1 as [|[k [id x]] l Hx Hl IH]; intros pi path cnt first t Hc Hg.
  { cbn. exists t. split; [reflexivity|]. split; [now rewrite app_nil_r|auto]. }
  cbn [map write_members write_children mk_ent mk_went fst snd e_val e_run e_key we_key we_val] in *. rewrite Bool.negb_involutive.
  set (pi' := match o_less o with Some _ => _ | None => None end). set (path' := path ++ [string_key k]).
  set (lead := (if first then [] else [44]) ++ nl_indent o cnt ++ quoted (o_esc o) k ++ (if o_indent o then [58; 32] else [58])).
  assert (G : forall (d : bool),
    match (let* (b, _) := f x pi' path' cnt in let* rest := write_members o pi path cnt false (map (mk_ent f) l) in
           Ok ((if first then [] else [44]) ++ nl_indent o cnt ++ quoted (o_esc o) k ++ (if o_indent o then [58; 32] else [58]) ++ b ++ rest)) with
    | Ok b => exists t', (let* (w, t0) := (let* (t1, _) := g x pi' path' (put lead t) in Ok (true, t1)) in write_children o pi path w (map (mk_went g) l) t0) = Ok t' /\ after t b t'
    | Panic => (let* (w, t0) := (let* (t1, _) := g x pi' path' (put lead t) in Ok (true, t1)) in write_children o pi path w (map (mk_went g) l) t0) = Panic
    | _ => False
    end).
  { intros _. specialize (Hx pi' path' cnt (put lead t) Hc Hg). destruct (f x pi' path' cnt) as [[b e]| | |]; try contradiction.
    - destruct Hx as (t1 & -> & Ha). cbn [rbind]. assert (Ha' := Ha). destruct Ha' as (A1 & A2 & A3). cbn [t_cnt put] in A2.
      assert (IH1 := IH pi path cnt false t1 (eq_trans A2 Hc) A3). cbn [negb] in IH1.
      destruct (write_members o pi path cnt false (map (mk_ent f) l)) as [rest| | |]; cbn [rbind]; try contradiction.
      + destruct IH1 as (t2 & -> & B). exists t2. split; [reflexivity|].
        pose proof (after_trans _ _ _ _ _ (after_trans _ _ _ _ _ (after_put t lead Hg) Ha) B) as C. unfold lead in C. now rewrite <- !app_assoc in C.
      + exact IH1.
    - rewrite Hx. reflexivity. }
  assert (L : put_line o (if first then t else put [44] t) = put ((if first then [] else [44]) ++ nl_indent o cnt) t).
  { rewrite (put_line_eq _ _ cnt) by (destruct first; exact Hc). destruct first; [reflexivity|apply put_put]. }
  assert (Hlead : forall t0, t0 = put ((if first then [] else [44]) ++ nl_indent o cnt) t ->
     put (if o_indent o then [34; 58; 32] else [34; 58]) (put (escape_string (o_esc o) k) (put [34] t0)) = put lead t).
  { intros t0 ->. rewrite !put_put. f_equal. unfold lead, quoted. rewrite <- !app_assoc. do 2 f_equal. cbn [app]. f_equal. rewrite <- app_assoc. f_equal.
    destruct (o_indent o); reflexivity. }
  unfold write_child. cbv zeta. cbn [we_val we_key we_run mk_went fst snd]. rewrite (Hlead _ L).
  destruct x; try exact (G true); [|reflexivity]. cbn [andb]. destruct (o_omit_null o); [|exact (G true)].
  cbn [rbind]. exact (IH pi path cnt true t Hc Hg).
Qed.

Lemma array_eq v (f : V -> run) (g : V -> wrun) l : Forall (fun x => refl_run (f x) (g x)) l ->
  forall pi path cnt i t, t_cnt t = Z.of_nat cnt -> good t ->
  match write_elems o v pi path cnt i (map f l) with
  | Ok b => exists t', write_array o v pi path i (map g l) t = Ok t' /\ after t b t'
  | Panic => write_array o v pi path i (map g l) t = Panic
  | _ => False
  end.
Proof.
  induction 1 as [|x l Hx Hl IH]; intros pi path cnt i t Hc Hg.
  { cbn. exists t. split; [reflexivity|]. split; [now rewrite app_nil_r|auto]. }
  cbn [map write_elems write_array]. set (pi' := match o_less o with Some _ => _ | None => None end). set (path' := path ++ [int_key i]).
  set (lead := (if 0 <? i then [44] else []) ++ nl_indent o cnt).
  assert (L : put_line o (if 0 <? i then put [44] t else t) = put lead t).
  { rewrite (put_line_eq _ _ cnt) by (destruct (0 <? i); exact Hc). unfold lead. destruct (0 <? i); [apply put_put|reflexivity]. }
  rewrite L. specialize (Hx pi' path' cnt (put lead t) Hc Hg). destruct (f x pi' path' cnt) as [[b e]| | |]; try contradiction.
  - destruct Hx as (t1 & -> & Ha). cbn [rbind]. assert (Ha' := Ha). destruct Ha' as (A1 & A2 & A3). cbn [t_cnt put] in A2.
    assert (IH1 := IH pi path cnt (i + 1) t1 (eq_trans A2 Hc) A3).
    destruct (write_elems o v pi path cnt (i + 1) (map f l)) as [rest| | |]; cbn [rbind]; try contradiction.
    + destruct IH1 as (t2 & -> & B). exists t2. split; [reflexivity|].
      pose proof (after_trans _ _ _ _ _ (after_trans _ _ _ _ _ (after_put t lead Hg) Ha) B) as C. unfold lead in C. now rewrite <- !app_assoc in C.
    + exact IH1.
  - rewrite Hx. reflexivity.
Qed.

Lemma after_cnt t b t' : after (add_cnt 1 t) b t' -> good t -> after t b (add_cnt (-1) t').
Proof. intros (A1 & A2 & A3) H. split; [exact A1|]. split; [cbn in *; lia|exact A3]. Qed.
Lemma good_cnt d t : good t -> good (add_cnt d t).
Proof. exact (fun H => H). Qed.

Lemma value_eq v : all_objs (fun kvs => NoDup (map fst kvs)) v -> refl_run (marshal_to E W o v) (write_value E W o v).
Proof.
  induction v as [ |s|n src|i kvs lo IH|l IH|b| | | ] using V_ind'; intros Hv pi path cnt t Hc Hg;
    try (eexists; split; [reflexivity|]; apply after_put; exact Hg); try reflexivity.
  - exists t. split; [reflexivity|]. split; [now rewrite app_nil_r|auto].
  - exists (put (quoted (o_esc o) s) t). split; [|now apply after_put]. cbn [write_value]. rewrite !put_put. reflexivity.
  - cbn [marshal_to write_value]. destruct (marshal_number E o n src) as [[b e]| | |] eqn:En.
    { exists (put b t). split; [reflexivity|now apply after_put]. }
    all: destruct (marshal_to_total E W o (VNum n src) pi path cnt) as [(_ & r & H)|(H & _)]; [cbn [marshal_to] in H; congruence|inversion H].
  - apply all_objs_obj in Hv as (Hnd & Hv). cbn [marshal_to write_value].
    change (map (fun x : bytes * (Z * V) => Entry (fst x) (fst (snd x)) (snd (snd x)) (marshal_to E W o (snd (snd x)))) kvs)
      with (map (mk_ent (marshal_to E W o)) kvs).
    change (map (fun x : bytes * (Z * V) => WEntry (fst x) (fst (snd x)) (snd (snd x)) (write_value E W o (snd (snd x)))) kvs)
      with (map (mk_went (write_value E W o)) kvs).
    rewrite order_entries_map by (now intros [? [? ?]]).
    set (t1 := put [123] (add_cnt 1 t)).
    destruct (in_order_eq (write_value E W o) pi path kvs t1 Hnd Hg) as (t2 & -> & H2).
    set (kvs' := order_kvs W o pi path kvs). assert (HP : Permutation kvs' kvs) by apply order_kvs_perm.
    assert (HR : Forall (fun e : kvt => refl_run (marshal_to E W o (snd (snd e))) (write_value E W o (snd (snd e)))) kvs').
    { apply (Permutation_Forall (Permutation_sym HP)). rewrite Forall_forall in *. intros e He. apply (IH _ He). exact (Hv _ He). }
    assert (Hc2 : t_cnt t2 = Z.of_nat (S cnt)) by (destruct H2 as (_ & -> & _); cbn; lia).
    assert (C := children_eq _ _ kvs' HR pi path (S cnt) true t2 Hc2 (proj2 (proj2 H2))). cbn [negb] in C.
    destruct kvs as [|e0 kvs0].
    { eexists. split; [reflexivity|]. now apply after_put. }
    cbn [map]. destruct (write_members o pi path (S cnt) true (map (mk_ent (marshal_to E W o)) kvs')) as [b| | |]; cbn [rbind mok]; try contradiction.
    + destruct C as (t3 & -> & H3). cbn [rbind]. eexists. split; [reflexivity|].
      assert (H4 : after (add_cnt 1 t) ([123] ++ [] ++ b) t3).
      { apply (after_trans _ _ t1); [now apply after_put|]. exact (after_trans _ _ _ _ _ H2 H3). }
      apply after_cnt in H4; [|exact Hg]. rewrite (put_line_eq _ _ cnt) by (destruct H4 as (_ & -> & _); exact Hc).
      rewrite put_put. change (123 :: b ++ nl_indent o cnt ++ [125]) with (([123] ++ [] ++ b) ++ (nl_indent o cnt ++ [125])).
      apply (after_trans _ _ _ _ _ H4). apply after_put. exact (proj2 (proj2 H4)).
    + rewrite C. reflexivity.
  - apply all_objs_arr in Hv. cbn [marshal_to write_value]. set (t1 := put [91] (add_cnt 1 t)).
    assert (HR : Forall (fun x => refl_run (marshal_to E W o x) (write_value E W o x)) l).
    { rewrite Forall_forall in *. intros x Hx. apply (IH _ Hx). exact (Hv _ Hx). }
    assert (Hc1 : t_cnt t1 = Z.of_nat (S cnt)) by (cbn; lia).
    assert (C := array_eq (VArr l) _ _ l HR pi path (S cnt) 0 t1 Hc1 Hg).
    destruct l as [|x0 l0].
    { eexists. split; [reflexivity|]. now apply after_put. }
    destruct (write_elems o (VArr (x0 :: l0)) pi path (S cnt) 0 (map (marshal_to E W o) (x0 :: l0))) as [b| | |]; cbn [rbind mok]; try contradiction.
    + destruct C as (t3 & -> & H3). cbn [rbind]. eexists. split; [reflexivity|].
      assert (H4 : after (add_cnt 1 t) ([91] ++ b) t3) by (apply (after_trans _ _ t1); [now apply after_put|exact H3]).
      apply after_cnt in H4; [|exact Hg]. rewrite (put_line_eq _ _ cnt) by (destruct H4 as (_ & -> & _); exact Hc).
      rewrite put_put. change (91 :: b ++ nl_indent o cnt ++ [93]) with (([91] ++ b) ++ (nl_indent o cnt ++ [93])).
      apply (after_trans _ _ _ _ _ H4). apply after_put. exact (proj2 (proj2 H4)).
    + rewrite C. reflexivity.
  - exists t. split; [reflexivity|]. split; [now rewrite app_nil_r|auto].
Qed.
End Writer.

Definition distinct (v : V) : Prop := all_objs (fun kvs => NoDup (map fst kvs)) v.

Theorem writer_same E W o v : distinct v -> marshal_w E W o v = marshal_opt E W o v.
Proof.
  intros Hv. pose proof (value_eq E W o v Hv None [] 0%nat (WSt [] 0 None) eq_refl I) as H. unfold marshal_w, marshal_opt.
  destruct v; try reflexivity; (destruct (marshal_to E W o _ None [] 0) as [[b e]| | |]; try contradiction;
    [destruct H as (t' & -> & H1 & _); cbn [rbind]; rewrite H1; reflexivity|rewrite H; reflexivity]).
Qed.

Theorem writer_appends E W o v pi path cnt : distinct v ->
  (exists b e, forall t, t_cnt t = Z.of_nat cnt -> good o t -> exists t', write_value E W o v pi path t = Ok (t', e) /\ after o t b t') \/
  (forall t, t_cnt t = Z.of_nat cnt -> good o t -> write_value E W o v pi path t = Panic).
Proof.
  intros Hv. pose proof (value_eq E W o v Hv pi path cnt) as H.
  destruct (marshal_to E W o v pi path cnt) as [[b e]| | |]; [left; exists b, e; exact H|exfalso|right; exact H|exfalso];
    destruct (H (WSt [] (Z.of_nat cnt) None) eq_refl I).
Qed.

Theorem writer_two E W o v1 v2 b1 b2 : distinct v1 -> distinct v2 ->
  marshal_opt E W o v1 = Ok b1 -> marshal_opt E W o v2 = Ok b2 ->
  exists t1 t2, write_value E W o v1 None [] (WSt [] 0 None) = Ok (t1, None) /\
    write_value E W o v2 None [] t1 = Ok (t2, None) /\ t_buf t2 = b1 ++ b2 /\ t_cnt t2 = 0.
Proof.
  intros D1 D2 M1 M2.
  assert (G : forall v b, marshal_opt E W o v = Ok b -> marshal_to E W o v None [] 0 = Ok (b, None)).
  { clear. unfold marshal_opt. intros v b H. destruct v; try discriminate;
      (destruct (marshal_to E W o _ None [] 0) as [[b' e]| | |]; try discriminate; cbn [rbind] in H; destruct e; [discriminate|congruence]). }
  apply G in M1, M2.
  pose proof (value_eq E W o v1 D1 None [] 0%nat (WSt [] 0 None) eq_refl I) as H1. rewrite M1 in H1. destruct H1 as (t1 & E1 & A1 & A2 & A3).
  pose proof (value_eq E W o v2 D2 None [] 0%nat t1 A2 A3) as H2. rewrite M2 in H2. destruct H2 as (t2 & E2 & B1 & B2 & B3).
  exists t1, t2. split; [exact E1|]. split; [exact E2|]. rewrite B1, A1, B2, A2. split; reflexivity.
Qed.

Lemma typed_distinct v : json_typed v -> distinct v.
Proof. apply typed_nodup. Qed.
