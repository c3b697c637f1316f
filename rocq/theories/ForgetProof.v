(** The index for caseless access does not show in the marshalled text. *)
From Verif Require Import Base Utf8 Float64 Value Opt Marshal ListLemmas ValueLemmas SortProof Path SpecPath.

Definition kv_order (W : World) (o : opt) (path : list key) (kvs : list kv) : list kv :=
  let kvs := go_range W path kvs in
  match o_keyseq o with
  | _ :: _ =>
    go_sort W (fun a b => seq_less (seq_index 0 (o_keyseq o) (fst a))
                                   (seq_index 0 (o_keyseq o) (fst b)) (fst a) (fst b)) kvs
  | [] =>
    if o_setseq o then go_sort W (fun a b : kv => seq_less (Some (fst (snd a))) (Some (fst (snd b))) (fst a) (fst b)) kvs
    else kvs
  end.

Lemma order_by_keys W o pi path (mk : kv -> entry) kvs : o_less o = None ->
  (forall x, e_key (mk x) = fst x) -> (forall x, e_id (mk x) = fst (snd x)) ->
  order_entries W o pi path (map mk kvs) = map mk (kv_order W o path kvs).
Proof.
  intros Hl Hk Hi. unfold order_entries, kv_order. rewrite Hl, go_range_map.
  destruct (o_keyseq o).
  - destruct (o_setseq o); [|reflexivity]. rewrite go_sort_map. f_equal. apply go_sort_ext. intros x y _ _. now rewrite !Hk, !Hi.
  - rewrite go_sort_map. f_equal. apply go_sort_ext. intros x y _ _. now rewrite !Hk.
Qed.

Theorem marshal_to_forget E W o v : o_less o = None -> forall pi path cnt,
  marshal_to E W o (forget v) pi path cnt = marshal_to E W o v pi path cnt.
Proof.
  intros Hl. induction v as [ |s|nn src|i kvs lo IH|l IH|b| | | ] using V_ind'; intros pi path cnt; try reflexivity.
  - cbn [forget marshal_to].
    set (g := fun e : bytes * (Z * V) => (fst e, (fst (snd e), forget (snd (snd e))))).
    set (mk := fun x : kv => Entry (fst x) (fst (snd x)) (snd (snd x)) (marshal_to E W o (snd (snd x)))).
    set (mk' := fun x : kv => Entry (fst x) (fst (snd x)) (forget (snd (snd x))) (marshal_to E W o (forget (snd (snd x))))).
    assert (Em : map mk (map g kvs) = map mk' kvs) by (rewrite map_map; reflexivity).
    change (match map mk (map g kvs) with [] => mok [123; 125] | _ =>
              let* b := write_members o pi path (S cnt) true (order_entries W o pi path (map mk (map g kvs))) in
              mok (123 :: b ++ nl_indent o cnt ++ [125]) end =
            match map mk kvs with [] => mok [123; 125] | _ =>
              let* b := write_members o pi path (S cnt) true (order_entries W o pi path (map mk kvs)) in
              mok (123 :: b ++ nl_indent o cnt ++ [125]) end).
    rewrite Em. rewrite (order_by_keys W o pi path mk' kvs Hl) by reflexivity.
    rewrite (order_by_keys W o pi path mk kvs Hl) by reflexivity.
    assert (Hw : forall l first, incl l kvs ->
              write_members o pi path (S cnt) first (map mk' l) = write_members o pi path (S cnt) first (map mk l)).
    { induction l as [|[k [id x]] r IHr]; intros first Hin; [reflexivity|].
      assert (Hx : forall pi path cnt, marshal_to E W o (forget x) pi path cnt = marshal_to E W o x pi path cnt).
      { rewrite Forall_forall in IH. exact (IH _ (Hin _ (or_introl eq_refl))). }
      assert (Hr : incl r kvs) by (intros z Hz; apply Hin; now right).
      cbn [map write_members mk mk' e_val e_run e_key fst snd]. rewrite Hl.
      destruct x; cbn [forget] in *; rewrite ?Hx, ?(IHr _ Hr); reflexivity. }
    rewrite Hw; [|unfold kv_order].
    + destruct kvs; reflexivity.
    + assert (P : Permutation (kv_order W o path kvs) kvs).
      { unfold kv_order. destruct (o_keyseq o); [destruct (o_setseq o)|];
          try (etransitivity; [apply go_sort_perm|]); apply go_range_perm. }
      intros z Hz. exact (Permutation_in z P Hz).
  - cbn [forget marshal_to]. destruct l as [|x0 l0]; [reflexivity|]. cbn [map].
    match goal with |- rbind ?A _ = rbind ?B _ => assert (Ew : A = B); [|rewrite Ew; reflexivity] end.
    change (forget x0 :: map forget l0) with (map forget (x0 :: l0)).
    change (marshal_to E W o (forget x0) :: map (marshal_to E W o) (map forget l0)) with (map (marshal_to E W o) (map forget (x0 :: l0))).
    change (marshal_to E W o x0 :: map (marshal_to E W o) l0) with (map (marshal_to E W o) (x0 :: l0)).
    generalize 0 as i. generalize (VArr (map forget (x0 :: l0))) as u. generalize (VArr (x0 :: l0)) as u'.
    generalize (x0 :: l0), IH. clear - Hl. induction l as [|x r IHr]; intros HF u' u i; [reflexivity|].
    cbn [map write_elems]. rewrite Hl, (Forall_inv HF). rewrite (IHr (Forall_inv_tail HF) u' u (i + 1)). reflexivity.
Qed.

Theorem marshal_forget E W o v : o_less o = None -> marshal_opt E W o (forget v) = marshal_opt E W o v.
Proof.
  intros Hl. unfold marshal_opt. pose proof (marshal_to_forget E W o v Hl None [] 0%nat) as H.
  destruct v; cbn [forget] in *; try reflexivity; rewrite H; reflexivity.
Qed.
