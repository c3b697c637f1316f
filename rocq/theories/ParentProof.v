(** What the less function finds in ParentInfo.Parent. *)
From Verif Require Import Base Float64 Value Opt Marshal ListLemmas ValueLemmas SortProof OrderProof SpecOut MarshalProof IndentProof KeyMem SpecKeys.

Theorem parent_calls_to E W o f f' root :
  (forall pi k1 k2 v1 v2, call_with given_parent root pi k1 k2 v1 v2 -> f pi k1 k2 v1 v2 = f' pi k1 k2 v1 v2) ->
  forall v p pi, at_path root p v -> info_of p pi -> (forall q, pi = Some q -> given_parent root p v (pi_parent q)) -> forall path cnt,
  marshal_to E W (with_less o f) v pi path cnt = marshal_to E W (with_less o f') v pi path cnt.
Proof.
  intros Hf. induction v as [| s | n src | i kvs lo IH | l IH | b | | | ] using V_ind'; intros p pi Hp Hpi Hpar path cnt; try reflexivity.
  - rewrite !marshal_obj. destruct kvs as [|x0 kvs0] eqn:Ek; [reflexivity|]. rewrite <- Ek in *.
    assert (Ho : order_kvs W (with_less o f) pi path kvs = order_kvs W (with_less o f') pi path kvs).
    { unfold order_kvs, kv_less. cbn [with_less o_less]. apply go_sort_ext. intros x y Hx Hy.
      apply (Permutation_in _ (go_range_perm W path kvs)) in Hx, Hy. apply Hf. destruct x as [k1 [id1 v1]], y as [k2 [id2 v2]].
      exists p, i, kvs, lo, id1, id2. auto. }
    rewrite Ho. match goal with |- rbind ?x _ = rbind ?y _ => enough (Hw : x = y) by now rewrite Hw end.
    apply write_members_less.
    assert (Hin : forall x, In x (order_kvs W (with_less o f') pi path kvs) -> In x kvs) by (intros x; apply Permutation_in, order_kvs_perm).
    revert Hin. clear Ho. generalize (order_kvs W (with_less o f') pi path kvs). intros L Hin. induction L as [|[k [id x]] r IHr]; cbn [map]; constructor.
    + split; [reflexivity|]. split; [reflexivity|]. intros path' cnt'. cbn [mk_entry e_run e_val e_key fst snd].
      rewrite Forall_forall in IH. assert (Hi : In (k, (id, x)) kvs) by (apply Hin; now left).
      apply (IH _ Hi (p ++ [SKey k])).
      * eapply at_path_trans; [exact Hp|]. econstructor; [exact Hi|constructor].
      * apply (info_of_snoc p pi x (SKey k) Hpi).
      * intros q Hq. injection Hq as <-. left. exists p, k. split; [reflexivity|]. now destruct pi.
    + apply IHr. intros z Hz. apply Hin. now right.
  - cbn [marshal_to]. destruct l as [|x0 l0] eqn:El; [reflexivity|]. rewrite <- El in *.
    assert (H : forall l' n, (forall j x, nth_error l' j = Some x -> nth_error l (n + j) = Some x) ->
       Forall (fun x => forall p pi, at_path root p x -> info_of p pi -> (forall q, pi = Some q -> given_parent root p x (pi_parent q)) -> forall path cnt,
           marshal_to E W (with_less o f) x pi path cnt = marshal_to E W (with_less o f') x pi path cnt) l' ->
       write_elems (with_less o f) (VArr l) pi path (S cnt) (Z.of_nat n) (map (marshal_to E W (with_less o f)) l')
       = write_elems (with_less o f') (VArr l) pi path (S cnt) (Z.of_nat n) (map (marshal_to E W (with_less o f')) l')).
    { induction l' as [|x l' IHl]; intros n Hn H'; [reflexivity|]. pose proof (Forall_inv H') as Hx. pose proof (Forall_inv_tail H') as Hl'. cbn [map write_elems with_less o_less].
      rewrite (Hx (p ++ [SIdx n])).
      - replace (Z.of_nat n + 1) with (Z.of_nat (S n)) by lia.
        rewrite IHl; [reflexivity| |assumption]. intros j y Hj. rewrite Nat.add_succ_comm. now apply Hn.
      - eapply at_path_trans; [exact Hp|]. econstructor; [|constructor]. rewrite <- (Nat.add_0_r n). now apply Hn.
      - apply (info_of_snoc p pi (VArr l) (SIdx n) Hpi).
      - intros q Hq. injection Hq as <-. right. exists p, n. split; [reflexivity|]. split; [destruct pi; exact Hp|]. exists l. now destruct pi. }
    change 0 with (Z.of_nat 0). rewrite (H l 0%nat); auto.
Qed.

Theorem parent_calls E W o f f' v :
  (forall pi k1 k2 v1 v2, call_with given_parent v pi k1 k2 v1 v2 -> f pi k1 k2 v1 v2 = f' pi k1 k2 v1 v2) ->
  marshal_opt E W (with_less o f) v = marshal_opt E W (with_less o f') v.
Proof.
  intros H. assert (Hn : forall q, None = Some q -> given_parent v [] v (pi_parent q)) by discriminate.
  unfold marshal_opt. destruct v; try reflexivity;
    (rewrite (parent_calls_to E W o f f' _ H _ [] None (AP_here _) eq_refl Hn); reflexivity).
Qed.
