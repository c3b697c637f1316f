(** C85: the calls of Marshal, Equal and deepCopy go as deep as the document. *)
From Verif Require Import Base Float64 Value Opt Marshal Compare Import StackOut Unmarshal Stack SpecJson SpecValue SpecLax SpecStack SpecSize SpecNil
  SpecText SpecOpts ListLemmas ValueLemmas SortProof OrderProof MarshalTotal CompareProof LaxParse RoundTrip MarshalClaims StackProof.

Definition most {A} (f : A -> nat) (l : list A) : nat := fold_right (fun x n => Nat.max (f x) n) 0%nat l.
Lemma most_le {A} (f : A -> nat) l n : (most f l <= n)%nat <-> Forall (fun x => (f x <= n)%nat) l.
Proof.
  induction l as [|x l IH]; cbn [most fold_right]; [split; [constructor|lia]|]. fold (most f l).
  rewrite Forall_cons_iff, <- IH. lia.
Qed.
Lemma most_perm {A} (f : A -> nat) l l' : Permutation l l' -> most f l = most f l'.
Proof. induction 1; cbn [most fold_right]; unfold most in *; lia. Qed.
Lemma stories_obj i kvs lo : stories (VObj i kvs lo) = S (most (fun e : kv => stories (snd (snd e))) kvs).
Proof. reflexivity. Qed.
Lemma stories_arr l : stories (VArr l) = S (most stories l).
Proof. reflexivity. Qed.

Section Writer.
Variable E : Env.
Variable W : World.
Variable o : opt.

Notation run := (option pinfo -> list key -> nat -> mres).
Definition mk_run (f : V -> run) (x : kv) : entry := Entry (fst x) (fst (snd x)) (snd (snd x)) (f (snd (snd x))).
Definition ends (f : run) : Prop := forall pi path cnt, f pi path cnt = Panic \/ exists r, f pi path cnt = Ok r.

Lemma members_same (f g : V -> run) kvs : Forall (fun e : kv => forall pi path cnt, f (snd (snd e)) pi path cnt = g (snd (snd e)) pi path cnt) kvs ->
  forall pi path cnt first,
  write_members o pi path cnt first (map (mk_run f) kvs) = write_members o pi path cnt first (map (mk_run g) kvs).
Proof.
  induction 1 as [|[k [id x]] l Hx Hl IH]; intros pi path cnt first; [reflexivity|].
  cbn [map write_members mk_run fst snd e_val e_run e_key] in *. rewrite !Hx. destruct x; try rewrite !IH; reflexivity.
Qed.
Lemma members_panic (f : V -> run) kvs : Forall (fun e : kv => ends (f (snd (snd e)))) kvs ->
  Exists (fun e : kv => snd (snd e) <> VNull /\ forall pi path cnt, f (snd (snd e)) pi path cnt = Panic) kvs ->
  forall pi path cnt first, write_members o pi path cnt first (map (mk_run f) kvs) = Panic.
Proof.
  intros Hf He. induction He as [[k [id x]] l (Hn & Hx)|[k [id x]] l Hl IH]; intros pi path cnt first;
    cbn [map write_members mk_run fst snd e_val e_run e_key] in *.
  - rewrite !Hx. destruct x; try reflexivity. now elim Hn.
  - inversion Hf as [|? ? Hx Hl']; subst. cbn [snd] in Hx. specialize (IH Hl').
    assert (G : forall pi' path' first' (K : bytes -> bytes -> bytes), (let* (b, _) := f x pi' path' cnt in
        let* rest := write_members o pi path cnt first' (map (mk_run f) l) in Ok (K b rest)) = Panic).
    { intros. rewrite IH. destruct (Hx pi' path' cnt) as [->|([b e] & ->)]; reflexivity. }
    destruct x; try reflexivity; try exact (G _ _ false (fun b rest => (if first then [] else [44]) ++ nl_indent o cnt ++ quoted (o_esc o) k
            ++ (if o_indent o then [58; 32] else [58]) ++ b ++ rest)).
    destruct (o_omit_null o); [apply IH|].
    exact (G _ _ false (fun b rest => (if first then [] else [44]) ++ nl_indent o cnt ++ quoted (o_esc o) k
            ++ (if o_indent o then [58; 32] else [58]) ++ b ++ rest)).
Qed.
Lemma elems_same v (f g : V -> run) l : Forall (fun x => forall pi path cnt, f x pi path cnt = g x pi path cnt) l ->
  forall pi path cnt i, write_elems o v pi path cnt i (map f l) = write_elems o v pi path cnt i (map g l).
Proof. induction 1 as [|x l Hx Hl IH]; intros pi path cnt i; [reflexivity|]. cbn [map write_elems]. now rewrite Hx, IH. Qed.
Lemma elems_panic v (f : V -> run) l : Forall (fun x => ends (f x)) l -> Exists (fun x => forall pi path cnt, f x pi path cnt = Panic) l ->
  forall pi path cnt i, write_elems o v pi path cnt i (map f l) = Panic.
Proof.
  intros Hf He. induction He as [x l Hx|x l Hl IH]; intros pi path cnt i; cbn [map write_elems]; [now rewrite Hx|].
  inversion Hf as [|? ? Hx Hl']; subst. rewrite (IH Hl'). match goal with |- context [f x ?p ?q ?c] => destruct (Hx p q c) as [->|([b e] & ->)] end; reflexivity.
Qed.

Lemma not_most {A} (f : A -> nat) l n : (n < most f l)%nat -> Exists (fun x => (n < f x)%nat) l.
Proof.
  intros H. apply Exists_exists. induction l as [|x l IH]; cbn [most fold_right] in H; [lia|]. fold (most f l) in H.
  destruct (Nat.lt_ge_cases n (f x)); [exists x; split; [now left|assumption]|].
  destruct IH as (y & Hy & Hn); [lia|]. exists y. split; [now right|assumption].
Qed.

Lemma deep_ends v d :
  (forall pi path cnt, marshal_to_d E W o v d pi path cnt = if (d <? stories v)%nat then Panic else marshal_to E W o v pi path cnt) ->
  ends (marshal_to_d E W o v d).
Proof.
  intros H pi path cnt. rewrite H. destruct (d <? stories v)%nat; [now left|].
  destruct (marshal_to_total E W o v pi path cnt) as [(_ & r & ->)|(_ & ->)]; eauto.
Qed.

Lemma marshal_to_deep v : forall d pi path cnt,
  marshal_to_d E W o v d pi path cnt = if (d <? stories v)%nat then Panic else marshal_to E W o v pi path cnt.
Proof.
  induction v as [ |s|n src|i kvs lo IH|l IH|b| | | ] using V_ind'; intros d pi path cnt; try reflexivity.
  - rewrite stories_obj. destruct d as [|d]; [reflexivity|]. cbn [marshal_to_d marshal_to].
    change (map (fun x : bytes * (Z * V) => Entry (fst x) (fst (snd x)) (snd (snd x)) (marshal_to_d E W o (snd (snd x)) d)) kvs)
      with (map (mk_run (fun x => marshal_to_d E W o x d)) kvs).
    change (map (fun x : bytes * (Z * V) => Entry (fst x) (fst (snd x)) (snd (snd x)) (marshal_to E W o (snd (snd x)))) kvs)
      with (map (mk_run (marshal_to E W o)) kvs).
    rewrite !order_entries_map by (now intros [? [? ?]]).
    set (kvs' := order_kvs W o pi path kvs). assert (Hp : Permutation kvs' kvs) by apply order_kvs_perm.
    assert (IH' : Forall (fun e : kv => forall d pi path cnt, marshal_to_d E W o (snd (snd e)) d pi path cnt =
        if (d <? stories (snd (snd e)))%nat then Panic else marshal_to E W o (snd (snd e)) pi path cnt) kvs').
    { apply (Permutation_Forall (Permutation_sym Hp)). exact IH. }
    rewrite <- (most_perm _ _ _ Hp).
    match goal with |- _ = if ?c then _ else _ => destruct c eqn:Hc end; [apply Nat.ltb_lt in Hc as Hlt|apply Nat.ltb_ge in Hc as Hge].
    + destruct kvs as [|e0 kvs0] eqn:Ek.
      { apply Permutation_sym, Permutation_nil in Hp. rewrite Hp in Hlt. cbn in Hlt. lia. }
      cbn [map]. rewrite members_panic; [reflexivity| |].
      * rewrite Forall_forall in *. intros e He. apply deep_ends. apply (IH' _ He).
      * assert (Hl : (d < most (fun e : kv => stories (snd (snd e))) kvs')%nat) by (apply Nat.succ_lt_mono; exact Hlt).
        apply not_most, Exists_exists in Hl as (e & He & Hs). apply Exists_exists. exists e. split; [exact He|].
        split; [intros Hn; rewrite Hn in Hs; cbn in Hs; lia|]. intros pi' path' cnt'. rewrite Forall_forall in IH'.
        rewrite (IH' _ He). destruct (Nat.ltb_spec d (stories (snd (snd e)))); [reflexivity|lia].
    + rewrite (members_same _ (marshal_to E W o)).
      * destruct kvs; reflexivity.
      * assert (Hl : (most (fun e : kv => stories (snd (snd e))) kvs' <= d)%nat) by (apply Nat.succ_le_mono; exact Hge). apply most_le in Hl.
        rewrite Forall_forall in *. intros e He pi' path' cnt'. rewrite (IH' _ He).
        specialize (Hl _ He). cbn in Hl. destruct (Nat.ltb_spec d (stories (snd (snd e)))); [lia|reflexivity].
  - rewrite stories_arr. destruct d as [|d]; [reflexivity|]. cbn [marshal_to_d marshal_to].
    destruct (Nat.ltb_spec (S d) (S (most stories l))) as [Hlt|Hge].
    + destruct l as [|x0 l0] eqn:El; [cbn in Hlt; lia|]. rewrite <- El in *.
      rewrite elems_panic; [reflexivity| |].
      * rewrite Forall_forall in *. intros x Hx. apply deep_ends. intros. apply (IH _ Hx).
      * assert (Hl : (d < most stories l)%nat) by lia. apply not_most, Exists_exists in Hl as (x & Hx & Hs). apply Exists_exists.
        exists x. split; [exact Hx|]. intros pi' path' cnt'. rewrite Forall_forall in IH. rewrite (IH _ Hx).
        destruct (Nat.ltb_spec d (stories x)); [reflexivity|lia].
    + destruct l as [|x0 l0] eqn:El; [reflexivity|]. rewrite <- El in *.
      rewrite (elems_same _ _ (marshal_to E W o)); [reflexivity|].
      assert (Hl : (most stories l <= d)%nat) by lia. apply most_le in Hl.
      rewrite Forall_forall in *. intros x Hx pi' path' cnt'. rewrite (IH _ Hx).
      specialize (Hl _ Hx). destruct (Nat.ltb_spec d (stories x)); [lia|reflexivity].
Qed.
End Writer.

Theorem marshal_deep E W o n v :
  marshal_opt_d E W o n v = if (n <? stories v)%nat then Panic else marshal_opt E W o v.
Proof.
  unfold marshal_opt_d, marshal_opt. destruct v; try reflexivity; rewrite marshal_to_deep;
    match goal with |- context [(?a <? ?b)%nat] => destruct (a <? b)%nat end; reflexivity.
Qed.

(** *** deepCopy *)
Lemma all_of_some {A B} (f : A -> option B) (g : A -> B) l : Forall (fun x => f x = Some (g x)) l -> all_of f l = Some (map g l).
Proof. induction 1 as [|x l Hx Hl IH]; [reflexivity|]. cbn [all_of map]. now rewrite Hx, IH. Qed.
Lemma all_of_none {A B} (f : A -> option B) l : Exists (fun x => f x = None) l -> all_of f l = None.
Proof. induction 1 as [x l Hx|x l Hl IH]; cbn [all_of]; [now rewrite Hx|]. rewrite IH. now destruct (f x). Qed.

Theorem copy_deep v : forall n, deep_copy_d v n = if (n <? stories v)%nat then None else Some (deep_copy v).
Proof.
  induction v as [ |s|n0 src|i kvs lo IH|l IH|b| | | ] using V_ind'; intros n; try (destruct n; reflexivity).
  - rewrite stories_obj. destruct n as [|n]; [reflexivity|]. cbn [deep_copy_d deep_copy].
    destruct (Nat.ltb_spec (S n) (S (most (fun e : kv => stories (snd (snd e))) kvs))) as [Hlt|Hge].
    + rewrite all_of_none; [reflexivity|]. assert (Hl : (n < most (fun e : kv => stories (snd (snd e))) kvs)%nat) by lia.
      apply not_most, Exists_exists in Hl as ([k [id x]] & He & Hs). apply Exists_exists. exists (k, (id, x)). split; [exact He|].
      rewrite Forall_forall in IH. pose proof (IH _ He n) as IHx. cbn [snd] in *. rewrite IHx. destruct (Nat.ltb_spec n (stories x)); [reflexivity|lia].
    + rewrite (all_of_some _ (fun e : kv => let '(k, (id, x)) := e in (k, (id, deep_copy x)))); [reflexivity|].
      assert (Hl : (most (fun e : kv => stories (snd (snd e))) kvs <= n)%nat) by lia. apply most_le in Hl.
      rewrite Forall_forall in *. intros [k [id x]] He. pose proof (IH _ He n) as IHx. specialize (Hl _ He). cbn [snd] in *. rewrite IHx.
      destruct (Nat.ltb_spec n (stories x)); [lia|reflexivity].
  - rewrite stories_arr. destruct n as [|n]; [reflexivity|]. cbn [deep_copy_d deep_copy].
    destruct (Nat.ltb_spec (S n) (S (most stories l))) as [Hlt|Hge].
    + rewrite all_of_none; [reflexivity|]. assert (Hl : (n < most stories l)%nat) by lia.
      apply not_most, Exists_exists in Hl as (x & He & Hs). apply Exists_exists. exists x. split; [exact He|].
      rewrite Forall_forall in IH. rewrite (IH _ He). destruct (Nat.ltb_spec n (stories x)); [reflexivity|lia].
    + rewrite (all_of_some _ deep_copy); [reflexivity|].
      assert (Hl : (most stories l <= n)%nat) by lia. apply most_le in Hl.
      rewrite Forall_forall in *. intros x He. specialize (Hl _ He). rewrite (IH _ He).
      destruct (Nat.ltb_spec n (stories x)); [lia|reflexivity].
Qed.

(** *** Equal *)
Lemma every_same {A} (f : A -> option bool) (g : A -> bool) l r :
  Forall (fun x => forall q, f x = Some q -> q = g x) l -> every f l = Some r -> r = forallb g l.
Proof.
  intros H. induction H as [|x l Hx Hl IH]; cbn [every forallb]; [congruence|].
  destruct (f x) as [[]|] eqn:Ef; intros Hr; try discriminate; rewrite <- (Hx _ eq_refl).
  - now apply IH.
  - injection Hr as <-. reflexivity.
Qed.
Lemma every_none {A} (f : A -> option bool) l : every f l = None -> Exists (fun x => f x = None) l.
Proof.
  induction l as [|x l IH]; cbn [every]; [discriminate|]. destruct (f x) as [[]|] eqn:Ef; intros H; try discriminate.
  - right. now apply IH.
  - now left.
Qed.
Lemma every_some_none {A} (f : A -> option bool) l : Forall (fun x => f x <> Some false) l -> Exists (fun x => f x = None) l -> every f l = None.
Proof.
  intros H He. induction He as [x l Hx|x l Hl IH]; cbn [every]; [now rewrite Hx|].
  inversion H as [|? ? H1 H2]; subst. destruct (f x) as [[]|]; [now apply IH|congruence|reflexivity].
Qed.

Lemma equal_d_obj W d path i kvs lo i' kvs' lo' :
  equal_d W (S d) path (VObj i kvs lo) (VObj i' kvs' lo') =
  if negb (List.length kvs =? List.length kvs')%nat then Some false
  else every (fun e : kv => match alookup (fst e) kvs' with
                          | Some (_, y) => equal_d W d (path ++ [string_key (fst e)]) (snd (snd e)) y
                          | None => Some false end) (go_range W path kvs).
Proof.
  cbn [equal_d]. destruct (List.length kvs =? List.length kvs')%nat; [|reflexivity]. cbn [negb].
  rewrite go_range_map. generalize (go_range W path kvs). intros l. induction l as [|[k [id x]] l IH]; [reflexivity|].
  cbn [map every fst snd]. now rewrite IH.
Qed.

Fixpoint arr_d (W : World) (d : nat) (path : list key) (i : Z) (l l' : list V) : option bool :=
  match l, l' with
  | x :: r, y :: r' => match equal_d W d (path ++ [int_key i]) x y with Some true => arr_d W d path (i + 1) r r' | q => q end
  | _, _ => Some true
  end.
Fixpoint arr_b (W : World) (path : list key) (i : Z) (l l' : list V) : bool :=
  match l, l' with
  | x :: r, y :: r' => equal W (path ++ [int_key i]) x y && arr_b W path (i + 1) r r'
  | _, _ => true
  end.
Lemma equal_d_arr W d path l l' :
  equal_d W (S d) path (VArr l) (VArr l') =
  if negb (List.length l =? List.length l')%nat then Some false else arr_d W d path 0 l l'.
Proof.
  cbn [equal_d]. destruct (negb _); [reflexivity|]. generalize 0. revert l'.
  induction l as [|x l IH]; intros [|y l'] i; try reflexivity. cbn [arr_d]. now rewrite IH.
Qed.
Lemma equal_b_arr W path l l' :
  equal W path (VArr l) (VArr l') = (List.length l =? List.length l')%nat && arr_b W path 0 l l'.
Proof.
  rewrite equal_arr. f_equal. generalize 0. revert l'.
  induction l as [|x l IH]; intros [|y l'] i; try reflexivity. cbn [arr_b]. now rewrite IH.
Qed.

Theorem equal_deep_same W v : forall d path a r, equal_d W d path v a = Some r -> r = equal W path v a.
Proof.
  induction v as [ |s|n0 src|i kvs lo IH|l IH|b| | | ] using V_ind'; intros d path a r; destruct a as [ |s'|n' src'|i' kvs' lo'|l'|b'| | | ];
    try (destruct d; cbn [equal_d equal]; intros H; injection H as <-; reflexivity).
  - destruct d as [|d]; [discriminate|]. rewrite equal_d_obj, equal_obj.
    destruct (List.length kvs =? List.length kvs')%nat; cbn [negb andb]; [|congruence]. intros H.
    rewrite <- (forallb_perm _ _ _ (go_range_perm W path kvs)). eapply every_same; [|exact H].
    apply Forall_forall. intros [k [id x]] Hin q Hq. apply (Permutation_in _ (go_range_perm W path kvs)) in Hin.
    rewrite Forall_forall in IH. cbn [fst snd] in *. destruct (alookup k kvs') as [[id' y]|]; [|congruence].
    exact (IH _ Hin _ _ _ _ Hq).
  - destruct d as [|d]; [discriminate|]. rewrite equal_d_arr, equal_b_arr.
    destruct (List.length l =? List.length l')%nat; cbn [negb andb]; [|congruence]. generalize 0.
    revert l'. induction IH as [|x l Hx Hl IHl]; intros l' i H; [cbn in *; congruence|]. destruct l' as [|y l']; [cbn in *; congruence|].
    cbn [arr_d arr_b] in *. destruct (equal_d W d (path ++ [int_key i]) x y) as [q|] eqn:Eq; [|discriminate].
    pose proof (Hx _ _ _ _ Eq) as Hxy. rewrite <- Hxy. destruct q; [cbn [andb]; now apply IHl|cbn; congruence].
Qed.

Theorem equal_deep_none W v : forall d path a, equal_d W d path v a = None -> (d < stories v)%nat /\ (d < stories a)%nat.
Proof.
  induction v as [ |s|n0 src|i kvs lo IH|l IH|b| | | ] using V_ind'; intros d path a; destruct a as [ |s'|n' src'|i' kvs' lo'|l'|b'| | | ];
    try (destruct d; cbn [equal_d]; intros H; discriminate).
  - destruct d as [|d]; [rewrite !stories_obj; lia|]. rewrite equal_d_obj.
    destruct (negb _); [discriminate|]. intros H. apply every_none, Exists_exists in H as ([k [id x]] & Hin & Hq).
    apply (Permutation_in _ (go_range_perm W path kvs)) in Hin. rewrite Forall_forall in IH. cbn [fst snd] in *.
    destruct (alookup k kvs') as [[id' y]|] eqn:El; [|discriminate]. apply (IH _ Hin) in Hq as (H1 & H2). cbn [snd] in H1.
    rewrite !stories_obj. split; apply Nat.succ_lt_mono.
    + rewrite Nat.succ_lt_mono in *. destruct (Nat.lt_ge_cases d (most (fun e : kv => stories (snd (snd e))) kvs)) as [?|Hge]; [lia|].
      apply most_le in Hge. rewrite Forall_forall in Hge. specialize (Hge _ Hin). cbn [snd] in Hge. lia.
    + destruct (Nat.lt_ge_cases d (most (fun e : kv => stories (snd (snd e))) kvs')) as [?|Hge]; [lia|].
      apply most_le in Hge. rewrite Forall_forall in Hge. apply alookup_In in El. specialize (Hge _ El). cbn [snd] in Hge. lia.
  - destruct d as [|d]; [rewrite !stories_arr; lia|]. rewrite equal_d_arr.
    destruct (negb _); [discriminate|]. intros H. rewrite !stories_arr.
    cut ((d < most stories l)%nat /\ (d < most stories l')%nat); [lia|]. revert l' H. generalize 0.
    induction IH as [|x l Hx Hl IHl]; intros i l' H; [discriminate|]. destruct l' as [|y l']; [discriminate|].
    cbn [arr_d most fold_right] in *. fold (most stories l) (most stories l').
    destruct (equal_d W d (path ++ [int_key i]) x y) as [[]|] eqn:Eq; try discriminate.
    + apply IHl in H. lia.
    + apply Hx in Eq. lia.
Qed.

Theorem equal_deep_true W v : forall d path a, equal W path v a = true -> (d < stories v)%nat -> equal_d W d path v a = None.
Proof.
  induction v as [ |s|n0 src|i kvs lo IH|l IH|b| | | ] using V_ind'; intros d path a; destruct a as [ |s'|n' src'|i' kvs' lo'|l'|b'| | | ];
    try (cbn [stories equal]; intros; try lia; discriminate).
  - destruct d as [|d]; [reflexivity|]. rewrite equal_d_obj, equal_obj, andb_true_iff, forallb_forall. intros (-> & HF) Hs. cbn [negb].
    rewrite stories_obj in Hs. apply Nat.succ_lt_mono, not_most, Exists_exists in Hs as (e & He & Hs).
    rewrite Forall_forall in IH. apply every_some_none.
    + apply Forall_forall. intros e' He'. apply (Permutation_in _ (go_range_perm W path kvs)) in He'. specialize (HF _ He').
      destruct (alookup (fst e') kvs') as [[id y]|]; [|discriminate]. intros Hq. apply equal_deep_same in Hq. congruence.
    + apply Exists_exists. exists e. split; [apply (Permutation_in _ (Permutation_sym (go_range_perm W path kvs))); exact He|].
      specialize (HF _ He). destruct (alookup (fst e) kvs') as [[id y]|]; [|discriminate]. apply (IH _ He); assumption.
  - destruct d as [|d]; [reflexivity|]. rewrite equal_d_arr, equal_b_arr, andb_true_iff. intros (Hlen & HF) Hs. rewrite Hlen. cbn [negb]. apply Nat.eqb_eq in Hlen.
    rewrite stories_arr in Hs. apply Nat.succ_lt_mono in Hs. revert l' Hlen HF Hs. generalize 0.
    induction IH as [|x l Hx Hl IHl]; intros i l' Hlen HF Hs; [cbn in Hs; lia|]. destruct l' as [|y l']; [discriminate|].
    injection Hlen as Hlen.
    cbn [arr_b arr_d most fold_right] in *. fold (most stories l) in Hs. apply andb_true_iff in HF as (H1 & H2).
    destruct (equal_d W d (path ++ [int_key i]) x y) as [q|] eqn:Eq; [|reflexivity].
    pose proof (equal_deep_same _ _ _ _ _ _ Eq) as ->. rewrite H1. apply IHl; [exact Hlen|exact H2|].
    destruct (Nat.lt_ge_cases d (stories x)) as [Hd|Hd]; [|lia]. rewrite (Hx _ _ _ H1 Hd) in Eq. discriminate.
Qed.

(** What was read is at most as deep as the text. *)
Lemma nesting_obj l : nesting (JObj l) = S (most (fun e => nesting (snd e)) l).
Proof. reflexivity. Qed.
Lemma nesting_arr l : nesting (JArr l) = S (most nesting l).
Proof. reflexivity. Qed.

Lemma last_one {B} (k : bytes) (l : list (bytes * B)) : In k (map fst l) ->
  exists l1 x l2, l = l1 ++ (k, x) :: l2 /\ ~ In k (map fst l2).
Proof.
  induction l as [|[k' x] l IH]; [intros []|]. intros H.
  destruct (in_dec (list_eq_dec Z.eq_dec) k (map fst l)) as [Hi|Hn].
  - destruct (IH Hi) as (l1 & y & l2 & -> & Hl). exists ((k', x) :: l1), y, l2. auto.
  - destruct H as [H|H]; [|contradiction]. cbn in H. subst k'. exists [], x, l. auto.
Qed.

Lemma tree_stories (PN : bytes -> num -> Prop) v : forall j, tree_of PN j v -> (stories v <= nesting j)%nat.
Proof.
  induction v as [| s | n src | i kvs lo IH | l IH | b | | | ] using V_ind'; intros j H;
    inversion H as [| | | |l0 l' Hl E0 E1|l0 i0 kvs0 lo0 Hnd Hk Hx E0 E1]; subst; try (cbn; lia).
  - rewrite stories_obj, nesting_obj. apply le_n_S. apply most_le. apply Forall_forall. intros [k [id x]] He. cbn [snd].
    assert (Hin : In k (map fst l0)) by (apply Hk; apply in_map_iff; exists (k, (id, x)); auto).
    destruct (last_one _ _ Hin) as (l1 & y & l2 & -> & Hn).
    destruct (Hx l1 k y l2 eq_refl Hn) as (id' & x' & Hi' & Ht).
    apply (alookup_NoDup_In _ _ _ Hnd) in Hi' as A2. apply (alookup_NoDup_In _ _ _ Hnd) in He as A1. rewrite A1 in A2. injection A2 as -> ->.
    rewrite Forall_forall in IH. specialize (IH _ He y Ht). cbn [snd] in IH.
    etransitivity; [exact IH|]. pose proof (proj1 (most_le (fun e : bytes * jv => nesting (snd e)) (l1 ++ (k, y) :: l2) _) (le_n _)) as HM.
    rewrite Forall_forall in HM. exact (HM (k, y) (in_elt _ _ _)).
  - rewrite stories_arr, nesting_arr. apply le_n_S. clear H. induction Hl as [|y x l0 l' Hy Hl IHl]; [reflexivity|].
    inversion IH as [|? ? Hx Hr]; subst. specialize (IHl Hr). specialize (Hx _ Hy). cbn [most fold_right]. unfold most in *. lia.
Qed.

Theorem parsed_deep E n b v : Forall is_byte b -> unmarshal_d E n b = Ok (v, None) -> (stories v <= n)%nat.
Proof.
  intros Hb H. assert (Hu : unmarshal E b = Ok (v, None)) by (rewrite <- H; symmetry; apply enough_same; congruence).
  destruct (unmarshal_accepts E b Hb v Hu) as (j & Hj & Ht). apply tree_stories in Ht.
  destruct (le_lt_dec (nesting j) n) as [Hn|Hn]; [lia|]. apply (document_depth E n b j Hj) in Hn. congruence.
Qed.

(** What is written is exactly as deep as the value. *)
Lemma shows_nesting (NT : num -> bytes -> jv -> Prop) om ORD :
  (forall n src j, NT n src j -> nesting j = 0%nat) ->
  forall v j, shows NT om ORD v j -> nesting j = stories v.
Proof.
  intros HN. induction v as [| s | n src | i kvs lo IH | l IH | b | | | ] using V_ind'; intros j Hs;
    inversion Hs as [|b' Eb Ej|n0 src0 j0 HN0 En Ej|s0 s' Hf Es Ej|l0 l' Hl El Ej|i0 kvs0 lo0 kvs' ms Hp Hor Hm Ek Ej]; subst; try reflexivity.
  - cbn [stories]. eauto.
  - rewrite stories_obj, nesting_obj. f_equal. rewrite (most_perm _ _ _ Hp).
    assert (IH' : Forall (fun e : kv => forall j, shows NT om ORD (snd (snd e)) j -> nesting j = stories (snd (snd e))) kvs').
    { apply Forall_forall. intros e He. rewrite Forall_forall in IH. apply IH. now apply (Permutation_in _ (Permutation_sym Hp)). }
    assert (Hkept : most (fun e : kv => stories (snd (snd e))) kvs' = most (fun e : kv => stories (snd (snd e))) (kept om kvs')).
    { unfold kept. destruct om; [|reflexivity]. clear. induction kvs' as [|[k [id x]] l IHl]; [reflexivity|]. cbn [filter snd].
      destruct x; cbn [is_null negb]; cbn [most fold_right snd]; unfold most in *; rewrite IHl; reflexivity. }
    transitivity (most (fun e : kv => stories (snd (snd e))) (kept om kvs')); [|symmetry; exact Hkept]. assert (IHk : Forall (fun e : kv => forall j, shows NT om ORD (snd (snd e)) j -> nesting j = stories (snd (snd e))) (kept om kvs')).
    { apply Forall_forall. intros e He. rewrite Forall_forall in IH'. apply IH'. unfold kept in He. destruct om; [apply filter_In in He; tauto|assumption]. }
    clear -Hm IHk. induction Hm as [|x m l l' (Hx1 & Hx) Hl IHl]; [reflexivity|]. inversion IHk as [|? ? A B]; subst.
    cbn [most fold_right]. fold (most (fun e : bytes * jv => nesting (snd e)) l'). fold (most (fun e : kv => stories (snd (snd e))) l).
    rewrite (A _ Hx), (IHl B). reflexivity.
  - rewrite stories_arr, nesting_arr. f_equal. clear Hs. induction Hl as [|x y l l' Hx Hl IHl]; [reflexivity|]. inversion IH as [|? ? A B]; subst.
    cbn [most fold_right]. fold (most nesting l'). fold (most stories l). rewrite (A _ Hx), (IHl B). reflexivity.
Qed.

Theorem back_deep E W o v : opt_ws o -> json_typed v -> all_text (Forall is_byte) (fun _ src => lax_num src) v ->
  exists b', marshal_opt E W o v = Ok b' /\ forall n, (unmarshal_d E n b' = Panic <-> (n < stories v)%nat).
Proof.
  intros Ho Ht Ha.
  destruct (marshal_accepted E W o (fun _ src => lax_num src) v Ho Ht (fun _ _ H => H) Ha) as (b' & j & Hm & Hj & Hs).
  exists b'. split; [exact Hm|]. intros n. assert (HN : nesting j = stories v) by (eapply shows_nesting; [|exact Hs]; intros ? ? ? (-> & _); reflexivity). rewrite <- HN.
  apply document_depth; assumption.
Qed.

Theorem parsed_back E W o b v : opt_ws o -> Forall is_byte b -> unmarshal E b = Ok (v, None) ->
  exists b', marshal_opt E W o v = Ok b' /\ forall n, (unmarshal_d E n b' = Panic <-> (n < stories v)%nat).
Proof.
  intros Ho Hb H. destruct (parsed_number_text E W o b v Ho Hb H) as (b' & j & Hm & Hj & Hs).
  exists b'. split; [exact Hm|]. intros n. assert (HN : nesting j = stories v) by (eapply shows_nesting; [|exact Hs]; intros ? ? ? ->; reflexivity). rewrite <- HN.
  apply document_depth; assumption.
Qed.

(** No amount of stack is enough for all values. *)
Fixpoint tower (n : nat) : V := match n with O => VArr [] | S n => VArr [tower n] end.
Lemma tower_stories n : stories (tower n) = S n.
Proof. induction n as [|n IH]; [reflexivity|]. cbn [tower]. rewrite stories_arr. cbn [most fold_right]. rewrite IH. lia. Qed.

Theorem after_parse E W o n b v : Forall is_byte b -> unmarshal_d E n b = Ok (v, None) ->
  marshal_opt_d E W o n v = marshal_opt E W o v /\ deep_copy_d v n = Some (deep_copy v) /\
  (forall path a, equal_d W n path v a = Some (equal W path v a)) /\
  (forall path a, equal_d W n path a v = Some (equal W path a v)).
Proof.
  intros Hb H. pose proof (parsed_deep E n b v Hb H) as Hn. rewrite marshal_deep, copy_deep.
  destruct (Nat.ltb_spec n (stories v)) as [Hl|_]; [lia|]. repeat split; intros path a.
  - destruct (equal_d W n path v a) as [r|] eqn:Eq; [apply equal_deep_same in Eq; congruence|]. apply equal_deep_none in Eq. lia.
  - destruct (equal_d W n path a v) as [r|] eqn:Eq; [apply equal_deep_same in Eq; congruence|]. apply equal_deep_none in Eq. lia.
Qed.

Theorem equal_enough W n path v a : (stories v <= n \/ stories a <= n)%nat -> equal_d W n path v a = Some (equal W path v a).
Proof.
  intros H. destruct (equal_d W n path v a) as [r|] eqn:Eq; [apply equal_deep_same in Eq; congruence|]. apply equal_deep_none in Eq. lia.
Qed.

Theorem equal_of_equal W n path v a : equal W path v a = true ->
  equal_d W n path v a = if (n <? stories v)%nat then None else Some true.
Proof.
  intros H. destruct (Nat.ltb_spec n (stories v)) as [Hl|Hl]; [now apply equal_deep_true|].
  rewrite equal_enough by auto. now rewrite H.
Qed.

Theorem some_stack_out_refuted E W o n : exists v, json_typed v /\ (exists b, marshal_opt E W o v = Ok b) /\
  marshal_opt_d E W o n v = Panic /\ deep_copy_d v n = None /\ equal_d W n [] v v = None.
Proof.
  exists (tower n). assert (Ht : json_typed (tower n)).
  { induction n as [|n IH]; [exact I|]. cbn. auto. }
  split; [exact Ht|].
  assert (Hn : (n <? stories (tower n))%nat = true) by (rewrite tower_stories; apply Nat.ltb_lt; lia).
  split; [|split; [now rewrite marshal_deep, Hn|split; [now rewrite copy_deep, Hn|]]].
  - assert (G : forall k pi path cnt, exists b, marshal_to E W o (tower k) pi path cnt = Ok (b, None)).
    { clear. induction k as [|k IH]; intros pi path cnt; [eexists; reflexivity|].
      cbn [tower marshal_to map write_elems]. match goal with |- context [marshal_to E W o (tower k) ?p ?q ?c] => destruct (IH p q c) as (b & ->) end.
      cbn. eexists. reflexivity. }
    destruct (G n None [] 0%nat) as (b & Hb). exists b. destruct n; unfold marshal_opt; cbn [tower] in *; rewrite Hb; reflexivity.
  - apply equal_deep_true; [|now apply Nat.ltb_lt].
    generalize (@nil key). clear. induction n as [|n IH]; intros path; [reflexivity|]. cbn. now rewrite IH.
Qed.
