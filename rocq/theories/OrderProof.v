(** The orderings of object members. *)
From Verif Require Import Base Utf8 Float64 Value Opt Marshal ListLemmas SpecJson SpecValue SpecText SpecOrder
  ValueLemmas SortProof EscapeProof MarshalProof.

(** *** Byte order *)

Lemma bltb_blt a b : bltb a b = true <-> blt a b.
Proof.
  revert b. induction a as [|c a IH]; intros [|d b]; cbn; try (split; [discriminate|intros H; inversion H]).
  - split; [constructor|reflexivity].
  - destruct (Z.ltb_spec c d); [split; [now constructor|reflexivity]|].
    destruct (Z.eqb_spec c d) as [->|N].
    + specialize (IH b). split; [intros H1; constructor; now apply IH|]. intros H0. apply IH. revert H0. intros H1; inversion H1; subst; [lia|assumption].
    + split; [discriminate|]. intros H1; inversion H1; subst; lia.
Qed.
Lemma blt_irrefl a : ~ blt a a.
Proof. induction a; intros H; inversion H; subst; [lia|contradiction]. Qed.
Lemma blt_trans a b c : blt a b -> blt b c -> blt a c.
Proof.
  intros H. revert c. induction H; intros c' H'; inversion H'; subst; try (constructor; auto; lia).
Qed.
Lemma blt_total a b : blt a b \/ a = b \/ blt b a.
Proof.
  revert b. induction a as [|c a IH]; intros [|d b]; [auto|left; constructor|right; right; constructor|].
  destruct (Z.lt_total c d) as [H|[->|H]]; [left; now constructor| |right; right; now constructor].
  destruct (IH b) as [H|[->|H]]; [left; now apply BLT_tail|right; now left|right; right; now apply BLT_tail].
Qed.

(** *** Sorting *)

Section Sorted.
Context {A : Type}.
Notation sw := strict_weak_order.

Lemma nth_error_flat (l : list A) (idx : list nat) (P : A -> A -> Prop) :
  ForallOrdPairs (fun i j => forall x y, nth_error l i = Some x -> nth_error l j = Some y -> P x y) idx ->
  ForallOrdPairs P (arrange l idx).
Proof.
  intros H. induction H as [|i idx Hi H IH]; cbn; [constructor|].
  destruct (nth_error l i) as [x|] eqn:Ex; [|exact IH]. cbn [app]. constructor; [|exact IH].
  apply Forall_forall. intros y Hy. unfold arrange in Hy. apply in_flat_map in Hy as (j & Hj & Hy).
  destruct (nth_error l j) as [y'|] eqn:Ey; [|contradiction]. destruct Hy as [<-|[]].
  rewrite Forall_forall in Hi. exact (Hi j Hj x y' eq_refl Ey).
Qed.

Lemma go_sort_sorted W (less R : A -> A -> bool) l :
  sw R ->
  (forall i j x y, i <> j -> nth_error l i = Some x -> nth_error l j = Some y -> less x y = R x y) ->
  ForallOrdPairs (fun x y => R y x = false) (go_sort W less l).
Proof.
  intros (Hi & Ht & Hw) Hl. unfold go_sort. apply nth_error_flat.
  set (R' := fun i j => match nth_error l i, nth_error l j with
                        | Some x, Some y => R x y
                        | Some _, None => true
                        | None, _ => false end).
  assert (SW : strict_weak R').
  { unfold R'. split; [|split].
    - intros i. destruct (nth_error l i); auto.
    - intros i j k. destruct (nth_error l i), (nth_error l j), (nth_error l k); eauto; discriminate.
    - intros i j k. destruct (nth_error l i), (nth_error l j), (nth_error l k); eauto; discriminate. }
  pose proof (w_sort_sorted W (fun i j => nth j (nth i (map (fun x => map (less x) l) l) []) false)
                (List.length l) R' SW) as S.
  assert (Ha : forall i j, (i < List.length l)%nat -> (j < List.length l)%nat -> i <> j ->
             nth j (nth i (map (fun x => map (less x) l) l) []) false = R' i j).
  { intros i j Hil Hjl Hn. unfold R'. destruct (nth_error l i) as [x|] eqn:Ex; [|apply nth_error_None in Ex; lia].
    destruct (nth_error l j) as [y|] eqn:Ey; [|apply nth_error_None in Ey; lia].
    rewrite (answers_nth less l l i j x y Ex Ey). eauto. }
  specialize (S Ha). induction S as [|i idx Hf S IH]; constructor; [|assumption].
  eapply Forall_impl; [|exact Hf]. intros j Hij x y Ex Ey. unfold R' in Hij. now rewrite Ex, Ey in Hij.
Qed.

Lemma sorted_unique (P : A -> A -> Prop) l1 : forall l2,
  (forall x y, In x l1 -> In y l1 -> P x y -> P y x -> x = y) ->
  Permutation l1 l2 -> ForallOrdPairs P l1 -> ForallOrdPairs P l2 -> l1 = l2.
Proof.
  induction l1 as [|x l1 IH]; intros l2 Ha Hp H1 H2; [now apply Permutation_nil in Hp|].
  destruct l2 as [|y l2]; [now apply Permutation_sym, Permutation_nil in Hp|].
  inversion H1 as [|? ? Hx H1']; subst. inversion H2 as [|? ? Hy H2']; subst.
  assert (Exy : x = y).
  { assert (Hxy : In x (y :: l2)) by (eapply Permutation_in; [exact Hp|now left]).
    assert (Hyx : In y (x :: l1)) by (eapply Permutation_in; [symmetry; exact Hp|now left]).
    destruct Hxy as [->|Hxy]; [reflexivity|]. destruct Hyx as [->|Hyx]; [reflexivity|].
    rewrite Forall_forall in Hx, Hy. apply Ha; [now left|now right|auto|auto]. }
  subst y. f_equal. apply IH; try assumption.
  - intros a b Ha' Hb'. apply Ha; now right.
  - eapply Permutation_cons_inv; exact Hp.
Qed.
End Sorted.
Notation sw := strict_weak_order.

(** *** Members instead of entries *)

Lemma ForallOrdPairs_map {A B} (f : A -> B) (P : B -> B -> Prop) l :
  ForallOrdPairs P (map f l) <-> ForallOrdPairs (fun x y => P (f x) (f y)) l.
Proof.
  induction l as [|x l IH]; cbn; split; intros H; inversion H; subst; constructor; try (apply IH; assumption);
    now apply Forall_map.
Qed.
Lemma ForallOrdPairs_impl' {A} (P Q : A -> A -> Prop) l :
  (forall x y, In x l -> In y l -> P x y -> Q x y) -> ForallOrdPairs P l -> ForallOrdPairs Q l.
Proof.
  intros H. induction 1 as [|x l Hx Hl IH]; constructor.
  - rewrite Forall_forall in *. intros y Hy. apply H; [now left|now right|auto].
  - apply IH. intros a b Ha Hb. apply H; now right.
Qed.
Lemma ForallOrdPairs_strict {A} (P Q : A -> A -> Prop) l : NoDup l ->
  (forall x y, In x l -> In y l -> x <> y -> P x y -> Q x y) -> ForallOrdPairs P l -> ForallOrdPairs Q l.
Proof.
  intros Hn H HP. induction HP as [|x l Hx Hl IH]; constructor; inversion Hn; subst.
  - rewrite Forall_forall in *. intros y Hy. apply H; [now left|now right| |auto]. intros ->. contradiction.
  - apply IH; [assumption|]. intros a b Ha Hb. apply H; now right.
Qed.

Notation kvt := (bytes * (Z * V))%type.

(** The comparison used for the members of an object. *)
Definition kv_less (o : opt) (pi : option pinfo) : option (kvt -> kvt -> bool) :=
  match o_less o with
  | Some f => Some (fun a b => f pi (fst a) (fst b) (snd (snd a)) (snd (snd b)))
  | None =>
    match o_keyseq o with
    | _ :: _ => Some (fun a b => seq_less (seq_index 0 (o_keyseq o) (fst a)) (seq_index 0 (o_keyseq o) (fst b)) (fst a) (fst b))
    | [] => if o_setseq o then Some (fun a b => seq_less (Some (fst (snd a))) (Some (fst (snd b))) (fst a) (fst b)) else None
    end
  end.
Definition ent_kv (e : entry) : kvt := (e_key e, (e_id e, e_val e)).

Lemma order_entries_eq W o pi path es :
  order_entries W o pi path es =
  match kv_less o pi with
  | Some less => go_sort W (fun a b => less (ent_kv a) (ent_kv b)) (go_range W path es)
  | None => go_range W path es
  end.
Proof.
  unfold order_entries, kv_less. destruct (o_less o); [reflexivity|]. destruct (o_keyseq o); [|reflexivity].
  destruct (o_setseq o); reflexivity.
Qed.

(** The order as a function of the members. *)
Definition order_kvs W o pi path (kvs : list kvt) : list kvt :=
  match kv_less o pi with
  | Some less => go_sort W less (go_range W path kvs)
  | None => go_range W path kvs
  end.
Lemma order_entries_map W o pi path (mk : kvt -> entry) kvs : (forall x, ent_kv (mk x) = x) ->
  order_entries W o pi path (map mk kvs) = map mk (order_kvs W o pi path kvs).
Proof.
  intros Hmk. rewrite order_entries_eq. unfold order_kvs. rewrite go_range_map. destruct (kv_less o pi) as [less|]; [|reflexivity].
  rewrite go_sort_map. f_equal. apply go_sort_ext. intros x y _ _. now rewrite !Hmk.
Qed.
Lemma order_kvs_perm W o pi path kvs : Permutation (order_kvs W o pi path kvs) kvs.
Proof.
  unfold order_kvs. destruct (kv_less o pi); [etransitivity; [apply go_sort_perm|]|]; apply go_range_perm.
Qed.

Lemma nth_error_NoDup_neq {A B} (f : A -> B) (l : list A) i j x y :
  NoDup (map f l) -> i <> j -> nth_error l i = Some x -> nth_error l j = Some y -> f x <> f y.
Proof.
  intros Hn Hij Hx Hy E. apply Hij.
  apply (map_nth_error f) in Hx, Hy. rewrite E in Hx.
  rewrite NoDup_nth_error in Hn. apply Hn.
  - apply nth_error_Some. rewrite Hx. discriminate.
  - congruence.
Qed.

Lemma order_sorted W o pi path (mk : kvt -> entry) kvs kvs' less R :
  (forall x, ent_kv (mk x) = x) -> NoDup (akeys kvs) -> kv_less o pi = Some less -> sw R ->
  (forall x y, In x kvs -> In y kvs -> fst x <> fst y -> less x y = R x y) ->
  order_entries W o pi path (map mk kvs) = map mk kvs' ->
  ForallOrdPairs (fun x y => R y x = false) kvs'.
Proof.
  intros Hmk Hnd Hl (Hi & Ht & Hw) Hag He. rewrite order_entries_eq, Hl in He.
  set (es := go_range W path (map mk kvs)) in *.
  assert (Hp : Permutation es (map mk kvs)) by apply go_range_perm.
  assert (S : ForallOrdPairs (fun x y => R (ent_kv y) (ent_kv x) = false)
               (go_sort W (fun a b => less (ent_kv a) (ent_kv b)) es)).
  { apply (go_sort_sorted W _ (fun a b => R (ent_kv a) (ent_kv b))).
    - split; [|split]; intros; eauto.
    - intros i j x y Hij Hx Hy. assert (Hkv : map ent_kv (map mk kvs) = kvs).
      { rewrite map_map. erewrite map_ext; [apply map_id|exact Hmk]. }
      assert (Hp' : Permutation (map ent_kv es) kvs) by (rewrite <- Hkv; now apply Permutation_map).
      apply Hag.
      + apply (Permutation_in _ Hp'), in_map. eapply nth_error_In; eassumption.
      + apply (Permutation_in _ Hp'), in_map. eapply nth_error_In; eassumption.
      + apply (nth_error_NoDup_neq (fun e => fst (ent_kv e)) es i j); try assumption.
        change (NoDup (map (fun e => fst (ent_kv e)) es)). rewrite <- (map_map ent_kv fst).
        eapply Permutation_NoDup; [apply Permutation_map, Permutation_sym, Hp'|exact Hnd]. }
  rewrite He in S. apply ForallOrdPairs_map in S. eapply ForallOrdPairs_impl'; [|exact S].
  cbn beta. intros x y _ _ H. now rewrite !Hmk in H.
Qed.

(** *** The strict orders behind the options *)

Lemma sw_bltb {A} (f : A -> bytes) : sw (fun x y => bltb (f x) (f y)).
Proof.
  split; [|split].
  - intros x. destruct (bltb (f x) (f x)) eqn:E; [|reflexivity]. apply bltb_blt in E. now apply blt_irrefl in E.
  - intros x y z H1 H2. apply bltb_blt in H1, H2. apply bltb_blt. eapply blt_trans; eassumption.
  - intros x y z H1 H2 H3 H4. destruct (bltb (f x) (f z)) eqn:E; [|reflexivity].
    assert (Exy : f x = f y).
    { destruct (blt_total (f x) (f y)) as [H|[H|H]]; [|assumption|]; apply bltb_blt in H; congruence. }
    rewrite Exy in E. congruence.
Qed.

Lemma bltb_flip a b : a <> b -> negb (bltb b a) = bltb a b.
Proof.
  intros Hn. destruct (blt_total a b) as [H|[H|H]]; [|contradiction|].
  - rewrite (proj2 (bltb_blt a b) H). destruct (bltb b a) eqn:E; [|reflexivity]. apply bltb_blt in E.
    destruct (blt_irrefl a). eapply blt_trans; eassumption.
  - rewrite (proj2 (bltb_blt b a) H). destruct (bltb a b) eqn:E; [|reflexivity]. apply bltb_blt in E.
    destruct (blt_irrefl a). eapply blt_trans; eassumption.
Qed.

(** OptKeySequence *)
Definition seq_lt (seq : list bytes) (a b : bytes) : bool :=
  match seq_index 0 seq a, seq_index 0 seq b with
  | Some i, Some j => i <? j
  | Some _, None => true
  | None, Some _ => false
  | None, None => bltb a b
  end.

Lemma seq_index_spec seq k : forall i,
  match seq_index i seq k with
  | Some j => exists n, j = i + Z.of_nat n /\ last_pos seq k n
  | None => ~ In k seq
  end.
Proof.
  induction seq as [|x r IH]; intros i; cbn; [auto|]. specialize (IH (i + 1)).
  destruct (seq_index (i + 1) r k) as [j|].
  - destruct IH as (n & -> & Hn1 & Hn2). exists (S n). split; [lia|]. split; [assumption|].
    intros [|j] Hj; [lia|]. apply Hn2. lia.
  - destruct (beqb_spec k x) as [->|N].
    + exists 0%nat. split; [lia|]. split; [reflexivity|]. intros [|j] Hj H; [lia|]. cbn in H. apply nth_error_In in H. contradiction.
    + intros [->|H]; contradiction.
Qed.
Lemma last_pos_In seq k n : last_pos seq k n -> In k seq.
Proof. intros [H _]. eapply nth_error_In; exact H. Qed.
Lemma last_pos_key seq k k' n : last_pos seq k n -> last_pos seq k' n -> k = k'.
Proof. intros [H _] [H' _]. congruence. Qed.

Lemma seq_lt_spec seq a b : seq_lt seq a b = true <-> seq_before seq a b.
Proof.
  unfold seq_lt. pose proof (seq_index_spec seq a 0) as Ha. pose proof (seq_index_spec seq b 0) as Hb.
  destruct (seq_index 0 seq a) as [i|], (seq_index 0 seq b) as [j|].
  - destruct Ha as (n & -> & Ha), Hb as (m & -> & Hb). rewrite Z.ltb_lt. split.
    + intros H. left. exists n, m. split; [assumption|]. split; [assumption|lia].
    + intros [(n' & m' & Ha' & Hb' & Hlt)|[[_ H]|[H _]]].
      * assert (n' = n). { destruct (Nat.lt_total n' n) as [L|[L|L]]; [|assumption|]; exfalso.
          - apply (proj2 Ha' n L). apply Ha. - apply (proj2 Ha n' L). apply Ha'. }
        assert (m' = m). { destruct (Nat.lt_total m' m) as [L|[L|L]]; [|assumption|]; exfalso.
          - apply (proj2 Hb' m L). apply Hb. - apply (proj2 Hb m' L). apply Hb'. }
        lia.
      * destruct H. eapply last_pos_In; eassumption.
      * destruct H. eapply last_pos_In; eassumption.
  - destruct Ha as (n & -> & Ha). split; [|reflexivity]. intros _. right; left. split; [eapply last_pos_In; eassumption|assumption].
  - destruct Hb as (m & -> & Hb). split; [discriminate|]. intros [(n' & m' & Ha' & _)|[[H _]|(_ & H & _)]].
    + destruct Ha. eapply last_pos_In; eassumption.
    + contradiction.
    + destruct H. eapply last_pos_In; eassumption.
  - rewrite bltb_blt. split; [unfold seq_before; auto|]. intros [(n' & m' & Ha' & _)|[[H _]|(_ & _ & H)]]; [|contradiction|assumption].
    destruct Ha. eapply last_pos_In; eassumption.
Qed.

Lemma seq_index_inj seq a b i : seq_index 0 seq a = Some i -> seq_index 0 seq b = Some i -> a = b.
Proof.
  intros Ha Hb. pose proof (seq_index_spec seq a 0) as A1. pose proof (seq_index_spec seq b 0) as B1.
  rewrite Ha in A1. rewrite Hb in B1. destruct A1 as (n & En & A1), B1 as (m & Em & B1).
  replace m with n in B1 by lia. eapply last_pos_key; eassumption.
Qed.

Lemma seq_lt_total seq a b : a <> b -> seq_lt seq a b = false -> seq_lt seq b a = true.
Proof.
  intros Hn. unfold seq_lt. destruct (seq_index 0 seq a) as [i|] eqn:Ea, (seq_index 0 seq b) as [j|] eqn:Eb; try discriminate; auto.
  - intros H. assert (i <> j) by (intros ->; apply Hn; eapply seq_index_inj; eassumption). lia.
  - intros H. rewrite <- (bltb_flip b a) by congruence. now rewrite H.
Qed.
Lemma seq_lt_irrefl seq a : seq_lt seq a a = false.
Proof.
  unfold seq_lt. destruct (seq_index 0 seq a); [apply Z.ltb_irrefl|]. destruct (bltb a a) eqn:E; [|reflexivity].
  apply bltb_blt in E. now apply blt_irrefl in E.
Qed.
Lemma seq_lt_trans seq a b c : seq_lt seq a b = true -> seq_lt seq b c = true -> seq_lt seq a c = true.
Proof.
  unfold seq_lt. destruct (seq_index 0 seq a), (seq_index 0 seq b), (seq_index 0 seq c); try discriminate; try reflexivity; try lia.
  rewrite !bltb_blt. apply blt_trans.
Qed.
Lemma sw_total {A} (f : A -> bytes) (lt : bytes -> bytes -> bool) :
  (forall a, lt a a = false) -> (forall a b c, lt a b = true -> lt b c = true -> lt a c = true) ->
  (forall a b, a <> b -> lt a b = false -> lt b a = true) -> sw (fun x y => lt (f x) (f y)).
Proof.
  intros Hi Ht Htot. split; [|split]; eauto.
  intros x y z H1 H2 H3 H4. destruct (bytes_dec (f x) (f y)) as [E|N]; [now rewrite E|].
  rewrite (Htot _ _ N H1) in H2. discriminate.
Qed.

Lemma seq_less_lt seq a b : a <> b -> seq_less (seq_index 0 seq a) (seq_index 0 seq b) a b = seq_lt seq a b.
Proof.
  intros Hn. unfold seq_less, seq_lt. destruct (seq_index 0 seq a), (seq_index 0 seq b); try reflexivity. now apply bltb_flip.
Qed.

(** *** Order of the members as shown *)

Lemma perm_NoDup_keys (kvs kvs' : list kvt) : Permutation kvs kvs' -> NoDup (akeys kvs) -> NoDup kvs'.
Proof.
  intros P H. eapply Permutation_NoDup; [exact P|]. unfold akeys in H. now apply NoDup_map_inv in H.
Qed.
Lemma NoDup_keys_eq (kvs : list kvt) x y : NoDup (akeys kvs) -> In x kvs -> In y kvs -> fst x = fst y -> x = y.
Proof.
  intros Hn Hx Hy E. destruct x as [k a], y as [k' a']. cbn in E. subst k'.
  pose proof (alookup_NoDup_In k a kvs Hn Hx). pose proof (alookup_NoDup_In k a' kvs Hn Hy). congruence.
Qed.

Lemma in_order_total E W o (lt : bytes -> bytes -> bool) kvs :
  NoDup (akeys kvs) ->
  (forall a, lt a a = false) -> (forall a b c, lt a b = true -> lt b c = true -> lt a c = true) ->
  (forall a b, a <> b -> lt a b = false -> lt b a = true) ->
  (forall pi, exists less, kv_less o pi = Some less /\ forall x y, fst x <> fst y -> less x y = lt (fst x) (fst y)) ->
  in_order E W o (by_key (fun a b => lt a b = true)) kvs.
Proof.
  intros Hn Hi Ht Htot Hl pi path kvs' He Hp. destruct (Hl pi) as (less & Hk & Hag).
  pose proof (order_sorted W o pi path (mk_entry E W o) kvs kvs' less (fun x y => lt (fst x) (fst y)) (fun x => ltac:(destruct x as [? [? ?]]; reflexivity))
    Hn Hk (sw_total fst lt Hi Ht Htot) (fun x y _ _ H => Hag x y H) He) as S.
  unfold by_key. eapply ForallOrdPairs_strict; [eapply perm_NoDup_keys; eassumption| |exact S].
  intros x y Hx Hy Hxy H. apply Htot; [|assumption].
  intros Ek. apply Hxy. apply Permutation_sym in Hp. eapply NoDup_keys_eq; [exact Hn| | |now symmetry]; eapply Permutation_in; eassumption.
Qed.

Lemma by_key_impl (lt lt' : bytes -> bytes -> Prop) kvs : (forall a b, lt a b -> lt' a b) -> by_key lt kvs -> by_key lt' kvs.
Proof. intros H. apply ForallOrdPairs_impl'. auto. Qed.

Lemma in_order_impl E W o (P Q : list kvt -> Prop) kvs : (forall l, P l -> Q l) -> in_order E W o P kvs -> in_order E W o Q kvs.
Proof. intros H H1 pi path kvs' He Hp. eauto. Qed.

Lemma in_order_default E W o kvs : NoDup (akeys kvs) -> o_less o = Some default_string_sequence ->
  in_order E W o (by_key blt) kvs.
Proof.
  intros Hn Ho. apply (in_order_impl _ _ _ (by_key (fun a b => bltb a b = true))).
  { intros l. apply by_key_impl. intros a b. apply bltb_blt. }
  apply in_order_total; try assumption.
  - intros a. destruct (bltb a a) eqn:Ea; [|reflexivity]. apply bltb_blt in Ea. now apply blt_irrefl in Ea.
  - intros a b c. rewrite !bltb_blt. apply blt_trans.
  - intros a b H1 H2. rewrite <- (bltb_flip b a) by congruence. now rewrite H2.
  - intros pi. unfold kv_less. rewrite Ho. eexists. split; [reflexivity|]. intros x y Hxy. now apply bltb_flip.
Qed.

Lemma in_order_keyseq E W o kvs : NoDup (akeys kvs) -> o_less o = None -> o_keyseq o <> [] ->
  in_order E W o (by_key (seq_before (o_keyseq o))) kvs.
Proof.
  intros Hn Ho Hs. apply (in_order_impl _ _ _ (by_key (fun a b => seq_lt (o_keyseq o) a b = true))).
  { intros l. apply by_key_impl. intros a b. apply seq_lt_spec. }
  apply in_order_total; try assumption.
  - apply seq_lt_irrefl.
  - apply seq_lt_trans.
  - apply seq_lt_total.
  - intros pi. unfold kv_less. rewrite Ho. destruct (o_keyseq o); [congruence|]. eexists. split; [reflexivity|]. intros x y Hxy. now apply seq_less_lt.
Qed.

Lemma in_order_setseq E W o kvs : NoDup (akeys kvs) -> NoDup (map (fun x => fst (snd x)) kvs) ->
  o_less o = None -> o_keyseq o = [] -> o_setseq o = true ->
  in_order E W o by_id kvs.
Proof.
  intros Hn Hid H1 H2 H3 pi path kvs' He Hp.
  pose proof (order_sorted W o pi path (mk_entry E W o) kvs kvs'
    (fun a b => seq_less (Some (fst (snd a))) (Some (fst (snd b))) (fst a) (fst b))
    (fun x y => fst (snd x) <? fst (snd y)) (fun x => ltac:(destruct x as [? [? ?]]; reflexivity)) Hn) as S.
  assert (HS : ForallOrdPairs (fun x y => (fst (snd y) <? fst (snd x)) = false) kvs').
  { apply S; auto.
    - unfold kv_less. now rewrite H1, H2, H3.
    - split; [|split]; intros; lia. }
  unfold by_id. eapply ForallOrdPairs_strict; [eapply perm_NoDup_keys; eassumption| |exact HS].
  intros x y Hx Hy Hxy H. cbn in H. enough (fst (snd x) <> fst (snd y)) by lia. intros E1. apply Hxy.
  apply Permutation_sym in Hp. pose proof (Permutation_in x Hp Hx) as Hx'. pose proof (Permutation_in y Hp Hy) as Hy'.
  clear -Hid Hx' Hy' E1. induction kvs as [|z l IH]; [contradiction|]. cbn in Hid. inversion Hid; subst.
  destruct Hx' as [->|Hx'], Hy' as [->|Hy']; auto.
  - exfalso. apply H1. rewrite E1. now apply (in_map (fun x => fst (snd x))).
  - exfalso. apply H1. rewrite <- E1. now apply (in_map (fun x => fst (snd x))).
Qed.

(** *** The output does not depend on the iteration order *)

Lemma order_det E W W' o kvs pi path l l' :
  NoDup (akeys kvs) -> total_order o kvs ->
  order_entries W o pi path (map (mk_entry E W o) kvs) = map (mk_entry E W o) l -> Permutation kvs l ->
  order_entries W' o pi path (map (mk_entry E W' o) kvs) = map (mk_entry E W' o) l' -> Permutation kvs l' ->
  l = l'.
Proof.
  intros Hn Ht H1 P1 H2 P2.
  assert (Hex : exists less R, kv_less o pi = Some less /\ sw R /\
            (forall x y, In x kvs -> In y kvs -> fst x <> fst y -> less x y = R x y) /\
            (forall x y, In x kvs -> In y kvs -> R x y = false -> R y x = false -> x = y)).
  { unfold total_order in Ht. unfold kv_less. destruct (o_less o) as [f|].
    - destruct (Ht pi) as (lt & (Hi & Htr & Hin) & Htot & Hf). eexists; exists (fun x y => lt (fst x, snd (snd x)) (fst y, snd (snd y))).
      split; [reflexivity|]. split; [split; [|split]; intros; eauto|]. split; [intros; now apply Hf|].
      intros x y Hx Hy E1 E2. apply (NoDup_keys_eq kvs); try assumption. destruct (bytes_dec (fst x) (fst y)) as [|N]; [assumption|].
      rewrite (Htot (_, _) (_, _) N E1) in E2. discriminate.
    - destruct (o_keyseq o) as [|k0 ks].
      + destruct Ht as [-> Hid]. eexists; exists (fun x y => fst (snd x) <? fst (snd y)). split; [reflexivity|].
        split; [split; [|split]; intros; lia|]. split; [reflexivity|].
        intros x y Hx Hy E1 E2. assert (Ei : fst (snd x) = fst (snd y)) by lia. clear -Hid Hx Hy Ei.
        induction kvs as [|z l IH]; [contradiction|]. cbn in Hid. inversion Hid; subst.
        destruct Hx as [->|Hx], Hy as [->|Hy]; auto.
        * exfalso. apply H1. rewrite Ei. now apply (in_map (fun x => fst (snd x))).
        * exfalso. apply H1. rewrite <- Ei. now apply (in_map (fun x => fst (snd x))).
      + eexists; exists (fun x y => seq_lt (k0 :: ks) (fst x) (fst y)). split; [reflexivity|].
        split; [apply (sw_total fst); [apply seq_lt_irrefl|apply seq_lt_trans|apply seq_lt_total]|].
        split; [intros; now apply seq_less_lt|].
        intros x y Hx Hy E1 E2. apply (NoDup_keys_eq kvs); try assumption. destruct (bytes_dec (fst x) (fst y)) as [|N]; [assumption|].
        rewrite (seq_lt_total _ _ _ N E1) in E2. discriminate. }
  destruct Hex as (less & R & Hk & Hsw & Hag & Hanti).
  assert (Hmk : forall W0 x, ent_kv (mk_entry E W0 o x) = x) by (intros W0 [? [? ?]]; reflexivity).
  pose proof (order_sorted W o pi path _ kvs l less R (Hmk W) Hn Hk Hsw Hag H1) as S1.
  pose proof (order_sorted W' o pi path _ kvs l' less R (Hmk W') Hn Hk Hsw Hag H2) as S2.
  eapply sorted_unique; [|etransitivity; [symmetry; exact P1|exact P2]|exact S1|exact S2].
  intros x y Hx Hy E1 E2. apply (Permutation_in _ (Permutation_sym P1)) in Hx, Hy. now apply Hanti.
Qed.

Lemma write_members_ext o pi path cnt : forall es es' first,
  Forall2 (fun e e' => e_key e = e_key e' /\ e_val e = e_val e' /\ forall a b c, e_run e a b c = e_run e' a b c) es es' ->
  write_members o pi path cnt first es = write_members o pi path cnt first es'.
Proof.
  intros es es' first H. revert first. induction H as [|e e' es es' (Hk & Hv & Hr) H IH]; intros first; [reflexivity|].
  cbn [write_members]. rewrite Hk, Hv, !IH. destruct (e_val e'); try (rewrite Hr; reflexivity); reflexivity.
Qed.
Lemma write_elems_ext o v pi path cnt : forall es es' i,
  Forall2 (fun r r' => forall a b c, (r : option pinfo -> list key -> nat -> mres) a b c = r' a b c) es es' ->
  write_elems o v pi path cnt i es = write_elems o v pi path cnt i es'.
Proof.
  intros es es' i H. revert i. induction H as [|e e' es es' Hr H IH]; intros i; [reflexivity|].
  cbn [write_elems]. rewrite Hr, IH. reflexivity.
Qed.

Theorem marshal_det E W W' o v :
  all_objs (fun kvs => NoDup (akeys kvs) /\ total_order o kvs) v ->
  forall pi path cnt, marshal_to E W o v pi path cnt = marshal_to E W' o v pi path cnt.
Proof.
  induction v as [| s | n src | i kvs lo IH | l IH | b | | | ] using V_ind'; intros Ho pi path cnt; try reflexivity.
  - apply all_objs_obj in Ho as [[Hn Ht] Ho]. cbn [marshal_to].
    change (map (fun x => Entry (fst x) (fst (snd x)) (snd (snd x)) (marshal_to E W o (snd (snd x)))) kvs) with (map (mk_entry E W o) kvs).
    change (map (fun x => Entry (fst x) (fst (snd x)) (snd (snd x)) (marshal_to E W' o (snd (snd x)))) kvs) with (map (mk_entry E W' o) kvs).
    destruct kvs as [|x0 r0] eqn:Ek; [reflexivity|]. rewrite <- Ek in *.
    assert (Hne : forall (X : World), match map (mk_entry E X o) kvs with [] => mok [123; 125]
       | _ => let* b := write_members o pi path (S cnt) true (order_entries X o pi path (map (mk_entry E X o) kvs)) in
              mok (123 :: b ++ nl_indent o cnt ++ [125]) end
       = let* b := write_members o pi path (S cnt) true (order_entries X o pi path (map (mk_entry E X o) kvs)) in
              mok (123 :: b ++ nl_indent o cnt ++ [125])) by (intros X; rewrite Ek; reflexivity).
    etransitivity; [apply Hne|]. etransitivity; [|symmetry; apply Hne].
    pose proof (order_entries_perm W o pi path (map (mk_entry E W o) kvs)) as P1.
    apply Permutation_map_inv in P1 as (l1 & E1 & P1).
    pose proof (order_entries_perm W' o pi path (map (mk_entry E W' o) kvs)) as P2.
    apply Permutation_map_inv in P2 as (l2 & E2 & P2).
    rewrite E1, E2. assert (l1 = l2) by (eapply order_det; eassumption). subst l2.
    rewrite (write_members_ext o pi path (S cnt) (map (mk_entry E W o) l1) (map (mk_entry E W' o) l1)); [reflexivity|].
    assert (Hin : forall x, In x l1 -> In x kvs) by (intros x; apply Permutation_in; now symmetry).
    clear -IH Ho Hin. rewrite Forall_forall in IH, Ho. induction l1 as [|x l1 IHl]; cbn [map]; constructor.
    + split; [reflexivity|]. split; [reflexivity|]. intros a b c. cbn [mk_entry e_run].
      apply (IH x); [apply Hin; now left|]. apply (Ho x). apply Hin; now left.
    + apply IHl. intros z Hz. apply Hin. now right.
  - apply all_objs_arr in Ho. cbn [marshal_to]. destruct l as [|x0 r0] eqn:El; [reflexivity|]. rewrite <- El in *.
    rewrite (write_elems_ext o (VArr l) pi path (S cnt) (map (marshal_to E W o) l) (map (marshal_to E W' o) l) 0); [reflexivity|].
    clear -IH Ho. induction l as [|x l IHl]; cbn [map]; [constructor|]. inversion IH; inversion Ho; subst. constructor; auto.
Qed.
