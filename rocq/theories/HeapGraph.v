(** What each call does to the containers in memory. *)
From Coq Require Import Permutation.
From Verif Require Import Base ListLemmas Float64 Value ValueLemmas Marshal Path Edit Heap SpecHeap HeapProof.
Local Open Scope nat_scope.

(** *** Sameness but for the caseless index *)
Lemma same_struct_refl c : same_struct c c.
Proof. destruct c; cbn; auto. Qed.
Lemma same_struct_trans a b c : same_struct a b -> same_struct b c -> same_struct a c.
Proof.
  destruct a, b; cbn; intros H1; try discriminate H1; try (injection H1 as ?; subst); destruct c; cbn; intros H2;
    try discriminate H2; try congruence; auto. destruct H1 as [-> ->]. exact H2.
Qed.
Lemma same_struct_kid a b k : same_struct a b -> kid a k = kid b k.
Proof.
  destruct a, b; cbn; intros H; try discriminate H; try (injection H as ?; subst); auto. destruct H as [-> ->]. reflexivity.
Qed.
Lemma untouched_refl h : untouched h h.
Proof. intros p c H. exists c. split; [exact H|apply same_struct_refl]. Qed.
Lemma untouched_trans h1 h2 h3 : untouched h1 h2 -> untouched h2 h3 -> untouched h1 h3.
Proof.
  intros H1 H2 p c E. destruct (H1 p c E) as (c' & E' & S1). destruct (H2 p c' E') as (c'' & E'' & S2).
  exists c''. split; [exact E''|]. eapply same_struct_trans; eassumption.
Qed.
Lemma untouched_walk h h' p ks q : untouched h h' -> walk h p ks q -> walk h' p ks q.
Proof.
  intros U H. induction H as [|p k q ks r (c & E1 & E2) H IH]; [constructor|].
  destruct (U p c E1) as (c' & E' & S). econstructor; [|exact IH]. exists c'. split; [exact E'|].
  rewrite <- (same_struct_kid _ _ _ S). exact E2.
Qed.
Lemma walk_app h p ks q ls r : walk h p ks q -> walk h q ls r -> walk h p (ks ++ ls) r.
Proof. induction 1; cbn; auto. intros H1. econstructor; eauto. Qed.
Lemma walk_one h p k q : step h p k q -> walk h p [k] q.
Proof. intros H. econstructor; [exact H|constructor]. Qed.

Lemma deref_valid h p c : deref h p = Some c -> exists a, p = Some a /\ nth_error h a = Some c /\ a < List.length h.
Proof.
  destruct p as [a|]; [|discriminate]. cbn. intros H. exists a. repeat split; auto.
  apply nth_error_Some. rewrite H. discriminate.
Qed.
Lemma deref_store_same h p c c' : deref h p = Some c -> deref (store h p c') p = Some c'.
Proof. intros H. destruct (deref_valid _ _ _ H) as (a & -> & _ & L). cbn. now apply nth_error_set_nth_same. Qed.
Lemma deref_store_other h p q c : p <> q -> deref (store h p c) q = deref h q.
Proof.
  destruct p as [a|]; [|reflexivity]. destruct q as [b|]; [|reflexivity]. cbn. intros N.
  apply nth_error_set_nth_other. congruence.
Qed.
Lemma deref_alloc h c p x : deref h p = Some x -> deref (h ++ [c]) p = Some x.
Proof. intros H. destruct (deref_valid _ _ _ H) as (a & -> & E & L). cbn. now rewrite nth_error_app1. Qed.
Lemma untouched_alloc h c : untouched h (h ++ [c]).
Proof. intros p x H. exists x. split; [now apply deref_alloc|apply same_struct_refl]. Qed.
Lemma ptr_eq_dec (p q : ptr) : {p = q} + {p <> q}.
Proof. decide equality. apply Nat.eq_dec. Qed.
Lemma untouched_index h v i kvs lo lo' : deref h v = Some (CObj i kvs lo) -> untouched h (store h v (CObj i kvs lo')).
Proof.
  intros H p c Hp. destruct (ptr_eq_dec v p) as [<-|N].
  - rewrite H in Hp. injection Hp as <-. eexists. split; [eapply deref_store_same; eassumption|]. cbn. auto.
  - exists c. rewrite deref_store_other by exact N. split; [exact Hp|apply same_struct_refl].
Qed.

Lemma alters_store h v c c' e : deref h v = Some c -> edited c c' e -> alters h (store h v c') v e.
Proof.
  intros H He. split.
  - exists c, c'. repeat split; auto; try apply He. eapply deref_store_same; eassumption.
  - intros p x N Hp. exists x. rewrite deref_store_other by congruence. split; [exact Hp|apply same_struct_refl].
Qed.
Lemma edited_same a b c e : same_struct a b -> edited b c e -> edited a c e.
Proof.
  intros S [K H].
  assert (Hk : same_kind b c -> same_kind a c).
  { intros K0. destruct a, b; cbn in S; try discriminate; try (injection S as ?; subst); destruct c; cbn in *; auto. }
  split.
  - destruct e; auto. destruct K as [K Hi]. split; [auto|]. intros i j. rewrite !(same_struct_kid _ _ _ S). apply Hi.
  - intros k' q. rewrite H. split; (intros [B|(k & E1 & E2)]; [now left|right; exists k; split; [|exact E2]]).
    + now rewrite (same_struct_kid _ _ _ S).
    + now rewrite <- (same_struct_kid _ _ _ S).
Qed.
Lemma alters_after h h1 h2 x e : untouched h h1 -> deref h x <> None -> alters h1 h2 x e -> alters h h2 x e.
Proof.
  intros U Hx [(c & c' & E1 & E2 & He) Ho]. split.
  - destruct (deref h x) as [c0|] eqn:E0; [|congruence]. destruct (U x c0 E0) as (c1 & E1' & S).
    rewrite E1 in E1'. injection E1' as <-. exists c0, c'. repeat split; auto; eapply edited_same; eassumption.
  - intros p c0 N E0. destruct (U p c0 E0) as (c1 & Ec1 & S). destruct (Ho p c1 N Ec1) as (c2 & Ec2 & S2).
    exists c2. split; [exact Ec2|]. eapply same_struct_trans; eassumption.
Qed.

(** *** The edits of single structs *)
Lemma edited_put_member i kvs lo i' lo' k id q :
  edited (CObj i kvs lo) (CObj i' (aset k (id, q) kvs) lo') (EPut (HKey k) q).
Proof.
  split; [exact I|]. intros k' q'. cbn [brings]. split.
  - destruct k' as [n|k']; [discriminate|]. cbn. destruct (beqb_spec k k') as [<-|N].
    + rewrite alookup_aset_same. cbn. intros [= <-]. now left.
    + rewrite alookup_aset_other by congruence. intros H. right. exists (HKey k'). split; [exact H|]. cbn.
      destruct (beqb_spec k k'); [contradiction|reflexivity].
  - intros [[= <- <-]|(k0 & E1 & E2)].
    + cbn. now rewrite alookup_aset_same.
    + destruct k0 as [n|k0]; [discriminate|]. cbn in E1, E2. destruct (beqb_spec k k0) as [|N]; [discriminate|].
      injection E2 as <-. cbn. now rewrite alookup_aset_other by congruence.
Qed.
Lemma edited_del_member i kvs lo i' lo' k :
  edited (CObj i kvs lo) (CObj i' (aremove k kvs) lo') (EDel (HKey k)).
Proof.
  split; [exact I|]. intros k' q'. cbn [brings]. split.
  - destruct k' as [n|k']; [discriminate|]. cbn. destruct (beqb_spec k k') as [<-|N].
    + rewrite alookup_aremove_same. discriminate.
    + rewrite alookup_aremove_other by congruence. intros H. right. exists (HKey k'). split; [exact H|]. cbn.
      destruct (beqb_spec k k'); [contradiction|reflexivity].
  - intros [[]|(k0 & E1 & E2)].
    destruct k0 as [n|k0]; [discriminate|]. cbn in E1, E2. destruct (beqb_spec k k0) as [|N]; [discriminate|].
    injection E2 as <-. cbn. now rewrite alookup_aremove_other by congruence.
Qed.
Lemma edited_put_elem l n q : n < List.length l -> edited (CArr l) (CArr (set_nth n q l)) (EPut (HIdx n) q).
Proof.
  intros L. split; [exact I|]. intros k' q'. cbn [brings]. split.
  - destruct k' as [m|k']; [|discriminate]. cbn. destruct (Nat.eq_dec n m) as [<-|N].
    + rewrite nth_error_set_nth_same by exact L. intros [= <-]. now left.
    + rewrite nth_error_set_nth_other by exact N. intros H. right. exists (HIdx m). split; [exact H|]. cbn.
      destruct (Nat.eqb_spec n m); [contradiction|reflexivity].
  - intros [[= <- <-]|(k0 & E1 & E2)].
    + cbn. now apply nth_error_set_nth_same.
    + destruct k0 as [m|k0]; [|discriminate]. cbn in E1, E2. destruct (Nat.eqb_spec n m) as [|N]; [discriminate|].
      injection E2 as <-. cbn. now rewrite nth_error_set_nth_other.
Qed.
Lemma edited_end_elem l q : edited (CArr l) (CArr (l ++ [q])) (EPut (HIdx (List.length l)) q).
Proof.
  split; [exact I|]. intros k' q'. cbn [brings]. split.
  - destruct k' as [m|k']; [|discriminate]. cbn. destruct (lt_dec m (List.length l)).
    + rewrite nth_error_app1 by assumption. intros H. right. exists (HIdx m). split; [exact H|]. cbn.
      destruct (Nat.eqb_spec (List.length l) m); [lia|reflexivity].
    + rewrite nth_error_app2 by lia. destruct (m - List.length l) as [|d] eqn:Ed; cbn.
      * intros [= <-]. left. repeat f_equal. lia.
      * destruct d; discriminate.
  - intros [[= <- <-]|(k0 & E1 & E2)].
    + cbn. rewrite nth_error_app2, Nat.sub_diag by lia. reflexivity.
    + destruct k0 as [m|k0]; [|discriminate]. cbn in E1, E2. destruct (Nat.eqb_spec (List.length l) m) as [|N]; [discriminate|].
      injection E2 as <-. cbn. rewrite nth_error_app1; [exact E1|]. apply nth_error_Some. congruence.
Qed.
Lemma nth_error_insert {A} (l : list A) n c i : n <= List.length l ->
  nth_error (insert_to_arr l n c) i = if i <? n then nth_error l i else if Nat.eqb i n then Some c else nth_error l (i - 1).
Proof.
  unfold insert_to_arr. revert n i; induction l as [|x r IH]; intros n i L.
  - cbn in L. assert (n = 0) by lia. subst. cbn. destruct i as [|[|i]]; reflexivity.
  - destruct n as [|n].
    + cbn. destruct i as [|i]; [reflexivity|]. cbn. now rewrite Nat.sub_0_r.
    + cbn in L. cbn [firstn skipn app]. destruct i as [|i]; [reflexivity|]. cbn [nth_error]. rewrite IH by lia.
      change (S i <? S n) with (i <? n). change (Nat.eqb (S i) (S n)) with (Nat.eqb i n).
      destruct (Nat.ltb_spec i n); [reflexivity|]. destruct (Nat.eqb_spec i n); [reflexivity|].
      replace (S i - 1) with (S (i - 1)) by lia. reflexivity.
Qed.
Lemma nth_error_delete {A} (l : list A) n i :
  nth_error (delete_in_arr l n) i = if i <? n then nth_error l i else nth_error l (S i).
Proof.
  unfold delete_in_arr. revert n i; induction l as [|x r IH]; intros n i.
  - rewrite firstn_nil, skipn_nil. change (nth_error ([] ++ []) i) with (@nth_error A [] i).
    destruct (i <? n); destruct i; reflexivity.
  - destruct n as [|n]; [reflexivity|].
    cbn [firstn]. change (skipn (S (S n)) (x :: r)) with (skipn (S n) r). destruct i as [|i]; [reflexivity|]. cbn [app nth_error]. rewrite IH.
    change (S i <? S n) with (i <? n). reflexivity.
Qed.
Lemma edited_insert l n q : n <= List.length l -> edited (CArr l) (CArr (insert_to_arr l n q)) (EIns n q).
Proof.
  intros L. split; [exact I|]. intros k' q'. cbn [brings]. split.
  - destruct k' as [m|k']; [|discriminate]. cbn [kid]. rewrite nth_error_insert by exact L.
    destruct (Nat.ltb_spec m n).
    + intros H1. right. exists (HIdx m). split; [exact H1|]. unfold moved. destruct (Nat.ltb_spec m n); [reflexivity|lia].
    + destruct (Nat.eqb_spec m n) as [->|N]; [intros [= <-]; now left|]. intros H1. right. exists (HIdx (m - 1)).
      split; [exact H1|]. unfold moved. destruct (Nat.ltb_spec (m - 1) n); [lia|]. repeat f_equal. lia.
  - intros [[= <- <-]|(k0 & E1 & E2)].
    + cbn. rewrite nth_error_insert by exact L. rewrite Nat.ltb_irrefl, Nat.eqb_refl. reflexivity.
    + destruct k0 as [m|k0]; [|discriminate]. unfold kid in E1; unfold moved in E2. destruct (Nat.ltb_spec m n); injection E2 as <-; cbn [kid];
        rewrite nth_error_insert by exact L.
      * destruct (Nat.ltb_spec m n); [exact E1|lia].
      * destruct (Nat.ltb_spec (S m) n); [lia|]. destruct (Nat.eqb_spec (S m) n); [lia|].
        now replace (S m - 1) with m by lia.
Qed.
Lemma edited_delete l n : edited (CArr l) (CArr (delete_in_arr l n)) (EDel (HIdx n)).
Proof.
  split; [exact I|]. intros k' q'. cbn [brings]. split.
  - destruct k' as [m|k']; [|discriminate]. cbn [kid]. rewrite nth_error_delete. destruct (Nat.ltb_spec m n).
    + intros H1. right. exists (HIdx m). split; [exact H1|]. unfold moved. destruct (Nat.ltb_spec m n); [reflexivity|lia].
    + intros H1. right. exists (HIdx (S m)). split; [exact H1|]. unfold moved. destruct (Nat.ltb_spec (S m) n); [lia|].
      destruct (Nat.eqb_spec (S m) n); [lia|]. repeat f_equal. lia.
  - intros [[]|(k0 & E1 & E2)]. destruct k0 as [m|k0]; [|discriminate]. unfold kid in E1; unfold moved in E2.
    destruct (Nat.ltb_spec m n); [|destruct (Nat.eqb_spec m n); [discriminate|]]; injection E2 as <-; cbn [kid];
      rewrite nth_error_delete.
    + destruct (Nat.ltb_spec m n); [exact E1|lia].
    + destruct (Nat.ltb_spec (m - 1) n); [lia|]. now replace (S (m - 1)) with m by lia.
Qed.

(** *** A sorted array *)
Fixpoint place (i : nat) (l : list nat) : nat :=
  match l with [] => 0 | x :: r => if Nat.eqb i x then 0 else S (place i r) end.
Lemma place_nth l : forall i, In i l -> nth_error l (place i l) = Some i.
Proof.
  induction l as [|x r IH]; intros i H; [contradiction|]. cbn. destruct (Nat.eqb_spec i x) as [->|N]; [reflexivity|].
  destruct H as [H|H]; [congruence|]. now apply IH.
Qed.
Lemma nth_place l : NoDup l -> forall i j, nth_error l j = Some i -> place i l = j.
Proof.
  intros Hn i j Hj. assert (Hi : In i l) by (eapply nth_error_In; eassumption). pose proof (place_nth l i Hi) as H.
  rewrite NoDup_nth_error in Hn. apply Hn; [|congruence]. apply nth_error_Some. congruence.
Qed.
Lemma nth_arrange {A} (l : list A) idx : (forall i, In i idx -> i < List.length l) ->
  forall j, nth_error (arrange l idx) j = match nth_error idx j with Some i => nth_error l i | None => None end.
Proof.
  unfold arrange. induction idx as [|i r IH]; intros H j; [now destruct j|].
  cbn. destruct (nth_error l i) as [x|] eqn:Ei.
  - destruct j as [|j]; [cbn; now rewrite Ei|]. cbn. apply IH. intros k Hk. apply H. now right.
  - exfalso. apply nth_error_None in Ei. specialize (H i (or_introl eq_refl)). lia.
Qed.
Lemma edited_sort W l f : exists g, edited (CArr l) (CArr (go_sort W f l)) (EPerm g).
Proof.
  unfold go_sort. set (less := fun i j => _). set (idx := w_sort W less (List.length l)).
  assert (Hp : Permutation idx (seq 0 (List.length l))) by apply w_sort_perm.
  assert (Hn : NoDup idx) by (eapply Permutation_NoDup; [symmetry; exact Hp|apply seq_NoDup]).
  assert (Hi : forall i, In i idx <-> i < List.length l).
  { intros i. split; intros H.
    - eapply Permutation_in in H; [|exact Hp]. apply in_seq in H. lia.
    - eapply Permutation_in; [symmetry; exact Hp|]. apply in_seq. lia. }
  clearbody idx. exists (fun i => place i idx). split.
  - split; [exact I|]. intros i j Hxi Hxj Ef. cbn in Hxi, Hxj. apply nth_error_Some in Hxi, Hxj. apply Hi in Hxi, Hxj.
    apply place_nth in Hxi, Hxj. congruence.
  - intros k' q. cbn [brings]. split.
    + destruct k' as [j|k']; [|discriminate]. cbn [kid]. rewrite nth_arrange by apply Hi.
      destruct (nth_error idx j) as [i|] eqn:Ej; [|discriminate]. intros Hq. right. exists (HIdx i). split; [exact Hq|].
      cbn [moved]. now rewrite (nth_place idx Hn i j Ej).
    + intros [[]|(k0 & E1 & E2)]. destruct k0 as [i|k0]; [|discriminate]. injection E2 as <-. cbn [kid] in *.
      rewrite nth_arrange by apply Hi. rewrite place_nth; [exact E1|]. apply Hi, nth_error_Some. congruence.
Qed.

(** *** Reading *)
Lemma pos_read_lt le i n : pos_read le i = Some n -> n < le.
Proof.
  unfold pos_read. destruct (Z.eqb_spec (Z.of_nat le) 0); [discriminate|].
  destruct (Z.ltb_spec i 0).
  - destruct (Z.ltb_spec (i + Z.of_nat le) 0); [discriminate|]. intros [= <-]. lia.
  - destruct (Z.leb_spec (Z.of_nat le) i); [discriminate|]. intros [= <-]. lia.
Qed.

Section Graph.
Variable E : Env.
Variable W : World.

Lemma find_graph cl h v p : forall h' r, h_find E W cl h v p = (h', r) ->
  untouched h h' /\ List.length h' = List.length h /\ (forall q, r = Ok q -> exists k, step h v k q).
Proof.
  intros h' r. unfold h_find. destruct (deref h v) as [c|] eqn:Ed.
  2:{ intros [= <- <-]. split; [apply untouched_refl|]. split; [reflexivity|]. discriminate. }
  assert (Hn : forall e : err, (h, Err e) = (h', r) -> untouched h h' /\ List.length h' = List.length h /\ (forall q, r = Ok q -> exists k, step h v k q)).
  { intros e [= <- <-]. split; [apply untouched_refl|]. split; [reflexivity|]. discriminate. }
  destruct c; try apply Hn.
  - destruct (any_to_string p); try apply Hn;
      try (intros [= <- <-]; split; [apply untouched_refl|]; split; [reflexivity|]; discriminate).
    destruct (find_key E W cl a kvs lower) as [lo' o]. intros [= <- <-].
    split; [eapply untouched_index; eassumption|]. split; [apply store_length|].
    intros q. destruct o as [k|]; [|discriminate]. destruct (alookup k kvs) as [[id x]|] eqn:El; [|discriminate].
    intros [= ->]. exists (HKey k), (CObj incr kvs lower). split; [exact Ed|]. cbn. now rewrite El.
  - intros [= <- <-]. split; [apply untouched_refl|]. split; [reflexivity|]. intros q.
    destruct (any_to_int p); cbn; try discriminate. destruct (pos_read _ _) as [n|] eqn:En; [|discriminate].
    intros [= <-]. exists (HIdx n), (CArr l). split; [exact Ed|]. cbn. apply pos_read_lt in En. now apply nth_error_nth'.
Qed.

Lemma get_f_graph f cl : forall h v p r h' o, h_get_f E W f cl h v p r = (h', o) ->
  untouched h h' /\ List.length h' = List.length h /\ (forall q, o = Ok q -> exists ks, ks <> [] /\ walk h' v ks q).
Proof.
  induction f as [|f IH]; intros h v p r h' o; cbn [h_get_f].
  { intros [= <- <-]. split; [apply untouched_refl|]. split; [reflexivity|]. discriminate. }
  destruct (peel p r) as [[p' r']|].
  2:{ intros [= <- <-]. split; [apply untouched_refl|]. split; [reflexivity|]. discriminate. }
  destruct (h_find E W cl h v p') as [h1 c] eqn:Ef. destruct (find_graph _ _ _ _ _ _ Ef) as (U & L & G).
  destruct c as [c| | |]; try (intros [= <- <-]; split; [exact U|]; split; [exact L|]; discriminate).
  destruct (G c eq_refl) as [k Hk].
  assert (Hk1 : walk h1 v [k] c) by (eapply untouched_walk; [exact U|now apply walk_one]).
  destruct r' as [|q r'].
  - intros [= <- <-]. split; [exact U|]. split; [exact L|]. intros q [= <-]. exists [k]. split; [discriminate|exact Hk1].
  - intros H. destruct (IH _ _ _ _ _ _ H) as (U2 & L2 & G2). split; [eapply untouched_trans; eassumption|].
    split; [lia|]. intros x Hx. destruct (G2 x Hx) as (ks & Hne & Hw). exists (k :: ks). split; [discriminate|].
    change (k :: ks) with ([k] ++ ks). eapply walk_app; [|exact Hw]. eapply untouched_walk; eassumption.
Qed.

Lemma untouched_back h h' : List.length h' = List.length h -> untouched h h' -> untouched h' h.
Proof.
  intros L U p c' H. destruct (deref_valid _ _ _ H) as (a & -> & E1 & La).
  destruct (nth_error h a) as [c|] eqn:Ea.
  2:{ apply nth_error_None in Ea. lia. }
  destruct (U (Some a) c Ea) as (c2 & E2 & S). rewrite H in E2. injection E2 as <-. exists c. split; [exact Ea|].
  destruct c, c'; cbn in *; try congruence. destruct S; auto.
Qed.
Lemma get_graph cl h v p r h' o : h_get E W cl h v p r = (h', o) ->
  untouched h h' /\ List.length h' = List.length h /\ (forall q, o = Ok q -> exists ks, ks <> [] /\ walk h v ks q).
Proof.
  intros H. destruct (get_f_graph _ _ _ _ _ _ _ _ H) as (U & L & G). split; [exact U|]. split; [exact L|].
  intros q Hq. destruct (G q Hq) as (ks & Hn & Hw). exists ks. split; [exact Hn|].
  eapply untouched_walk; [|exact Hw]. now apply untouched_back.
Qed.
Lemma get_array_graph h v p r h' o : h_get_array E W h v p r = (h', o) ->
  untouched h h' /\ List.length h' = List.length h /\
  (forall q, o = Ok q -> (exists ks, ks <> [] /\ walk h v ks q) /\ exists l, deref h q = Some (CArr l) /\ deref h' q = Some (CArr l)).
Proof.
  unfold h_get_array. destruct (h_get E W false h v p r) as [h1 c] eqn:Eg.
  destruct (get_graph _ _ _ _ _ _ _ Eg) as (U & L & G). intros [= <- <-]. split; [exact U|]. split; [exact L|].
  intros q Hq. destruct c as [c| | |]; try discriminate. destruct (deref h1 c) as [cc|] eqn:Ec; [|discriminate].
  destruct cc; try discriminate. injection Hq as <-. split; [now apply G|]. exists l. split; [|exact Ec].
  destruct (untouched_back _ _ L U _ _ Ec) as (c' & E' & S). destruct c'; cbn in S; try discriminate. now injection S as ->.
Qed.

(** *** Set *)
Lemma chain_weaken n m h q ls c : m <= n -> new_chain n h q ls c -> new_chain m h q ls c.
Proof. intros L H. induction H; econstructor; eauto. lia. Qed.
Lemma chain_store n h v x q ls c : (forall a, v = Some a -> a < n) -> new_chain n h q ls c ->
  new_chain n (store h v x) q ls c.
Proof.
  intros L H. induction H as [|a k q ks c La (cc & E1 & E2) O H IH]; [constructor|].
  assert (Na : v <> Some a) by (intros ->; specialize (L a eq_refl); lia).
  econstructor; [exact La| | |exact IH].
  - exists cc. rewrite deref_store_other; auto.
  - intros k' q' (c' & E3 & E4). rewrite deref_store_other in E3 by exact Na. apply (O k' q'). exists c'. auto.
Qed.
Lemma chain_walk n h q ls c : new_chain n h q ls c -> walk h q ls c.
Proof. induction 1; econstructor; eauto. Qed.
Lemma walk_barren h p c ks q : deref h p = Some c -> (forall k, kid c k = None) -> walk h p ks q -> ks = [] /\ q = p.
Proof.
  intros H N Hw. destruct Hw as [|p k q ks r (c' & E1 & E2) Hw]; [auto|]. rewrite H in E1. injection E1 as <-.
  rewrite N in E2. discriminate.
Qed.

Definition kept (h h' : heap) : Prop :=
  List.length h <= List.length h' /\ forall a, a < List.length h -> nth_error h' a = nth_error h a.
Lemma kept_refl h : kept h h.
Proof. split; auto. Qed.
Lemma kept_trans a b c : kept a b -> kept b c -> kept a c.
Proof. intros (L1 & F1) (L2 & F2). split; [lia|]. intros x Hx. rewrite F2 by lia. auto. Qed.
Lemma kept_alloc h c : kept h (h ++ [c]).
Proof. split; [rewrite app_length; lia|]. intros a Ha. now rewrite nth_error_app1. Qed.
Lemma kept_deref h h' p c : kept h h' -> deref h p = Some c -> deref h' p = Some c.
Proof. intros (L & F) H. destruct (deref_valid _ _ _ H) as (a & -> & E1 & La). cbn. now rewrite F. Qed.
Lemma kept_untouched h h' : kept h h' -> untouched h h'.
Proof. intros K p c H. exists c. split; [eapply kept_deref; eassumption|apply same_struct_refl]. Qed.

Definition set_effect (prior : ptr -> Prop) (h h' : heap) (v c : ptr) (o : res ptr) : Prop :=
  match o with
  | Ok q => q = c /\ List.length h <= List.length h' /\
            exists ks x k q0 ls, walk h v ks x /\ alters h h' x (EPut k q0) /\ new_chain (List.length h) h' q0 ls c /\
                                 forall y, step h x k y -> prior y
  | _ => kept h h'
  end.

Lemma set_nth_same {A} n (a : A) l : nth_error l n = Some a -> set_nth n a l = l.
Proof. revert n; induction l as [|x r IH]; intros [|n]; cbn; try discriminate; [now intros [= ->]|]. intros H. now rewrite IH. Qed.
Lemma store_same h v c : deref h v = Some c -> store h v c = h.
Proof. destruct v as [a|]; [|discriminate]. cbn. apply set_nth_same. Qed.
Lemma find_plain h v p : fst (h_find E W false h v p) = h.
Proof.
  unfold h_find. destruct (deref h v) as [c|] eqn:Ed; [|reflexivity]. destruct c; try reflexivity.
  destruct (any_to_string p); try reflexivity. unfold find_key.
  destruct (alookup a kvs) as [[id q]|]; cbn [fst]; now apply store_same.
Qed.
Lemma get_f_plain f h v p r : fst (h_get_f E W f false h v p r) = h.
Proof.
  revert v p r; induction f as [|f IH]; intros v p r; cbn [h_get_f]; [reflexivity|].
  destruct (peel p r) as [[p' r']|]; [|reflexivity]. pose proof (find_plain h v p') as Hf.
  destruct (h_find E W false h v p') as [h1 c]. cbn in Hf. subst h1. destruct c; try reflexivity.
  destruct r'; [reflexivity|]. apply IH.
Qed.
Lemma find_step h v k y p : step h v k y ->
  match k with
  | HKey s => any_to_string p = Ok s
  | HIdx n => exists l i, deref h v = Some (CArr l) /\ any_to_int p = Ok i /\ pos_read (List.length l) i = Some n
  end -> h_find E W false h v p = (h, Ok y).
Proof.
  intros (c & Ec & Ek) H. unfold h_find. rewrite Ec. destruct k as [n|s].
  - destruct H as (l & i & El & Ei & En). rewrite Ec in El. injection El as ->. rewrite Ei. cbn [rbind]. rewrite En.
    cbn in Ek. repeat f_equal. now apply nth_error_nth.
  - destruct c; cbn in Ek; try discriminate. rewrite H. unfold find_key.
    destruct (alookup s kvs) as [[id q]|] eqn:El; [|discriminate]. cbn in Ek. injection Ek as ->.
    rewrite (store_same _ _ _ Ec), El. reflexivity.
Qed.

Lemma at_last_graph h v c p h' o : h_at_last_param E h v c p = (h', o) ->
  set_effect (fun y => h_find E W false h v p = (h, Ok y)) h h' v c o.
Proof.
  unfold h_at_last_param. destruct (deref h v) as [cc|] eqn:Ed; [|intros [= <- <-]; apply kept_refl].
  destruct cc; try (intros [= <- <-]; apply kept_refl).
  - destruct (any_to_string p) eqn:Ep; try (intros [= <- <-]; apply kept_refl).
    unfold h_set_to_object. rewrite Ed. intros [= <- <-]. split; [reflexivity|]. rewrite store_length. split; [lia|].
    exists [], v, (HKey a), c, []. split; [constructor|]. split; [|split; [constructor|]].
    { eapply alters_store; [exact Ed|apply edited_put_member]. }
    intros y Hy. apply find_step with (k := HKey a); [exact Hy|assumption].
  - destruct (any_to_int p) eqn:Ep; try (intros [= <- <-]; apply kept_refl).
    unfold set_at_index. destruct (_ =? _)%Z.
    + intros [= <- <-]. split; [reflexivity|]. rewrite store_length. split; [lia|].
      exists [], v, (HIdx (List.length l)), c, []. split; [constructor|]. split; [|split; [constructor|]].
      { eapply alters_store; [exact Ed|apply edited_end_elem]. }
      intros y (cy & Ey & Ky). rewrite Ed in Ey. injection Ey as <-. cbn in Ky.
      exfalso. pose proof (proj1 (nth_error_Some l (List.length l))) as Hl. rewrite Ky in Hl. specialize (Hl ltac:(discriminate)). lia.
    + destruct (pos_read _ _) as [n|] eqn:En; intros [= <- <-]; [|apply kept_refl].
      split; [reflexivity|]. rewrite store_length. split; [lia|].
      exists [], v, (HIdx n), c, []. split; [constructor|]. split; [|split; [constructor|]].
      { eapply alters_store; [exact Ed|]. apply edited_put_elem. eapply pos_read_lt; eassumption. }
      intros y Hy. apply find_step with (k := HIdx n); [exact Hy|]. exists l, a. auto.
Qed.

Lemma container_graph h q h1 n : h_new_container h q = (h1, n) ->
  match n with
  | Ok ch => exists ct, h1 = h ++ [ct] /\ ch = Some (List.length h) /\ forall k, kid ct k = None
  | _ => h1 = h
  end.
Proof.
  unfold h_new_container, alloc.
  assert (Ho : forall k, kid (CObj 0 [] None) k = None) by (intros []; reflexivity).
  assert (Ha : forall k, kid (CArr []) k = None) by (intros [[]|]; reflexivity).
  destruct (any_to_string q); [intros [= <- <-]; eauto| | |];
    (destruct (any_to_int q); try (intros [= <- <-]; reflexivity);
     destruct (_ =? _)%Z; intros [= <- <-]; [eauto|reflexivity]).
Qed.

(** A new container, filled by the rest of the path, and then put into its place. *)
Lemma set_new prior prior' h v cv ct h2 c c' k :
  deref h v = Some cv ->
  (forall k, kid ct k = None) -> kid cv k = None ->
  let h1 := h ++ [ct] in let ch := Some (List.length h) in
  set_effect prior h1 h2 ch c (Ok c) ->
  (forall cv2, deref h2 v = Some cv2 -> same_struct cv cv2 -> edited cv2 c' (EPut k ch)) ->
  set_effect prior' h (store h2 v c') v c (Ok c).
Proof.
  intros Ed Nk Nc h1 ch (_ & L2 & ks & x & k2 & q0 & ls & Hw & Ha & Hc & _) He.
  assert (Lh : List.length h1 = S (List.length h)) by (unfold h1; rewrite app_length; cbn; lia).
  assert (Ech : deref h1 ch = Some ct).
  { cbn. unfold h1. rewrite nth_error_app2, Nat.sub_diag by lia. reflexivity. }
  destruct (walk_barren _ _ _ _ _ Ech Nk Hw) as [-> ->].
  destruct (deref_valid _ _ _ Ed) as (a & -> & Ea & La).
  assert (Nv : Some a <> ch) by (unfold ch; intros [= ->]; lia).
  destruct Ha as [(c1 & c2 & E1 & E2 & (K & H2)) Ho].
  assert (Ed1 : deref h1 (Some a) = Some cv) by now apply deref_alloc.
  destruct (Ho _ _ Nv Ed1) as (cv2 & Ecv2 & Scv).
  split; [reflexivity|]. rewrite store_length. split; [lia|].
  exists [], (Some a), k, ch, (k2 :: ls). split; [constructor|]. split; [|split].
  - apply alters_after with (h1 := h2).
    + intros p x Hp. destruct (deref_valid _ _ _ Hp) as (b & -> & Eb & Lb).
      apply (Ho (Some b) x); [intros [= ->]; lia|]. now apply deref_alloc.
    + rewrite Ed. discriminate.
    + eapply alters_store; [exact Ecv2|]. now apply He.
  - unfold ch. apply chain_step with (q := q0); [lia| | |].
    + exists c2. rewrite deref_store_other by exact Nv. split; [exact E2|]. apply H2. now left.
    + fold ch. intros k' q' (c3 & E3 & E4). rewrite deref_store_other in E3 by exact Nv. rewrite E2 in E3. injection E3 as <-.
      apply H2 in E4 as [E4|(k3 & E4 & _)]; [now injection E4|]. rewrite Ech in E1. injection E1 as <-. rewrite Nk in E4. discriminate.
    + apply chain_weaken with (n := List.length h1); [lia|]. apply chain_store; [|exact Hc]. intros b [= <-]. lia.
  - intros y (cy & Ey & Ky). rewrite Ed in Ey. injection Ey as <-. congruence.
Qed.

Lemma set_f_graph f : forall h v c p r h' o, h_set_f E f h v c p r = (h', o) ->
  set_effect (fun y => h_get_f E W f false h v p r = (h, Ok y)) h h' v c o.
Proof.
  induction f as [|f IH]; intros h v c p r h' o; cbn [h_set_f h_get_f]; [intros [= <- <-]; apply kept_refl|].
  destruct (peel p r) as [[p' r']|]; [|intros [= <- <-]; apply kept_refl].
  destruct (h_uninitialized h v); [intros [= <- <-]; apply kept_refl|].
  destruct (h_uninitialized h c); [intros [= <- <-]; apply kept_refl|].
  destruct r' as [|q r'].
  { intros H. apply at_last_graph in H. destruct o; auto. destruct H as (-> & L & ks & x & k2 & q0 & ls & Hw & Ha & Hc & Hp).
    split; [reflexivity|]. split; [exact L|]. exists ks, x, k2, q0, ls. split; [exact Hw|]. split; [exact Ha|]. split; [exact Hc|].
    intros y Hy. apply Hp in Hy. now rewrite Hy. }
  destruct (deref h v) as [cc|] eqn:Ed; [|intros [= <- <-]; apply kept_refl].
  set (prior := fun y => (let '(h'0, c0) := h_find E W false h v p' in
                match c0 with Ok c1 => h_get_f E W f false h'0 c1 q r' | e => (h'0, e) end)
                = (h, Ok y)).
  assert (Hdown : forall k ch, step h v k ch -> h_find E W false h v p' = (h, Ok ch) ->
             h_set_f E f h ch c q r' = (h', o) -> set_effect prior h h' v c o).
  { intros k ch Hs Hf H. apply IH in H. destruct o; auto. destruct H as (-> & L & ks & x & k2 & q0 & ls & Hw & Ha & Hc & Hp).
    split; [reflexivity|]. split; [exact L|]. exists (k :: ks), x, k2, q0, ls. split; [econstructor; eassumption|]. split; [exact Ha|]. split; [exact Hc|].
    intros y Hy. unfold prior. rewrite Hf. now apply Hp. }
  destruct cc; try (intros [= <- <-]; apply kept_refl).
  - destruct (any_to_string p') eqn:Ep; try (intros [= <- <-]; apply kept_refl).
    destruct (alookup a kvs) as [[id ch]|] eqn:El.
    { assert (Hs : step h v (HKey a) ch) by (exists (CObj incr kvs lower); split; [exact Ed|]; cbn; now rewrite El).
      apply Hdown with (k := HKey a); [exact Hs|]. apply find_step with (k := HKey a); auto. }
    destruct (h_new_container h q) as [h1 n] eqn:En. apply container_graph in En.
    destruct n as [ch| | |]; try (subst h1; intros [= <- <-]; apply kept_refl).
    destruct En as (ct & -> & -> & Nk).
    destruct (h_set_f E f (h ++ [ct]) (Some (List.length h)) c q r') as [h2 res] eqn:Er. apply IH in Er.
    destruct res as [q2| | |];
      try (intros [= <- <-]; apply kept_trans with (b := h ++ [ct]); [apply kept_alloc|exact Er]).
    assert (q2 = c) by apply Er. subst q2.
    unfold h_set_to_object. destruct (deref h2 v) as [cc2|] eqn:Ed2.
    + assert (Sc : same_struct (CObj incr kvs lower) cc2).
      { destruct Er as (_ & _ & ks & x & k2 & q0 & ls & Hw & Ha & Hc & _).
        assert (Ech : deref (h ++ [ct]) (Some (List.length h)) = Some ct).
        { cbn. rewrite nth_error_app2, Nat.sub_diag by lia. reflexivity. }
        destruct (walk_barren _ _ _ _ _ Ech Nk Hw) as [-> ->].
        destruct Ha as [_ Ho]. destruct (Ho v (CObj incr kvs lower)) as (c3 & E3 & S3).
        - intros ->. destruct (deref_valid _ _ _ Ed) as (b & [= <-] & _ & Lb). lia.
        - now apply deref_alloc.
        - rewrite Ed2 in E3. now injection E3 as <-. }
      destruct cc2; cbn in Sc; try discriminate Sc. destruct Sc as [<- <-]. intros [= <- <-].
      eapply set_new with (k := HKey a); [exact Ed|exact Nk|cbn; now rewrite El|exact Er|]. intros cv2 E2 S2. rewrite Ed2 in E2. injection E2 as <-.
      apply edited_put_member.
    + exfalso. destruct Er as (_ & _ & ks & x & k2 & q0 & ls & Hw & Ha & Hc & _).
      assert (Ech : deref (h ++ [ct]) (Some (List.length h)) = Some ct).
      { cbn. rewrite nth_error_app2, Nat.sub_diag by lia. reflexivity. }
      destruct (walk_barren _ _ _ _ _ Ech Nk Hw) as [-> ->].
      destruct Ha as [_ Ho]. destruct (Ho v (CObj incr kvs lower)) as (c3 & E3 & S3).
      * intros ->. destruct (deref_valid _ _ _ Ed) as (b & [= <-] & _ & Lb). lia.
      * now apply deref_alloc.
      * congruence.
  - destruct (any_to_int p') eqn:Ep; try (intros [= <- <-]; apply kept_refl).
    destruct (pos_read _ _) as [n|] eqn:Epr.
    { assert (Hs : step h v (HIdx n) (nth n l None)).
      { exists (CArr l). split; [exact Ed|]. cbn. apply nth_error_nth'. eapply pos_read_lt; eassumption. }
      apply Hdown with (k := HIdx n); [exact Hs|]. apply find_step with (k := HIdx n); [exact Hs|]. exists l, a. auto. }
    destruct (h_new_container h q) as [h1 n] eqn:En. apply container_graph in En.
    destruct n as [ch| | |]; try (subst h1; intros [= <- <-]; apply kept_refl).
    destruct En as (ct & -> & -> & Nk).
    destruct (h_set_f E f (h ++ [ct]) (Some (List.length h)) c q r') as [h2 res] eqn:Er. apply IH in Er.
    destruct res as [q2| | |];
      try (intros [= <- <-]; apply kept_trans with (b := h ++ [ct]); [apply kept_alloc|exact Er]).
    assert (q2 = c) by apply Er. subst q2.
    assert (Sc : deref h2 v = Some (CArr l)).
    { destruct Er as (_ & _ & ks & x & k2 & q0 & ls & Hw & Ha & Hc & _).
      assert (Ech : deref (h ++ [ct]) (Some (List.length h)) = Some ct).
      { cbn. rewrite nth_error_app2, Nat.sub_diag by lia. reflexivity. }
      destruct (walk_barren _ _ _ _ _ Ech Nk Hw) as [-> ->].
      destruct Ha as [_ Ho]. destruct (Ho v (CArr l)) as (c3 & E3 & S3).
      - intros ->. destruct (deref_valid _ _ _ Ed) as (b & [= <-] & _ & Lb). lia.
      - now apply deref_alloc.
      - destruct c3; cbn in S3; try discriminate. now injection S3 as <-. }
    unfold h_insert_to_arr. rewrite Sc. intros [= <- <-].
    eapply set_new with (k := HIdx (List.length l)); [exact Ed|exact Nk| |exact Er|].
    { cbn. apply nth_error_None. lia. }
    intros cv2 E2 S2. rewrite Sc in E2. injection E2 as <-.
    unfold insert_to_arr. rewrite firstn_all, skipn_all. apply edited_end_elem.
Qed.
Lemma set_graph h v c p r h' o : h_set E h v c p r = (h', o) ->
  set_effect (fun y => h_get E W false h v p r = (h, Ok y)) h h' v c o.
Proof. apply set_f_graph. Qed.

(** *** Insert *)
Lemma pos_after_le le i n : pos_insert_after le i = Some n -> n <= le.
Proof.
  unfold pos_insert_after. destruct (Z.eqb_spec (Z.of_nat le) 0); [discriminate|].
  destruct (Z.eqb_spec i (-1)); [intros [= <-]; lia|]. destruct (Z.ltb_spec i 0).
  - destruct (Z.ltb_spec (i + Z.of_nat le) 0); [discriminate|]. intros [= <-]. lia.
  - destruct (Z.leb_spec (Z.of_nat le) i); [discriminate|]. intros [= <-]. lia.
Qed.
Lemma pos_before_le le i n : pos_insert_before le i = Some n -> n <= le.
Proof.
  unfold pos_insert_before. destruct (Z.eqb_spec (Z.of_nat le) 0); [discriminate|].
  destruct (Z.eqb_spec i 0); [intros [= <-]; lia|]. destruct (Z.ltb_spec i 0).
  - destruct (Z.ltb_spec (i + Z.of_nat le) 0); [discriminate|]. intros [= <-]. lia.
  - destruct (Z.leb_spec (Z.of_nat le) i); [discriminate|]. intros [= <-]. lia.
Qed.

Definition insert_effect (h h' : heap) (v c : ptr) (o : res ptr) : Prop :=
  match o with
  | Ok q => q = c /\ exists ks x n, walk h v ks x /\ alters h h' x (EIns n c)
  | _ => untouched h h'
  end.
Lemma insert_last_graph af h v c p h' o : h_insert_last af h v c p = (h', o) ->
  List.length h' = List.length h /\ insert_effect h h' v c o.
Proof.
  unfold h_insert_last. destruct (deref h v) as [cc|] eqn:Ed; [|intros [= <- <-]; split; [auto|apply untouched_refl]].
  destruct cc; try (intros [= <- <-]; split; [auto|apply untouched_refl]).
  destruct (any_to_int p); try (intros [= <- <-]; split; [auto|apply untouched_refl]).
  destruct (if af then _ else _) as [n|] eqn:En; intros [= <- <-]; [|split; [auto|apply untouched_refl]].
  rewrite store_length. split; [reflexivity|]. split; [reflexivity|].
  exists [], v, n. split; [constructor|]. eapply alters_store; [exact Ed|]. apply edited_insert.
  destruct af; [eapply pos_after_le|eapply pos_before_le]; eassumption.
Qed.
Lemma insert_f_graph f af : forall h v c p r h' o, h_insert_f E W f af h v c p r = (h', o) ->
  List.length h' = List.length h /\ insert_effect h h' v c o.
Proof.
  induction f as [|f IH]; intros h v c p r h' o; cbn [h_insert_f]; [intros [= <- <-]; split; [auto|apply untouched_refl]|].
  destruct (peel p r) as [[p' r']|]; [|intros [= <- <-]; split; [auto|apply untouched_refl]].
  destruct (deref h v) as [cc|] eqn:Ed; [|destruct af; intros [= <- <-]; (split; [auto|apply untouched_refl])].
  destruct r' as [|q r'].
  { destruct cc; try apply insert_last_graph. intros [= <- <-]. split; [auto|apply untouched_refl]. }
  assert (Hg : (let '(h1, t) := h_get_array E W h v p' (removelast (q :: r')) in
            match t with
            | Ok child => h_insert_f E W f af h1 child c (last (q :: r') PNil) []
            | e => (h1, e)
            end) = (h', o) -> List.length h' = List.length h /\ insert_effect h h' v c o).
  2:{ destruct cc; try exact Hg. intros [= <- <-]. split; [auto|apply untouched_refl]. }
  destruct (h_get_array E W h v p' (removelast (q :: r'))) as [h1 t] eqn:Eg.
  apply get_array_graph in Eg. destruct Eg as (U & L & G).
  destruct t as [ch| | |]; try (intros [= <- <-]; split; [exact L|exact U]).
  intros H. destruct (IH _ _ _ _ _ _ _ H) as (L2 & I2). split; [lia|].
  destruct (G ch eq_refl) as ((ks & _ & Hw) & _).
  destruct o as [q2| | |]; try (eapply untouched_trans; [exact U|exact I2]).
  destruct I2 as (-> & ks2 & x & n & Hw2 & Ha). split; [reflexivity|]. exists (ks ++ ks2), x, n. split.
  - eapply walk_app; [exact Hw|]. eapply untouched_walk; [|exact Hw2]. now apply untouched_back.
  - eapply alters_after; [exact U| |exact Ha]. destruct Ha as [(c1 & _ & E1 & _) _].
    destruct (untouched_back _ _ L U _ _ E1) as (c0 & E0 & _). rewrite E0. discriminate.
Qed.
Lemma insert_graph af h v c p r h' o : h_insert E W af h v c p r = (h', o) -> insert_effect h h' v c o.
Proof. intros H. now apply insert_f_graph in H. Qed.

(** *** Delete *)
Definition delete_effect (h h' : heap) (v : ptr) (o : res unit) : Prop :=
  match o with
  | Ok _ => exists ks x k q, walk h v ks x /\ step h x k q /\ alters h h' x (EDel k)
  | _ => untouched h h'
  end.
Lemma find_key_present cl (key : bytes) (kvs : list (bytes * (Z * ptr))) lo lo' k :
  find_key E W cl key kvs lo = (lo', Some k) -> exists id q, alookup k kvs = Some (id, q).
Proof.
  unfold find_key. destruct (alookup key kvs) as [[id q]|] eqn:El; [intros [= <- <-]; eauto|].
  destruct cl; [|discriminate]. intros H. apply (f_equal snd) in H. cbn in H. revert H.
  generalize (caseless_keys E W key (init_caseless E kvs lo)). induction l as [|x r IH]; [discriminate|]. cbn.
  destruct (alookup x kvs) as [[id q]|] eqn:Ex; [intros [= <-]; eauto|exact IH].
Qed.
Lemma delete_here_graph cl h v p h' o : h_delete_here E W cl h v p = (h', o) ->
  List.length h' = List.length h /\ delete_effect h h' v o.
Proof.
  unfold h_delete_here. destruct (deref h v) as [cc|] eqn:Ed; [|intros [= <- <-]; split; [auto|apply untouched_refl]].
  destruct cc; try (intros [= <- <-]; split; [auto|apply untouched_refl]).
  - destruct (any_to_string p); try (intros [= <- <-]; split; [auto|apply untouched_refl]).
    destruct (find_key E W cl a kvs lower) as [lo' [k|]] eqn:Ek; intros [= <- <-]; rewrite store_length; (split; [reflexivity|]).
    + destruct (find_key_present _ _ _ _ _ _ Ek) as (id & q & El).
      exists [], v, (HKey k), q. split; [constructor|]. split.
      * eexists. split; [exact Ed|]. cbn. now rewrite El.
      * eapply alters_store; [exact Ed|apply edited_del_member].
    + eapply untouched_index; eassumption.
  - destruct (any_to_int p); try (intros [= <- <-]; split; [auto|apply untouched_refl]).
    destruct (pos_read _ _) as [n|] eqn:En; intros [= <- <-]; [|split; [auto|apply untouched_refl]].
    rewrite store_length. split; [reflexivity|]. apply pos_read_lt in En.
    exists [], v, (HIdx n), (nth n l None). split; [constructor|]. split.
    + eexists. split; [exact Ed|]. cbn. now apply nth_error_nth'.
    + eapply alters_store; [exact Ed|apply edited_delete].
Qed.
Lemma delete_f_graph f cl : forall h v p r h' o, h_delete_f E W f cl h v p r = (h', o) ->
  List.length h' = List.length h /\ delete_effect h h' v o.
Proof.
  induction f as [|f IH]; intros h v p r h' o; cbn [h_delete_f]; [intros [= <- <-]; split; [auto|apply untouched_refl]|].
  destruct (peel p r) as [[p' [|q r']]|]; [apply delete_here_graph| |intros [= <- <-]; split; [auto|apply untouched_refl]].
  destruct (h_get E W cl h v p' (removelast (q :: r'))) as [h1 t] eqn:Eg.
  apply get_graph in Eg. destruct Eg as (U & L & G).
  destruct t as [ch| | |]; try (intros [= <- <-]; split; [exact L|exact U]).
  intros H. destruct (IH _ _ _ _ _ _ H) as (L2 & I2). split; [lia|].
  destruct (G ch eq_refl) as (ks & _ & Hw).
  destruct o as [u| | |]; try (eapply untouched_trans; [exact U|exact I2]).
  destruct I2 as (ks2 & x & k & y & Hw2 & Hs & Ha). exists (ks ++ ks2), x, k, y. split; [|split].
  - eapply walk_app; [exact Hw|]. eapply untouched_walk; [|exact Hw2]. now apply untouched_back.
  - apply walk_one in Hs. eapply untouched_walk in Hs; [|apply untouched_back; eassumption].
    inversion Hs as [|? ? ? ? ? Hs1 Hs2]; subst. inversion Hs2; subst. exact Hs1.
  - eapply alters_after; [exact U| |exact Ha]. destruct Ha as [(c1 & _ & E1 & _) _].
    destruct (untouched_back _ _ L U _ _ E1) as (c0 & E0 & _). rewrite E0. discriminate.
Qed.
Lemma delete_graph cl h v p r h' o : h_delete E W cl h v p r = (h', o) -> delete_effect h h' v o.
Proof. intros H. now apply delete_f_graph in H. Qed.

(** *** Append *)
Lemma get_array_plain h v p r : fst (h_get_array E W h v p r) = h.
Proof.
  unfold h_get_array, h_get. pose proof (get_f_plain (S (psum (p :: r))) h v p r) as H.
  destruct (h_get_f E W (S (psum (p :: r))) false h v p r) as [h1 c]. exact H.
Qed.
(** An element is added to an array that was there, or a new array is put where
    nothing was. *)
Definition append_effect (h h' : heap) (v c : ptr) (o : res ptr) : Prop :=
  match o with
  | Ok q => q = c /\ exists ks x, walk h v ks x /\
      ((exists n, alters h h' x (EIns n c)) \/
       (exists k q0 ls, alters h h' x (EPut k q0) /\ (forall y, ~ step h x k y) /\
                        new_chain (List.length h) h' q0 ls c /\ ls <> []))
  | _ => untouched h h'
  end.
Lemma insert_arr_graph h a (pos : list ptr -> nat) c h' : (forall l, pos l <= List.length l) ->
  h_insert_to_arr h a pos c = Some h' -> exists l, deref h a = Some (CArr l) /\ h' = store h a (CArr (insert_to_arr l (pos l) c)) /\
    alters h h' a (EIns (pos l) c).
Proof.
  intros Hp. unfold h_insert_to_arr. destruct (deref h a) as [cc|] eqn:Ed; [|discriminate].
  destruct cc; try discriminate. intros [= <-]. exists l. split; [reflexivity|]. split; [reflexivity|].
  eapply alters_store; [exact Ed|]. now apply edited_insert.
Qed.
Lemma find_grown h c0 v p h' o : h_find E W false h v p = (h', o) -> o <> Panic ->
  h_find E W false (h ++ [c0]) v p = (h ++ [c0], o).
Proof.
  intros H N. pose proof (find_plain (h ++ [c0]) v p) as Hp.
  assert (Ho : snd (h_find E W false (h ++ [c0]) v p) = o).
  2:{ destruct (h_find E W false (h ++ [c0]) v p). cbn in *. now subst. }
  clear Hp. revert H. unfold h_find. destruct (deref h v) as [c|] eqn:Ed; [|intros [= _ <-]; congruence].
  rewrite (deref_alloc _ c0 _ _ Ed). destruct c; try (intros [= _ <-]; reflexivity).
  destruct (any_to_string p); try (intros [= _ <-]; reflexivity).
  destruct (find_key E W false a kvs lower) as [lo' r]. intros [= _ <-]. reflexivity.
Qed.
Lemma get_f_grown f h c0 v p r h' o : h_get_f E W f false h v p r = (h', o) -> o <> Panic ->
  h_get_f E W f false (h ++ [c0]) v p r = (h ++ [c0], o).
Proof.
  revert v p r; induction f as [|f IH]; intros v p r; cbn [h_get_f]; [intros [= _ <-]; reflexivity|].
  destruct (peel p r) as [[p' r']|]; [|intros [= _ <-]; reflexivity].
  pose proof (find_plain h v p') as Hp. destruct (h_find E W false h v p') as [h1 c] eqn:Ef. cbn in Hp. subst h1.
  intros H N. assert (Nc : c <> Panic) by (intros ->; injection H as _ <-; congruence).
  rewrite (find_grown _ c0 _ _ _ _ Ef Nc). destruct c; try (injection H as _ <-; reflexivity).
  destruct r' as [|q r']; [injection H as _ <-; reflexivity|]. now apply IH.
Qed.
Lemma get_array_missing h v p r h' : h_get_array E W h v p r = (h', Err ErrNotFound) ->
  h' = h /\ forall c0, h_get E W false (h ++ [c0]) v p r = (h ++ [c0], Err ErrNotFound).
Proof.
  intros H. pose proof (get_array_plain h v p r) as Hp. rewrite H in Hp. cbn in Hp. split; [exact Hp|]. subst h'.
  unfold h_get_array in H. destruct (h_get E W false h v p r) as [h1 o] eqn:Eg. unfold h_get in *.
  intros c0. eapply get_f_grown; [|discriminate].
  destruct o as [c| | |]; try (injection H as _ ?; discriminate).
  - destruct (deref h1 c) as [[]|]; discriminate.
  - rewrite Eg. injection H as -> ->. reflexivity.
Qed.

Lemma kid_pointer c k q : kid c k = Some q -> In q (pointers c).
Proof.
  destruct c, k; cbn; try discriminate.
  - destruct (alookup k kvs) as [[id x]|] eqn:El; [|discriminate]. cbn. intros [= ->]. apply alookup_In in El.
    apply in_map_iff. exists (k, (id, q)). auto.
  - apply nth_error_In.
Qed.
Lemma walk_kept h h1 v ks x : sound h -> kept h h1 -> valid h v -> walk h1 v ks x -> walk h v ks x /\ valid h x.
Proof.
  intros So (L & F) Hv Hw. revert Hv. induction Hw as [|p k q ks r (c & E1 & E2) Hw IH]; intros Hv; [split; [constructor|exact Hv]|].
  destruct p as [a|]; [|discriminate]. cbn in Hv, E1. rewrite F in E1 by exact Hv.
  assert (Hq : valid h q).
  { pose proof (So _ _ E1) as Hs. rewrite Forall_forall in Hs. apply Hs. eapply kid_pointer; eassumption. }
  destruct (IH Hq) as [Hw' Hr]. split; [|exact Hr]. econstructor; [|exact Hw']. exists c. auto.
Qed.
Lemma alters_fresh h h2 x e a c : alters h h2 x e -> List.length h <= a -> alters h (store h2 (Some a) c) x e.
Proof.
  intros [(c1 & c2 & E1 & E2 & He) Ho] La.
  assert (Hd : forall p c0, deref h p = Some c0 -> deref (store h2 (Some a) c) p = deref h2 p).
  { intros p c0 Hp. apply deref_store_other. intros <-. destruct (deref_valid _ _ _ Hp) as (b & [= <-] & _ & Lb). lia. }
  split.
  - exists c1, c2. rewrite (Hd _ _ E1). auto.
  - intros p c0 N Hp. rewrite (Hd _ _ Hp). now apply Ho.
Qed.
Lemma chain_snoc n h q ls a k c : n <= a -> step h (Some a) k c -> (forall k' q', step h (Some a) k' q' -> k' = k) ->
  new_chain n h q ls (Some a) -> new_chain n h q (ls ++ [k]) c.
Proof.
  intros La Hs O H. remember (Some a) as z. induction H; cbn; subst.
  - econstructor; [exact La|exact Hs|exact O|constructor].
  - econstructor; eauto.
Qed.

Lemma append_graph front h v c ps h' o : sound h -> h_append E W front h v c ps = (h', o) -> append_effect h h' v c o.
Proof.
  intros So. unfold h_append. set (pos := if front then _ else _).
  assert (Hpos : forall l, pos l <= List.length l) by (intros l; unfold pos; destruct front; lia).
  destruct (deref h v) as [cc|] eqn:Ed; [|destruct front; intros [= <- <-]; apply untouched_refl].
  assert (Hg : (match joint_params ps with
    | None => (h, Err ErrMultipleParam)
    | Some [] => match cc with
                 | CArr _ => match h_insert_to_arr h v pos c with Some h' => (h', Ok c) | None => (h, Panic) end
                 | _ => (h, Err ErrNotArrayValue) end
    | Some (p :: r) =>
      let '(h', t) := h_get_array E W h v p r in
      match t with
      | Ok a => match h_insert_to_arr h' a pos c with Some h'' => (h'', Ok c) | None => (h', Panic) end
      | Err ErrNotFound =>
        let '(h1, a) := alloc h' (CArr []) in
        let '(h2, res) := h_set E h1 v a p r in
        match res with
        | Ok a' => match h_insert_to_arr h2 a' pos c with Some h'' => (h'', Ok c) | None => (h2, Panic) end
        | e => (h2, e)
        end
      | e => (h', e)
      end
    end) = (h', o) -> append_effect h h' v c o).
  2:{ destruct cc; try exact Hg. intros [= <- <-]. apply untouched_refl. }
  destruct (joint_params ps) as [[|p r]|]; [| |intros [= <- <-]; apply untouched_refl].
  { destruct cc; try (intros [= <- <-]; apply untouched_refl).
    destruct (h_insert_to_arr h v pos c) as [h2|] eqn:Ei; intros [= <- <-]; [|apply untouched_refl].
    destruct (insert_arr_graph _ _ _ _ _ Hpos Ei) as (l2 & _ & _ & Ha).
    split; [reflexivity|]. exists [], v. split; [constructor|]. left. eauto. }
  destruct (h_get_array E W h v p r) as [h1 t] eqn:Eg.
  pose proof (get_array_plain h v p r) as Hpl. rewrite Eg in Hpl. cbn in Hpl. subst h1.
  destruct t as [a|e| |]; try (intros [= <- <-]; apply untouched_refl).
  { destruct (get_array_graph _ _ _ _ _ _ Eg) as (_ & _ & G). destruct (G a eq_refl) as ((ks & _ & Hw) & _).
    destruct (h_insert_to_arr h a pos c) as [h2|] eqn:Ei; intros [= <- <-]; [|apply untouched_refl].
    destruct (insert_arr_graph _ _ _ _ _ Hpos Ei) as (l2 & _ & _ & Ha).
    split; [reflexivity|]. exists ks, a. split; [exact Hw|]. left. eauto. }
  destruct e; try (intros [= <- <-]; apply untouched_refl).
  destruct (get_array_missing _ _ _ _ _ Eg) as (_ & Hmiss). specialize (Hmiss (CArr [])).
  unfold alloc. set (h1 := h ++ [CArr []]) in *. set (a := Some (List.length h)).
  destruct (h_set E h1 v a p r) as [h2 res] eqn:Es. apply set_graph in Es.
  assert (K1 : kept h h1) by apply kept_alloc.
  destruct res as [a'| | |]; try (intros [= <- <-]; apply kept_untouched; eapply kept_trans; [exact K1|exact Es]).
  destruct Es as (-> & L2 & ks & x & k & q0 & ls & Hw & Ha & Hc & Hp).
  assert (Lh : List.length h1 = S (List.length h)) by (unfold h1; rewrite app_length; cbn; lia).
  assert (Ea : deref h1 a = Some (CArr [])).
  { cbn. unfold h1. rewrite nth_error_app2, Nat.sub_diag by lia. reflexivity. }
  assert (Vv : valid h v).
  { destruct (deref_valid _ _ _ Ed) as (b & -> & _ & Lb). exact Lb. }
  destruct (walk_kept _ _ _ _ _ So K1 Vv Hw) as [Hw' Vx].
  assert (Nx : a <> x) by (intros <-; cbn in Vx; lia).
  pose proof Ha as [(c1 & c2 & E1 & E2 & _) Ho]. destruct (Ho a _ Nx Ea) as (ca & Eca & Sca).
  destruct ca; cbn in Sca; try discriminate. injection Sca as <-.
  unfold h_insert_to_arr. rewrite Eca. replace (pos []) with 0 by (specialize (Hpos []); cbn in Hpos; lia).
  intros [= <- <-]. change (set_nth (List.length h) (CArr (insert_to_arr [] 0 c)) h2) with (store h2 a (CArr [c])).
  split; [reflexivity|]. exists ks, x. split; [exact Hw'|]. right.
  exists k, q0, (ls ++ [HIdx 0]). split; [|split; [|split]].
  - apply alters_fresh; [|lia]. apply alters_after with (h1 := h1); [now apply kept_untouched| |exact Ha].
    destruct x as [b|]; [|discriminate]. cbn in Vx |- *. now apply nth_error_Some.
  - intros y Hy. assert (Hy1 : step h1 x k y).
    { destruct Hy as (cy & Ey & Ky). exists cy. split; [eapply kept_deref; eassumption|exact Ky]. }
    apply Hp in Hy1. rewrite Hmiss in Hy1. discriminate.
  - apply chain_snoc with (a := List.length h); [lia| | |].
    + exists (CArr [c]). split; [|reflexivity]. exact (deref_store_same h2 a _ (CArr [c]) Eca).
    + intros k' q' (c3 & E3 & E4). rewrite (deref_store_same h2 a _ (CArr [c]) Eca : deref _ (Some (List.length h)) = _) in E3.
      injection E3 as <-. destruct k' as [[|[|m]]|k0]; cbn in E4; try discriminate E4. reflexivity.
    + apply chain_weaken with (n := List.length h1); [lia|]. apply chain_store; [|exact Hc]. intros b [= <-]. lia.
  - destruct ls; discriminate.
Qed.
End Graph.
