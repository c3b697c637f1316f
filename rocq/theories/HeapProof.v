(** Regions of the memory: what a call given pointers into a region can change. *)
From Coq Require Import Permutation.
From Verif Require Import Base ListLemmas Float64 Value ValueLemmas Unmarshal Marshal SortProof Path Edit Heap SpecHeap.
Local Open Scope nat_scope.

(** *** Lists *)
Lemma set_nth_length {A} n (a : A) l : List.length (set_nth n a l) = List.length l.
Proof. revert n; induction l as [|x r IH]; intros [|n]; cbn; auto. Qed.
Lemma nth_error_set_nth_same {A} n (a : A) l : n < List.length l -> nth_error (set_nth n a l) n = Some a.
Proof. revert n; induction l as [|x r IH]; intros [|n] H; cbn in *; try lia; auto. apply IH. lia. Qed.
Lemma nth_error_set_nth_other {A} n m (a : A) l : n <> m -> nth_error (set_nth n a l) m = nth_error l m.
Proof. revert n m; induction l as [|x r IH]; intros [|n] [|m] H; cbn; auto; try congruence. Qed.
Lemma In_set_nth {A} n (a x : A) l : In x (set_nth n a l) -> x = a \/ In x l.
Proof.
  revert n; induction l as [|y r IH]; intros [|n]; cbn; intros H; auto.
  - destruct H; auto.
  - destruct H as [H|H]; auto. destruct (IH _ H); auto.
Qed.
Lemma nth_In_or {A} n (l : list A) d : nth n l d = d \/ In (nth n l d) l.
Proof. destruct (nth_in_or_default n l d); auto. Qed.

(** *** Regions *)
Definition region := nat -> Prop.
Definition inside (R : region) (p : ptr) : Prop := match p with None => True | Some a => R a end.
Definition closed (h : heap) (R : region) : Prop :=
  forall a, R a -> exists c, nth_error h a = Some c /\ Forall (inside R) (pointers c).
Definition grow (R : region) (h h' : heap) : region :=
  fun a => R a \/ (List.length h <= a < List.length h').

(** [confined R h h']: the memory went from [h] to [h'] by writing only into [R] and
    into new structs, and these together hold no pointer to anything else. *)
Definition confined (R : region) (h h' : heap) : Prop :=
  List.length h <= List.length h' /\ closed h' (grow R h h') /\
  forall a, a < List.length h -> ~ R a -> nth_error h' a = nth_error h a.

Lemma inside_mono (R R' : region) p : (forall a, R a -> R' a) -> inside R p -> inside R' p.
Proof. intros H. destruct p; cbn; auto. Qed.
Lemma inside_grow R h h' p : inside R p -> inside (grow R h h') p.
Proof. apply inside_mono. unfold grow. auto. Qed.
Lemma closed_ext h R R' : (forall a, R a <-> R' a) -> closed h R -> closed h R'.
Proof.
  intros H C a Ha. destruct (C a (proj2 (H a) Ha)) as (c & E1 & E2). exists c. split; [exact E1|].
  eapply Forall_impl; [|exact E2]. intros p. apply inside_mono. intros b. apply H.
Qed.

Lemma confined_refl R h : closed h R -> confined R h h.
Proof.
  intros C. split; [lia|]. split; [|auto]. eapply closed_ext; [|exact C]. intros a. unfold grow. split; [auto|].
  intros [H|H]; [auto|lia].
Qed.
Lemma confined_trans (R : region) h h1 h2 :
  (forall a, R a -> a < List.length h) ->
  confined R h h1 -> confined (grow R h h1) h1 h2 -> confined R h h2.
Proof.
  intros Hb (L1 & C1 & F1) (L2 & C2 & F2). split; [lia|]. split.
  - eapply closed_ext; [|exact C2]. intros a. unfold grow.
    destruct (le_lt_dec (List.length h1) a), (le_lt_dec (List.length h) a); intuition lia.
  - intros a Ha Hn. rewrite F2; [apply F1; auto|lia|]. unfold grow. intros [H|H]; [auto|lia].
Qed.
Lemma closed_bound h R : closed h R -> forall a, R a -> a < List.length h.
Proof. intros C a Ha. destruct (C a Ha) as (c & E1 & _). apply nth_error_Some. rewrite E1. discriminate. Qed.

Lemma confined_alloc R h c h' p : closed h R -> Forall (inside R) (pointers c) ->
  alloc h c = (h', p) -> confined R h h' /\ inside (grow R h h') p.
Proof.
  intros C Hc [= <- <-]. split.
  - split; [rewrite app_length; cbn; lia|]. split.
    + intros a [Ha|Ha].
      * destruct (C a Ha) as (x & E1 & E2). exists x. split.
        -- rewrite nth_error_app1; [exact E1|]. eapply closed_bound; eassumption.
        -- eapply Forall_impl; [|exact E2]. intros q. apply inside_grow.
      * rewrite app_length in Ha. cbn in Ha. assert (a = List.length h) by lia. subst a. exists c. split.
        -- rewrite nth_error_app2; [|lia]. rewrite Nat.sub_diag. reflexivity.
        -- eapply Forall_impl; [|exact Hc]. intros q. apply inside_grow.
    + intros a Ha _. now rewrite nth_error_app1.
  - cbn. unfold grow. rewrite app_length. cbn. right. lia.
Qed.

Lemma store_length h p c : List.length (store h p c) = List.length h.
Proof. destruct p; [apply set_nth_length|reflexivity]. Qed.
Lemma confined_store R h p c : closed h R -> inside R p -> Forall (inside R) (pointers c) ->
  confined R h (store h p c).
Proof.
  intros C Hp Hc. destruct p as [a|]; [|now apply confined_refl]. cbn in Hp |- *.
  pose proof (closed_bound _ _ C _ Hp) as Hb. split; [now rewrite set_nth_length|]. split.
  - eapply closed_ext with (R := R).
    { intros b. unfold grow. rewrite set_nth_length. split; [auto|]. intros [H|H]; [auto|lia]. }
    intros b Hb'. destruct (Nat.eq_dec a b) as [<-|N].
    + exists c. split; [now apply nth_error_set_nth_same|exact Hc].
    + rewrite nth_error_set_nth_other by exact N. now apply C.
  - intros b Hb' Hn. apply nth_error_set_nth_other. intros ->. auto.
Qed.

Lemma closed_deref h R p c : closed h R -> inside R p -> deref h p = Some c -> Forall (inside R) (pointers c).
Proof.
  intros C Hp E. destruct p as [a|]; [|discriminate]. cbn in *. destruct (C a Hp) as (c' & E1 & E2).
  rewrite E1 in E. now injection E as <-.
Qed.

(** The shape of all the lemmas below. *)
Definition okp {A} (good : A -> Prop) (r : res A) : Prop := match r with Ok a => good a | _ => True end.
Definition stays {A} (good : region -> A -> Prop) (R : region) (h : heap) (o : heap * res A) : Prop :=
  confined R h (fst o) /\ okp (good (grow R h (fst o))) (snd o).

Definition mono {A} (good : region -> A -> Prop) : Prop :=
  forall (R R' : region) a, (forall x, R x -> R' x) -> good R a -> good R' a.
Lemma mono_inside : mono inside.
Proof. intros R R' a H. now apply inside_mono. Qed.
Lemma mono_unit : mono (fun _ (_ : unit) => True).
Proof. red. auto. Qed.

Lemma stays_same {A} (good : region -> A -> Prop) R h r : mono good -> closed h R ->
  okp (good R) r -> stays good R h (h, r).
Proof.
  intros M C H. split; [now apply confined_refl|]. destruct r; cbn in *; auto. eapply M; [|exact H].
  unfold grow. auto.
Qed.
Lemma stays_err {A} (good : region -> A -> Prop) R h : closed h R ->
  (forall e, stays good R h (h, Err e)) /\ stays good R h (h, Panic) /\ stays good R h (h, Fuel).
Proof. intros C. repeat split; cbn; auto; now apply confined_refl. Qed.
Lemma stays_then {A} (good : region -> A -> Prop) R h h1 (o : heap * res A) :
  mono good -> closed h R -> confined R h h1 -> stays good (grow R h h1) h1 o -> stays good R h o.
Proof.
  intros M C C1 (C2 & G). split.
  - eapply confined_trans; eauto. now apply closed_bound.
  - destruct (snd o); cbn in *; auto. eapply M; [|exact G]. destruct C1 as (L1 & _), C2 as (L2 & _).
    intros x. unfold grow. destruct (le_lt_dec (List.length h1) x), (le_lt_dec (List.length h) x); intuition lia.
Qed.
Lemma stays_store R h p c r : closed h R -> inside R p -> Forall (inside R) (pointers c) ->
  okp (inside R) r -> stays inside R h (store h p c, r).
Proof.
  intros C Hp Hc Hr. split; cbn; [now apply confined_store|]. destruct r; cbn in *; auto.
  now apply inside_grow.
Qed.

Lemma inside_nth R n l : Forall (inside R) l -> inside R (nth n l None).
Proof.
  intros H. destruct (nth_In_or n l None) as [->|Hin]; [exact I|].
  rewrite Forall_forall in H. now apply H.
Qed.
Lemma inside_lookup R k (kvs : list (bytes * (Z * ptr))) id q :
  Forall (inside R) (map (fun e => snd (snd e)) kvs) -> alookup k kvs = Some (id, q) -> inside R q.
Proof.
  intros H E. apply alookup_In in E. rewrite Forall_forall in H. apply H. apply in_map_iff.
  exists (k, (id, q)). auto.
Qed.
Lemma inside_aset R k id q (kvs : list (bytes * (Z * ptr))) :
  Forall (inside R) (map (fun e => snd (snd e)) kvs) -> inside R q ->
  Forall (inside R) (map (fun e => snd (snd e)) (aset k (id, q) kvs)).
Proof.
  intros H Hq. induction kvs as [|[k' [id' q']] r IH]; cbn in *.
  - constructor; auto.
  - inversion H; subst. destruct (beqb k k'); cbn; constructor; auto.
Qed.
Lemma inside_aremove R k (kvs : list (bytes * (Z * ptr))) :
  Forall (inside R) (map (fun e => snd (snd e)) kvs) ->
  Forall (inside R) (map (fun e => snd (snd e)) (aremove k kvs)).
Proof.
  intros H. induction kvs as [|[k' [id' q']] r IH]; cbn in *; [constructor|].
  inversion H; subst. destruct (beqb k k'); cbn; auto.
Qed.
Lemma Forall_sub {A} (P : A -> Prop) l l' : (forall x, In x l' -> In x l) -> Forall P l -> Forall P l'.
Proof. rewrite !Forall_forall. auto. Qed.
Lemma inside_set_nth R n (c : ptr) l : Forall (inside R) l -> inside R c -> Forall (inside R) (set_nth n c l).
Proof. rewrite !Forall_forall. intros H Hc x Hx. destruct (In_set_nth _ _ _ _ Hx) as [->|Hx']; auto. Qed.
Lemma inside_insert R n (c : ptr) l : Forall (inside R) l -> inside R c -> Forall (inside R) (insert_to_arr l n c).
Proof.
  intros H Hc. unfold insert_to_arr. apply Forall_app. split.
  - eapply Forall_sub; [|exact H]. intros x. apply firstn_subset || (intros Hx; rewrite <- (firstn_skipn n l); apply in_or_app; auto).
  - constructor; [exact Hc|]. eapply Forall_sub; [|exact H]. intros x Hx. rewrite <- (firstn_skipn n l). apply in_or_app; auto.
Qed.
Lemma inside_delete R n (l : list ptr) : Forall (inside R) l -> Forall (inside R) (delete_in_arr l n).
Proof.
  intros H. unfold delete_in_arr. eapply Forall_sub; [|exact H]. intros x Hx. apply in_app_or in Hx.
  destruct Hx as [Hx|Hx].
  - rewrite <- (firstn_skipn n l). apply in_or_app. auto.
  - rewrite <- (firstn_skipn (S n) l). apply in_or_app. auto.
Qed.

Section Region.
Variable E : Env.
Variable W : World.

Ltac done C := first [apply (proj1 (stays_err _ _ _ C)) | apply (proj1 (proj2 (stays_err _ _ _ C)))
                     | apply (proj2 (proj2 (stays_err _ _ _ C)))].

Lemma find_stays R cl h v p : closed h R -> inside R v -> stays inside R h (h_find E W cl h v p).
Proof.
  intros C Hv. unfold h_find. destruct (deref h v) as [c|] eqn:Ed; [|done C].
  pose proof (closed_deref _ _ _ _ C Hv Ed) as Hc. destruct c; try done C; cbn [pointers] in Hc.
  - destruct (any_to_string p); try done C.
    destruct (find_key E W cl a kvs lower) as [lo' r]. apply stays_store; auto.
    destruct r as [b|]; [|exact I]. destruct (alookup b kvs) as [[id q]|] eqn:El; [|exact I]. cbn.
    eapply inside_lookup; eassumption.
  - apply stays_same; [apply mono_inside|exact C|]. destruct (any_to_int p); cbn; auto.
    destruct (pos_read _ _); cbn; auto. now apply inside_nth.
Qed.

Lemma get_f_stays f R cl h v p r : closed h R -> inside R v -> stays inside R h (h_get_f E W f cl h v p r).
Proof.
  revert R h v p r; induction f as [|f IH]; intros R h v p r C Hv; cbn [h_get_f]; [done C|].
  destruct (peel p r) as [[p' r']|]; [|done C].
  pose proof (find_stays R cl h v p' C Hv) as [C1 G1].
  destruct (h_find E W cl h v p') as [h1 c1]. cbn [fst snd] in *.
  destruct c1 as [c1| | |]; try (split; cbn; auto; fail).
  destruct r' as [|q r']; [split; cbn; auto|].
  eapply stays_then; [apply mono_inside|exact C|exact C1|]. apply IH; [apply C1|exact G1].
Qed.
Lemma get_stays R cl h v p r : closed h R -> inside R v -> stays inside R h (h_get E W cl h v p r).
Proof. apply get_f_stays. Qed.
Lemma get_array_stays R h v p r : closed h R -> inside R v -> stays inside R h (h_get_array E W h v p r).
Proof.
  intros C Hv. unfold h_get_array. destruct (get_stays R false h v p r C Hv) as [C1 G1].
  destruct (h_get E W false h v p r) as [h1 c1]. cbn [fst snd] in *. split; [exact C1|]. cbn [fst snd].
  destruct c1 as [c1| | |]; auto. destruct (deref h1 c1) as [[]|]; cbn; auto.
Qed.

Lemma set_to_object_stays R h v k c h' : closed h R -> inside R v -> inside R c ->
  h_set_to_object E h v k c = Some h' -> confined R h h'.
Proof.
  intros C Hv Hc. unfold h_set_to_object. destruct (deref h v) as [cc|] eqn:Ed; [|discriminate].
  pose proof (closed_deref _ _ _ _ C Hv Ed) as Hk. destruct cc; try discriminate. intros [= <-].
  apply confined_store; auto. cbn [pointers] in *. now apply inside_aset.
Qed.
Lemma insert_to_arr_stays R h v f c h' : closed h R -> inside R v -> inside R c ->
  h_insert_to_arr h v f c = Some h' -> confined R h h'.
Proof.
  intros C Hv Hc. unfold h_insert_to_arr. destruct (deref h v) as [cc|] eqn:Ed; [|discriminate].
  pose proof (closed_deref _ _ _ _ C Hv Ed) as Hk. destruct cc; try discriminate. intros [= <-].
  apply confined_store; auto. cbn [pointers] in *. now apply inside_insert.
Qed.

Lemma at_last_stays R h v c p : closed h R -> inside R v -> inside R c ->
  stays inside R h (h_at_last_param E h v c p).
Proof.
  intros C Hv Hc. unfold h_at_last_param. destruct (deref h v) as [cc|] eqn:Ed; [|done C].
  pose proof (closed_deref _ _ _ _ C Hv Ed) as Hk. destruct cc; try done C; cbn [pointers] in Hk.
  - destruct (any_to_string p); try done C. destruct (h_set_to_object E h v a c) eqn:Es; [|done C].
    split; cbn; [exact (set_to_object_stays _ _ _ _ _ _ C Hv Hc Es)|now apply inside_grow].
  - destruct (any_to_int p); try done C. unfold set_at_index. destruct (_ =? _)%Z.
    + apply stays_store; auto. cbn. apply Forall_app. auto.
    + destruct (pos_read _ _); [|done C]. apply stays_store; auto. cbn. now apply inside_set_nth.
Qed.

Lemma container_stays R h q : closed h R -> stays inside R h (h_new_container h q).
Proof.
  intros C. unfold h_new_container.
  assert (Ha : forall c, pointers c = [] -> stays inside R h (let '(h', p) := alloc h c in (h', Ok p))).
  { intros c Hc. destruct (alloc h c) as [h' p] eqn:Ea. apply confined_alloc with (R := R) in Ea; auto.
    rewrite Hc. constructor. }
  destruct (any_to_string q); try (apply (Ha (CObj 0 [] None)); reflexivity);
    (destruct (any_to_int q); try done C; destruct (_ =? _)%Z; try done C; apply (Ha (CArr [])); reflexivity).
Qed.

Lemma set_f_stays f R h v c p r : closed h R -> inside R v -> inside R c ->
  stays inside R h (h_set_f E f h v c p r).
Proof.
  revert R h v p r; induction f as [|f IH]; intros R h v p r C Hv Hc; cbn [h_set_f]; [done C|].
  destruct (peel p r) as [[p' r']|]; [|done C].
  destruct (h_uninitialized h v); [done C|]. destruct (h_uninitialized h c); [done C|].
  destruct r' as [|q r']; [now apply at_last_stays|].
  destruct (deref h v) as [cc|] eqn:Ed; [|done C].
  pose proof (closed_deref _ _ _ _ C Hv Ed) as Hk.
  destruct cc; try done C; cbn [pointers] in Hk.
  - destruct (any_to_string p'); try done C. destruct (alookup a kvs) as [[id ch]|] eqn:El.
    { apply IH; auto. eapply inside_lookup; eassumption. }
    destruct (container_stays R h q C) as [C1 G1]. destruct (h_new_container h q) as [h1 n]. cbn [fst snd] in *.
    destruct n as [ch| | |]; try (split; cbn; auto; fail). cbn in G1.
    eapply stays_then; [apply mono_inside|exact C|exact C1|].
    set (R1 := grow R h h1) in *.
    assert (Cl1 : closed h1 R1) by apply C1.
    destruct (IH R1 h1 ch q r' Cl1 G1 (inside_grow _ _ _ _ Hc)) as [C2 G2].
    destruct (h_set_f E f h1 ch c q r') as [h2 res]. cbn [fst snd] in *.
    destruct res; try (split; cbn; auto; fail).
    destruct (h_set_to_object E h2 v a ch) as [h3|] eqn:Es; [|split; cbn; auto].
    eapply stays_then; [apply mono_inside|exact Cl1|exact C2|].
    split; cbn.
    + eapply set_to_object_stays; [apply C2|repeat apply inside_grow; exact Hv|apply inside_grow; exact G1|exact Es].
    + repeat apply inside_grow; auto.
  - destruct (any_to_int p'); try done C. destruct (pos_read _ _).
    { apply IH; auto. now apply inside_nth. }
    destruct (container_stays R h q C) as [C1 G1]. destruct (h_new_container h q) as [h1 n]. cbn [fst snd] in *.
    destruct n as [ch| | |]; try (split; cbn; auto; fail). cbn in G1.
    eapply stays_then; [apply mono_inside|exact C|exact C1|].
    set (R1 := grow R h h1) in *.
    assert (Cl1 : closed h1 R1) by apply C1.
    destruct (IH R1 h1 ch q r' Cl1 G1 (inside_grow _ _ _ _ Hc)) as [C2 G2].
    destruct (h_set_f E f h1 ch c q r') as [h2 res]. cbn [fst snd] in *.
    destruct res; try (split; cbn; auto; fail).
    destruct (h_insert_to_arr h2 v _ ch) as [h3|] eqn:Es; [|split; cbn; auto].
    eapply stays_then; [apply mono_inside|exact Cl1|exact C2|].
    split; cbn.
    + eapply insert_to_arr_stays; [apply C2|repeat apply inside_grow; exact Hv|apply inside_grow; exact G1|exact Es].
    + repeat apply inside_grow; auto.
Qed.
Lemma set_stays R h v c p r : closed h R -> inside R v -> inside R c -> stays inside R h (h_set E h v c p r).
Proof. apply set_f_stays. Qed.

Lemma insert_last_stays af R h v c p : closed h R -> inside R v -> inside R c ->
  stays inside R h (h_insert_last af h v c p).
Proof.
  intros C Hv Hc. unfold h_insert_last. destruct (deref h v) as [cc|] eqn:Ed; [|done C].
  pose proof (closed_deref _ _ _ _ C Hv Ed) as Hk. destruct cc; try done C; cbn [pointers] in Hk.
  destruct (any_to_int p); try done C.
  destruct (if af then _ else _); [|done C]. apply stays_store; auto. cbn. now apply inside_insert.
Qed.
Lemma insert_f_stays f af R h v c p r : closed h R -> inside R v -> inside R c ->
  stays inside R h (h_insert_f E W f af h v c p r).
Proof.
  revert R h v p r; induction f as [|f IH]; intros R h v p r C Hv Hc; cbn [h_insert_f]; [done C|].
  destruct (peel p r) as [[p' r']|]; [|done C].
  destruct (deref h v) as [cc|] eqn:Ed; [|destruct af; done C].
  destruct r' as [|q r'].
  { destruct cc; try done C; now apply insert_last_stays. }
  assert (Hg : stays inside R h (let '(h', t) := h_get_array E W h v p' (removelast (q :: r')) in
            match t with
            | Ok child => h_insert_f E W f af h' child c (last (q :: r') PNil) []
            | e => (h', e)
            end)); [|destruct cc; auto; done C].
  destruct (get_array_stays R h v p' (removelast (q :: r')) C Hv) as [C1 G1].
  destruct (h_get_array E W h v p' (removelast (q :: r'))) as [h1 t]. cbn [fst snd] in *.
  destruct t as [ch| | |]; try (split; cbn; auto; fail).
  eapply stays_then; [apply mono_inside|exact C|exact C1|].
  apply IH; [apply C1|exact G1|now apply inside_grow].
Qed.
Lemma insert_stays af R h v c p r : closed h R -> inside R v -> inside R c ->
  stays inside R h (h_insert E W af h v c p r).
Proof. apply insert_f_stays. Qed.

Lemma append_stays front R h v c ps : closed h R -> inside R v -> inside R c ->
  stays inside R h (h_append E W front h v c ps).
Proof.
  intros C Hv Hc. unfold h_append. set (pos := if front then _ else _).
  assert (Hadd : forall R h a, closed h R -> inside R a -> inside R c ->
            stays inside R h (match h_insert_to_arr h a pos c with Some h' => (h', Ok c) | None => (h, Panic) end)).
  { intros R0 h0 a C0 Ha Hc0. destruct (h_insert_to_arr h0 a pos c) eqn:Es; [|done C0].
    split; cbn; [exact (insert_to_arr_stays _ _ _ _ _ _ C0 Ha Hc0 Es)|now apply inside_grow]. }
  destruct (deref h v) as [cc|] eqn:Ed; [|destruct front; done C].
  assert (Hg : stays inside R h (match joint_params ps with
    | None => (h, Err ErrMultipleParam)
    | Some [] => match cc with
                 | CArr _ => match h_insert_to_arr h v pos c with Some h' => (h', Ok c) | None => (h, Panic) end
                 | _ => (h, Err ErrNotArrayValue) end
    | Some (p :: r) =>
      let '(h', t) := h_get_array E W h v p r in
      match t with
      | Ok a => match h_insert_to_arr h' a pos c with Some h'' => (h'', Ok c) | None => (h', Panic) end
      | Err ErrNotFound =>
        let '(h1, a) := alloc h' (CArr []) in
        let '(h2, res) := h_set E h1 v a p r in
        match res with
        | Ok a' => match h_insert_to_arr h2 a' pos c with Some h'' => (h'', Ok c) | None => (h2, Panic) end
        | e => (h2, e)
        end
      | e => (h', e)
      end
    end)); [|destruct cc; try done C; exact Hg].
  destruct (joint_params ps) as [[|p r]|]; [| |done C].
  { destruct cc; try done C. now apply Hadd. }
  destruct (get_array_stays R h v p r C Hv) as [C1 G1].
  destruct (h_get_array E W h v p r) as [h1 t]. cbn [fst snd] in *.
  destruct t as [ch|e| |]; try (split; cbn; auto; fail).
  { eapply stays_then; [apply mono_inside|exact C|exact C1|]. apply Hadd; [apply C1|exact G1|now apply inside_grow]. }
  destruct e; try (split; cbn; auto; fail).
  eapply stays_then; [apply mono_inside|exact C|exact C1|]. set (R1 := grow R h h1) in *.
  assert (Cl1 : closed h1 R1) by apply C1.
  destruct (alloc h1 (CArr [])) as [h2 a] eqn:Ea.
  destruct (confined_alloc R1 h1 (CArr []) h2 a Cl1 (Forall_nil _) Ea) as [C2 G2].
  eapply stays_then; [apply mono_inside|exact Cl1|exact C2|]. set (R2 := grow R1 h1 h2) in *.
  assert (Cl2 : closed h2 R2) by apply C2.
  destruct (set_stays R2 h2 v a p r Cl2) as [C3 G3]; [repeat apply inside_grow; auto|exact G2|].
  destruct (h_set E h2 v a p r) as [h3 res]. cbn [fst snd] in *.
  destruct res as [a'| | |]; try (split; cbn; auto; fail).
  eapply stays_then; [apply mono_inside|exact Cl2|exact C3|].
  apply Hadd; [apply C3|exact G3|repeat apply inside_grow; auto].
Qed.

Definition any_unit (R : region) (_ : unit) : Prop := True.
Lemma delete_here_stays R cl h v p : closed h R -> inside R v -> stays any_unit R h (h_delete_here E W cl h v p).
Proof.
  intros C Hv. unfold h_delete_here. destruct (deref h v) as [cc|] eqn:Ed; [|done C].
  pose proof (closed_deref _ _ _ _ C Hv Ed) as Hk. destruct cc; try done C; cbn [pointers] in Hk.
  - destruct (any_to_string p); try done C. destruct (find_key E W cl a kvs lower) as [lo' r].
    destruct r; split; cbn; unfold any_unit; auto; apply confined_store; auto. cbn. now apply inside_aremove.
  - destruct (any_to_int p); try done C. destruct (pos_read _ _); [|done C].
    split; cbn; unfold any_unit; auto; apply confined_store; auto. cbn. now apply inside_delete.
Qed.
Lemma delete_f_stays f R cl h v p r : closed h R -> inside R v -> stays any_unit R h (h_delete_f E W f cl h v p r).
Proof.
  revert R h v p r; induction f as [|f IH]; intros R h v p r C Hv; cbn [h_delete_f]; [done C|].
  destruct (peel p r) as [[p' [|q r']]|]; [|  |done C].
  { now apply delete_here_stays. }
  destruct (get_stays R cl h v p' (removelast (q :: r')) C Hv) as [C1 G1].
  destruct (h_get E W cl h v p' (removelast (q :: r'))) as [h1 t]. cbn [fst snd] in *.
  destruct t as [ch| | |]; try (split; cbn; auto; fail).
  eapply stays_then; [red; auto|exact C|exact C1|].
  apply IH; [apply C1|exact G1].
Qed.
Lemma delete_stays R cl h v p r : closed h R -> inside R v -> stays any_unit R h (h_delete E W cl h v p r).
Proof. apply delete_f_stays. Qed.
End Region.

(** *** Structs that point to new structs only *)
Definition nowhere : region := fun _ => False.
Lemma closed_nowhere h : closed h nowhere.
Proof. intros a []. Qed.
Lemma confined_wider (R : region) h h' : closed h R -> confined nowhere h h' -> confined R h h'.
Proof.
  intros C (L & C' & F). split; [exact L|]. split.
  - intros a [Ha|Ha].
    + destruct (C a Ha) as (c & E1 & E2). exists c. split.
      * rewrite F; [exact E1|eapply closed_bound; eassumption|auto].
      * eapply Forall_impl; [|exact E2]. intros p. apply inside_grow.
    + destruct (C' a) as (c & E1 & E2); [right; exact Ha|]. exists c. split; [exact E1|].
      eapply Forall_impl; [|exact E2]. intros p. apply inside_mono. intros x [[]|Hx]. now right.
  - intros a Ha _. apply F; auto.
Qed.
Lemma stays_wider {A} (good : region -> A -> Prop) R h o : mono good -> closed h R ->
  stays good nowhere h o -> stays good R h o.
Proof.
  intros M C [C1 G1]. split; [now apply confined_wider|]. destruct (snd o); cbn in *; auto.
  eapply M; [|exact G1]. intros x [[]|Hx]. now right.
Qed.

Definition all {A} (good : region -> A -> Prop) (R : region) (l : list A) : Prop := Forall (good R) l.
Lemma mono_all {A} (good : region -> A -> Prop) : mono good -> mono (all good).
Proof. intros M R R' l H. apply Forall_impl. intros a. now apply M. Qed.

Lemma map_heap_stays {A B} (good : region -> B -> Prop) (f : heap -> A -> heap * res B) h l :
  mono good -> (forall h a, stays good nowhere h (f h a)) -> stays (all good) nowhere h (map_heap f h l).
Proof.
  intros M Hf. revert h; induction l as [|a r IH]; intros h; cbn [map_heap].
  - split; [apply confined_refl, closed_nowhere|constructor].
  - destruct (Hf h a) as [C1 G1]. destruct (f h a) as [h1 b]. cbn [fst snd] in *.
    destruct b as [b| | |]; try (split; cbn; auto; fail).
    pose proof (IH h1) as S2.
    eapply stays_wider with (R := grow nowhere h h1) in S2; [|now apply mono_all|apply C1].
    destruct (map_heap f h1 r) as [h2 bs].
    apply stays_then with (h1 := h1); [now apply mono_all|apply closed_nowhere|exact C1|].
    destruct S2 as [C2 G2]. split; [exact C2|]. cbn [fst snd] in *.
    destruct bs as [bs| | |]; cbn in *; auto. constructor; [|exact G2].
    eapply M; [|exact G1]. intros x Hx. now left.
Qed.

Definition inside_member (R : region) (e : bytes * (Z * ptr)) : Prop := inside R (snd (snd e)).
Lemma mono_member : mono inside_member.
Proof. intros R R' a H. now apply inside_mono. Qed.

Lemma make_stays R h c : closed h R -> Forall (inside R) (pointers c) ->
  stays inside R h (let '(h', p) := alloc h c in (h', Ok p)).
Proof. intros C Hc. destruct (alloc h c) as [h' p] eqn:Ea. now apply confined_alloc with (R := R) in Ea. Qed.

Lemma copy_f_stays f h v : stays inside nowhere h (h_copy_f f h v).
Proof.
  revert h v; induction f as [|f IH]; intros h v; cbn [h_copy_f].
  { apply (proj2 (proj2 (stays_err _ _ _ (closed_nowhere h)))). }
  assert (Hm : forall c, pointers c = [] -> stays inside nowhere h (let '(h', p) := alloc h c in (h', Ok p))).
  { intros c Hc. apply make_stays; [apply closed_nowhere|]. rewrite Hc. constructor. }
  destruct (deref h v) as [cc|]; [|now apply Hm].
  destruct cc; try (now apply Hm).
  - set (g := fun (h0 : heap) (e : bytes * (Z * ptr)) => let '(k, (id, c)) := e in
              let '(h', c') := h_copy_f f h0 c in (h', let* c' := c' in Ok (k, (id, c')))).
    assert (Hg : forall h a, stays inside_member nowhere h (g h a)).
    { intros h0 [k [id c]]. unfold g. pose proof (IH h0 c) as [C1 G1].
      destruct (h_copy_f f h0 c) as [h1 r]. split; [exact C1|]. cbn [fst snd] in *. destruct r; cbn in *; auto. }
    destruct (map_heap_stays inside_member g h kvs mono_member Hg) as [C1 G1].
    destruct (map_heap g h kvs) as [h1 r]. cbn [fst snd] in *.
    destruct r as [l'| | |]; try (split; cbn; auto; fail).
    eapply stays_then; [apply mono_inside|apply closed_nowhere|exact C1|].
    apply make_stays; [apply C1|]. cbn [pointers]. apply Forall_map. exact G1.
  - destruct (map_heap_stays inside (h_copy_f f) h l mono_inside IH) as [C1 G1].
    destruct (map_heap (h_copy_f f) h l) as [h1 r]. cbn [fst snd] in *.
    destruct r as [l'| | |]; try (split; cbn; auto; fail).
    eapply stays_then; [apply mono_inside|apply closed_nowhere|exact C1|].
    apply make_stays; [apply C1|exact G1].
Qed.
Lemma import_stays h v : stays inside nowhere h (h_import h v).
Proof.
  unfold h_import. destruct v; [apply copy_f_stays|]. split; cbn; auto. apply confined_refl, closed_nowhere.
Qed.

Fixpoint build_elems (h : heap) (l : list V) : heap * list ptr :=
  match l with
  | [] => (h, [])
  | x :: r => let '(h1, p) := h_build h x in let '(h2, ps) := build_elems h1 r in (h2, p :: ps)
  end.
Fixpoint build_members (h : heap) (l : list (bytes * (Z * V))) : heap * list (bytes * (Z * ptr)) :=
  match l with
  | [] => (h, [])
  | (k, (id, x)) :: r => let '(h1, p) := h_build h x in
                         let '(h2, ps) := build_members h1 r in (h2, (k, (id, p)) :: ps)
  end.
Lemma build_arr h l : h_build h (VArr l) = let '(h1, ps) := build_elems h l in alloc h1 (CArr ps).
Proof.
  cbn [h_build]. match goal with |- (let '(_, _) := ?F h l in _) = _ => assert (E : forall l h, F h l = build_elems h l) end.
  { clear. induction l as [|x r IH]; intros h; [reflexivity|]. cbn. destruct (h_build h x). now rewrite IH. }
  now rewrite E.
Qed.
Lemma build_obj h i l lo : h_build h (VObj i l lo) = let '(h1, ps) := build_members h l in alloc h1 (CObj i ps lo).
Proof.
  cbn [h_build]. match goal with |- (let '(_, _) := ?F h l in _) = _ => assert (E : forall l h, F h l = build_members h l) end.
  { clear. induction l as [|[k [id x]] r IH]; intros h; [reflexivity|]. cbn. destruct (h_build h x). now rewrite IH. }
  now rewrite E.
Qed.

(** The same with a plain result. *)
Definition fixed {A} (good : region -> A -> Prop) (h : heap) (o : heap * A) : Prop :=
  confined nowhere h (fst o) /\ good (grow nowhere h (fst o)) (snd o).
Lemma fixed_then {A} (good : region -> A -> Prop) h h1 (o : heap * A) :
  mono good -> confined nowhere h h1 -> stays good (grow nowhere h h1) h1 (fst o, Ok (snd o)) -> fixed good h o.
Proof.
  intros M C S. apply (stays_then good nowhere h h1 (fst o, Ok (snd o)) M (closed_nowhere h) C S).
Qed.
Lemma fixed_wider {A} (good : region -> A -> Prop) R h (o : heap * A) : mono good -> closed h R ->
  fixed good h o -> stays good R h (fst o, Ok (snd o)).
Proof. intros M C F. apply stays_wider; auto. Qed.

Lemma alloc_fixed h c : pointers c = [] -> fixed inside h (alloc h c).
Proof.
  intros Hc. destruct (alloc h c) as [h' p] eqn:Ea. apply confined_alloc with (R := nowhere) in Ea.
  - exact Ea.
  - apply closed_nowhere.
  - rewrite Hc. constructor.
Qed.
Lemma build_fixed h v : fixed inside h (h_build h v).
Proof.
  revert h; induction v as [| | |i kvs lo IH|l IH| | | |] using V_ind'; intros h;
    try (cbn [h_build]; now apply alloc_fixed).
  - rewrite build_obj.
    assert (Hb : fixed (all inside_member) h (build_members h kvs)).
    { revert h; induction kvs as [|[k [id x]] r IHr]; intros h; cbn [build_members].
      - split; [apply confined_refl, closed_nowhere|constructor].
      - inversion IH as [|? ? H1 H2]; subst. cbn in H1. destruct (H1 h) as [C1 G1].
        destruct (h_build h x) as [h1 p]. cbn [fst snd] in *.
        pose proof (IHr H2 h1) as F2. destruct (build_members h1 r) as [h2 ps].
        eapply fixed_wider with (R := grow nowhere h h1) in F2; [|apply mono_all, mono_member|apply C1].
        apply fixed_then with (h1 := h1); [apply mono_all, mono_member|exact C1|].
        destruct F2 as [C2 G2]. split; [exact C2|]. cbn [fst snd okp] in *. constructor; [|exact G2].
        cbn. eapply inside_grow. exact G1. }
    destruct Hb as [C1 G1]. destruct (build_members h kvs) as [h1 ps]. cbn [fst snd] in *.
    apply fixed_then with (h1 := h1); [apply mono_inside|exact C1|].
    apply (confined_alloc _ _ (CObj i ps lo)); [apply C1| |reflexivity]. cbn. apply Forall_map. exact G1.
  - rewrite build_arr.
    assert (Hb : fixed (all inside) h (build_elems h l)).
    { revert h; induction l as [|x r IHr]; intros h; cbn [build_elems].
      - split; [apply confined_refl, closed_nowhere|constructor].
      - inversion IH as [|? ? H1 H2]; subst. cbn in H1. destruct (H1 h) as [C1 G1].
        destruct (h_build h x) as [h1 p]. cbn [fst snd] in *.
        pose proof (IHr H2 h1) as F2. destruct (build_elems h1 r) as [h2 ps].
        eapply fixed_wider with (R := grow nowhere h h1) in F2; [|apply mono_all, mono_inside|apply C1].
        apply fixed_then with (h1 := h1); [apply mono_all, mono_inside|exact C1|].
        destruct F2 as [C2 G2]. split; [exact C2|]. cbn [fst snd okp] in *. constructor; [|exact G2].
        eapply inside_grow. exact G1. }
    destruct Hb as [C1 G1]. destruct (build_elems h l) as [h1 ps]. cbn [fst snd] in *.
    apply fixed_then with (h1 := h1); [apply mono_inside|exact C1|].
    apply (confined_alloc _ _ (CArr ps)); [apply C1|exact G1|reflexivity].
  - cbn. split; cbn; auto. apply confined_refl, closed_nowhere.
Qed.

(** *** SortArray and UnmarshalJSON *)
Lemma sort_stays W R h v less : closed h R -> inside R v -> stays inside R h (h_sort W h v less).
Proof.
  intros C Hv. unfold h_sort. destruct less as [f|]; [|apply stays_same; cbn; auto using mono_inside].
  destruct (deref h v) as [c|] eqn:Ed; [|now apply stays_err].
  destruct c; try (apply stays_same; cbn; auto using mono_inside).
  apply stays_store; cbn; auto. pose proof (closed_deref _ _ _ _ C Hv Ed) as Hc. cbn [pointers] in Hc.
  rewrite Forall_forall in Hc |- *. intros x Hx. apply Hc. eapply Permutation_in; [apply go_sort_perm|exact Hx].
Qed.
Lemma load_stays E R h v b : closed h R -> inside R v -> stays inside R h (h_load E h v b).
Proof.
  intros C Hv. unfold h_load. destruct (unmarshal E b) as [[w [e|]]|e| |]; try now apply stays_err.
  pose proof (fixed_wider inside R h (h_build h w) mono_inside C (build_fixed h w)) as S.
  destruct (h_build h w) as [h1 r]. destruct S as [C1 G1]. cbn [fst snd okp] in C1, G1.
  assert (Hp : forall o, okp (inside (grow R h h1)) o -> stays inside R h (h1, o)).
  { intros o Ho. split; [exact C1|exact Ho]. }
  destruct (deref h1 v) as [c0|]; [|apply Hp; exact I].
  destruct (deref h1 r) as [c|] eqn:Er; [|apply Hp; exact I].
  apply stays_then with (h1 := h1); [apply mono_inside|exact C|exact C1|].
  apply stays_store; cbn; auto; [apply C1|now apply inside_grow|].
  eapply closed_deref; [apply C1|exact G1|exact Er].
Qed.

(** *** Any call *)
Lemma perform_stays E W R h k : closed h R -> Forall (inside R) (operands k) -> stays inside R h (perform E W h k).
Proof.
  intros C H. destruct k; cbn [operands perform] in *;
    repeat match goal with H : Forall _ (_ :: _) |- _ => inversion H; clear H; subst end.
  - pose proof (fixed_wider inside R h (h_build h v) mono_inside C (build_fixed h v)) as S.
    destruct (h_build h v). exact S.
  - now apply get_stays.
  - now apply set_stays.
  - now apply insert_stays.
  - now apply append_stays.
  - destruct (delete_stays E W R caseless h v first others C) as [C1 _]; auto.
    destruct (h_delete E W caseless h v first others) as [h1 r]. split; [exact C1|]. destruct r; cbn; auto.
  - apply stays_wider; [apply mono_inside|exact C|apply import_stays].
  - now apply sort_stays.
  - now apply load_stays.
Qed.

(** *** Two parties *)
Definition apart (R Q : region) : Prop := forall a, R a -> Q a -> False.

Lemma frame_closed (R Q : region) h h' : apart R Q -> closed h Q -> confined R h h' -> closed h' Q.
Proof.
  intros D C (L & _ & F) a Ha. destruct (C a Ha) as (c & E1 & E2). exists c. split; [|exact E2].
  rewrite F; [exact E1|eapply closed_bound; eassumption|]. intros Hr. eapply D; eassumption.
Qed.
Lemma apart_grow R Q h h' : apart R Q -> closed h Q -> apart (grow R h h') Q.
Proof. intros D C a [Ha|Ha] Hq; [eauto|]. pose proof (closed_bound _ _ C _ Hq). lia. Qed.
Lemma apart_sym R Q : apart R Q -> apart Q R.
Proof. intros D a H1 H2. eauto. Qed.

Definition divided (R Q : region) (h : heap) (a b : list ptr) : Prop :=
  closed h R /\ closed h Q /\ apart R Q /\ Forall (inside R) a /\ Forall (inside Q) b.

Lemma divided_sym R Q h a b : divided R Q h a b -> divided Q R h b a.
Proof. intros (H1 & H2 & H3 & H4 & H5). repeat split; auto. now apply apart_sym. Qed.
Lemma divided_step E W R Q h a b k h1 r : divided R Q h a b -> incl (operands k) a ->
  perform E W h k = (h1, r) -> divided (grow R h h1) Q h1 (gained r ++ a) b.
Proof.
  intros (H1 & H2 & H3 & H4 & H5) Hi Ep.
  assert (Ho : Forall (inside R) (operands k)).
  { rewrite Forall_forall in H4 |- *. auto. }
  pose proof (perform_stays E W R h k H1 Ho) as [C G]. rewrite Ep in C, G. cbn [fst snd] in C, G.
  repeat split.
  - apply C.
  - eapply frame_closed; eauto.
  - now apply apart_grow.
  - apply Forall_app. split.
    + destruct r; cbn in *; auto.
    + eapply Forall_impl; [|exact H4]. intros p. apply inside_grow.
  - exact H5.
Qed.
Lemma divided_play E W h a b h2 a2 b2 : play E W h a b h2 a2 b2 ->
  forall R Q, divided R Q h a b -> exists R2 Q2, divided R2 Q2 h2 a2 b2.
Proof.
  induction 1; intros R Q D.
  - eauto.
  - eapply IHplay. eapply divided_step; eauto.
  - apply divided_sym in D. eapply IHplay. apply divided_sym. eapply divided_step; eauto.
Qed.

Lemma closed_reaches h R p q : closed h R -> inside R p -> reaches h p q -> inside R q.
Proof.
  intros C Hp Hr. induction Hr as [|p c q r E1 E2 Hr IH]; [exact Hp|]. apply IH.
  pose proof (closed_deref _ _ _ _ C Hp E1) as Hc. rewrite Forall_forall in Hc. now apply Hc.
Qed.

Lemma divided_frame E W R Q h a b k h1 r : divided R Q h a b -> incl (operands k) a ->
  perform E W h k = (h1, r) -> forall p, In p b -> forall x, reaches h p (Some x) -> nth_error h1 x = nth_error h x.
Proof.
  intros (H1 & H2 & H3 & H4 & H5) Hi Ep p Hp x Hr.
  assert (Ho : Forall (inside R) (operands k)).
  { rewrite Forall_forall in H4 |- *. auto. }
  pose proof (perform_stays E W R h k H1 Ho) as [(L & C & F) G]. rewrite Ep in *. cbn [fst snd] in *.
  rewrite Forall_forall in H5. pose proof (closed_reaches _ _ _ _ H2 (H5 _ Hp) Hr) as Hq. cbn in Hq.
  apply F; [eapply closed_bound; eassumption|]. intros Hx. eapply H3; eassumption.
Qed.

(** *** Reading *)
Scheme reads_mut := Induction for reads Sort Prop
with reads_elems_mut := Induction for reads_elems Sort Prop
with reads_members_mut := Induction for reads_members Sort Prop.
Combined Scheme reads_all_ind from reads_mut, reads_elems_mut, reads_members_mut.

Lemma reads_frame h h' :
  (forall p v s, reads h p v s -> (forall x, In x s -> nth_error h' x = nth_error h x) -> reads h' p v s) /\
  (forall l vs s, reads_elems h l vs s -> (forall x, In x s -> nth_error h' x = nth_error h x) -> reads_elems h' l vs s) /\
  (forall l vs s, reads_members h l vs s -> (forall x, In x s -> nth_error h' x = nth_error h x) -> reads_members h' l vs s).
Proof.
  apply reads_all_ind.
  - intros _. constructor.
  - intros a c v Ea Hl H. econstructor; [|exact Hl]. rewrite H; [exact Ea|now left].
  - intros a l vs s Ea Hr IH H. apply reads_arr with (l := l); [rewrite H; [exact Ea|now left]|].
    apply IH. intros x Hx. apply H. now right.
  - intros a i kvs lo xs s Ea Hr IH H. apply reads_obj with (kvs := kvs); [rewrite H; [exact Ea|now left]|].
    apply IH. intros x Hx. apply H. now right.
  - intros _. constructor.
  - intros p v s l vs t H1 IH1 H2 IH2 H. constructor; [apply IH1|apply IH2]; intros x Hx; apply H, in_or_app; auto.
  - intros _. constructor.
  - intros k id p v s l vs t H1 IH1 H2 IH2 H. constructor; [apply IH1|apply IH2]; intros x Hx; apply H, in_or_app; auto.
Qed.

Lemma reads_inside h R : closed h R ->
  (forall p v s, reads h p v s -> inside R p -> Forall R s) /\
  (forall l vs s, reads_elems h l vs s -> Forall (inside R) l -> Forall R s) /\
  (forall l vs s, reads_members h l vs s -> Forall (inside R) (map (fun e => snd (snd e)) l) -> Forall R s).
Proof.
  intros C. apply reads_all_ind.
  - constructor.
  - intros a c v Ea Hl H. constructor; auto.
  - intros a l vs s Ea Hr IH H. constructor; [exact H|]. apply IH.
    exact (closed_deref h R (Some a) _ C H Ea).
  - intros a i kvs lo xs s Ea Hr IH H. constructor; [exact H|]. apply IH.
    exact (closed_deref h R (Some a) _ C H Ea).
  - constructor.
  - intros p v s l vs t H1 IH1 H2 IH2 H. inversion H; subst. apply Forall_app. auto.
  - constructor.
  - intros k id p v s l vs t H1 IH1 H2 IH2 H. cbn in H. inversion H; subst. apply Forall_app. auto.
Qed.
