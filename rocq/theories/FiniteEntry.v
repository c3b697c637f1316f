(** Every object in memory keeps one entry per name. *)
From Verif Require Import Base Utf8 Float64 Value Scan Unmarshal Opt Marshal Access Path Edit ListLemmas ValueLemmas Heap SpecHeap
  SpecJson SpecValue SpecPath PathProof ContainProof HeapProof HeapCopy HeapGraph HeapClaims SpecFinite FiniteProof ParseMore.
Open Scope nat_scope.

Definition entry_ok (c : cell) : Prop := match c with CObj _ kvs _ => NoDup (akeys kvs) | _ => True end.
Definition tidy (h : heap) : Prop := Forall entry_ok h.
Lemma tidy_iff h : tidy h <-> one_entry h.
Proof.
  unfold tidy, one_entry. rewrite Forall_forall. split.
  - intros H a i kvs lo Ha. exact (H _ (nth_error_In _ _ Ha)).
  - intros H c Hc. apply In_nth_error in Hc as (a & Ha). destruct c; cbn; auto. exact (H _ _ _ _ Ha).
Qed.
Lemma tidy_store h p c : tidy h -> entry_ok c -> tidy (store h p c).
Proof.
  intros H Hc. destruct p as [a|]; [|exact H]. cbn. unfold tidy in *. revert a; induction H as [|x r Hx Hr IH]; intros [|a]; cbn; constructor; auto.
Qed.
Lemma tidy_alloc h c : tidy h -> entry_ok c -> tidy (h ++ [c]).
Proof. intros H Hc. apply Forall_app. auto. Qed.
Lemma tidy_cell h p c : tidy h -> deref h p = Some c -> entry_ok c.
Proof. intros H Hd. destruct p as [a|]; [|discriminate]. unfold tidy in H. rewrite Forall_forall in H. exact (H _ (nth_error_In _ _ Hd)). Qed.

Section Tidy.
Variable E : Env.
Variable W : World.

Lemma find_tidy cl h v p : tidy h -> tidy (fst (h_find E W cl h v p)).
Proof.
  intros H. unfold h_find. destruct (deref h v) as [c|] eqn:Ed; [|exact H]. destruct c; try exact H.
  destruct (any_to_string p); try exact H. destruct (find_key E W cl a kvs lower) as [lo r]. cbn. apply tidy_store; [exact H|]. exact (tidy_cell _ _ _ H Ed).
Qed.
Lemma get_f_tidy f cl : forall h v p r, tidy h -> tidy (fst (h_get_f E W f cl h v p r)).
Proof.
  induction f as [|f IH]; intros h v p r H; cbn [h_get_f]; [exact H|]. destruct (peel p r) as [[p' r']|]; [|exact H].
  pose proof (find_tidy cl h v p' H) as F. destruct (h_find E W cl h v p') as [h' c]. cbn [fst] in F.
  destruct c; try exact F. destruct r' as [|q r']; [exact F|]. now apply IH.
Qed.
Lemma get_tidy cl h v p r : tidy h -> tidy (fst (h_get E W cl h v p r)).
Proof. apply get_f_tidy. Qed.
Lemma get_array_tidy h v p r : tidy h -> tidy (fst (h_get_array E W h v p r)).
Proof.
  intros H. unfold h_get_array. pose proof (get_tidy false h v p r H) as G. destruct (h_get E W false h v p r) as [h' c]. exact G.
Qed.
Lemma set_to_object_tidy h v k c h' : tidy h -> h_set_to_object E h v k c = Some h' -> tidy h'.
Proof.
  intros H. unfold h_set_to_object. destruct (deref h v) as [d|] eqn:Ed; [|discriminate]. destruct d; try discriminate. intros [= <-].
  apply tidy_store; [exact H|]. apply NoDup_aset. exact (tidy_cell _ _ _ H Ed).
Qed.
Lemma insert_to_arr_tidy h v pos c h' : tidy h -> h_insert_to_arr h v pos c = Some h' -> tidy h'.
Proof.
  intros H. unfold h_insert_to_arr. destruct (deref h v) as [d|] eqn:Ed; [|discriminate]. destruct d; try discriminate. intros [= <-].
  now apply tidy_store.
Qed.
Lemma at_last_tidy h v c p : tidy h -> tidy (fst (h_at_last_param E h v c p)).
Proof.
  intros H. unfold h_at_last_param. destruct (deref h v) as [d|] eqn:Ed; [|exact H]. destruct d; try exact H.
  - destruct (any_to_string p); try exact H. destruct (h_set_to_object E h v a c) as [h'|] eqn:Es; [|exact H]. eapply set_to_object_tidy; eassumption.
  - destruct (any_to_int p); try exact H. destruct (set_at_index l c a); try exact H. now apply tidy_store.
Qed.
Lemma container_tidy h q : tidy h -> tidy (fst (h_new_container h q)).
Proof.
  intros H. unfold h_new_container, alloc. destruct (any_to_string q); [apply tidy_alloc; [exact H|constructor]|..];
    (destruct (any_to_int q); try exact H; destruct (_ =? _)%Z; [apply tidy_alloc; [exact H|exact I]|exact H]).
Qed.
Lemma set_f_tidy f : forall h v c p r, tidy h -> tidy (fst (h_set_f E f h v c p r)).
Proof.
  induction f as [|f IH]; intros h v c p r H; cbn [h_set_f]; [exact H|]. destruct (peel p r) as [[p' r']|]; [|exact H].
  destruct (h_uninitialized h v); [exact H|]. destruct (h_uninitialized h c); [exact H|].
  destruct r' as [|q r']; [now apply at_last_tidy|]. destruct (deref h v) as [d|] eqn:Ed; [|exact H]. destruct d; try exact H.
  - destruct (any_to_string p'); try exact H. destruct (alookup a kvs) as [[id ch]|]; [now apply IH|].
    pose proof (container_tidy h q H) as C. destruct (h_new_container h q) as [h1 n]. cbn [fst] in C. destruct n as [ch| | |]; try exact C.
    specialize (IH h1 ch c q r' C). destruct (h_set_f E f h1 ch c q r') as [h2 o]. cbn [fst] in IH. destruct o; try exact IH.
    destruct (h_set_to_object E h2 v a ch) as [h3|] eqn:Es; [|exact IH]. exact (set_to_object_tidy _ _ _ _ _ IH Es).
  - destruct (any_to_int p'); try exact H. destruct (pos_read _ _) as [n|]; [now apply IH|].
    pose proof (container_tidy h q H) as C. destruct (h_new_container h q) as [h1 n]. cbn [fst] in C. destruct n as [ch| | |]; try exact C.
    specialize (IH h1 ch c q r' C). destruct (h_set_f E f h1 ch c q r') as [h2 o]. cbn [fst] in IH. destruct o; try exact IH.
    destruct (h_insert_to_arr h2 v (@List.length ptr) ch) as [h3|] eqn:Es; [|exact IH]. exact (insert_to_arr_tidy _ _ _ _ _ IH Es).
Qed.
Lemma insert_f_tidy f af : forall h v c p r, tidy h -> tidy (fst (h_insert_f E W f af h v c p r)).
Proof.
  induction f as [|f IH]; intros h v c p r H; cbn [h_insert_f]; [exact H|]. destruct (peel p r) as [[p' r']|]; [|exact H].
  assert (G : tidy (fst (match r' with [] => h_insert_last af h v c p' | _ :: _ =>
    let '(h', t) := h_get_array E W h v p' (removelast r') in
    match t with Ok child => h_insert_f E W f af h' child c (last r' PNil) [] | e => (h', e) end end))).
  { destruct r' as [|q r'].
    - unfold h_insert_last. destruct (deref h v) as [d|]; [|exact H]. destruct d; try exact H. destruct (any_to_int p'); try exact H.
      destruct (if af then _ else _); [now apply tidy_store|exact H].
    - pose proof (get_array_tidy h v p' (removelast (q :: r')) H) as G. destruct (h_get_array E W h v p' (removelast (q :: r'))) as [h' t].
      cbn [fst] in G. destruct t; try exact G. now apply IH. }
  destruct (deref h v) as [[]|]; first [exact G|exact H].
Qed.
Lemma append_tidy front h v c ps : tidy h -> tidy (fst (h_append E W front h v c ps)).
Proof.
  intros H. unfold h_append. destruct (deref h v) as [cv|]; [|exact H].
  set (pos := if front then _ else _).
  assert (Ad : forall h a, tidy h -> tidy (fst (match h_insert_to_arr h a pos c with Some h' => (h', Ok c) | None => (h, Panic) end))).
  { intros h0 a H0. destruct (h_insert_to_arr h0 a pos c) as [h'|] eqn:Ei; [|exact H0]. exact (insert_to_arr_tidy _ _ _ _ _ H0 Ei). }
  assert (G : tidy (fst (match joint_params ps with
    | None => (h, Err ErrMultipleParam)
    | Some [] => match cv with CArr _ => match h_insert_to_arr h v pos c with Some h' => (h', Ok c) | None => (h, Panic) end | _ => (h, Err ErrNotArrayValue) end
    | Some (p :: r) =>
      let '(h', t) := h_get_array E W h v p r in
      match t with
      | Ok a => match h_insert_to_arr h' a pos c with Some h'' => (h'', Ok c) | None => (h', Panic) end
      | Err ErrNotFound =>
        let '(h1, a) := alloc h' (CArr []) in
        let '(h2, res) := h_set E h1 v a p r in
        match res with Ok a' => match h_insert_to_arr h2 a' pos c with Some h'' => (h'', Ok c) | None => (h2, Panic) end | e => (h2, e) end
      | e => (h', e)
      end
    end))).
  { destruct (joint_params ps) as [[|p r]|]; [destruct cv; try exact H; now apply Ad| |exact H].
    pose proof (get_array_tidy h v p r H) as G. destruct (h_get_array E W h v p r) as [h' t]. cbn [fst] in G.
    destruct t as [a|e| |]; [now apply Ad| |exact G|exact G]. destruct e; try exact G. unfold alloc.
    assert (G1 : tidy (h' ++ [CArr []])) by (apply tidy_alloc; [exact G|exact I]).
    pose proof (set_f_tidy (S (psum (p :: r))) _ v (Some (List.length h')) p r G1) as G2. fold (h_set E (h' ++ [CArr []]) v (Some (List.length h')) p r) in G2.
    destruct (h_set E (h' ++ [CArr []]) v (Some (List.length h')) p r) as [h2 o]. cbn [fst] in G2. destruct o; try exact G2. now apply Ad. }
  destruct cv; first [exact G|exact H].
Qed.
Lemma delete_f_tidy f cl : forall h v p r, tidy h -> tidy (fst (h_delete_f E W f cl h v p r)).
Proof.
  induction f as [|f IH]; intros h v p r H; cbn [h_delete_f]; [exact H|]. destruct (peel p r) as [[p' r']|]; [|exact H].
  destruct r' as [|q r'].
  - unfold h_delete_here. destruct (deref h v) as [d|] eqn:Ed; [|exact H]. destruct d; try exact H.
    + destruct (any_to_string p'); try exact H. pose proof (tidy_cell _ _ _ H Ed) as N. destruct (find_key E W cl a kvs lower) as [lo [k|]]; (apply tidy_store; [exact H|]); [|exact N].
      cbn. now apply NoDup_aremove.
    + destruct (any_to_int p'); try exact H. destruct (pos_read _ _); [now apply tidy_store|exact H].
  - pose proof (get_tidy cl h v p' (removelast (q :: r')) H) as G. destruct (h_get E W cl h v p' (removelast (q :: r'))) as [h' t]. cbn [fst] in G.
    destruct t; try exact G. now apply IH.
Qed.
Lemma map_heap_tidy {A B} (f : heap -> A -> heap * res B) l : (forall h a, tidy h -> tidy (fst (f h a))) -> forall h, tidy h -> tidy (fst (map_heap f h l)).
Proof.
  intros Hf. induction l as [|a r IH]; intros h H; cbn [map_heap]; [exact H|]. specialize (Hf h a H). destruct (f h a) as [h1 b]. cbn [fst] in Hf.
  destruct b; try exact Hf. specialize (IH h1 Hf). destruct (map_heap f h1 r). exact IH.
Qed.
Lemma map_heap_keys {A B} (f : heap -> bytes * A -> heap * res (bytes * B)) l :
  (forall h e h' e', f h e = (h', Ok e') -> fst e' = fst e) -> forall h h' l', map_heap f h l = (h', Ok l') -> akeys l' = akeys l.
Proof.
  intros Hf. induction l as [|a r IH]; intros h h' l'; cbn [map_heap]; [intros [= _ <-]; reflexivity|].
  destruct (f h a) as [h1 b] eqn:Eb. destruct b as [b| | |]; try discriminate. specialize (IH h1). destruct (map_heap f h1 r) as [h2 o]. destruct o; cbn [rbind]; try discriminate.
  intros [= _ <-]. unfold akeys. cbn. f_equal; [exact (Hf _ _ _ _ Eb)|exact (IH _ _ eq_refl)].
Qed.
Lemma copy_f_tidy f : forall h v, tidy h -> tidy (fst (h_copy_f f h v)).
Proof.
  induction f as [|f IH]; intros h v H; cbn [h_copy_f]; [exact H|].
  destruct (deref h v) as [c|] eqn:Ed; [|now apply tidy_alloc]. destruct c; try now apply tidy_alloc.
  - match goal with |- context [map_heap ?g h kvs] => set (gg := g) end.
    assert (G : tidy (fst (map_heap gg h kvs))).
    { apply map_heap_tidy; [|exact H]. intros h0 [k [id q]] H0. unfold gg. specialize (IH h0 q H0). destruct (h_copy_f f h0 q). exact IH. }
    assert (K : forall h' l', map_heap gg h kvs = (h', Ok l') -> akeys l' = akeys kvs).
    { apply map_heap_keys. intros h0 [k [id q]] h1 e'. unfold gg. destruct (h_copy_f f h0 q) as [h2 o]. destruct o; cbn; try discriminate. now intros [= _ <-]. }
    destruct (map_heap gg h kvs) as [h1 r]. cbn [fst] in G. destruct r; try exact G. apply tidy_alloc; [exact G|]. cbn. rewrite (K _ _ eq_refl). exact (tidy_cell _ _ _ H Ed).
  - assert (G : tidy (fst (map_heap (h_copy_f f) h l))) by (apply map_heap_tidy; [exact IH|exact H]).
    destruct (map_heap (h_copy_f f) h l) as [h1 r]. cbn [fst] in G. destruct r; try exact G. now apply tidy_alloc.
Qed.
Lemma build_tidy v : maps_ok v -> forall h, tidy h -> tidy (fst (h_build h v)).
Proof.
  induction v as [ |s|nn src|i kvs lo IH|l IH|b| | | ] using V_ind'; intros M h H; try (now apply tidy_alloc); try exact H.
  - rewrite build_obj. apply maps_ok_obj in M as (ND & MF).
    assert (G : tidy (fst (build_members h kvs)) /\ akeys (snd (build_members h kvs)) = akeys kvs).
    { clear ND. revert h H. induction kvs as [|[k [id x]] r IHr]; intros h H; cbn [build_members]; [split; [exact H|reflexivity]|].
      inversion IH as [|? ? IHx IHk]; subst. inversion MF as [|? ? Mx Mk]; subst. cbn in IHx, Mx. specialize (IHx Mx h H). destruct (h_build h x) as [h1 p]. cbn [fst] in IHx.
      specialize (IHr IHk Mk h1 IHx). destruct (build_members h1 r) as [h2 ps]. cbn [fst snd] in *. split; [apply IHr|]. unfold akeys in *. cbn. f_equal. apply IHr. }
    destruct (build_members h kvs) as [h1 ps]. cbn [fst snd] in G. destruct G as (G & K). unfold alloc. apply tidy_alloc; [exact G|]. cbn. rewrite K. exact ND.
  - rewrite build_arr. apply maps_ok_arr in M.
    assert (G : tidy (fst (build_elems h l))).
    { revert h H. induction l as [|x r IHr]; intros h H; cbn [build_elems]; [exact H|].
      inversion IH as [|? ? IHx IHk]; subst. inversion M as [|? ? Mx Mk]; subst. specialize (IHx Mx h H). destruct (h_build h x) as [h1 p]. cbn [fst] in IHx.
      specialize (IHr IHk Mk h1 IHx). destruct (build_elems h1 r) as [h2 ps]. exact IHr. }
    destruct (build_elems h l) as [h1 ps]. unfold alloc. now apply tidy_alloc.
Qed.

Lemma perform_tidy h k h1 r : one_entry h -> (forall v, k = KNew v -> maps_ok v) -> perform E W h k = (h1, r) -> one_entry h1.
Proof.
  rewrite <- !tidy_iff. intros H HN Hp. destruct k; cbn [perform] in Hp.
  - pose proof (build_tidy v (HN v eq_refl) h H) as G. destruct (h_build h v). now injection Hp as <- _.
  - pose proof (get_tidy caseless h v first others H) as G. now rewrite Hp in G.
  - pose proof (set_f_tidy (S (psum (first :: others))) h v c first others H) as G. unfold h_set in Hp. now rewrite Hp in G.
  - pose proof (insert_f_tidy (S (psum (first :: others))) after h v c first others H) as G. unfold h_insert in Hp. now rewrite Hp in G.
  - pose proof (append_tidy front h v c params H) as G. now rewrite Hp in G.
  - pose proof (delete_f_tidy (S (psum (first :: others))) caseless h v first others H) as G. unfold h_delete in Hp.
    destruct (h_delete_f E W (S (psum (first :: others))) caseless h v first others). now injection Hp as <- _.
  - unfold h_import in Hp. destruct v as [a|]; [|now injection Hp as <- _]. pose proof (copy_f_tidy (S (S (List.length h))) h (Some a) H) as G. now rewrite Hp in G.
  - unfold h_sort in Hp. destruct less; [|now injection Hp as <- _]. destruct (deref h v) as [d|]; [|now injection Hp as <- _].
    destruct d; injection Hp as <- _; try exact H. now apply tidy_store.
  - unfold h_load in Hp. destruct (C01_proof E b) as [(w & e & Eu & T) _]. rewrite Eu in Hp. destruct e as [e|]; [now injection Hp as <- _|].
    pose proof (build_tidy w (typed_maps _ T) h H) as G. destruct (h_build h w) as [h2 q]. cbn [fst] in G.
    destruct (deref h2 v); [|now injection Hp as <- _]. destruct (deref h2 q) eqn:Eq; injection Hp as <- _; [|exact G]. apply tidy_store; [exact G|]. exact (tidy_cell _ _ _ G Eq).
Qed.

Lemma careful_entry h a h2 a2 : careful E W h a h2 a2 -> one_entry h -> one_entry h2.
Proof. induction 1 as [h a|h a k h1 r h2 a2 Hi Hp HN HM Hc IH]; intros On; [exact On|]. apply IH. eapply perform_tidy; eassumption. Qed.

(** The documents held stay documents. *)
Lemma careful_shows h a h2 a2 : careful E W h a h2 a2 -> sound h -> one_entry h -> Forall (valid h) a ->
  Forall (fun p => exists t, shows h p t) a -> Forall (fun p => exists t, shows h2 p t) a2.
Proof.
  intros C So On V Sh.
  assert (B : Forall (bounded h) a) by (eapply Forall_impl; [|exact Sh]; intros p (t & Ht); exact (shows_bounded _ _ _ Ht)).
  destruct (careful_bounded E W _ _ _ _ C So V B) as (So2 & V2 & B2). pose proof (careful_entry _ _ _ _ C On) as On2.
  rewrite Forall_forall in *. intros p Hp. exact (proj1 (bounded_iff _ _ So2 On2 (V2 _ Hp)) (B2 _ Hp)).
Qed.
Lemma careful_new h2 a2 : careful E W [] [] h2 a2 -> Forall (fun p => exists t, shows h2 p t) a2.
Proof.
  intros C. apply (careful_shows _ _ _ _ C); [intros i c Hc; destruct i; discriminate|intros i ? ? ? Hc; destruct i; discriminate|constructor|constructor].
Qed.

(** The call that closes the document makes it endless. *)
Lemma put_endless h k h1 r c : sound h -> Forall (valid h) (operands k) -> put_in k = Some c -> bounded h (receiver k) -> bounded h c ->
  perform E W h k = (h1, r) -> closes h h1 c -> forall t, ~ shows h1 (receiver k) t.
Proof.
  intros So V Hk Bv Bc H C t Ht. exact (proj1 (proj1 (put_exactly E W h k h1 r c So V Hk Bv Bc H)) (shows_bounded _ _ _ Ht) C).
Qed.

(** Documents that have nothing in common. *)
Lemma put_apart h k h1 r c : sound h -> Forall (valid h) (operands k) -> put_in k = Some c -> bounded h c ->
  perform E W h k = (h1, r) -> (forall ks js x, walk h (receiver k) ks x -> walk h c js x -> False) -> ~ closes h h1 c.
Proof.
  intros So V Hk Bc H D C.
  assert (Vc : valid h c).
  { destruct k; cbn [put_in operands] in *; try discriminate; injection Hk as ->; inversion V as [|? ? V1 V2]; subst; inversion V2; subst; auto. }
  destruct (closes_where _ _ _ So Bc Vc C) as (NU & HA). destruct (put_effect E W _ _ _ _ _ So H Hk) as [U|(ks & x & e & q & ls & H1 & H2 & _)]; [exact (NU U)|].
  destruct (HA _ _ H2) as (e' & k' & q' & ls' & js & A & Hb & Hc & Hw). exact (D _ _ _ H1 Hw).
Qed.
Lemma put_kept h k h1 r c : sound h -> Forall (valid h) (operands k) -> put_in k = Some c -> bounded h (receiver k) -> bounded h c ->
  perform E W h k = (h1, r) -> (forall ks js x, walk h (receiver k) ks x -> walk h c js x -> False) ->
  forall p, valid h p -> bounded h p -> bounded h1 p.
Proof. intros So V Hk Bv Bc H D. exact (proj2 (put_exactly E W h k h1 r c So V Hk Bv Bc H) (put_apart _ _ _ _ _ So V Hk Bc H D)). Qed.

(** A value that contains the document is put into it. *)
Lemma put_done h k h1 r c z : sound h -> perform E W h k = (h1, r) -> r = Ok z -> put_in k = Some c ->
  exists ks x e q ls, walk h (receiver k) ks x /\ alters h h1 x e /\ bring_one e = Some q /\ new_chain (List.length h) h1 q ls c.
Proof.
  intros So H -> Hc. destruct k; cbn [perform put_in receiver] in *; try discriminate; injection Hc as ->.
  - pose proof (set_graph E W _ _ _ _ _ _ _ H) as G. cbn in G.
    destruct G as (_ & _ & ks & x & k & q0 & ls & H1 & H2 & H3 & _). exists ks, x, (EPut k q0), q0, ls. auto.
  - apply insert_graph in H. cbn in H. destruct H as (_ & ks & x & n & H1 & H2).
    exists ks, x, (EIns n c), c, []. repeat (split; [assumption || reflexivity|]). constructor.
  - apply append_graph in H; [|exact So]. cbn in H.
    destruct H as (_ & ks & x & H1 & [(n & H2)|(k & q0 & ls & H2 & _ & H3 & _)]).
    + exists ks, x, (EIns n c), c, []. repeat (split; [assumption || reflexivity|]). constructor.
    + exists ks, x, (EPut k q0), q0, ls. auto.
Qed.
Lemma put_inside h k h1 z c js : sound h -> perform E W h k = (h1, Ok z) -> put_in k = Some c -> walk h c js (receiver k) ->
  ~ bounded h1 (receiver k) /\ ~ bounded h1 c /\ forall t, ~ shows h1 (receiver k) t.
Proof.
  intros So H Hk Hw. destruct (put_done _ _ _ _ _ _ So H eq_refl Hk) as (ks & x & e & q & ls & H1 & H2 & H3 & H4).
  destruct (bring_some _ _ H3) as (k0 & Hb).
  assert (Hx : walk h c (js ++ ks) x) by (eapply HeapClaims.walk_app; eassumption).
  pose proof (put_unsafe _ _ _ _ _ _ _ _ _ _ _ H2 Hb H4 H1 Hx) as N1. pose proof (put_unsafe _ _ _ _ _ _ _ _ _ _ _ H2 Hb H4 Hx Hx) as N2.
  split; [exact N1|]. split; [exact N2|]. intros t Ht. exact (N1 (shows_bounded _ _ _ Ht)).
Qed.
End Tidy.
