(** Concrete documents for C63. *)
From Verif Require Import Base Utf8 Float64 Value Scan Unmarshal Opt Marshal Access Path Edit Heap SpecHeap SpecPath SpecFinite
  ListLemmas HeapCopy FiniteProof FiniteEntry ExampleWorld.
Open Scope Z_scope.

Definition doc : V :=
  VObj 2 [(bs "a", (1, VObj 1 [(bs "b", (1, VArr [new_int64 1; new_int64 2]))] None)); (bs "c", (2, VStr (bs "s")))] None.
Definition mem : heap := fst (h_build [] doc).

Lemma doc_maps : maps_ok doc.
Proof. cbn. repeat split; repeat constructor; cbn; intuition discriminate. Qed.
Lemma mem_sound : sound mem.
Proof. intros a c H. do 6 (destruct a as [|a]; [injection H as <-; repeat constructor|]). destruct a; discriminate. Qed.
Lemma mem_facts : sound mem /\ one_entry mem /\ shows mem (Some 5%nat) doc.
Proof.
  split; [exact mem_sound|]. split.
  - apply (perform_tidy env0 world1 [] (KNew doc) mem (Ok (Some 5%nat))); [intros [|]; discriminate| |reflexivity].
    intros v [= <-]. exact doc_maps.
  - pose proof (HeapCopy.build_shows [] doc) as (s & H & _). exists s. exact H.
Qed.

Ltac read := first
  [ eapply reads_leaf; [reflexivity|reflexivity]
  | eapply reads_arr; [reflexivity|read]
  | eapply reads_obj; [reflexivity|read]
  | apply reads_no_elem | apply reads_no_member
  | eapply reads_elem; [read|read]
  | eapply reads_member; [read|read] ].
Lemma shared_facts :
  let h1 := fst (perform env0 world1 mem (KSet (Some 5%nat) (Some 2%nat) (PStr (bs "d")) [])) in
  shows h1 (Some 5%nat) (VObj 3 [(bs "a", (1, VObj 1 [(bs "b", (1, VArr [new_int64 1; new_int64 2]))] None)); (bs "c", (2, VStr (bs "s")));
    (bs "d", (3, VArr [new_int64 1; new_int64 2]))] None) /\
  snd (h_get env0 world1 false h1 (Some 5%nat) (PStr (bs "d")) [PInt 1]) = Ok (Some 1%nat) /\
  snd (h_get env0 world1 false h1 (Some 5%nat) (PStr (bs "a")) [PStr (bs "b"); PInt 1]) = Ok (Some 1%nat).
Proof. cbv zeta. split; [|split; reflexivity]. eexists. read. Qed.

Lemma open_facts h k h1 r c t1 t2 t3 : sound h -> Forall (valid h) (operands k) -> put_in k = Some c ->
  shows h (receiver k) t1 -> shows h c t2 -> perform env0 world1 h k = (h1, r) -> shows h1 (receiver k) t3 -> ~ closes h h1 c.
Proof.
  intros So V Hk H1 H2 Hp H3. apply (proj1 (put_exactly env0 world1 h k h1 r c So V Hk (shows_bounded _ _ _ H1) (shows_bounded _ _ _ H2) Hp)).
  exact (shows_bounded _ _ _ H3).
Qed.

(** The object at 0, the array at 2, its element at 1. *)
Lemma series_facts : exists h2 a2, careful env0 world1 [] [] h2 a2 /\
  snd (h_get env0 world1 false h2 (Some 0%nat) (PStr (bs "x")) [PInt 0]) = Ok (Some 1%nat) /\
  snd (h_get env0 world1 false h2 (Some 0%nat) (PStr (bs "y")) [PInt 0]) = Ok (Some 1%nat) /\ In (Some 0%nat) a2.
Proof.
  eexists. eexists. split; [|split; [|split]].
  - eapply careful_call with (k := KNew (VObj 0 [] None)); [intros x []|reflexivity|discriminate|intros v [= <-]; cbn; repeat constructor|].
    eapply careful_call with (k := KNew (VArr [VNull])); [intros x []|reflexivity|discriminate|intros v [= <-]; cbn; repeat constructor|].
    eapply careful_call with (k := KSet (Some 0%nat) (Some 2%nat) (PStr (bs "x")) []);
      [intros x Hx; cbn in *; tauto|reflexivity| |discriminate|].
    { intros c [= <-]. eapply open_facts with (k := KSet (Some 0%nat) (Some 2%nat) (PStr (bs "x")) []);
        [|repeat constructor|reflexivity|eexists; read|eexists; read|reflexivity|eexists; read].
      intros a c H; do 3 (destruct a as [|a]; [injection H as <-; repeat constructor|]); destruct a; discriminate. }
    eapply careful_call with (k := KSet (Some 0%nat) (Some 2%nat) (PStr (bs "y")) []);
      [intros x Hx; cbn in *; tauto|reflexivity| |discriminate|constructor].
    { intros c [= <-]. eapply open_facts with (k := KSet (Some 0%nat) (Some 2%nat) (PStr (bs "y")) []);
        [|repeat constructor|reflexivity|eexists; read|eexists; read|reflexivity|eexists; read].
      intros a c H; do 3 (destruct a as [|a]; [injection H as <-; repeat constructor|]); destruct a; discriminate. }
  - reflexivity.
  - reflexivity.
  - cbn. tauto.
Qed.

(** *** The wrong condition *)
Lemma contains_refuted : exists (E : Env) (W : World) h k h1 r c, sound h /\ Forall (valid h) (operands k) /\
  put_in k = Some c /\ bounded h (receiver k) /\ bounded h c /\ perform E W h k = (h1, r) /\
  (forall js, ~ walk h c js (receiver k)) /\ ~ bounded h1 (receiver k).
Proof.
  exists env0, world1, mem, (KSet (Some 5%nat) (Some 3%nat) (PStr (bs "a")) [PStr (bs "x")]). eexists. eexists. exists (Some 3%nat).
  split; [exact mem_sound|]. split; [repeat constructor|]. split; [reflexivity|].
  split; [apply (shows_bounded _ _ doc), mem_facts|].
  split; [apply (shows_bounded _ _ (VObj 1 [(bs "b", (1, VArr [new_int64 1; new_int64 2]))] None)); eexists; read|].
  split; [reflexivity|]. split.
  - intros js Hw. cbn [receiver] in Hw.
    assert (L : forall p q k, step mem p k q -> p <> Some 5%nat -> q <> Some 5%nat).
    { intros p q k (c & Ec & Ek) Np ->. destruct p as [a|]; [|discriminate].
      assert (F : forall n, ~ nth_error [Some 0%nat; Some 1%nat] n = Some (Some 5%nat)) by (intros [|[|[|n]]]; discriminate).
      destruct a as [|[|[|[|[|a]]]]]; [| | | | |destruct a as [|a]; [now apply Np|destruct a; discriminate]];
        (injection Ec as <-; destruct k as [n|n]; try discriminate).
      - exact (F n Ek).
      - cbn in Ek. match type of Ek with context [if ?b then _ else _] => destruct b end; discriminate. }
    assert (L2 : forall p ks q, walk mem p ks q -> p <> Some 5%nat -> q <> Some 5%nat).
    { intros p ks q H. induction H as [p|p k z ks r Hs H IH]; intros Np; [exact Np|]. apply IH. exact (L _ _ _ Hs Np). }
    exact (L2 _ _ _ Hw ltac:(discriminate) eq_refl).
  - intros B.
    match type of B with bounded ?h _ => set (h1 := h) in * end.
    assert (S1 : forall n, exists ks, List.length ks = n /\ walk h1 (Some 3%nat) ks (Some 3%nat)).
    { induction n as [|n (ks & <- & Hw)]; [exists []; split; [reflexivity|constructor]|].
      exists (HKey (bs "x") :: ks). split; [reflexivity|]. econstructor; [|exact Hw]. eexists. split; reflexivity. }
    destruct B as (n & HB). destruct (S1 n) as (ks & L & Hw).
    assert (Hw' : walk h1 (receiver (KSet (Some 5%nat) (Some 3%nat) (PStr (bs "a")) [PStr (bs "x")])) (HKey (bs "a") :: ks) (Some 3%nat)).
    { econstructor; [|exact Hw]. eexists. split; reflexivity. }
    specialize (HB _ _ Hw'). cbn in HB. lia.
Qed.
