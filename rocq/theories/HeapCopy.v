(** Copies in memory: deepCopy, new documents, and the tree a document shows. *)
From Verif Require Import Base ListLemmas Float64 Value ValueLemmas Marshal Path Edit Heap SpecHeap HeapProof
  GoValue Import.
Local Open Scope nat_scope.

(** *** A document shows one tree *)
Lemma reads_fun h :
  (forall p v s, reads h p v s -> forall v' s', reads h p v' s' -> v = v' /\ s = s') /\
  (forall l vs s, reads_elems h l vs s -> forall vs' s', reads_elems h l vs' s' -> vs = vs' /\ s = s') /\
  (forall l vs s, reads_members h l vs s -> forall vs' s', reads_members h l vs' s' -> vs = vs' /\ s = s').
Proof.
  apply reads_all_ind.
  - intros v' s' H. inversion H. auto.
  - intros a c v Ea Hl v' s' H. destruct c; cbn in Hl; try contradiction; subst v;
      (inversion H as [|a' c' v0 Ea' Hl'|a' l' vs' t' Ea' Hr'|a' i' kvs' lo' xs' t' Ea' Hr']; subst;
       rewrite Ea in Ea'; try discriminate; injection Ea' as <-; cbn in Hl'; subst; auto).
  - intros a l vs s Ea Hr IH v' s' H.
    inversion H as [|a' c' v0 Ea' Hl'|a' l' vs' t' Ea' Hr'|a' i' kvs' lo' xs' t' Ea' Hr']; subst;
      rewrite Ea in Ea'; try discriminate; injection Ea' as <-; [contradiction|].
    destruct (IH _ _ Hr'). subst. auto.
  - intros a i kvs lo xs s Ea Hr IH v' s' H.
    inversion H as [|a' c' v0 Ea' Hl'|a' l' vs' t' Ea' Hr'|a' i' kvs' lo' xs' t' Ea' Hr']; subst;
      rewrite Ea in Ea'; try discriminate; [injection Ea' as <-; contradiction|injection Ea' as <- <- <-].
    destruct (IH _ _ Hr'). subst. auto.
  - intros v' s' H. inversion H. auto.
  - intros p v s l vs t H1 IH1 H2 IH2 vs' s' H. inversion H as [|p' v' s1 l' vs1 t1 K1 K2]; subst.
    destruct (IH1 _ _ K1), (IH2 _ _ K2). subst. auto.
  - intros v' s' H. inversion H. auto.
  - intros k id p v s l vs t H1 IH1 H2 IH2 vs' s' H. inversion H as [|k' id' p' v' s1 l' vs1 t1 K1 K2]; subst.
    destruct (IH1 _ _ K1), (IH2 _ _ K2). subst. auto.
Qed.

(** *** How deep a document is *)
Fixpoint height (v : V) : nat :=
  match v with
  | VArr l => S ((fix go (l : list V) : nat := match l with [] => 0 | x :: r => Nat.max (height x) (go r) end) l)
  | VObj _ kvs _ => S ((fix go (l : list (bytes * (Z * V))) : nat :=
                          match l with [] => 0 | (_, (_, x)) :: r => Nat.max (height x) (go r) end) kvs)
  | _ => 0
  end.
Definition height_elems := fix go (l : list V) : nat := match l with [] => 0 | x :: r => Nat.max (height x) (go r) end.
Definition height_members := fix go (l : list (bytes * (Z * V))) : nat :=
  match l with [] => 0 | (_, (_, x)) :: r => Nat.max (height x) (go r) end.

(** Addresses on the way down are all different. *)
Lemma reads_height h :
  (forall p v s, reads h p v s -> forall A, NoDup A ->
     Forall (fun a => a < List.length h /\ exists va sa, reads h (Some a) va sa /\ height v < height va) A ->
     height v + List.length A <= List.length h) /\
  (forall l vs s, reads_elems h l vs s -> forall A, NoDup A ->
     Forall (fun a => a < List.length h /\ exists va sa, reads h (Some a) va sa /\ height_elems vs < height va) A ->
     List.length A <= List.length h -> height_elems vs + List.length A <= List.length h) /\
  (forall l vs s, reads_members h l vs s -> forall A, NoDup A ->
     Forall (fun a => a < List.length h /\ exists va sa, reads h (Some a) va sa /\ height_members vs < height va) A ->
     List.length A <= List.length h -> height_members vs + List.length A <= List.length h).
Proof.
  assert (Hlen : forall (P : nat -> Prop) A, NoDup A -> Forall (fun a => a < List.length h /\ P a) A -> List.length A <= List.length h).
  { intros P A HA HF. rewrite <- (seq_length (List.length h) 0). apply NoDup_incl_length; [exact HA|].
    intros a Ha. rewrite Forall_forall in HF. apply in_seq. destruct (HF a Ha). lia. }
  assert (Hcons : forall a v s A, reads h (Some a) v s -> a < List.length h -> NoDup A ->
     Forall (fun a => a < List.length h /\ exists va sa, reads h (Some a) va sa /\ height v < height va) A ->
     NoDup (a :: A)).
  { intros a v s A Hr Ha HA HF. constructor; [|exact HA]. intros Hin. rewrite Forall_forall in HF.
    destruct (HF a Hin) as (_ & va & sa & Hr' & Hlt). destruct (proj1 (reads_fun h) _ _ _ Hr _ _ Hr'). subst. lia. }
  apply reads_all_ind.
  - intros A HA HF. exact (Hlen _ _ HA HF).
  - intros a c v Ea Hl A HA HF. pose proof (Hlen _ _ HA HF). destruct c; cbn in Hl; try contradiction; subst; cbn; lia.
  - intros a l vs s Ea Hr IH A HA HF. change (height (VArr vs)) with (S (height_elems vs)) in *.
    assert (Hal : a < List.length h) by (apply nth_error_Some; rewrite Ea; discriminate).
    assert (Hra : reads h (Some a) (VArr vs) (a :: s)) by (eapply reads_arr; eassumption).
    pose proof (Hcons a _ _ A Hra Hal HA HF) as HA'.
    assert (HF' : Forall (fun a => a < List.length h /\ exists va sa, reads h (Some a) va sa /\ height_elems vs < height va) (a :: A)).
    { constructor.
      - split; [exact Hal|]. exists (VArr vs), (a :: s). split; [exact Hra|]. change (height (VArr vs)) with (S (height_elems vs)). lia.
      - eapply Forall_impl; [|exact HF]. intros b (Hb & va & sa & Hb1 & Hb2). split; [exact Hb|]. exists va, sa. split; [exact Hb1|lia]. }
    specialize (IH (a :: A) HA' HF' (Hlen _ _ HA' HF')). cbn [List.length] in IH. lia.
  - intros a i kvs lo xs s Ea Hr IH A HA HF. change (height (VObj i xs lo)) with (S (height_members xs)) in *.
    assert (Hal : a < List.length h) by (apply nth_error_Some; rewrite Ea; discriminate).
    assert (Hra : reads h (Some a) (VObj i xs lo) (a :: s)) by (eapply reads_obj; eassumption).
    pose proof (Hcons a _ _ A Hra Hal HA HF) as HA'.
    assert (HF' : Forall (fun a => a < List.length h /\ exists va sa, reads h (Some a) va sa /\ height_members xs < height va) (a :: A)).
    { constructor.
      - split; [exact Hal|]. exists (VObj i xs lo), (a :: s). split; [exact Hra|]. change (height (VObj i xs lo)) with (S (height_members xs)). lia.
      - eapply Forall_impl; [|exact HF]. intros b (Hb & va & sa & Hb1 & Hb2). split; [exact Hb|]. exists va, sa. split; [exact Hb1|lia]. }
    specialize (IH (a :: A) HA' HF' (Hlen _ _ HA' HF')). cbn [List.length] in IH. lia.
  - intros A HA HF HL. cbn. exact HL.
  - intros p v s l vs t H1 IH1 H2 IH2 A HA HF HL. cbn [height_elems]. fold height_elems. fold (height_elems vs).
    assert (height v + List.length A <= List.length h).
    { apply IH1; [exact HA|]. eapply Forall_impl; [|exact HF]. intros b (Hb & va & sa & Hb1 & Hb2).
      split; [exact Hb|]. exists va, sa. split; [exact Hb1|]. change (height_elems (v :: vs)) with (Nat.max (height v) (height_elems vs)) in Hb2. lia. }
    assert (height_elems vs + List.length A <= List.length h).
    { apply IH2; [exact HA| |exact HL]. eapply Forall_impl; [|exact HF]. intros b (Hb & va & sa & Hb1 & Hb2).
      split; [exact Hb|]. exists va, sa. split; [exact Hb1|]. change (height_elems (v :: vs)) with (Nat.max (height v) (height_elems vs)) in Hb2. lia. }
    change (height_elems (v :: vs)) with (Nat.max (height v) (height_elems vs)). lia.
  - intros A HA HF HL. cbn. exact HL.
  - intros k id p v s l vs t H1 IH1 H2 IH2 A HA HF HL.
    change (height_members ((k, (id, v)) :: vs)) with (Nat.max (height v) (height_members vs)) in *.
    assert (height v + List.length A <= List.length h).
    { apply IH1; [exact HA|]. eapply Forall_impl; [|exact HF]. intros b (Hb & va & sa & Hb1 & Hb2).
      split; [exact Hb|]. exists va, sa. split; [exact Hb1|]. lia. }
    assert (height_members vs + List.length A <= List.length h).
    { apply IH2; [exact HA| |exact HL]. eapply Forall_impl; [|exact HF]. intros b (Hb & va & sa & Hb1 & Hb2).
      split; [exact Hb|]. exists va, sa. split; [exact Hb1|]. lia. }
    lia.
Qed.
Lemma shows_height h p v : shows h p v -> height v <= List.length h.
Proof.
  intros [s H]. pose proof (proj1 (reads_height h) _ _ _ H [] (NoDup_nil _) (Forall_nil _)) as L. cbn in L. lia.
Qed.

(** *** Copies *)

(** The document at [q] is new, unshared, and shows [v]. *)
Definition fresh_tree (n : nat) (h' : heap) (q : ptr) (v : V) : Prop :=
  exists s, reads h' q v s /\ NoDup s /\ Forall (fun a => n <= a < List.length h') s.
Definition fresh_elems (n : nat) (h' : heap) (l : list ptr) (vs : list V) : Prop :=
  exists s, reads_elems h' l vs s /\ NoDup s /\ Forall (fun a => n <= a < List.length h') s.
Definition fresh_members (n : nat) (h' : heap) l vs : Prop :=
  exists s, reads_members h' l vs s /\ NoDup s /\ Forall (fun a => n <= a < List.length h') s.

Lemma reads_later h h' p v s : confined nowhere h h' -> reads h p v s -> Forall (fun a => a < List.length h) s -> reads h' p v s.
Proof.
  intros (L & _ & F) H Hs. apply (proj1 (reads_frame h h') _ _ _ H). intros x Hx. rewrite Forall_forall in Hs.
  apply F; [now apply Hs|auto].
Qed.
Lemma reads_bound h :
  (forall p v s, reads h p v s -> Forall (fun a => a < List.length h) s) /\
  (forall l vs s, reads_elems h l vs s -> Forall (fun a => a < List.length h) s) /\
  (forall l vs s, reads_members h l vs s -> Forall (fun a => a < List.length h) s).
Proof.
  apply reads_all_ind; intros; try constructor; auto; try (apply Forall_app; auto; fail);
    apply nth_error_Some; match goal with H : nth_error _ _ = Some _ |- _ => rewrite H; discriminate end.
Qed.

Lemma alloc_tree n h c v : n <= List.length h -> leaf c v -> fresh_tree n (h ++ [c]) (Some (List.length h)) v.
Proof.
  intros L Hl. exists [List.length h]. split; [|split].
  - apply reads_leaf with (c := c); [|exact Hl]. rewrite nth_error_app2, Nat.sub_diag by lia. reflexivity.
  - constructor; [intros []|constructor].
  - constructor; [|constructor]. rewrite app_length. cbn. lia.
Qed.
Lemma nth_error_last {A} (l : list A) x : nth_error (l ++ [x]) (List.length l) = Some x.
Proof. rewrite nth_error_app2, Nat.sub_diag by lia. reflexivity. Qed.
Lemma alloc_arr n h l vs : n <= List.length h -> fresh_elems n h l vs ->
  fresh_tree n (h ++ [CArr l]) (Some (List.length h)) (VArr vs).
Proof.
  intros L (s & H1 & H2 & H3). exists (List.length h :: s). split; [|split].
  - apply reads_arr with (l := l); [apply nth_error_last|].
    apply (proj1 (proj2 (reads_frame h _)) _ _ _ H1). intros x Hx. rewrite Forall_forall in H3.
    rewrite nth_error_app1; [reflexivity|]. now apply H3.
  - constructor; [|exact H2]. intros Hin. rewrite Forall_forall in H3. apply H3 in Hin. lia.
  - constructor; [rewrite app_length; cbn; lia|]. eapply Forall_impl; [|exact H3]. intros a. rewrite app_length. cbn. lia.
Qed.
Lemma alloc_obj n h i l lo vs : n <= List.length h -> fresh_members n h l vs ->
  fresh_tree n (h ++ [CObj i l lo]) (Some (List.length h)) (VObj i vs lo).
Proof.
  intros L (s & H1 & H2 & H3). exists (List.length h :: s). split; [|split].
  - apply reads_obj with (kvs := l); [apply nth_error_last|].
    apply (proj2 (proj2 (reads_frame h _)) _ _ _ H1). intros x Hx. rewrite Forall_forall in H3.
    rewrite nth_error_app1; [reflexivity|]. now apply H3.
  - constructor; [|exact H2]. intros Hin. rewrite Forall_forall in H3. apply H3 in Hin. lia.
  - constructor; [rewrite app_length; cbn; lia|]. eapply Forall_impl; [|exact H3]. intros a. rewrite app_length. cbn. lia.
Qed.
Lemma NoDup_two n m k (s t : list nat) : NoDup s -> NoDup t -> Forall (fun a => n <= a < m) s ->
  Forall (fun a => m <= a < k) t -> NoDup (s ++ t).
Proof.
  intros Hs Ht Fs Ft. rewrite Forall_forall in Fs, Ft. induction s as [|x s IH]; [exact Ht|]. cbn.
  inversion Hs; subst. constructor.
  - intros Hin. apply in_app_or in Hin. destruct Hin as [Hin|Hin]; [auto|].
    specialize (Fs x (or_introl eq_refl)). specialize (Ft x Hin). lia.
  - apply IH; auto. intros y Hy. apply Fs. now right.
Qed.
Lemma fresh_cons n h1 h2 p v l vs : n <= List.length h1 -> confined nowhere h1 h2 ->
  fresh_tree n h1 p v -> fresh_elems (List.length h1) h2 l vs -> fresh_elems n h2 (p :: l) (v :: vs).
Proof.
  intros L C (s & H1 & H2 & H3) (t & K1 & K2 & K3). exists (s ++ t). split; [|split].
  - constructor; [|exact K1]. eapply reads_later; eauto. eapply Forall_impl; [|exact H3]. cbn. lia.
  - eapply NoDup_two; eauto.
  - destruct C as (L' & _). apply Forall_app. split; eapply Forall_impl; try eassumption; cbn; lia.
Qed.
Lemma fresh_cons_member n h1 h2 k id p v l vs : n <= List.length h1 -> confined nowhere h1 h2 ->
  fresh_tree n h1 p v -> fresh_members (List.length h1) h2 l vs -> fresh_members n h2 ((k, (id, p)) :: l) ((k, (id, v)) :: vs).
Proof.
  intros L C (s & H1 & H2 & H3) (t & K1 & K2 & K3). exists (s ++ t). split; [|split].
  - constructor; [|exact K1]. eapply reads_later; eauto. eapply Forall_impl; [|exact H3]. cbn. lia.
  - eapply NoDup_two; eauto.
  - destruct C as (L' & _). apply Forall_app. split; eapply Forall_impl; try eassumption; cbn; lia.
Qed.

Definition is_leaf (v : V) : Prop := match v with VNil | VArr _ | VObj _ _ _ => False | _ => True end.
Lemma reads_leaf_inv h p v s : is_leaf v -> reads h p v s ->
  exists a c, p = Some a /\ nth_error h a = Some c /\ leaf c v.
Proof. intros Hl H. destruct H; try contradiction. eauto. Qed.

Lemma copy_shows f h p v s : reads h p v s -> height v < f ->
  exists h' q, h_copy_f f h p = (h', Ok q) /\ fresh_tree (List.length h) h' q (deep_copy v).
Proof.
  revert f h p s; induction v as [| | |i kvs lo IH|l IH| | | |] using V_ind'; intros f h p ss Hr Hf;
    (destruct f as [|f]; [lia|]); cbn [h_copy_f deep_copy];
    try (apply reads_leaf_inv in Hr; [|exact I]; destruct Hr as (a & c & -> & Ea & Hl);
         destruct c; cbn in Hl; try contradiction; try discriminate; try (injection Hl as ?; subst);
         cbn [deref]; rewrite Ea; unfold alloc; do 2 eexists; (split; [reflexivity|]); now apply alloc_tree).
  - inversion Hr as [|a c v Ea Hl| |a i' kvs' lo' xs s' Ea Hm]; subst; [destruct c; cbn in Hl; try contradiction; discriminate|].
    cbn [deref]. rewrite Ea. clear Hr Ea.
    change (height (VObj i kvs lo)) with (S (height_members kvs)) in Hf. apply Nat.succ_lt_mono in Hf.
    set (g := fun (h0 : heap) (e : bytes * (Z * ptr)) => let '(k, (id, c)) := e in
              let '(h', c') := h_copy_f f h0 c in (h', let* c' := c' in Ok (k, (id, c')))).
    assert (Hg : forall h a, stays inside_member nowhere h (g h a)).
    { intros h0 [k [id c]]. unfold g. pose proof (copy_f_stays f h0 c) as [C1 G1].
      destruct (h_copy_f f h0 c) as [h1 r]. split; [exact C1|]. cbn [fst snd] in *. destruct r; cbn in *; auto. }
    assert (Hl : exists h1 l', map_heap g h kvs' = (h1, Ok l') /\
       fresh_members (List.length h) h1 l' (map (fun e : kv => let '(k, (id, x)) := e in (k, (id, deep_copy x))) kvs)).
    { revert h kvs' s' Hm; induction kvs as [|[k [id x]] r IHr]; intros h kvs' s' Hm; inversion Hm as [|k0 id0 p0 v0 s0 l0 vs0 t0 H4 H6]; subst; cbn [map_heap map].
      - do 2 eexists. split; [reflexivity|]. exists []. repeat constructor.
      - change (height_members ((k, (id, x)) :: r)) with (Nat.max (height x) (height_members r)) in Hf.
        inversion IH as [|? ? IHx IHk]; subst. cbn in IHx.
        destruct (IHx f h p0 s0 H4) as (h1 & q & Eq & Fq); [lia|].
        cbn [g]. rewrite Eq. cbn [rbind].
        pose proof (copy_f_stays f h p0) as [C1 _]. rewrite Eq in C1. cbn [fst] in C1.
        assert (Hm' : reads_members h1 l0 r t0).
        { apply (proj2 (proj2 (reads_frame h h1)) _ _ _ H6). intros y Hy.
          pose proof (proj2 (proj2 (reads_bound h)) _ _ _ H6) as Hb. rewrite Forall_forall in Hb.
          apply C1; [now apply Hb|intros []]. }
        destruct (IHr IHk) with (h := h1) (kvs' := l0) (s' := t0) as (h2 & l' & El & Fl); [lia|exact Hm'|].
        rewrite El. cbn [rbind]. do 2 eexists. split; [reflexivity|].
        eapply fresh_cons_member; [apply C1| |exact Fq|exact Fl].
        pose proof (map_heap_stays inside_member g h1 l0 mono_member Hg) as [C2 _]. rewrite El in C2. exact C2. }
    destruct Hl as (h1 & l' & El & Fl). rewrite El. unfold alloc. do 2 eexists. split; [reflexivity|].
    apply alloc_obj; [|exact Fl].
    pose proof (map_heap_stays inside_member g h kvs' mono_member Hg) as [C2 _]. rewrite El in C2. apply C2.
  - inversion Hr as [|a c v Ea Hl|a l0 vs s' Ea Hm|]; subst; [destruct c; cbn in Hl; try contradiction; discriminate|].
    cbn [deref]. rewrite Ea. clear Hr Ea.
    change (height (VArr l)) with (S (height_elems l)) in Hf. apply Nat.succ_lt_mono in Hf.
    assert (Hl : exists h1 l', map_heap (h_copy_f f) h l0 = (h1, Ok l') /\
       fresh_elems (List.length h) h1 l' (map deep_copy l)).
    { revert h l0 s' Hm; induction l as [|x r IHr]; intros h ll s' Hm; inversion Hm as [|p0 v0 s0 l0 vs0 t0 H2 H4]; subst; cbn [map_heap map].
      - do 2 eexists. split; [reflexivity|]. exists []. repeat constructor.
      - change (height_elems (x :: r)) with (Nat.max (height x) (height_elems r)) in Hf.
        inversion IH as [|? ? IHx IHk]; subst.
        destruct (IHx f h p0 s0 H2) as (h1 & q & Eq & Fq); [lia|].
        rewrite Eq. cbn [rbind].
        pose proof (copy_f_stays f h p0) as [C1 _]. rewrite Eq in C1. cbn [fst] in C1.
        assert (Hm' : reads_elems h1 l0 r t0).
        { apply (proj1 (proj2 (reads_frame h h1)) _ _ _ H4). intros y Hy.
          pose proof (proj1 (proj2 (reads_bound h)) _ _ _ H4) as Hb. rewrite Forall_forall in Hb.
          apply C1; [now apply Hb|intros []]. }
        destruct (IHr IHk) with (h := h1) (l0 := l0) (s' := t0) as (h2 & l' & El & Fl); [lia|exact Hm'|].
        rewrite El. cbn [rbind]. do 2 eexists. split; [reflexivity|].
        eapply fresh_cons; [apply C1| |exact Fq|exact Fl].
        pose proof (map_heap_stays inside (h_copy_f f) h1 l0 mono_inside (copy_f_stays f)) as [C2 _]. rewrite El in C2. exact C2. }
    destruct Hl as (h1 & l' & El & Fl). rewrite El. unfold alloc. do 2 eexists. split; [reflexivity|].
    apply alloc_arr; [|exact Fl].
    pose proof (map_heap_stays inside (h_copy_f f) h l0 mono_inside (copy_f_stays f)) as [C2 _]. rewrite El in C2. apply C2.
  - inversion Hr as [|a c v Ea Hl| |]; subst; [|destruct c; cbn in Hl; try contradiction; discriminate].
    cbn [deref]. unfold alloc. do 2 eexists; split; [reflexivity|]. now apply alloc_tree.
Qed.

Lemma import_shows h a v : shows h (Some a) v ->
  exists h' q, h_import h (Some a) = (h', Ok q) /\ fresh_tree (List.length h) h' q (deep_copy v).
Proof.
  intros H. pose proof (shows_height _ _ _ H) as L. destruct H as [s H].
  unfold h_import. apply copy_shows with (s := s); [exact H|lia].
Qed.

Lemma build_shows h v : let '(h', p) := h_build h v in fresh_tree (List.length h) h' p v.
Proof.
  revert h; induction v as [| | |i kvs lo IH|l IH| | | |] using V_ind'; intros h;
    try (cbn [h_build]; unfold alloc; now apply alloc_tree).
  - rewrite build_obj.
    assert (Hl : let '(h1, ps) := build_members h kvs in
                 List.length h <= List.length h1 /\ confined nowhere h h1 /\ fresh_members (List.length h) h1 ps kvs).
    { revert h; induction kvs as [|[k [id x]] r IHr]; intros h; cbn [build_members].
      - split; [lia|]. split; [apply confined_refl, closed_nowhere|]. exists []. repeat constructor.
      - inversion IH as [|? ? IHx IHk]; subst. cbn in IHx. specialize (IHx h).
        destruct (build_fixed h x) as [C1 _]. destruct (h_build h x) as [h1 p]. cbn [fst] in C1.
        specialize (IHr IHk h1). destruct (build_members h1 r) as [h2 ps]. destruct IHr as (L2 & C2 & F2).
        destruct C1 as (L1 & C1). split; [lia|]. split.
        + eapply confined_trans; [intros a []|split; [exact L1|exact C1]|]. apply confined_wider; [apply C1|exact C2].
        + eapply fresh_cons_member; eauto. }
    destruct (build_members h kvs) as [h1 ps]. destruct Hl as (L & C & F). cbn [alloc]. unfold alloc. now apply alloc_obj.
  - rewrite build_arr.
    assert (Hl : let '(h1, ps) := build_elems h l in
                 List.length h <= List.length h1 /\ confined nowhere h h1 /\ fresh_elems (List.length h) h1 ps l).
    { revert h; induction l as [|x r IHr]; intros h; cbn [build_elems].
      - split; [lia|]. split; [apply confined_refl, closed_nowhere|]. exists []. repeat constructor.
      - inversion IH as [|? ? IHx IHk]; subst. specialize (IHx h).
        destruct (build_fixed h x) as [C1 _]. destruct (h_build h x) as [h1 p]. cbn [fst] in C1.
        specialize (IHr IHk h1). destruct (build_elems h1 r) as [h2 ps]. destruct IHr as (L2 & C2 & F2).
        destruct C1 as (L1 & C1). split; [lia|]. split.
        + eapply confined_trans; [intros a []|split; [exact L1|exact C1]|]. apply confined_wider; [apply C1|exact C2].
        + eapply fresh_cons; eauto. }
    destruct (build_elems h l) as [h1 ps]. destruct Hl as (L & C & F). unfold alloc. now apply alloc_arr.
  - cbn. exists []. repeat constructor.
Qed.
