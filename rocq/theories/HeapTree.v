(** The functions on trees (Path.v, Edit.v) and the functions on memory (Heap.v) do
    the same as long as nothing is shared. *)
From Verif Require Import Base ListLemmas Utf8 Float64 Value ValueLemmas Scan Opt Marshal Access Path Edit Heap SpecHeap HeapProof
  GoValue Import ImportProof HeapCopy HeapGraph.
Local Open Scope nat_scope.

(** *** Where a document lies *)

(** [a] is one of [S], of [Y], or new. *)
Definition within (S Y : list nat) (n a : nat) : Prop := In a S \/ In a Y \/ n <= a.
Definition spare (S Y : list nat) (n : nat) : Prop := forall a, In a S -> ~ In a Y /\ a < n.

Lemma merge s1 t s2 t2 Y n : NoDup (s1 ++ t ++ s2) -> spare (s1 ++ t ++ s2) Y n -> NoDup t2 -> Forall (within t Y n) t2 ->
  NoDup (s1 ++ t2 ++ s2) /\ Forall (within (s1 ++ t ++ s2) Y n) (s1 ++ t2 ++ s2).
Proof.
  intros N Sp N2 F. rewrite Forall_forall in F.
  apply NoDup_app_split in N as (N1 & N & D1). apply NoDup_app_split in N as (Nt & Ns & D2).
  assert (X : forall a, In a (s1 ++ t ++ s2) -> ~ In a t -> ~ In a t2).
  { intros a Ha Ht Ha2. destruct (Sp a Ha) as [H1 H2]. destruct (F a Ha2) as [H|[H|H]]; [auto|auto|lia]. }
  split.
  - apply NoDup_app_split. split; [exact N1|]. split.
    + apply NoDup_app_split. split; [exact N2|]. split; [exact Ns|]. intros a Ha Hs.
      apply (X a); [rewrite !in_app_iff; auto| |exact Ha]. intros Ht. exact (D2 a Ht Hs).
    + intros a Ha Hb. apply in_app_iff in Hb. destruct Hb as [Hb|Hb].
      * apply (X a); [rewrite !in_app_iff; auto| |exact Hb]. intros Ht. apply (D1 a Ha). apply in_app_iff. auto.
      * apply (D1 a Ha). apply in_app_iff. auto.
  - apply Forall_forall. intros a Ha. rewrite !in_app_iff in Ha. unfold within. rewrite !in_app_iff.
    destruct Ha as [Ha|[Ha|Ha]]; auto. destruct (F a Ha) as [H|[H|H]]; auto.
Qed.

(** *** Splitting the children *)
Lemma elems_split h l vs s : reads_elems h l vs s -> forall n p, nth_error l n = Some p ->
  exists l1 l2 vs1 vs2 s1 t s2 u, l = l1 ++ p :: l2 /\ vs = vs1 ++ u :: vs2 /\ s = s1 ++ t ++ s2 /\
    List.length l1 = n /\ List.length vs1 = n /\
    reads_elems h l1 vs1 s1 /\ reads h p u t /\ reads_elems h l2 vs2 s2.
Proof.
  induction 1 as [|p v s l vs t H1 H2 IH]; intros n q Hn; [destruct n; discriminate|]. destruct n as [|n]; cbn in Hn.
  - injection Hn as <-. exists [], l, [], vs, [], s, t, v. repeat split; auto. constructor.
  - destruct (IH _ _ Hn) as (l1 & l2 & vs1 & vs2 & s1 & t' & s2 & u & -> & -> & -> & L1 & L2 & R1 & R2 & R3).
    exists (p :: l1), l2, (v :: vs1), vs2, (s ++ s1), t', s2, u. repeat split; cbn; auto.
    + now rewrite <- app_assoc.
    + now constructor.
Qed.
Lemma elems_app h l1 vs1 s1 l2 vs2 s2 : reads_elems h l1 vs1 s1 -> reads_elems h l2 vs2 s2 ->
  reads_elems h (l1 ++ l2) (vs1 ++ vs2) (s1 ++ s2).
Proof. induction 1; cbn; auto. intros H'. rewrite <- app_assoc. constructor; auto. Qed.
Lemma elems_cut h l vs s : reads_elems h l vs s -> forall n, exists s1 s2, s = s1 ++ s2 /\
  reads_elems h (firstn n l) (firstn n vs) s1 /\ reads_elems h (skipn n l) (skipn n vs) s2.
Proof.
  induction 1 as [|p v s l vs t H1 H2 IH]; intros n.
  - exists [], []. rewrite !firstn_nil, !skipn_nil. repeat split; constructor.
  - destruct n as [|n]; [exists [], (s ++ t); repeat split; constructor; auto|].
    destruct (IH n) as (s1 & s2 & -> & R1 & R2). exists (s ++ s1), s2. cbn. repeat split; auto; [now rewrite <- app_assoc|now constructor].
Qed.
Lemma elems_length h l vs s : reads_elems h l vs s -> List.length vs = List.length l.
Proof. induction 1; cbn; auto. Qed.
Lemma members_split h l vs s : reads_members h l vs s -> forall k id p, alookup k l = Some (id, p) ->
  exists l1 l2 vs1 vs2 s1 t s2 u, l = l1 ++ (k, (id, p)) :: l2 /\ vs = vs1 ++ (k, (id, u)) :: vs2 /\ s = s1 ++ t ++ s2 /\
    ~ In k (akeys l1) /\ ~ In k (akeys vs1) /\
    reads_members h l1 vs1 s1 /\ reads h p u t /\ reads_members h l2 vs2 s2.
Proof.
  induction 1 as [|k0 id0 p v s l vs t H1 H2 IH]; intros k id q Hn; [discriminate|]. cbn in Hn.
  destruct (beqb_spec k k0) as [->|N].
  - injection Hn as -> ->. exists [], l, [], vs, [], s, t, v. repeat split; auto. constructor.
  - destruct (IH _ _ _ Hn) as (l1 & l2 & vs1 & vs2 & s1 & t' & s2 & u & -> & -> & -> & K1 & K2 & R1 & R2 & R3).
    exists ((k0, (id0, p)) :: l1), l2, ((k0, (id0, v)) :: vs1), vs2, (s ++ s1), t', s2, u. repeat split; cbn; auto.
    + now rewrite <- app_assoc.
    + intros [C|C]; [congruence|contradiction].
    + intros [C|C]; [congruence|contradiction].
    + now constructor.
Qed.
Lemma members_app h l1 vs1 s1 l2 vs2 s2 : reads_members h l1 vs1 s1 -> reads_members h l2 vs2 s2 ->
  reads_members h (l1 ++ l2) (vs1 ++ vs2) (s1 ++ s2).
Proof. induction 1; cbn; auto. intros H'. rewrite <- app_assoc. constructor; auto. Qed.
Lemma members_keys h l vs s : reads_members h l vs s -> akeys vs = akeys l.
Proof. induction 1; cbn; auto. f_equal. assumption. Qed.
Lemma members_lookup h l vs s : reads_members h l vs s -> forall k,
  match alookup k l, alookup k vs with
  | Some (id, p), Some (id', u) => id = id'
  | None, None => True
  | _, _ => False
  end.
Proof. induction 1 as [|k0 id0 p v s l vs t H1 H2 IH]; intros k; cbn; [exact I|]. destruct (beqb k k0); [reflexivity|apply IH]. Qed.
Lemma members_remove h l vs s k : reads_members h l vs s -> NoDup s -> exists s', reads_members h (aremove k l) (aremove k vs) s' /\ NoDup s' /\ incl s' s.
Proof.
  induction 1 as [|k0 id0 p v s l vs t H1 H2 IH]; intros N; cbn; [exists []; repeat split; [constructor|exact N|apply incl_refl]|].
  apply NoDup_app_split in N as (N1 & N2 & D). destruct (IH N2) as (s' & R & N' & I').
  destruct (beqb k k0).
  - exists s'. repeat split; auto. now apply incl_appr.
  - exists (s ++ s'). split; [now constructor|]. split.
    + apply NoDup_app_split. repeat split; auto. intros x Hx Hx2. exact (D x Hx (I' x Hx2)).
    + apply incl_app; [now apply incl_appl|now apply incl_appr].
Qed.

Lemma aset_there {A} k (e e0 : A) l1 l2 : ~ In k (akeys l1) -> aset k e (l1 ++ (k, e0) :: l2) = l1 ++ (k, e) :: l2.
Proof.
  induction l1 as [|[k1 e1] l1 IH]; cbn; intros H; [now rewrite beqb_refl|].
  destruct (beqb_spec k k1) as [->|N]; [tauto|]. rewrite IH; tauto.
Qed.
Lemma alookup_there {A} k (e0 : A) l1 l2 : ~ In k (akeys l1) -> alookup k (l1 ++ (k, e0) :: l2) = Some e0.
Proof.
  induction l1 as [|[k1 e1] l1 IH]; cbn; intros H; [now rewrite beqb_refl|].
  destruct (beqb_spec k k1) as [->|N]; [tauto|]. apply IH. tauto.
Qed.
Lemma set_nth_there {A} (x y : A) l1 l2 : set_nth (List.length l1) x (l1 ++ y :: l2) = l1 ++ x :: l2.
Proof. induction l1 as [|z l1 IH]; cbn; [reflexivity|]. now rewrite IH. Qed.

(** *** A place in a document *)

(** At the place [hs] of the document [v] at [p] there is [u], at [q], covering [t].
    If something else [u2] comes to be there, and the rest of the document is left
    alone, the document is [put_at v hs u2]. *)
Definition slot (h : heap) (p : ptr) (v : V) (s : list nat) (hs : list hop) (q : ptr) (u : V) (t : list nat) : Prop :=
  sub_at v hs = Some u /\ reads h q u t /\ NoDup t /\ incl t s /\
  forall Y n h2 u2 t2, spare s Y n -> (forall a, In a s -> ~ In a t -> nth_error h2 a = nth_error h a) ->
    reads h2 q u2 t2 -> NoDup t2 -> Forall (within t Y n) t2 ->
    exists s2, reads h2 p (put_at v hs u2) s2 /\ NoDup s2 /\ Forall (within s Y n) s2.

Lemma slot_here h p v s : reads h p v s -> NoDup s -> slot h p v s [] p v s.
Proof. intros H N. split; [reflexivity|]. split; [exact H|]. split; [exact N|]. split; [apply incl_refl|]. intros. exists t2. auto. Qed.
Lemma spare_incl s t Y n : incl t s -> spare s Y n -> spare t Y n.
Proof. intros I H a Ha. apply H. now apply I. Qed.
Lemma slot_cons h p v s k q u t hs q2 u2 t2 : slot h p v s [k] q u t -> slot h q u t hs q2 u2 t2 ->
  slot h p v s (k :: hs) q2 u2 t2.
Proof.
  intros (S1 & R1 & N1 & I1 & P1) (S2 & R2 & N2 & I2 & P2). cbn [sub_at] in S1. destruct (child_at v k) as [x|] eqn:Ec; [|discriminate].
  injection S1 as ->. split; [cbn; now rewrite Ec|]. split; [exact R2|]. split; [exact N2|]. split; [eapply incl_tran; eauto|].
  intros Y n h2 u3 t3 Hs Hf Hr Hn Ht.
  destruct (P2 Y n h2 u3 t3) as (s2 & Q1 & Q2 & Q3); auto.
  - eapply spare_incl; eauto.
  - destruct (P1 Y n h2 (put_at u hs u3) s2) as (s3 & Q4 & Q5 & Q6); auto.
    exists s3. cbn [put_at] in *. rewrite Ec in *. auto.
Qed.

(** One step down. *)
Lemma frame_elems h h2 l vs s : reads_elems h l vs s -> (forall a, In a s -> nth_error h2 a = nth_error h a) -> reads_elems h2 l vs s.
Proof. apply (proj1 (proj2 (reads_frame h h2))). Qed.
Lemma frame_members h h2 l vs s : reads_members h l vs s -> (forall a, In a s -> nth_error h2 a = nth_error h a) -> reads_members h2 l vs s.
Proof. apply (proj2 (proj2 (reads_frame h h2))). Qed.
Lemma frame_reads h h2 p v s : reads h p v s -> (forall a, In a s -> nth_error h2 a = nth_error h a) -> reads h2 p v s.
Proof. apply (proj1 (reads_frame h h2)). Qed.

Lemma reads_arr_inv h a l vs s : nth_error h a = Some (CArr l) -> forall v, reads h (Some a) v (s) -> v = VArr vs ->
  exists s', s = a :: s' /\ reads_elems h l vs s'.
Proof.
  intros Ea v H ->. inversion H as [|? c ? E1 Hl|? ? ? s' E1 Hr|]; subst.
  - rewrite Ea in E1. injection E1 as <-. contradiction.
  - rewrite Ea in E1. injection E1 as <-. eauto.
Qed.
Lemma reads_arr_tree h p l s : reads h p (VArr l) s -> exists a ps s', p = Some a /\ s = a :: s' /\
  nth_error h a = Some (CArr ps) /\ reads_elems h ps l s'.
Proof.
  intros H. inversion H as [|? c ? E1 Hl|a ps ? s' E1 Hr|]; subst; [destruct c; cbn in Hl; try contradiction; discriminate|].
  exists a, ps, s'. auto.
Qed.
Lemma reads_obj_tree h p i xs lo s : reads h p (VObj i xs lo) s -> exists a ps s', p = Some a /\ s = a :: s' /\
  nth_error h a = Some (CObj i ps lo) /\ reads_members h ps xs s'.
Proof.
  intros H. inversion H as [|? c ? E1 Hl| |a ? ps ? ? s' E1 Hr]; subst; [destruct c; cbn in Hl; try contradiction; discriminate|].
  exists a, ps, s'. auto.
Qed.
Lemma reads_deref h p v s : reads h p v s ->
  match v, deref h p with
  | VNil, None => True
  | VArr l, Some (CArr ps) => True
  | VObj i _ lo, Some (CObj i' _ lo') => i = i' /\ lo = lo'
  | VNotExist, Some CNotExist => True
  | VStr x, Some (CStr y) => x = y
  | VNum n src, Some (CNum n' src') => n = n' /\ src = src'
  | VBool x, Some (CBool y) => x = y
  | VNull, Some CNull => True
  | VUnknown, Some CUnknown => True
  | _, _ => False
  end.
Proof.
  intros H. destruct H as [|a c v Ea Hl|a l vs s Ea Hr|a i kvs lo xs s Ea Hr]; cbn [deref]; [exact I|..]; rewrite Ea; auto.
  destruct c; cbn in Hl; try contradiction; subst; auto.
Qed.

Lemma hop_slot h p v s k q : reads h p v s -> NoDup s -> step h p k q ->
  exists u t, child_at v k = Some u /\ slot h p v s [k] q u t /\ forall a, p = Some a -> ~ In a t.
Proof.
  intros H N (c & Ec & Ek). destruct H as [|a c0 v Ea Hl|a l vs s Ea Hr|a i kvs lo xs s Ea Hr]; cbn [deref] in Ec; try discriminate;
    rewrite Ea in Ec; injection Ec as <-.
  - destruct c0; try contradiction; destruct k; discriminate.
  - destruct k as [n|k]; [|discriminate]. cbn [kid] in Ek.
    destruct (elems_split _ _ _ _ Hr _ _ Ek) as (l1 & l2 & vs1 & vs2 & s1 & t & s2 & u & -> & -> & -> & L1 & L2 & R1 & R2 & R3).
    exists u, t.
    assert (Ec : child_at (VArr (vs1 ++ u :: vs2)) (HIdx n) = Some u) by (cbn; rewrite <- L2; apply nth_error_app_here).
    split; [exact Ec|]. change (a :: s1 ++ t ++ s2) with ((a :: s1) ++ t ++ s2) in *.
    split; [|intros b [= <-] C; apply NoDup_app_split in N as (_ & _ & D); apply (D a); [now left|rewrite in_app_iff; auto]].
    split; [cbn [sub_at]; now rewrite Ec|]. split; [exact R2|]. split; [|split].
    + apply NoDup_app_split in N as (_ & N & _). now apply NoDup_app_split in N.
    + intros x Hx. rewrite !in_app_iff. auto.
    + intros Y n0 h2 u2 t2 Hs Hf Hr2 Hn2 Ht2. destruct (merge _ _ _ _ _ _ N Hs Hn2 Ht2) as (M1 & M2).
      exists ((a :: s1) ++ t2 ++ s2). split; [|split; assumption].
      apply NoDup_app_split in N as (N1 & N2 & D1). apply NoDup_app_split in N2 as (_ & _ & D2).
      cbn [put_at]. rewrite Ec. cbn [put_child]. rewrite <- L2, set_nth_there.
      apply reads_arr with (l := l1 ++ q :: l2).
      * rewrite Hf; [exact Ea|now left|]. intros C. apply (D1 a); [now left|]. rewrite in_app_iff. auto.
      * apply elems_app; [|constructor; [exact Hr2|]].
        -- apply (frame_elems h); [exact R1|]. intros x Hx. apply Hf; [right; rewrite !in_app_iff; auto|].
           intros C. apply (D1 x); [now right|]. rewrite in_app_iff. auto.
        -- apply (frame_elems h); [exact R3|]. intros x Hx. apply Hf; [right; rewrite !in_app_iff; auto|].
           intros C. exact (D2 x C Hx).
  - destruct k as [n|k]; [discriminate|]. cbn [kid] in Ek. destruct (alookup k kvs) as [[id x]|] eqn:El; [|discriminate].
    cbn in Ek. injection Ek as ->.
    destruct (members_split _ _ _ _ Hr _ _ _ El) as (l1 & l2 & vs1 & vs2 & s1 & t & s2 & u & -> & -> & -> & K1 & K2 & R1 & R2 & R3).
    exists u, t.
    assert (Ec : child_at (VObj i (vs1 ++ (k, (id, u)) :: vs2) lo) (HKey k) = Some u).
    { cbn. change (bytes * (Z * V))%type with kv. rewrite (alookup_there k (id, u)); auto. }
    split; [exact Ec|]. change (a :: s1 ++ t ++ s2) with ((a :: s1) ++ t ++ s2) in *.
    split; [|intros b [= <-] C; apply NoDup_app_split in N as (_ & _ & D); apply (D a); [now left|rewrite in_app_iff; auto]].
    split; [cbn [sub_at]; now rewrite Ec|]. split; [exact R2|]. split; [|split].
    + apply NoDup_app_split in N as (_ & N & _). now apply NoDup_app_split in N.
    + intros x Hx. rewrite !in_app_iff. auto.
    + intros Y n0 h2 u2 t2 Hs Hf Hr2 Hn2 Ht2. destruct (merge _ _ _ _ _ _ N Hs Hn2 Ht2) as (M1 & M2).
      exists ((a :: s1) ++ t2 ++ s2). split; [|split; assumption].
      apply NoDup_app_split in N as (N1 & N2 & D1). apply NoDup_app_split in N2 as (_ & _ & D2).
      cbn [put_at]. rewrite Ec. cbn [put_child]. rewrite (alookup_there k (id, u)), (aset_there k (id, u2)) by assumption.
      apply reads_obj with (kvs := l1 ++ (k, (id, q)) :: l2).
      * rewrite Hf; [exact Ea|now left|]. intros C. apply (D1 a); [now left|]. rewrite in_app_iff. auto.
      * apply members_app; [|constructor; [exact Hr2|]].
        -- apply (frame_members h); [exact R1|]. intros x Hx. apply Hf; [right; rewrite !in_app_iff; auto|].
           intros C. apply (D1 x); [now right|]. rewrite in_app_iff. auto.
        -- apply (frame_members h); [exact R3|]. intros x Hx. apply Hf; [right; rewrite !in_app_iff; auto|].
           intros C. exact (D2 x C Hx).
Qed.

(** The document with the place is moved as a whole. *)
Lemma slot_frame h h2 p v s hs q u t : slot h p v s hs q u t -> (forall a, In a s -> nth_error h2 a = nth_error h a) ->
  slot h2 p v s hs q u t.
Proof.
  intros (S1 & R1 & N1 & I1 & P1) H. split; [exact S1|]. split; [apply (frame_reads h); auto|]. split; [exact N1|]. split; [exact I1|].
  intros Y n h3 u2 t2 Hs Hf. apply P1; auto. intros a Ha Hna. rewrite Hf, H; auto.
Qed.
Lemma reads_one h p v s v' s' : reads h p v s -> reads h p v' s' -> v' = v /\ s' = s.
Proof. intros H1 H2. destruct (proj1 (reads_fun h) _ _ _ H1 _ _ H2). auto. Qed.
Lemma reads_lt h p v s a : reads h p v s -> In a s -> a < List.length h.
Proof. intros H. pose proof (proj1 (reads_bound h) _ _ _ H) as F. rewrite Forall_forall in F. apply F. Qed.
Lemma within_old s n l h p v : n = List.length h -> reads h p v l -> Forall (within s [] n) l -> incl l s.
Proof.
  intros -> H F a Ha. rewrite Forall_forall in F. destruct (F a Ha) as [X|[[]|X]]; [exact X|]. pose proof (reads_lt _ _ _ _ _ H Ha). lia.
Qed.
Lemma step_root h h2 p k q : step h p k q -> deref h2 p = deref h p -> step h2 p k q.
Proof. intros (c & E1 & E2) H. exists c. now rewrite H. Qed.
Lemma step_some h p k q : step h p k q -> exists a, p = Some a.
Proof. intros (c & E1 & _). destruct p as [a|]; [eauto|discriminate]. Qed.

(** One step in an array or object that was just built. *)
Lemma hop_here h p v s k q u t : reads h p v s -> NoDup s -> step h p k q -> reads h q u t -> slot h p v s [k] q u t.
Proof.
  intros H N St R. destruct (hop_slot _ _ _ _ _ _ H N St) as (u' & t' & _ & (S1 & R1 & S2) & _).
  destruct (reads_one _ _ _ _ _ _ R R1) as [-> ->]. split; [exact S1|]. split; [exact R1|exact S2].
Qed.

(** *** Results *)
Definition agree {A B} (R : A -> B -> Prop) (r : res A) (r' : res B) : Prop :=
  match r, r' with
  | Ok a, Ok b => R a b
  | Err e, Err e' => e = e'
  | Panic, Panic | Fuel, Fuel => True
  | _, _ => False
  end.
Definition off (s : list nat) (h h2 : heap) : Prop :=
  forall a, a < List.length h -> ~ In a s -> nth_error h2 a = nth_error h a.

(** *** Get *)
Section WithEnv.
Context (E : Env) (W : World).

Lemma find_key_same cl key (lo : option (list (bytes * list bytes))) h (l : list (bytes * (Z * ptr))) (vs : list (bytes * (Z * V))) s :
  reads_members h l vs s -> find_key E W cl key l lo = find_key E W cl key vs lo.
Proof.
  intros H. assert (X : forall k, (exists e, alookup k l = Some e) <-> exists e, alookup k vs = Some e).
  { intros k. pose proof (members_lookup _ _ _ _ H k) as M. destruct (alookup k l) as [[? ?]|], (alookup k vs) as [[? ?]|]; try contradiction;
      split; intros [e He]; try discriminate; eauto. }
  assert (F : forall ks, first_existing l ks = first_existing vs ks).
  { induction ks as [|k ks IH]; cbn; [reflexivity|]. pose proof (members_lookup _ _ _ _ H k) as M.
    destruct (alookup k l) as [[? ?]|], (alookup k vs) as [[? ?]|]; try contradiction; auto. }
  unfold find_key, init_caseless. rewrite (members_keys _ _ _ _ H). pose proof (members_lookup _ _ _ _ H key) as M.
  destruct (alookup key l) as [[? ?]|], (alookup key vs) as [[? ?]|]; try contradiction; [reflexivity|]. destruct cl; [|reflexivity]. now rewrite F.
Qed.
Lemma first_existing_some {A} (kvs : list (bytes * (Z * A))) ks k : first_existing kvs ks = Some k -> exists e, alookup k kvs = Some e.
Proof.
  induction ks as [|k0 ks IH]; cbn; [discriminate|]. destruct (alookup k0 kvs) eqn:El; [|exact IH]. intros [= <-]. eauto.
Qed.
Lemma find_key_some {A} cl key (kvs : list (bytes * (Z * A))) lo lo' k : find_key E W cl key kvs lo = (lo', Some k) ->
  exists e, alookup k kvs = Some e.
Proof.
  unfold find_key. destruct (alookup key kvs) eqn:El; [intros [= _ <-]; eauto|]. destruct cl; [|discriminate].
  intros [= _ H]. exact (first_existing_some _ _ _ H).
Qed.

Lemma find_ref cl h p v s par : reads h p v s -> NoDup s ->
  let '(h1, r) := h_find E W cl h p par in let '(v1, r') := find_child E W cl v par in
  List.length h1 = List.length h /\ off s h h1 /\ reads h1 p v1 s /\ agree (fun q k => step h1 p k q) r r'.
Proof.
  intros H N. pose proof (reads_deref _ _ _ _ H) as D. unfold h_find, find_child.
  destruct v as [|x|n src|i xs lo|l|b| | |]; destruct (deref h p) as [c|] eqn:Ec; try contradiction; try destruct c; try contradiction;
    try (repeat split; auto; fail).
  - destruct D as [<- <-]. destruct (reads_obj_tree _ _ _ _ _ _ H) as (a & ps & s' & -> & -> & Ea & Hm).
    cbn [deref] in Ec. rewrite Ea in Ec. injection Ec as <-.
    destruct (any_to_string par) as [key|e| |] eqn:Ep; try (repeat split; auto; fail).
    rewrite (find_key_same cl key lo _ _ _ _ Hm). destruct (find_key E W cl key xs lo) as [lo' r] eqn:Ef.
    assert (La : a < List.length h) by (apply nth_error_Some; congruence).
    split; [apply store_length|]. split; [|split].
    + intros x _ Hx. cbn [store]. apply nth_error_set_nth_other. intros ->. apply Hx. now left.
    + apply reads_obj with (kvs := ps).
      * cbn [store]. now apply nth_error_set_nth_same.
      * apply (frame_members h); [exact Hm|]. intros x Hx. cbn [store]. apply nth_error_set_nth_other. intros ->.
        apply NoDup_cons_iff in N as [N _]. contradiction.
    + destruct r as [k|]; [|reflexivity]. destruct (find_key_some _ _ _ _ _ _ Ef) as [[id u] Hu].
      pose proof (members_lookup _ _ _ _ Hm k) as M. change (bytes * (Z * V))%type with kv in *. rewrite Hu in M.
      destruct (alookup k ps) as [[id' q]|] eqn:El; [|contradiction]. cbn [agree].
      exists (CObj i ps lo'). split; [cbn [store deref]; now apply nth_error_set_nth_same|]. cbn [kid]. now rewrite El.
  - destruct (reads_arr_tree _ _ _ _ H) as (a & ps & s' & -> & -> & Ea & Hm).
    cbn [deref] in Ec. rewrite Ea in Ec. injection Ec as <-.
    repeat split; auto. rewrite (elems_length _ _ _ _ Hm). destruct (any_to_int par) as [pos|e| |]; cbn [rbind]; try exact I; [|reflexivity].
    destruct (pos_read (List.length ps) pos) as [n|] eqn:Ep; [|reflexivity]. cbn [agree].
    exists (CArr ps). split; [cbn [deref]; now rewrite Ea|]. cbn [kid]. apply nth_error_nth'. exact (pos_read_lt _ _ _ Ep).
Qed.

Lemma locate_ref cl f : forall h p v s par r, reads h p v s -> NoDup s ->
  let '(h1, o) := h_get_f E W f cl h p par r in let '(v1, o') := locate_f E W f cl v par r in
  List.length h1 = List.length h /\ off s h h1 /\
  exists s1, reads h1 p v1 s1 /\ NoDup s1 /\ incl s1 s /\
    agree (fun q hs => exists u t, slot h1 p v1 s1 hs q u t) o o'.
Proof.
  induction f as [|f IH]; intros h p v s par r H N; cbn [h_get_f locate_f].
  - split; [reflexivity|]. split; [intros a _ _; reflexivity|]. exists s. repeat split; auto. apply incl_refl.
  - destruct (peel par r) as [[p0 r0]|].
    2: { split; [reflexivity|]. split; [intros a _ _; reflexivity|]. exists s. repeat split; auto. apply incl_refl. }
    pose proof (find_ref cl h p v s p0 H N) as F.
    destruct (h_find E W cl h p p0) as [h1 o]. destruct (find_child E W cl v p0) as [v1 o'].
    destruct F as (L1 & O1 & R1 & A1).
    destruct o as [q|e| |], o' as [k|e'| |]; cbn [agree] in A1; try contradiction.
    + destruct (hop_slot _ _ _ _ _ _ R1 N A1) as (u & t & Ck & Sl & Rt).
      destruct r0 as [|p1 r1].
      * split; [exact L1|]. split; [exact O1|]. exists s. repeat split; auto; [apply incl_refl|]. cbn [agree]. eauto.
      * rewrite Ck. destruct Sl as (S1 & R2 & N2 & I2 & P2).
        pose proof (IH h1 q u t p1 r1 R2 N2) as F.
        destruct (h_get_f E W f cl h1 q p1 r1) as [h2 o2]. destruct (locate_f E W f cl u p1 r1) as [c' o2'].
        destruct F as (L2 & O2 & t1 & R3 & N3 & I3 & A3).
        destruct (P2 [] (List.length h1) h2 c' t1) as (s2 & Q1 & Q2 & Q3); auto.
        -- intros a Ha. split; [auto|]. exact (reads_lt _ _ _ _ _ R1 Ha).
        -- intros a Ha Hna. apply O2; [exact (reads_lt _ _ _ _ _ R1 Ha)|exact Hna].
        -- apply Forall_forall. intros a Ha. left. now apply I3.
        -- cbn [put_at] in Q1. rewrite Ck in Q1.
           split; [congruence|]. split.
           { intros a Ha Hna. rewrite O2; [apply O1; auto|congruence|]. intros C. apply Hna. now apply I2. }
           exists s2. split; [exact Q1|]. split; [exact Q2|]. split; [refine (within_old _ _ _ _ _ _ _ Q1 Q3); congruence|].
           destruct o2 as [q2|e| |], o2' as [hs|e'| |]; cbn [agree rbind] in *; try contradiction; try exact I; [|exact A3].
           destruct A3 as (u2 & t2 & S4). exists u2, t2.
           apply slot_cons with (q := q) (u := c') (t := t1); [|exact S4].
           apply hop_here; auto. apply (step_root h1); [exact A1|].
           destruct (step_some _ _ _ _ A1) as [a ->]. cbn [deref]. apply O2; [|now apply Rt].
           destruct A1 as (x & Ex & _). apply nth_error_Some. cbn [deref] in Ex. congruence.
    + split; [exact L1|]. split; [exact O1|]. exists s. repeat split; auto. apply incl_refl.
    + split; [exact L1|]. split; [exact O1|]. exists s. repeat split; auto. apply incl_refl.
    + split; [exact L1|]. split; [exact O1|]. exists s. repeat split; auto. apply incl_refl.
Qed.

(** *** Changing a container *)
Lemma root_other a c (h : heap) x : a <> x -> nth_error (store h (Some a) c) x = nth_error h x.
Proof. intros H. cbn [store]. now apply nth_error_set_nth_other. Qed.

(** Elements [n] to [m] are replaced. *)
Lemma arr_splice h a l vs s ps us t n m : nth_error h a = Some (CArr l) -> reads_elems h l vs s -> NoDup (a :: s) ->
  reads_elems h ps us t -> NoDup t -> (forall x, In x t -> ~ In x (a :: s)) -> n <= m ->
  let h1 := store h (Some a) (CArr (firstn n l ++ ps ++ skipn m l)) in
  exists s1, reads h1 (Some a) (VArr (firstn n vs ++ us ++ skipn m vs)) s1 /\ NoDup s1 /\ Forall (within (a :: s) t (List.length h)) s1.
Proof.
  intros Ea Hr N Ht Nt D Lm h1. assert (La : a < List.length h) by (apply nth_error_Some; congruence).
  destruct (elems_cut _ _ _ _ Hr n) as (s1 & s2 & -> & R1 & R2). destruct (elems_cut _ _ _ _ R2 (m - n)) as (s3 & s4 & -> & R3 & R4).
  rewrite !skipn_skipn in R4. replace (m - n + n) with m in R4 by lia.
  assert (F : forall x, In x (s1 ++ s3 ++ s4) \/ In x t -> nth_error h1 x = nth_error h x).
  { intros x Hx. apply root_other. intros <-. apply NoDup_cons_iff in N as [N _]. destruct Hx as [Hx|Hx]; [contradiction|].
    apply (D a Hx). now left. }
  change (a :: s1 ++ s3 ++ s4) with ((a :: s1) ++ s3 ++ s4) in *.
  assert (N1 : NoDup ((a :: s1) ++ s4)).
  { apply NoDup_app_split in N as (Na & Nb & Dab). apply NoDup_app_split. split; [exact Na|].
    apply NoDup_app_split in Nb as (_ & Nb & _). split; [exact Nb|]. intros x Hx Hx2. apply (Dab x Hx). apply in_app_iff. auto. }
  destruct (merge (a :: s1) [] s4 t t (List.length h)) as (M1 & M2); auto.
  - intros x Hx. cbn [app] in Hx. assert (Hx2 : In x ((a :: s1) ++ s3 ++ s4)) by (cbn in *; rewrite !in_app_iff in *; tauto).
    split; [intros C; exact (D x C Hx2)|]. cbn in Hx2. destruct Hx2 as [<-|Hx2]; [exact La|].
    pose proof (proj1 (proj2 (reads_bound h)) _ _ _ Hr) as B. rewrite Forall_forall in B. exact (B _ Hx2).
  - apply Forall_forall. intros x Hx. right. now left.
  - exists ((a :: s1) ++ t ++ s4). split; [|split; [exact M1|]].
    + apply reads_arr with (l := firstn n l ++ ps ++ skipn m l).
      * cbn [store]. now apply nth_error_set_nth_same.
      * apply elems_app; [|apply elems_app].
        -- apply (frame_elems h); [exact R1|]. intros x Hx. apply F. rewrite !in_app_iff. auto.
        -- apply (frame_elems h); [exact Ht|]. intros x Hx. auto.
        -- apply (frame_elems h); [exact R4|]. intros x Hx. apply F. rewrite !in_app_iff. auto.
    + eapply Forall_impl; [|exact M2]. intros x [Hx|Hx]; [left|now right]. cbn in *. rewrite !in_app_iff in *. tauto.
Qed.

(** A member is set. *)
Lemma obj_put h a i kvs lo xs s c cv t k i' id lo' : nth_error h a = Some (CObj i kvs lo) -> reads_members h kvs xs s -> NoDup (a :: s) ->
  reads h c cv t -> NoDup t -> (forall x, In x t -> ~ In x (a :: s)) ->
  let h1 := store h (Some a) (CObj i' (aset k (id, c) kvs) lo') in
  exists s1, reads h1 (Some a) (VObj i' (aset k (id, cv) xs) lo') s1 /\ NoDup s1 /\ Forall (within (a :: s) t (List.length h)) s1.
Proof.
  intros Ea Hr N Ht Nt D h1. assert (La : a < List.length h) by (apply nth_error_Some; congruence).
  assert (F : forall x, In x s \/ In x t -> nth_error h1 x = nth_error h x).
  { intros x Hx. apply root_other. intros <-. apply NoDup_cons_iff in N as [N _]. destruct Hx as [Hx|Hx]; [contradiction|].
    apply (D a Hx). now left. }
  assert (Sp : spare (a :: s) t (List.length h)).
  { intros x Hx. split; [intros C; exact (D x C Hx)|]. destruct Hx as [<-|Hx]; [exact La|].
    pose proof (proj2 (proj2 (reads_bound h)) _ _ _ Hr) as B. rewrite Forall_forall in B. exact (B _ Hx). }
  assert (Ft : Forall (within [] t (List.length h)) t) by (apply Forall_forall; intros x Hx; right; now left).
  pose proof (members_lookup _ _ _ _ Hr k) as M. destruct (alookup k kvs) as [[id0 q]|] eqn:El.
  - destruct (members_split _ _ _ _ Hr _ _ _ El) as (l1 & l2 & vs1 & vs2 & s1 & t0 & s2 & u & -> & -> & -> & K1 & K2 & R1 & R2 & R3).
    change (a :: s1 ++ t0 ++ s2) with ((a :: s1) ++ t0 ++ s2) in *.
    assert (Ft0 : Forall (within t0 t (List.length h)) t) by (apply Forall_forall; intros x Hx; right; now left).
    destruct (merge (a :: s1) t0 s2 t t (List.length h) N Sp Nt Ft0) as (M1 & M2).
    exists ((a :: s1) ++ t ++ s2). split; [|split; assumption].
    rewrite (aset_there k (id, cv)) by assumption. apply reads_obj with (kvs := l1 ++ (k, (id, c)) :: l2).
    + unfold h1. rewrite (aset_there k (id, c)) by assumption. cbn [store]. now apply nth_error_set_nth_same.
    + apply members_app; [|constructor].
      * apply (frame_members h); [exact R1|]. intros x Hx. apply F. rewrite !in_app_iff. auto.
      * apply (frame_reads h); [exact Ht|]. intros x Hx. auto.
      * apply (frame_members h); [exact R3|]. intros x Hx. apply F. rewrite !in_app_iff. auto.
  - destruct (alookup k xs) as [[? ?]|] eqn:El2; [contradiction|].
    replace (a :: s) with ((a :: s) ++ [] ++ []) in * by now rewrite app_nil_r.
    destruct (merge (a :: s) [] [] t t (List.length h) N Sp Nt Ft) as (M1 & M2).
    exists ((a :: s) ++ t ++ []). split; [|split; assumption].
    rewrite (aset_new k (id, cv)) by (now apply alookup_None). apply reads_obj with (kvs := kvs ++ [(k, (id, c))]).
    + unfold h1. rewrite (aset_new k (id, c)) by (now apply alookup_None). cbn [store]. now apply nth_error_set_nth_same.
    + apply members_app; [|constructor; [|constructor]].
      * apply (frame_members h); [exact Hr|]. intros x Hx. auto.
      * apply (frame_reads h); [exact Ht|]. intros x Hx. auto.
Qed.

Lemma aset_again {A} k (x y : A) l : aset k x (aset k y l) = aset k x l.
Proof.
  induction l as [|[k0 z] l IH]; cbn; [now rewrite beqb_refl|]. destruct (beqb k k0) eqn:Ek; cbn; rewrite Ek; [reflexivity|]. now rewrite IH.
Qed.
Lemma aset_idle {A} k (x : A) l : alookup k l = Some x -> aset k x l = l.
Proof.
  induction l as [|[k0 z] l IH]; cbn; [discriminate|]. destruct (beqb_spec k k0) as [->|Nk]; [now intros [= ->]|]. intros H. now rewrite IH.
Qed.
Lemma set_nth_cut {A} n (c : A) l : n < List.length l -> set_nth n c l = firstn n l ++ [c] ++ skipn (S n) l.
Proof. revert n. induction l as [|x l IH]; intros n L; [cbn in L; lia|]. destruct n; cbn in *; [reflexivity|]. rewrite IH by lia. reflexivity. Qed.
Lemma set_nth_again {A} n (x y : A) l : set_nth n x (set_nth n y l) = set_nth n x l.
Proof. revert n. induction l as [|z l IH]; intros [|n]; cbn; auto. now rewrite IH. Qed.

(** The place of an element that was set. *)
Lemma set_at_index_ref {A B} (l : list A) (vs : list B) c cv pos : List.length vs = List.length l ->
  match set_at_index l c pos, set_at_index vs cv pos with
  | Ok l', Ok vs' => exists n m, n <= m /\ l' = firstn n l ++ [c] ++ skipn m l /\ vs' = firstn n vs ++ [cv] ++ skipn m vs /\
      nth_error l' n = Some c /\ forall cv2, set_at_index vs cv2 pos = Ok (set_nth n cv2 vs')
  | Err e, Err e' => e = e' /\ forall cv2, set_at_index vs cv2 pos = Err e
  | _, _ => False
  end.
Proof.
  intros L. unfold set_at_index. rewrite L. destruct (Z.eqb_spec pos (Z.of_nat (List.length l))) as [->|Np].
  - exists (List.length l), (List.length l). split; [lia|].
    assert (F1 : firstn (List.length l) vs = vs) by (rewrite <- L; apply firstn_all).
    assert (F2 : skipn (List.length l) vs = []) by (rewrite <- L; apply skipn_all).
    rewrite F1, F2, firstn_all, skipn_all. split; [reflexivity|]. split; [reflexivity|]. split; [apply nth_error_app_here|].
    intros cv2. f_equal. rewrite <- L. symmetry. apply set_nth_there.
  - destruct (pos_read (List.length l) pos) as [n|] eqn:Ep; [|auto]. pose proof (pos_read_lt _ _ _ Ep).
    exists n, (S n). split; [lia|]. split; [now apply set_nth_cut|]. split; [apply set_nth_cut; lia|].
    split; [now apply nth_error_set_nth_same|]. intros cv2. now rewrite set_nth_again.
Qed.

(** *** Set *)
Definition set_done (h h1 : heap) (p c : ptr) (s t : list nat) (v v1 cv : V) (o : res ptr) (o' : res V) (f : V -> V * res V) : Prop :=
  List.length h <= List.length h1 /\ off s h h1 /\
  match o, o' with
  | Ok q, Ok w => q = c /\ w = cv /\
    exists s1, reads h1 p v1 s1 /\ NoDup s1 /\ Forall (within s t (List.length h)) s1 /\
    exists hs, slot h1 p v1 s1 hs c cv t /\
      forall cv2, uninitialized cv2 = false -> f cv2 = (put_at v1 hs cv2, Ok cv2)
  | _, _ => agree (fun _ _ => False) o o' /\ v1 = v /\ kept h h1 /\
    forall cv2, uninitialized cv2 = uninitialized cv -> f cv2 = (v, o')
  end.

Lemma uninit_ref h p v s : reads h p v s -> h_uninitialized h p = uninitialized v.
Proof.
  intros H. pose proof (reads_deref _ _ _ _ H) as D. unfold h_uninitialized, uninitialized.
  destruct v; destruct (deref h p) as [[]|]; try contradiction; reflexivity.
Qed.

Lemma apart_bound s t h p v c cv : reads h p v s -> reads h c cv t -> (forall x, In x s -> ~ In x t) -> spare s t (List.length h).
Proof. intros H1 H2 D x Hx. split; [auto|]. exact (reads_lt _ _ _ _ _ H1 Hx). Qed.

Lemma last_ref h p v s c cv t par : reads h p v s -> NoDup s -> reads h c cv t -> NoDup t -> (forall x, In x s -> ~ In x t) ->
  uninitialized cv = false ->
  let '(h1, o) := h_at_last_param E h p c par in let '(v1, o') := at_last_param E v cv par in
  set_done h h1 p c s t v v1 cv o o' (fun cv2 => at_last_param E v cv2 par).
Proof.
  intros H N Hc Nc D U. pose proof (reads_deref _ _ _ _ H) as Dr. unfold h_at_last_param, at_last_param.
  assert (D' : forall x, In x t -> ~ In x s) by (intros x Hx C; exact (D x C Hx)).
  assert (X : forall e, set_done h h p c s t v v cv (Err e) (Err e) (fun _ => (v, Err e))).
  { intros e. split; [lia|]. split; [intros a _ _; reflexivity|]. split; [reflexivity|]. split; [reflexivity|]. split; [apply kept_refl|]. auto. }
  destruct v as [|x|n src|i xs lo|l|b| | |]; destruct (deref h p) as [c0|] eqn:Ec; try contradiction; try destruct c0; try contradiction;
    try exact (X _).
  - destruct Dr as [<- <-]. destruct (reads_obj_tree _ _ _ _ _ _ H) as (a & ps & s' & -> & -> & Ea & Hm).
    pose proof Ec as Ec'. cbn [deref] in Ec. rewrite Ea in Ec. injection Ec as <-.
    destruct (any_to_string par) as [key|e| |] eqn:Ep; try exact (X _); try (destruct par; discriminate).
    unfold h_set_to_object, set_to_object. rewrite Ec'. cbn iota beta.
    assert (La : a < List.length h) by (apply nth_error_Some; congruence).
    destruct (obj_put h a i ps lo xs s' c cv t key (wrap_u32 (i + 1)) (wrap_u32 (i + 1)) (add_caseless_key E key lo) Ea Hm N Hc Nc D')
      as (s1 & R1 & N1 & F1).
    set (h1 := store h (Some a) _) in *.
    split; [unfold h1; rewrite store_length; lia|]. split.
    { intros x _ Hx. apply root_other. intros <-. apply Hx. now left. }
    split; [reflexivity|]. split; [reflexivity|]. exists s1. split; [exact R1|]. split; [exact N1|]. split; [exact F1|].
    exists [HKey key]. split.
    + apply hop_here; auto.
      * exists (CObj (wrap_u32 (i + 1)) (aset key (wrap_u32 (i + 1), c) ps) (add_caseless_key E key lo)).
        split; [unfold h1; cbn [deref store]; now apply nth_error_set_nth_same|]. cbn [kid]. now rewrite alookup_aset_same.
      * apply (frame_reads h); [exact Hc|]. intros x Hx. apply root_other. intros <-. apply (D' a Hx). now left.
    + intros cv2 _. cbn [put_at child_at put_child]. rewrite !alookup_aset_same. now rewrite aset_again.
  - destruct (reads_arr_tree _ _ _ _ H) as (a & ps & s' & -> & -> & Ea & Hm).
    cbn [deref] in Ec. rewrite Ea in Ec. injection Ec as <-.
    destruct (any_to_int par) as [pos|e| |] eqn:Ep; try exact (X _); try (destruct par; discriminate).
    assert (La : a < List.length h) by (apply nth_error_Some; congruence).
    pose proof (set_at_index_ref ps l c cv pos (elems_length _ _ _ _ Hm)) as Q.
    destruct (set_at_index ps c pos) as [l'|e| |], (set_at_index l cv pos) as [vs'|e'| |]; try contradiction.
    + destruct Q as (n & m & Lm & -> & -> & Hn & Hu).
      destruct (arr_splice h a ps l s' [c] [cv] t n m Ea Hm N) as (s1 & R1 & N1 & F1); auto.
      { rewrite <- (app_nil_r t). constructor; [exact Hc|constructor]. }
      set (h1 := store h (Some a) _) in *.
      split; [unfold h1; rewrite store_length; lia|]. split.
      { intros x _ Hx. apply root_other. intros <-. apply Hx. now left. }
      split; [reflexivity|]. split; [reflexivity|]. exists s1. split; [exact R1|]. split; [exact N1|]. split; [exact F1|].
      assert (Sl : slot h1 (Some a) (VArr (firstn n l ++ [cv] ++ skipn m l)) s1 [HIdx n] c cv t).
      { apply hop_here; auto.
        * exists (CArr (firstn n ps ++ [c] ++ skipn m ps)).
          split; [unfold h1; cbn [deref store]; now apply nth_error_set_nth_same|]. exact Hn.
        * apply (frame_reads h); [exact Hc|]. intros x Hx. apply root_other. intros <-. apply (D' a Hx). now left. }
      exists [HIdx n]. split; [exact Sl|].
      intros cv2 _. rewrite Hu. destruct Sl as (Sl & _). cbn [sub_at put_at] in *.
      destruct (child_at (VArr (firstn n l ++ [cv] ++ skipn m l)) (HIdx n)); [|discriminate]. reflexivity.
    + destruct Q as [<- Hu].
      split; [lia|]. split; [intros x _ _; reflexivity|]. split; [reflexivity|]. split; [reflexivity|]. split; [apply kept_refl|].
      intros cv2 _. now rewrite Hu.
Qed.

(** A container made for a missing child. *)
Lemma container_ref h par :
  match h_new_container h par, new_container par with
  | (h1, Ok q), Ok w => exists c0, h1 = h ++ [c0] /\ q = Some (List.length h) /\ reads h1 q w [List.length h]
  | (h1, Err e), Err e' => h1 = h /\ e = e'
  | _, _ => False
  end.
Proof.
  unfold h_new_container, new_container. destruct (any_to_string par) as [k|e0| |].
  2,3,4: destruct (any_to_int par) as [i|e| |]; try (split; reflexivity); destruct (i =? 0)%Z; try (split; reflexivity).
  2,3,4: cbn [alloc]; eexists; split; [reflexivity|]; split; [reflexivity|]; apply reads_arr with (l := []); [apply nth_error_last|constructor].
  cbn [alloc]. eexists. split; [reflexivity|]. split; [reflexivity|]. apply reads_obj with (kvs := []); [apply nth_error_last|constructor].
Qed.

Lemma kept_frame h h1 p v s : kept h h1 -> reads h p v s -> reads h1 p v s.
Proof. intros (_ & K) H. apply (frame_reads h); [exact H|]. intros a Ha. apply K. exact (reads_lt _ _ _ _ _ H Ha). Qed.


Lemma put_child_idle v k u : child_at v k = Some u -> put_child v k u = v.
Proof.
  destruct v as [|x0|n0 src|i kvs lo|l|b| | |]; destruct k as [n|k]; cbn; try discriminate.
  - destruct (alookup k kvs) as [[id x]|] eqn:El; [|discriminate]. intros [= ->]. now rewrite (aset_idle k (id, u)).
  - intros H. now rewrite set_nth_same.
Qed.
Lemma child_put v k u u1 : child_at v k = Some u -> child_at (put_child v k u1) k = Some u1.
Proof.
  destruct v as [|x0|n0 src|i kvs lo|l|b| | |]; destruct k as [n|k]; cbn; try discriminate.
  - destruct (alookup k kvs) as [[id x]|] eqn:El; [|discriminate]. intros _. cbn. now rewrite alookup_aset_same.
  - intros H. apply nth_error_set_nth_same. apply nth_error_Some. congruence.
Qed.
Lemma put_child_again v k u x y : child_at v k = Some u -> put_child (put_child v k x) k y = put_child v k y.
Proof.
  destruct v as [|x0|n0 src|i kvs lo|l|b| | |]; destruct k as [n|k]; cbn; try discriminate.
  - destruct (alookup k kvs) as [[id z]|] eqn:El; [|discriminate]. intros _. cbn. rewrite alookup_aset_same. now rewrite aset_again.
  - intros _. now rewrite set_nth_again.
Qed.
Definition lift (v : V) (k : hop) (o : V * res V) : V * res V := let '(x, r) := o in (put_child v k x, r).

(** Going down into a child that is there. *)
Lemma set_inner h h1 p v s c cv t k q u t0 u1 o o' g : reads h p v s -> NoDup s -> reads h c cv t -> (forall x, In x s -> ~ In x t) ->
  step h p k q -> child_at v k = Some u -> slot h p v s [k] q u t0 -> (forall a, p = Some a -> ~ In a t0) ->
  set_done h h1 q c t0 t u u1 cv o o' g ->
  set_done h h1 p c s t v (put_child v k u1) cv o o' (fun cv2 => lift v k (g cv2)).
Proof.
  intros H N Hc D St Ck (S1 & R1 & N1 & I1 & P1) Rt (L & O & Q).
  split; [exact L|]. split; [intros a La Ha; apply O; auto|].
  assert (Z : forall (oo : res ptr) (oo' : res V), agree (fun _ _ => False) oo oo' /\ u1 = u /\ kept h h1 /\
             (forall cv2, uninitialized cv2 = uninitialized cv -> g cv2 = (u, oo')) ->
             agree (fun _ _ => False) oo oo' /\ put_child v k u1 = v /\ kept h h1 /\
             (forall cv2, uninitialized cv2 = uninitialized cv -> lift v k (g cv2) = (v, oo'))).
  { intros oo oo' (A1 & -> & A3 & A4). split; [exact A1|]. split; [now apply put_child_idle|]. split; [exact A3|].
    intros cv2 U2. rewrite (A4 _ U2). cbn. now rewrite put_child_idle. }
  destruct o as [x|e| |], o' as [w|e'| |]; try exact (Z _ _ Q).
  destruct Q as (-> & -> & t1 & A1 & A2 & A3 & hs & A4 & A5). split; [reflexivity|]. split; [reflexivity|].
  destruct (P1 t (List.length h) h1 u1 t1) as (s1 & B1 & B2 & B3); auto.
  - exact (apart_bound _ _ _ _ _ _ _ H Hc D).
  - intros a Ha Hna. apply O; [exact (reads_lt _ _ _ _ _ H Ha)|exact Hna].
  - cbn [put_at] in B1. rewrite Ck in B1. exists s1. split; [exact B1|]. split; [exact B2|]. split; [exact B3|].
    exists (k :: hs). split.
    + apply slot_cons with (q := q) (u := u1) (t := t1); [|exact A4]. apply hop_here; auto. apply (step_root h); [exact St|].
      destruct (step_some _ _ _ _ St) as [a ->]. cbn [deref]. apply O; [|now apply Rt].
      destruct St as (y & Ey & _). apply nth_error_Some. cbn [deref] in Ey. congruence.
    + intros cv2 U2. rewrite (A5 _ U2). cbn [lift put_at]. rewrite (child_put _ _ _ _ Ck). now rewrite (put_child_again _ _ _ _ _ Ck).
Qed.

(** A container that was made, filled and then put in its place. *)
Lemma set_outer h h2 h3 p v s c cv t c0 q w1 t1 hs k v3 s3 f : reads h p v s -> reads h c cv t -> (forall x, In x s -> ~ In x t) ->
  List.length h < List.length h2 -> off [List.length h] (h ++ [c0]) h2 -> q = Some (List.length h) ->
  reads h2 q w1 t1 -> Forall (within [List.length h] t (List.length (h ++ [c0]))) t1 -> slot h2 q w1 t1 hs c cv t ->
  reads h3 p v3 s3 -> NoDup s3 -> Forall (within s t1 (List.length h2)) s3 -> List.length h3 = List.length h2 ->
  (forall x, p <> Some x -> nth_error h3 x = nth_error h2 x) -> (exists a, p = Some a /\ In a s) -> step h3 p k q ->
  (forall cv2, uninitialized cv2 = false -> f cv2 = (put_child v3 k (put_at w1 hs cv2), Ok cv2)) ->
  set_done h h3 p c s t v v3 cv (Ok c) (Ok cv) f.
Proof.
  intros H Hc D L2 O2 Eq R1 F1 Sl R3 N3 F3 L3 O3 (a & -> & Ia) St Hf.
  assert (La : a < List.length h) by exact (reads_lt _ _ _ _ _ H Ia).
  assert (Na : ~ In a t1).
  { intros C. rewrite Forall_forall in F1. rewrite app_length in F1. cbn in F1. destruct (F1 a C) as [[X|[]]|[X|X]]; [lia|exact (D a Ia X)|lia]. }
  split; [lia|]. split.
  { intros x Lx Hx. rewrite O3 by congruence. rewrite O2.
    - now rewrite nth_error_app1.
    - rewrite app_length. lia.
    - intros [C|[]]. lia. }
  split; [reflexivity|]. split; [reflexivity|]. exists s3. split; [exact R3|]. split; [exact N3|]. split.
  { eapply Forall_impl; [|exact F3]. intros x [Hx|[Hx|Hx]]; [now left| |right; right; lia].
    rewrite Forall_forall in F1. rewrite app_length in F1. cbn in F1. right. destruct (F1 x Hx) as [[X|[]]|[X|X]]; [right; lia|now left|right; lia]. }
  exists (k :: hs). 
  assert (Fr : forall x, In x t1 -> nth_error h3 x = nth_error h2 x) by (intros x Hx; apply O3; congruence).
  assert (S0 : slot h3 (Some a) v3 s3 [k] q w1 t1).
  { apply hop_here; auto. apply (frame_reads h2); auto. }
  split.
  - apply slot_cons with (q := q) (u := w1) (t := t1); [exact S0|]. now apply (slot_frame h2).
  - intros cv2 U2. rewrite (Hf _ U2). destruct S0 as (S0 & _). cbn [sub_at put_at] in *. destruct (child_at v3 k) as [y|]; [|discriminate].
    now injection S0 as ->.
Qed.

Lemma set_done_ext h h1 p c s t v v1 cv o o' g g' : uninitialized cv = false ->
  (forall cv2, uninitialized cv2 = false -> g' cv2 = g cv2) ->
  set_done h h1 p c s t v v1 cv o o' g -> set_done h h1 p c s t v v1 cv o o' g'.
Proof.
  intros U X (L & O & Q). split; [exact L|]. split; [exact O|].
  assert (Z : (agree (fun _ _ => False) o o' /\ v1 = v /\ kept h h1 /\
               forall cv2, uninitialized cv2 = uninitialized cv -> g cv2 = (v, o')) ->
              (agree (fun _ _ => False) o o' /\ v1 = v /\ kept h h1 /\
               forall cv2, uninitialized cv2 = uninitialized cv -> g' cv2 = (v, o'))).
  { intros (A1 & A2 & A3 & A4). split; [exact A1|]. split; [exact A2|]. split; [exact A3|]. intros cv2 U2. rewrite X by congruence. auto. }
  destruct o as [x|e| |], o' as [w|e'| |]; try exact (Z Q).
  destruct Q as (-> & -> & s1 & A1 & A2 & A3 & hs & A4 & A5). split; [reflexivity|]. split; [reflexivity|].
  exists s1. split; [exact A1|]. split; [exact A2|]. split; [exact A3|]. exists hs. split; [exact A4|]. intros cv2 U2. rewrite X; auto.
Qed.

Lemma set_failed h h2 p c s t v w w1 cv o o' g c0 q F :
  set_done (h ++ [c0]) h2 q c [List.length h] t w w1 cv o o' g -> (forall x, o' <> Ok x) ->
  (forall cv2, uninitialized cv2 = uninitialized cv -> snd (g cv2) = o' -> F cv2 = (v, o')) ->
  set_done h h2 p c s t v v cv o o' F.
Proof.
  intros (L & O & Q) No X. rewrite app_length in L. cbn in L. split; [lia|].
  assert (Z : agree (fun _ _ => False) o o' /\ w1 = w /\ kept (h ++ [c0]) h2 /\
               (forall cv2, uninitialized cv2 = uninitialized cv -> g cv2 = (w, o'))).
  { destruct o, o'; try exact Q. exfalso. exact (No _ eq_refl). }
  destruct Z as (A1 & A2 & A3 & A4). pose proof (kept_trans _ _ _ (kept_alloc h c0) A3) as K.
  split; [intros x Lx _; apply (proj2 K); exact Lx|].
  destruct o, o'; try contradiction; (split; [exact A1|]); (split; [reflexivity|]); (split; [exact K|]); intros cv2 U2; apply X; auto;
    rewrite A4; auto.
Qed.

Lemma set_ref f : forall h p v s c cv t par r, reads h p v s -> NoDup s -> reads h c cv t -> NoDup t ->
  (forall x, In x s -> ~ In x t) ->
  let '(h1, o) := h_set_f E f h p c par r in let '(v1, o') := set_f E f v cv par r in
  set_done h h1 p c s t v v1 cv o o' (fun cv2 => set_f E f v cv2 par r).
Proof.
  induction f as [|f IH]; intros h p v s c cv t par r H N Hc Nc D; cbn [h_set_f set_f].
  { split; [lia|]. split; [intros a _ _; reflexivity|]. repeat split; auto. }
  assert (X : forall e, set_done h h p c s t v v cv (Err e) (Err e) (fun _ => (v, Err e))).
  { intros e. split; [lia|]. split; [intros a _ _; reflexivity|]. split; [reflexivity|]. split; [reflexivity|]. split; [apply kept_refl|]. auto. }
  destruct (peel par r) as [[p0 r0]|]; [|exact (X _)].
  rewrite (uninit_ref _ _ _ _ H), (uninit_ref _ _ _ _ Hc).
  destruct (uninitialized v) eqn:Uv; [exact (X _)|]. destruct (uninitialized cv) eqn:Uc.
  { split; [lia|]. split; [intros a _ _; reflexivity|]. split; [reflexivity|]. split; [reflexivity|]. split; [apply kept_refl|].
    intros cv2 E2. now rewrite E2, Uc. }
  destruct r0 as [|p1 r1].
  { pose proof (last_ref h p v s c cv t p0 H N Hc Nc D Uc) as L.
    destruct (h_at_last_param E h p c p0) as [h1 o]. destruct (at_last_param E v cv p0) as [v1 o'].
    destruct L as (L1 & L2 & L3). split; [exact L1|]. split; [exact L2|].
    destruct o as [q|e| |], o' as [w|e'| |]; try (destruct L3 as (A1 & _); contradiction A1).
    - destruct L3 as (-> & -> & s1 & A1 & A2 & A3 & hs & A4 & A5). split; [reflexivity|]. split; [reflexivity|].
      exists s1. split; [exact A1|]. split; [exact A2|]. split; [exact A3|]. exists hs. split; [exact A4|].
      intros cv2 U2. rewrite U2. auto.
    - destruct L3 as (A1 & A2 & A3 & A4). split; [exact A1|]. split; [exact A2|]. split; [exact A3|].
      intros cv2 U2. rewrite U2, Uc. apply A4. congruence.
    - destruct L3 as (A1 & A2 & A3 & A4). split; [exact A1|]. split; [exact A2|]. split; [exact A3|].
      intros cv2 U2. rewrite U2, Uc. apply A4. congruence.
    - destruct L3 as (A1 & A2 & A3 & A4). split; [exact A1|]. split; [exact A2|]. split; [exact A3|].
      intros cv2 U2. rewrite U2, Uc. apply A4. congruence. }
  assert (Y : forall e, set_done h h p c s t v v cv (Err e) (Err e) (fun cv2 => if uninitialized cv2 then (v, Err ErrValueUninitialized) else (v, Err e))).
  { intros e. destruct (X e) as (X1 & X2 & X3 & X4 & X5 & X6). split; [exact X1|]. split; [exact X2|]. split; [exact X3|]. split; [exact X4|]. split; [exact X5|].
    intros cv2 E2. now rewrite E2, Uc. }
  pose proof (reads_deref _ _ _ _ H) as Dr.
  destruct v as [|x|n src|i xs lo|l|b| | |]; destruct (deref h p) as [c0|] eqn:Ec; try contradiction; try destruct c0; try contradiction;
    try exact (Y _).
  - destruct Dr as [<- <-]. destruct (reads_obj_tree _ _ _ _ _ _ H) as (a & ps & s' & -> & -> & Ea & Hm).
    pose proof Ec as Ec'. cbn [deref] in Ec. rewrite Ea in Ec. injection Ec as <-.
    destruct (any_to_string p0) as [key|e| |] eqn:Ep; try exact (Y _); try (destruct p0; discriminate).
    pose proof (members_lookup _ _ _ _ Hm key) as M. change (bytes * (Z * V))%type with kv in *.
    destruct (alookup key ps) as [[id q]|] eqn:El; destruct (alookup key xs) as [[id' u]|] eqn:El2; try contradiction.
    + subst id'. assert (St : step h (Some a) (HKey key) q).
      { exists (CObj i ps lo). split; [exact Ec'|]. cbn [kid]. now rewrite El. }
      destruct (hop_slot _ _ _ _ _ _ H N St) as (u' & t0 & Ck & Sl & Rt).
      assert (Eu : u' = u) by (cbn [child_at] in Ck; rewrite El2 in Ck; congruence). subst u'.
      pose proof Sl as (_ & R1 & N1 & I1 & _).
      pose proof (IH h q u t0 c cv t p1 r1 R1 N1 Hc Nc) as IHq.
      destruct (h_set_f E f h q c p1 r1) as [h1 o]. destruct (set_f E f u cv p1 r1) as [u1 o'] eqn:Es.
      assert (IHq' : set_done h h1 q c t0 t u u1 cv o o' (fun cv2 => set_f E f u cv2 p1 r1)) by (apply IHq; auto).
      pose proof (set_inner h h1 _ _ _ c cv t _ q u t0 u1 o o' _ H N Hc D St Ck Sl Rt IHq') as Q.
      cbn [put_child] in Q. rewrite El2 in Q. refine (set_done_ext _ _ _ _ _ _ _ _ _ _ _ _ _ Uc _ Q).
      intros cv2 U2. rewrite U2. destruct (set_f E f u cv2 p1 r1). cbn [lift put_child]. now rewrite El2.
    + pose proof (container_ref h p1) as C. destruct (h_new_container h p1) as [h1 o]. destruct (new_container p1) as [w|e| |];
        destruct o as [q|e'| |]; try contradiction.
      2: { destruct C as [-> ->]. exact (Y _). }
      destruct C as (c0 & -> & Eq & Rw).
      assert (Hc1 : reads (h ++ [c0]) c cv t) by (apply (kept_frame h); [apply kept_alloc|exact Hc]).
      assert (IHq := IH (h ++ [c0]) q w [List.length h] c cv t p1 r1 Rw).
      assert (Nq : NoDup [List.length h]) by (constructor; [intros []|constructor]).
      assert (Dq : forall x, In x [List.length h] -> ~ In x t) by (intros x [<-|[]] Hx; pose proof (reads_lt _ _ _ _ _ Hc Hx); lia).
      specialize (IHq Nq Hc1 Nc Dq).
      destruct (h_set_f E f (h ++ [c0]) q c p1 r1) as [h2 o]. destruct (set_f E f w cv p1 r1) as [w1 o'] eqn:Es.
      destruct o' as [w'|e| |].
      2,3,4: destruct o as [x|e2| |]; try (destruct IHq as (_ & _ & A1 & _); contradiction A1);
        (eapply set_failed; [exact IHq|discriminate|]); intros cv2 U2 Sg; rewrite U2, Uc;
        destruct (set_f E f w cv2 p1 r1) as [y z]; cbn [snd] in Sg; now rewrite Sg.
      destruct o as [x|e| |]; try (destruct IHq as (_ & _ & A1 & _); contradiction A1).
      destruct IHq as (L2 & O2 & -> & -> & t1 & A1 & A2 & A3 & hs & A4 & A5). pose proof L2 as L2'. rewrite app_length in L2. cbn in L2.
      assert (K : forall x, x < List.length h -> nth_error h2 x = nth_error h x).
      { intros x Lx. rewrite O2; [now rewrite nth_error_app1|rewrite app_length; lia|]. intros [C|[]]. lia. }
      assert (La : a < List.length h) by (apply nth_error_Some; congruence).
      assert (Ea2 : nth_error h2 a = Some (CObj i ps lo)) by now rewrite K.
      assert (Hm2 : reads_members h2 ps xs s').
      { apply (frame_members h); [exact Hm|]. intros x Hx. apply K. apply (reads_lt _ _ _ _ x H). now right. }
      assert (D2 : forall x, In x t1 -> ~ In x (a :: s')).
      { intros x Hx Hx2. pose proof (reads_lt _ _ _ _ x H Hx2). rewrite Forall_forall in A3. rewrite app_length in A3. cbn in A3.
        destruct (A3 x Hx) as [[C|[]]|[C|C]]; [lia|exact (D x Hx2 C)|lia]. }
      unfold h_set_to_object, set_to_object. cbn [deref]. rewrite Ea2. cbn iota beta.
      destruct (obj_put h2 a i ps lo xs s' q w1 t1 key (wrap_u32 (i + 1)) (wrap_u32 (i + 1)) (add_caseless_key E key lo) Ea2 Hm2 N A1 A2 D2)
        as (s3 & R3 & N3 & F3).
      eapply set_outer with (k := HKey key) (c0 := c0) (q := q) (w1 := w1) (t1 := t1) (hs := hs) (h2 := h2); eauto.
      * lia.
      * apply store_length.
      * intros x Hx. apply root_other. congruence.
      * exists a. split; [reflexivity|now left].
      * exists (CObj (wrap_u32 (i + 1)) (aset key (wrap_u32 (i + 1), q) ps) (add_caseless_key E key lo)).
        split; [cbn [deref store]; apply nth_error_set_nth_same; lia|]. cbn [kid]. now rewrite alookup_aset_same.
      * intros cv2 U2. rewrite U2, (A5 _ U2). cbn [put_child]. rewrite alookup_aset_same. now rewrite aset_again.
  - destruct (reads_arr_tree _ _ _ _ H) as (a & ps & s' & -> & -> & Ea & Hm).
    pose proof Ec as Ec'. cbn [deref] in Ec. rewrite Ea in Ec. injection Ec as <-.
    destruct (any_to_int p0) as [pos|e| |] eqn:Ep; try exact (Y _); try (destruct p0; discriminate).
    pose proof (elems_length _ _ _ _ Hm) as Le. rewrite Le.
    destruct (pos_read (List.length ps) pos) as [n|] eqn:El.
    + pose proof (pos_read_lt _ _ _ El) as Ln. assert (St : step h (Some a) (HIdx n) (nth n ps None)).
      { exists (CArr ps). split; [exact Ec'|]. cbn [kid]. now apply nth_error_nth'. }
      set (q := nth n ps None) in *.
      destruct (hop_slot _ _ _ _ _ _ H N St) as (u & t0 & Ck & Sl & Rt).
      assert (Eu : nth n l VNil = u) by (cbn [child_at] in Ck; now apply nth_error_nth). rewrite Eu.
      pose proof Sl as (_ & R1 & N1 & I1 & _).
      pose proof (IH h q u t0 c cv t p1 r1 R1 N1 Hc Nc) as IHq.
      destruct (h_set_f E f h q c p1 r1) as [h1 o]. destruct (set_f E f u cv p1 r1) as [u1 o'] eqn:Es.
      assert (IHq' : set_done h h1 q c t0 t u u1 cv o o' (fun cv2 => set_f E f u cv2 p1 r1)) by (apply IHq; auto).
      pose proof (set_inner h h1 _ _ _ c cv t _ q u t0 u1 o o' _ H N Hc D St Ck Sl Rt IHq') as Q.
      cbn [put_child] in Q. refine (set_done_ext _ _ _ _ _ _ _ _ _ _ _ _ _ Uc _ Q).
      intros cv2 U2. rewrite U2. destruct (set_f E f u cv2 p1 r1). reflexivity.
    + pose proof (container_ref h p1) as C. destruct (h_new_container h p1) as [h1 o]. destruct (new_container p1) as [w|e| |];
        destruct o as [q|e'| |]; try contradiction.
      2: { destruct C as [-> ->]. exact (Y _). }
      destruct C as (c0 & -> & Eq & Rw).
      assert (Hc1 : reads (h ++ [c0]) c cv t) by (apply (kept_frame h); [apply kept_alloc|exact Hc]).
      assert (IHq := IH (h ++ [c0]) q w [List.length h] c cv t p1 r1 Rw).
      assert (Nq : NoDup [List.length h]) by (constructor; [intros []|constructor]).
      assert (Dq : forall x, In x [List.length h] -> ~ In x t) by (intros x [<-|[]] Hx; pose proof (reads_lt _ _ _ _ _ Hc Hx); lia).
      specialize (IHq Nq Hc1 Nc Dq).
      destruct (h_set_f E f (h ++ [c0]) q c p1 r1) as [h2 o]. destruct (set_f E f w cv p1 r1) as [w1 o'] eqn:Es.
      destruct o' as [w'|e| |].
      2,3,4: destruct o as [x|e2| |]; try (destruct IHq as (_ & _ & A1 & _); contradiction A1);
        (eapply set_failed; [exact IHq|discriminate|]); intros cv2 U2 Sg; rewrite U2, Uc;
        destruct (set_f E f w cv2 p1 r1) as [y z]; cbn [snd] in Sg; now rewrite Sg.
      destruct o as [x|e| |]; try (destruct IHq as (_ & _ & A1 & _); contradiction A1).
      destruct IHq as (L2 & O2 & -> & -> & t1 & A1 & A2 & A3 & hs & A4 & A5). pose proof L2 as L2'. rewrite app_length in L2. cbn in L2.
      assert (K : forall x, x < List.length h -> nth_error h2 x = nth_error h x).
      { intros x Lx. rewrite O2; [now rewrite nth_error_app1|rewrite app_length; lia|]. intros [C|[]]. lia. }
      assert (La : a < List.length h) by (apply nth_error_Some; congruence).
      assert (Ea2 : nth_error h2 a = Some (CArr ps)) by now rewrite K.
      assert (Hm2 : reads_elems h2 ps l s').
      { apply (frame_elems h); [exact Hm|]. intros x Hx. apply K. apply (reads_lt _ _ _ _ x H). now right. }
      assert (D2 : forall x, In x t1 -> ~ In x (a :: s')).
      { intros x Hx Hx2. pose proof (reads_lt _ _ _ _ x H Hx2). rewrite Forall_forall in A3. rewrite app_length in A3. cbn in A3.
        destruct (A3 x Hx) as [[C|[]]|[C|C]]; [lia|exact (D x Hx2 C)|lia]. }
      unfold h_insert_to_arr. cbn [deref]. rewrite Ea2. cbn iota beta. unfold insert_to_arr. rewrite firstn_all, skipn_all.
      destruct (arr_splice h2 a ps l s' [q] [w1] t1 (List.length ps) (List.length ps) Ea2 Hm2 N) as (s3 & R3 & N3 & F3); auto.
      { rewrite <- (app_nil_r t1). constructor; [exact A1|constructor]. }
      rewrite <- Le in R3 at 3 4. rewrite !firstn_all, !skipn_all in R3. cbn [app] in R3.
      eapply set_outer with (k := HIdx (List.length ps)) (c0 := c0) (q := q) (w1 := w1) (t1 := t1) (hs := hs) (h2 := h2); eauto.
      * lia.
      * apply store_length.
      * intros x Hx. apply root_other. congruence.
      * exists a. split; [reflexivity|now left].
      * exists (CArr (ps ++ [q])).
        split; [cbn [deref store]; apply nth_error_set_nth_same; lia|]. cbn [kid]. apply nth_error_app_here.
      * intros cv2 U2. rewrite U2, (A5 _ U2). cbn [put_child]. rewrite <- Le. now rewrite set_nth_there.
Qed.

(** *** The other changes *)

(** The document [v] at [p] became [v1]. *)
Definition became (h h1 : heap) (p : ptr) (s t : list nat) (v1 : V) : Prop :=
  List.length h <= List.length h1 /\ off s h h1 /\
  exists s1, reads h1 p v1 s1 /\ NoDup s1 /\ Forall (within s t (List.length h)) s1.

Lemma within_self s t n : Forall (within s t n) s.
Proof. apply Forall_forall. intros x Hx. now left. Qed.
Lemma became_same h p s t v : reads h p v s -> NoDup s -> became h h p s t v.
Proof. intros H N. split; [lia|]. split; [intros a _ _; reflexivity|]. exists s. split; [exact H|]. split; [exact N|apply within_self]. Qed.
Lemma became_got h h1 p s s1 t v1 : List.length h1 = List.length h -> off s h h1 -> reads h1 p v1 s1 -> NoDup s1 -> incl s1 s ->
  became h h1 p s t v1.
Proof.
  intros L O R N I. split; [lia|]. split; [exact O|]. exists s1. split; [exact R|]. split; [exact N|].
  apply Forall_forall. intros x Hx. left. now apply I.
Qed.
(** A change below a place. *)
Lemma became_at h h1 h2 p s s1 t v1 hs q u t0 u2 : List.length h1 = List.length h -> off s h h1 -> reads h1 p v1 s1 -> incl s1 s ->
  (forall x, In x s -> ~ In x t) -> slot h1 p v1 s1 hs q u t0 -> became h1 h2 q t0 t u2 -> became h h2 p s t (put_at v1 hs u2).
Proof.
  intros L O R I D (S1 & R1 & N1 & I1 & P1) (L2 & O2 & t2 & R2 & N2 & F2).
  split; [lia|]. split.
  { intros x Lx Hx. rewrite O2; [apply O; auto|lia|]. intros C. apply Hx, I, I1, C. }
  destruct (P1 t (List.length h1) h2 u2 t2) as (s2 & B1 & B2 & B3); auto.
  - intros x Hx. split; [apply D, I, Hx|exact (reads_lt _ _ _ _ _ R Hx)].
  - intros x Hx Hn. apply O2; [exact (reads_lt _ _ _ _ _ R Hx)|exact Hn].
  - exists s2. split; [exact B1|]. split; [exact B2|]. eapply Forall_impl; [|exact B3]. intros x [Hx|[Hx|Hx]]; [left; now apply I|right; now left|right; right; lia].
Qed.

Lemma frame_off h h1 s c cv t : off s h h1 -> (forall x, In x s -> ~ In x t) -> reads h c cv t -> reads h1 c cv t.
Proof.
  intros O D H. apply (frame_reads h); [exact H|]. intros x Hx. apply O; [exact (reads_lt _ _ _ _ _ H Hx)|]. intros C. exact (D x C Hx).
Qed.

(** An element comes in between others. *)
Lemma arr_in h p s c cv t l n : reads h p (VArr l) s -> NoDup s -> reads h c cv t -> NoDup t -> (forall x, In x s -> ~ In x t) ->
  exists ps, deref h p = Some (CArr ps) /\ List.length ps = List.length l /\
    became h (store h p (CArr (insert_to_arr ps n c))) p s t (VArr (insert_to_arr l n cv)).
Proof.
  intros H N Hc Nc D. destruct (reads_arr_tree _ _ _ _ H) as (a & ps & s' & -> & -> & Ea & Hm).
  exists ps. split; [exact Ea|]. split; [symmetry; exact (elems_length _ _ _ _ Hm)|].
  destruct (arr_splice h a ps l s' [c] [cv] t n n Ea Hm N) as (s1 & R1 & N1 & F1); auto.
  - rewrite <- (app_nil_r t). constructor; [exact Hc|constructor].
  - intros x Hx C. exact (D x C Hx).
  - split; [rewrite store_length; lia|]. split; [intros x _ Hx; apply root_other; intros <-; apply Hx; now left|].
    exists s1. split; [exact R1|]. split; assumption.
Qed.

Definition same_child (c : ptr) (cv : V) (q : ptr) (w : V) : Prop := q = c /\ w = cv.

Lemma insert_last_ref af h p v s c cv t par : reads h p v s -> NoDup s -> reads h c cv t -> NoDup t -> (forall x, In x s -> ~ In x t) ->
  let '(h1, o) := h_insert_last af h p c par in let '(v1, o') := insert_last af v cv par in
  became h h1 p s t v1 /\ agree (same_child c cv) o o'.
Proof.
  intros H N Hc Nc D. pose proof (reads_deref _ _ _ _ H) as Dr. unfold h_insert_last, insert_last.
  assert (X : forall e, became h h p s t v /\ agree (same_child c cv) (Err e) (Err e)) by (intros e; split; [now apply became_same|reflexivity]).
  destruct v as [|x|n src|i xs lo|l|b| | |]; destruct (deref h p) as [c0|] eqn:Ec; try contradiction; try destruct c0; try contradiction;
    try exact (X _).
  destruct (any_to_int par) as [pos|e| |] eqn:Ep; try exact (X _); try (destruct par; discriminate).
  destruct (arr_in h p s c cv t l 0 H N Hc Nc D) as (ps & E1 & Le & _). rewrite Ec in E1. injection E1 as ->. rewrite Le.
  destruct (if af then pos_insert_after (List.length l) pos else pos_insert_before (List.length l) pos) as [n|]; [|exact (X _)].
  destruct (arr_in h p s c cv t l n H N Hc Nc D) as (ps' & E2 & _ & Q). rewrite Ec in E2. injection E2 as <-.
  split; [exact Q|]. split; reflexivity.
Qed.

Lemma get_ref cl h p v s par r : reads h p v s -> NoDup s ->
  let '(h1, o) := h_get E W cl h p par r in let '(v1, o') := locate E W cl v par r in
  List.length h1 = List.length h /\ off s h h1 /\
  exists s1, reads h1 p v1 s1 /\ NoDup s1 /\ incl s1 s /\
    agree (fun q hs => exists u t, slot h1 p v1 s1 hs q u t) o o'.
Proof. unfold h_get, locate. intros. now apply locate_ref. Qed.

Lemma insert_ref f af : forall h p v s c cv t par r, reads h p v s -> NoDup s -> reads h c cv t -> NoDup t ->
  (forall x, In x s -> ~ In x t) ->
  let '(h1, o) := h_insert_f E W f af h p c par r in let '(v1, o') := insert_f E W f af v cv par r in
  became h h1 p s t v1 /\ agree (same_child c cv) o o'.
Proof.
  induction f as [|f IH]; intros h p v s c cv t par r H N Hc Nc D; cbn [h_insert_f insert_f].
  { split; [now apply became_same|exact I]. }
  assert (X : forall o : res V, (forall x, o <> Ok x) -> became h h p s t v /\
                agree (same_child c cv) (match o with Err e => Err e | Panic => Panic | _ => Fuel end) o).
  { intros o Ho. split; [now apply became_same|]. destruct o; cbn; auto. exfalso. exact (Ho _ eq_refl). }
  destruct (peel par r) as [[p0 r0]|]; [|exact (X (Err _) ltac:(discriminate))].
  pose proof (reads_deref _ _ _ _ H) as Dr.
  assert (Y : is_nil v = false -> not_exist v = false -> deref h p <> None /\ deref h p <> Some CNotExist).
  { destruct v; destruct (deref h p) as [[]|]; try contradiction; try discriminate; split; discriminate. }
  destruct (is_nil v) eqn:Nv.
  { destruct v; try discriminate. destruct (deref h p); [contradiction|]. destruct af; [exact (X (Err _) ltac:(discriminate))|exact (X Panic ltac:(discriminate))]. }
  destruct (not_exist v) eqn:Ev.
  { destruct v; try discriminate. destruct (deref h p) as [[]|]; try contradiction. exact (X (Err _) ltac:(discriminate)). }
  destruct (Y eq_refl eq_refl) as [Y1 Y2]. clear Y Dr.
  assert (G : let '(h1, o) := (match r0 with
        | [] => h_insert_last af h p c p0
        | _ :: _ =>
          let '(h', t) := h_get_array E W h p p0 (removelast r0) in
          match t with
          | Ok child => h_insert_f E W f af h' child c (last r0 PNil) []
          | e => (h', e)
          end
        end) in
      let '(v1, o') := match r0 with
      | [] => insert_last af v cv p0
      | _ :: _ =>
        let '(v', t) := locate E W false v p0 (removelast r0) in
        match t with
        | Ok hs =>
          match sub_at v' hs with
          | Some (VArr l) =>
            let '(child', res) := insert_f E W f af (VArr l) cv (last r0 PNil) [] in
            (put_at v' hs child', res)
          | Some VNil => (v', Panic)
          | Some _ => (v', Err ErrTypeNotMatch)
          | None => (v', Panic)
          end
        | Err e => (v', Err e) | Panic => (v', Panic) | Fuel => (v', Fuel)
        end
      end in became h h1 p s t v1 /\ agree (same_child c cv) o o').
  { destruct r0 as [|p1 r1]; [now apply insert_last_ref|]. set (r2 := removelast (p1 :: r1)). set (pl := last (p1 :: r1) PNil).
    unfold h_get_array. pose proof (get_ref false h p v s p0 r2 H N) as G.
    destruct (h_get E W false h p p0 r2) as [h1 o]. destruct (locate E W false v p0 r2) as [v1 o'].
    destruct G as (L1 & O1 & s1 & R1 & N1 & I1 & A1).
    destruct o as [q|e| |], o' as [hs|e'| |]; cbn [agree] in A1; try contradiction;
      try (split; [now apply became_got with (s1 := s1)|exact A1]).
    destruct A1 as (u & t0 & Sl). pose proof Sl as (S1 & R2 & N2 & I2 & _). rewrite S1.
    pose proof (reads_deref _ _ _ _ R2) as Dq. destruct u as [|x|n src|i xs lo|l|b| | |]; destruct (deref h1 q) as [c1|]; try contradiction;
      try destruct c1; try contradiction; try (split; [now apply became_got with (s1 := s1)|reflexivity]).
    pose proof (IH h1 q (VArr l) t0 c cv t pl [] R2 N2 (frame_off _ _ _ _ _ _ O1 D Hc) Nc) as IHq.
    destruct (h_insert_f E W f af h1 q c pl []) as [h2 o]. destruct (insert_f E W f af (VArr l) cv pl []) as [u2 o'].
    destruct IHq as (B1 & B2); [auto|]. split; [|exact B2]. now apply (became_at h h1 h2 p s s1 t v1 hs q (VArr l) t0 u2). }
  destruct (deref h p) as [c1|]; [|congruence]. destruct c1; try congruence; exact G.
Qed.

Lemma obj_del h p s i xs lo k lo' : reads h p (VObj i xs lo) s -> NoDup s ->
  exists ps, deref h p = Some (CObj i ps lo) /\ (exists s', reads_members h ps xs s') /\
    became h (store h p (CObj i (aremove k ps) lo')) p s [] (VObj i (aremove k xs) lo') /\
    became h (store h p (CObj i ps lo')) p s [] (VObj i xs lo').
Proof.
  intros H N. destruct (reads_obj_tree _ _ _ _ _ _ H) as (a & ps & s' & -> & -> & Ea & Hm).
  assert (La : a < List.length h) by (apply nth_error_Some; congruence).
  apply NoDup_cons_iff in N as [Na N].
  exists ps. split; [exact Ea|]. split; [eauto|].
  assert (G : forall c, off (a :: s') h (store h (Some a) c)).
  { intros c x _ Hx. apply root_other. intros <-. apply Hx. now left. }
  split.
  - destruct (members_remove _ _ _ _ k Hm N) as (s2 & R2 & N2 & I2).
    split; [rewrite store_length; lia|]. split; [apply G|]. exists (a :: s2). split; [|split].
    + apply reads_obj with (kvs := aremove k ps); [cbn [store]; now apply nth_error_set_nth_same|].
      apply (frame_members h); [exact R2|]. intros x Hx. apply root_other. intros <-. apply Na. now apply I2.
    + constructor; [|exact N2]. intros C. apply Na. now apply I2.
    + apply Forall_forall. intros x [<-|Hx]; left; [now left|right; now apply I2].
  - split; [rewrite store_length; lia|]. split; [apply G|]. exists (a :: s'). split; [|split].
    + apply reads_obj with (kvs := ps); [cbn [store]; now apply nth_error_set_nth_same|].
      apply (frame_members h); [exact Hm|]. intros x Hx. apply root_other. intros <-. contradiction.
    + now constructor.
    + apply within_self.
Qed.
Lemma arr_del h p s l n : reads h p (VArr l) s -> NoDup s ->
  exists ps, deref h p = Some (CArr ps) /\ List.length ps = List.length l /\
    became h (store h p (CArr (delete_in_arr ps n))) p s [] (VArr (delete_in_arr l n)).
Proof.
  intros H N. destruct (reads_arr_tree _ _ _ _ H) as (a & ps & s' & -> & -> & Ea & Hm).
  exists ps. split; [exact Ea|]. split; [symmetry; exact (elems_length _ _ _ _ Hm)|].
  destruct (arr_splice h a ps l s' [] [] [] n (S n) Ea Hm N) as (s1 & R1 & N1 & F1); auto; [constructor|constructor|].
  split; [rewrite store_length; lia|]. split; [intros x _ Hx; apply root_other; intros <-; apply Hx; now left|].
  exists s1. split; [exact R1|]. split; assumption.
Qed.

Lemma del_from_find cl key i (xs : list kv) lo : del_from_object E W cl key i xs lo =
  let '(lo', r) := find_key E W cl key xs lo in
  match r with Some k => (VObj i (aremove k xs) (del_caseless_key E k lo'), true) | None => (VObj i xs lo', false) end.
Proof. unfold del_from_object, find_key. destruct (alookup key xs); [reflexivity|]. destruct cl; [|reflexivity]. now destruct (first_existing _ _). Qed.

Lemma delete_here_ref cl h p v s par : reads h p v s -> NoDup s ->
  let '(h1, o) := h_delete_here E W cl h p par in let '(v1, o') := delete_here E W cl v par in
  became h h1 p s [] v1 /\ agree (fun _ _ => True) o o'.
Proof.
  intros H N. pose proof (reads_deref _ _ _ _ H) as Dr. unfold h_delete_here, delete_here.
  assert (X : forall e : err, became h h p s [] v /\ agree (fun _ _ : unit => True) (Err e) (Err e)) by (intros e; split; [now apply became_same|reflexivity]).
  destruct v as [|x|n src|i xs lo|l|b| | |]; destruct (deref h p) as [c0|] eqn:Ec; try contradiction; try destruct c0; try contradiction;
    try exact (X _).
  - destruct Dr as [<- <-]. destruct (any_to_string par) as [key|e| |] eqn:Ep; try exact (X _); try (destruct par; discriminate).
    destruct (obj_del h p s i xs lo key lo H N) as (ps & E1 & (s' & Hm) & _). rewrite Ec in E1. injection E1 as ->.
    rewrite (find_key_same cl key lo _ _ _ _ Hm), del_from_find. destruct (find_key E W cl key xs lo) as [lo' [k|]].
    + destruct (obj_del h p s i xs lo k (del_caseless_key E k lo') H N) as (ps' & E2 & _ & Q & _). rewrite Ec in E2. injection E2 as <-. split; [exact Q|exact I].
    + destruct (obj_del h p s i xs lo key lo' H N) as (ps' & E2 & _ & _ & Q). rewrite Ec in E2. injection E2 as <-. split; [exact Q|reflexivity].
  - destruct (any_to_int par) as [pos|e| |] eqn:Ep; try exact (X _); try (destruct par; discriminate).
    destruct (arr_del h p s l 0 H N) as (ps & E1 & Le & _). rewrite Ec in E1. injection E1 as ->. rewrite Le.
    destruct (pos_read (List.length l) pos) as [n|]; [|exact (X _)].
    destruct (arr_del h p s l n H N) as (ps' & E2 & _ & Q). rewrite Ec in E2. injection E2 as <-. split; [exact Q|exact I].
  - split; [now apply became_same|exact I].
Qed.

Lemma delete_ref f cl : forall h p v s par r, reads h p v s -> NoDup s ->
  let '(h1, o) := h_delete_f E W f cl h p par r in let '(v1, o') := delete_f E W f cl v par r in
  became h h1 p s [] v1 /\ agree (fun _ _ => True) o o'.
Proof.
  induction f as [|f IH]; intros h p v s par r H N; cbn [h_delete_f delete_f].
  { split; [now apply became_same|exact I]. }
  destruct (peel par r) as [[p0 [|p1 r1]]|]; [now apply delete_here_ref| |split; [now apply became_same|reflexivity]].
  set (r2 := removelast (p1 :: r1)). set (pl := last (p1 :: r1) PNil).
  pose proof (get_ref cl h p v s p0 r2 H N) as G.
  destruct (h_get E W cl h p p0 r2) as [h1 o]. destruct (locate E W cl v p0 r2) as [v1 o'].
  destruct G as (L1 & O1 & s1 & R1 & N1 & I1 & A1).
  destruct o as [q|e| |], o' as [hs|e'| |]; cbn [agree] in A1; try contradiction;
    try (split; [now apply became_got with (s1 := s1)|exact A1]).
  destruct A1 as (u & t0 & Sl). pose proof Sl as (S1 & R2 & N2 & I2 & _). rewrite S1.
  pose proof (IH h1 q u t0 pl [] R2 N2) as IHq.
  destruct (h_delete_f E W f cl h1 q pl []) as [h2 o]. destruct (delete_f E W f cl u pl []) as [u2 o'].
  destruct IHq as (B1 & B2). split; [|exact B2]. apply (became_at h h1 h2 p s s1 [] v1 hs q u t0 u2); auto.
Qed.

Definition added {A} (front : bool) (c : A) (l : list A) : list A := if front then c :: l else l ++ [c].
Lemma add_ref (front : bool) h q t0 c cv t l : reads h q (VArr l) t0 -> NoDup t0 -> reads h c cv t -> NoDup t ->
  (forall x, In x t0 -> ~ In x t) ->
  exists h2, h_insert_to_arr h q (if front then (fun _ : list ptr => 0%nat) else @List.length ptr) c = Some h2 /\
    became h h2 q t0 t (VArr (added front cv l)).
Proof.
  intros H N Hc Nc D. unfold h_insert_to_arr.
  destruct front.
  - destruct (arr_in h q t0 c cv t l 0 H N Hc Nc D) as (ps & E1 & _ & Q). rewrite E1. eexists. split; [reflexivity|exact Q].
  - destruct (arr_in h q t0 c cv t l (List.length l) H N Hc Nc D) as (ps & E1 & Le & Q). rewrite E1, Le. eexists. split; [reflexivity|].
    unfold insert_to_arr in Q at 2. now rewrite firstn_all, skipn_all in Q.
Qed.

Lemma append_ref front h p v s c cv t params : reads h p v s -> NoDup s -> reads h c cv t -> NoDup t ->
  (forall x, In x s -> ~ In x t) ->
  let '(h1, o) := h_append E W front h p c params in let '(v1, o') := append_at E W front v (arg_v cv) params in
  became h h1 p s t v1 /\ agree (same_child c cv) o o'.
Proof.
  intros H N Hc Nc D. unfold h_append, append_at. cbn [fst arg_v].
  assert (X : forall o : res V, (forall x, o <> Ok x) -> became h h p s t v /\
                agree (same_child c cv) (match o with Err e => Err e | Panic => Panic | _ => Fuel end) o).
  { intros o Ho. split; [now apply became_same|]. destruct o; cbn; auto. exfalso. exact (Ho _ eq_refl). }
  pose proof (reads_deref _ _ _ _ H) as Dr.
  destruct (is_nil v) eqn:Nv.
  { destruct v; try discriminate. destruct (deref h p); [contradiction|]. destruct front; [exact (X (Err _) ltac:(discriminate))|exact (X Panic ltac:(discriminate))]. }
  destruct (not_exist v) eqn:Ev.
  { destruct v; try discriminate. destruct (deref h p) as [[]|]; try contradiction. exact (X (Err _) ltac:(discriminate)). }
  set (pos := if front then (fun _ : list ptr => 0%nat) else @List.length ptr).
  set (add := fun (h : heap) (a : ptr) => match h_insert_to_arr h a pos c with Some h' => (h', Ok c) | None => (h, Panic) end).
  cbv zeta. change (fun l : list V => if front then cv :: l else l ++ [cv]) with (@added V front cv).
  assert (G : forall pr r, joint_params params = Some (pr :: r) ->
    let '(h1, o) := (let '(h', t) := h_get_array E W h p pr r in
      match t with
      | Ok a => add h' a
      | Err ErrNotFound =>
        let '(h1, a) := alloc h' (CArr []) in
        let '(h2, res) := h_set E h1 p a pr r in
        match res with
        | Ok a' => add h2 a'
        | e => (h2, e)
        end
      | e => (h', e)
      end) in
    let '(v1, o') := (let '(v', t) := locate E W false v pr r in
      match t with
      | Ok hs =>
        match sub_at v' hs with
        | Some (VArr l) => (put_at v' hs (VArr (added front cv l)), Ok cv)
        | Some VNil => (v', Panic)
        | Some _ => (v', Err ErrTypeNotMatch)
        | None => (v', Panic)
        end
      | Err ErrNotFound =>
        let '(v'', res) := set_at E v' (arg_v (VArr [cv])) pr r in
        match res with
        | Ok _ => (v'', Ok cv)
        | e => (v'', e)
        end
      | Err e => (v', Err e) | Panic => (v', Panic) | Fuel => (v', Fuel)
      end) in became h h1 p s t v1 /\ agree (same_child c cv) o o').
  { intros pr r _. unfold h_get_array. pose proof (get_ref false h p v s pr r H N) as G.
    destruct (h_get E W false h p pr r) as [h1 o]. destruct (locate E W false v pr r) as [v1 o'].
    destruct G as (L1 & O1 & s1 & R1 & N1 & I1 & A1).
    destruct o as [q|e| |], o' as [hs|e'| |]; cbn [agree] in A1; try contradiction;
      try (split; [now apply became_got with (s1 := s1)|exact A1]).
    - destruct A1 as (u & t0 & Sl). pose proof Sl as (S1 & R2 & N2 & I2 & _). rewrite S1.
      pose proof (reads_deref _ _ _ _ R2) as Dq. destruct u as [|x|n src|i xs lo|l|b| | |]; destruct (deref h1 q) as [c1|]; try contradiction;
        try destruct c1; try contradiction; try (split; [now apply became_got with (s1 := s1)|reflexivity]).
      destruct (add_ref front h1 q t0 c cv t l R2 N2 (frame_off _ _ _ _ _ _ O1 D Hc) Nc ltac:(auto)) as (h2 & E2 & B2).
      unfold add, pos. rewrite E2. split; [|split; reflexivity]. now apply (became_at h h1 h2 p s s1 t v1 hs q (VArr l) t0).
    - subst e'.
      destruct e; try (split; [now apply became_got with (s1 := s1)|reflexivity]).
      cbn [alloc]. unfold set_at, h_set. cbn [snd fst arg_v].
      set (h2 := h1 ++ [CArr []]). set (a := Some (List.length h1)).
      assert (Ra : reads h2 a (VArr []) [List.length h1]) by (apply reads_arr with (l := []); [apply nth_error_last|constructor]).
      assert (Da : forall x, In x s1 -> ~ In x [List.length h1]) by (intros x Hx [<-|[]]; pose proof (reads_lt _ _ _ _ _ R1 Hx); lia).
      assert (Na : NoDup [List.length h1]) by (constructor; [intros []|constructor]).
      pose proof (set_ref (S (psum (pr :: r))) h2 p v1 s1 a (VArr []) [List.length h1] pr r
        (kept_frame _ _ _ _ _ (kept_alloc _ _) R1) N1 Ra Na Da) as Q.
      destruct (h_set_f E (S (psum (pr :: r))) h2 p a pr r) as [h3 o]. destruct (set_f E (S (psum (pr :: r))) v1 (VArr []) pr r) as [v3 o'].
      destruct Q as (L3 & O3 & Q). assert (L2 : List.length h2 = S (List.length h1)) by (unfold h2; rewrite app_length; cbn; lia).
      assert (Zf : agree (fun _ _ => False) o o' -> kept h2 h3 -> set_f E (S (psum (pr :: r))) v1 (VArr [cv]) pr r = (v1, o') -> 
         let '(h4, o0) := match o with Ok a' => add h3 a' | e => (h3, e) end in
         let '(v4, o0') := (let '(v'', res) := set_f E (S (psum (pr :: r))) v1 (VArr [cv]) pr r in
                            match res with Ok _ => (v'', Ok cv) | e => (v'', e) end) in
         became h h4 p s t v4 /\ agree (same_child c cv) o0 o0').
      { intros A K Es. rewrite Es.
        assert (B : became h h3 p s t v1).
        { pose proof (kept_trans _ _ _ (kept_alloc h1 (CArr [])) K) as K'. split; [lia|]. split.
          - intros x Lx Hx. rewrite (proj2 K') by lia. auto.
          - exists s1. split; [exact (kept_frame _ _ _ _ _ K' R1)|]. split; [exact N1|].
            apply Forall_forall. intros x Hx. left. now apply I1. }
        destruct o, o'; cbn [agree] in A; try contradiction; split; auto. }
      destruct o as [x|e| |], o' as [w|e'| |]; try (destruct Q as (A1 & A2 & A3 & A4); apply Zf; [exact A1|exact A3|apply A4; reflexivity]).
      destruct Q as (-> & -> & s3 & B1 & B2 & B3 & hs & Sl & Hu). rewrite Hu by reflexivity. clear Zf.
      destruct Sl as (S1 & R2 & N2 & I2 & P2).
      assert (Hc3 : reads h3 c cv t).
      { apply (frame_off h2 h3 s1); [exact O3|auto|]. apply (kept_frame h1); [apply kept_alloc|]. exact (frame_off _ _ _ _ _ _ O1 D Hc). }
      assert (Dt : forall x, In x [List.length h1] -> ~ In x t) by (intros x [<-|[]] Hx; pose proof (reads_lt _ _ _ _ _ Hc Hx); lia).
      destruct (add_ref front h3 a [List.length h1] c cv t [] R2 N2 Hc3 Nc Dt) as (h4 & E4 & L4 & O4 & t4 & R4 & N4 & F4).
      unfold add, pos. rewrite E4. split; [|split; reflexivity].
      replace (added front cv []) with [cv] in R4 by (destruct front; reflexivity).
      destruct (P2 t (List.length h3) h4 (VArr [cv]) t4) as (s4 & C1 & C2 & C3); auto.
      + intros x Hx. split; [|exact (reads_lt _ _ _ _ _ B1 Hx)]. intros Hx2. pose proof (reads_lt _ _ _ _ _ Hc Hx2).
        rewrite Forall_forall in B3. destruct (B3 x Hx) as [C|[C|C]]; [exact (D x (I1 _ C) Hx2)|exact (Dt x C Hx2)|lia].
      + intros x Hx Hn. apply O4; [exact (reads_lt _ _ _ _ _ B1 Hx)|exact Hn].
      + split; [lia|]. split.
        * intros x Lx Hx. rewrite O4; [|lia|intros [C|[]]; lia]. rewrite O3; [|lia|intros C; apply Hx; auto].
          unfold h2. rewrite nth_error_app1 by lia. auto.
        * exists s4. split; [exact C1|]. split; [exact C2|]. rewrite Forall_forall in C3, B3. apply Forall_forall. intros x Hx.
          destruct (C3 x Hx) as [C|[C|C]]; [|right; now left|right; right; lia].
          destruct (B3 x C) as [C'|[C'|C']]; [left; now apply I1|right; right; destruct C' as [<-|[]]; lia|right; right; lia]. }
  assert (G0 : forall l, v = VArr l -> let '(h1, o) := add h p in became h h1 p s t (VArr (added front cv l)) /\ agree (same_child c cv) o (Ok cv)).
  { intros l ->. destruct (add_ref front h p s c cv t l H N Hc Nc D) as (h2 & E2 & B2). unfold add, pos. rewrite E2. split; [exact B2|split; reflexivity]. }
  destruct (joint_params params) as [[|pr r]|].
  2: { destruct v as [|x|n src|i xs lo|l|b| | |]; try discriminate; destruct (deref h p) as [c1|]; try contradiction; destruct c1; try contradiction;
         exact (G _ _ eq_refl). }
  - destruct v as [|x|n src|i xs lo|l|b| | |]; try discriminate; destruct (deref h p) as [c1|]; try contradiction; destruct c1; try contradiction;
      try exact (X (Err _) ltac:(discriminate)). exact (G0 _ eq_refl).
  - destruct v as [|x|n src|i xs lo|l|b| | |]; try discriminate; destruct (deref h p) as [c1|]; try contradiction; destruct c1; try contradiction;
      exact (X (Err _) ltac:(discriminate)).
Qed.

End WithEnv.
