(** Import makes an independent copy; what Get, Set, Append and Insert return is
    the value inside the document. *)
From Verif Require Import Base ListLemmas Float64 Value ValueLemmas Unmarshal Marshal SpecJson SpecValue Path Edit SpecPath Heap SpecHeap HeapProof
  GoValue Import ImportProof HeapCopy HeapGraph.
Local Open Scope nat_scope.

(** *** Sound memory *)
Lemma sound_closed h : sound h <-> closed h (fun a => a < List.length h).
Proof.
  split.
  - intros S a Ha. destruct (nth_error h a) as [c|] eqn:Ea; [|apply nth_error_None in Ea; lia].
    exists c. split; [reflexivity|]. eapply Forall_impl; [|exact (S _ _ Ea)]. intros [b|]; cbn; auto.
  - intros C a c Ea. destruct (C a) as (c' & E1 & E2); [apply nth_error_Some; congruence|].
    rewrite Ea in E1. injection E1 as <-. eapply Forall_impl; [|exact E2]. intros [b|]; cbn; auto.
Qed.
Lemma valid_inside h p : valid h p <-> inside (fun a => a < List.length h) p.
Proof. destruct p; cbn; tauto. Qed.
Lemma perform_sound E W h k h1 r : sound h -> Forall (valid h) (operands k) -> perform E W h k = (h1, r) ->
  sound h1 /\ List.length h <= List.length h1 /\ Forall (valid h1) (gained r).
Proof.
  intros S F Ep. apply sound_closed in S.
  destruct (perform_stays E W (fun a => a < List.length h) h k S) as [(L & C & _) G].
  { eapply Forall_impl; [|exact F]. intros p. apply valid_inside. }
  rewrite Ep in L, C, G. cbn [fst snd] in L, C, G.
  assert (X : forall a, grow (fun a => a < List.length h) h h1 a <-> a < List.length h1) by (intros a; unfold grow; lia).
  split; [|split; [exact L|]].
  - apply sound_closed. eapply closed_ext; [|exact C]. exact X.
  - destruct r as [p| | |]; cbn; auto. constructor; auto. cbn in G. destruct p as [a|]; cbn in *; auto. now apply X.
Qed.
Lemma valid_later h h1 p : List.length h <= List.length h1 -> valid h p -> valid h1 p.
Proof. destruct p; cbn; auto. lia. Qed.

(** *** Walks *)
Lemma walk_app h p ks q js r : walk h p ks q -> walk h q js r -> walk h p (ks ++ js) r.
Proof. induction 1; cbn; auto. intros H'. econstructor; eauto. Qed.
Lemma walk_inv h p ks js r : walk h p (ks ++ js) r -> exists q, walk h p ks q /\ walk h q js r.
Proof.
  revert p; induction ks as [|k ks IH]; intros p H; cbn in H.
  - exists p. split; [constructor|exact H].
  - inversion H as [|p' k' q ks' r' H1 H2]; subst. destruct (IH _ H2) as (x & H3 & H4). exists x. split; [|exact H4].
    econstructor; eauto.
Qed.
Lemma step_untouched h h' p k q : untouched h h' -> step h p k q -> step h' p k q.
Proof.
  intros U (c & E1 & E2). destruct (U _ _ E1) as (c' & E1' & S). exists c'. split; [exact E1'|].
  now rewrite <- (same_struct_kid _ _ _ S).
Qed.
Lemma walk_untouched h h' p ks q : untouched h h' -> walk h p ks q -> walk h' p ks q.
Proof. intros U. induction 1; [constructor|]. econstructor; eauto. eapply step_untouched; eauto. Qed.

(** A value whose way in is not cut stays reachable, as deep as before. *)
Lemma walk_alters h h' x e v ks q : alters h h' x e ->
  walk h v ks q ->
  (forall is k y js, walk h v is x -> step h x k y -> walk h y js q -> moved e k <> None) ->
  exists ks', List.length ks' = List.length ks /\ walk h' v ks' q.
Proof.
  intros A Hw. induction Hw as [|p k q ks r Hs Hw IH]; intros Hn.
  - exists []. split; [reflexivity|constructor].
  - destruct IH as (ks' & Lk & Hw').
    { intros is0 k0 y js H1. apply (Hn (k :: is0)). econstructor; eauto. }
    destruct A as [(c & c' & E1 & E2 & (_ & He)) Ho].
    assert (D : p = x \/ p <> x) by (destruct p as [a|], x as [b|]; try (now right); try (now left);
      destruct (Nat.eq_dec a b); [left; now subst|right; congruence]).
    destruct D as [->|N].
    + specialize (Hn [] k q ks (walk_here _ _) Hs Hw). destruct (moved e k) as [k'|] eqn:Em; [|congruence].
      exists (k' :: ks'). split; [cbn; now rewrite Lk|]. econstructor; [|exact Hw'].
      exists c'. split; [exact E2|]. apply He. right. exists k. split; [|exact Em].
      destruct Hs as (c0 & E3 & E4). rewrite E1 in E3. now injection E3 as <-.
    + exists (k :: ks'). split; [cbn; now rewrite Lk|]. econstructor; [|exact Hw'].
      destruct Hs as (c0 & E3 & E4). destruct (Ho _ _ N E3) as (c1 & E5 & S). exists c1. split; [exact E5|].
      now rewrite <- (same_struct_kid _ _ _ S).
Qed.

(** *** What one call can do *)
Section Claims.
Variable E : Env.
Variable W : World.

Lemma kept_confined h h' : confined nowhere h h' -> kept h h'.
Proof. intros (L & _ & F). split; [exact L|]. intros a Ha. apply F; auto. Qed.

Lemma call_effect h k h' r : sound h -> perform E W h k = (h', r) ->
  untouched h h' \/ exists v ks x e, In v (operands k) /\ walk h v ks x /\ alters h h' x e.
Proof.
  intros S H. destruct k; cbn [perform operands] in *.
  - left. pose proof (build_fixed h v) as [C _]. destruct (h_build h v) as [h1 p]. injection H as <- _.
    now apply kept_untouched, kept_confined.
  - left. now apply get_graph in H.
  - pose proof (set_graph E W _ _ _ _ _ _ _ H) as G. destruct r; cbn in G; try (left; now apply kept_untouched).
    destruct G as (_ & _ & ks & x & k & q0 & ls & H1 & H2 & _). right. exists v, ks, x, (EPut k q0). cbn. auto.
  - apply insert_graph in H. destruct r; cbn in H; auto. destruct H as (_ & ks & x & n & H1 & H2).
    right. exists v, ks, x, (EIns n c). cbn. auto.
  - apply append_graph in H; [|exact S]. destruct r; cbn in H; auto.
    destruct H as (_ & ks & x & H1 & [(n & H2)|(k & q0 & ls & H2 & _)]); right.
    + exists v, ks, x, (EIns n c). cbn. auto.
    + exists v, ks, x, (EPut k q0). cbn. auto.
  - destruct (h_delete E W caseless h v first others) as [h1 o] eqn:Ed. injection H as <- <-. apply delete_graph in Ed.
    destruct o; cbn in Ed; auto. destruct Ed as (ks & x & k & q & H1 & _ & H2). right. exists v, ks, x, (EDel k). cbn. auto.
  - left. pose proof (import_stays h v) as [C _]. rewrite H in C. now apply kept_untouched, kept_confined.
  - unfold h_sort in H. destruct less as [f|]; [|left; injection H as <- _; apply untouched_refl].
    destruct (deref h v) as [c|] eqn:Ed; [|left; injection H as <- _; apply untouched_refl].
    destruct c; try (left; injection H as <- _; apply untouched_refl). injection H as <- _.
    right. destruct (edited_sort W l (f h)) as [g Hg]. exists v, [], v, (EPerm g). split; [now left|]. split; [constructor|].
    eapply alters_store; eassumption.
  - unfold h_load in H. destruct (unmarshal E b) as [[w [e|]]|e| |]; try (left; injection H as <- _; apply untouched_refl).
    pose proof (build_fixed h w) as [C _]. destruct (h_build h w) as [h1 p]. cbn [fst] in C.
    apply kept_confined, kept_untouched in C.
    destruct (deref h1 v) as [c0|] eqn:Ev; [|left; injection H as <- _; exact C].
    destruct (deref h1 p) as [c|]; [|left; injection H as <- _; exact C]. injection H as <- _.
    destruct (deref h v) as [cv|] eqn:Eh.
    + right. exists v, [], v, (EAll c). split; [now left|]. split; [constructor|].
      eapply alters_after; [exact C|congruence|]. eapply alters_store; [exact Ev|]. split; [reflexivity|].
      intros k' q. cbn [brings moved]. split; [now left|]. intros [H|(k & _ & H)]; [exact H|discriminate].
    + left. intros x cx Hx. destruct (C x cx Hx) as (c' & E1 & S1). exists c'. split; [|exact S1].
      rewrite deref_store_other; [exact E1|]. congruence.
Qed.

Lemma spares_keeps v q h h2 : spares E W v q h h2 -> sound h -> forall ks, walk h v ks q ->
  exists ks', List.length ks' = List.length ks /\ walk h2 v ks' q.
Proof.
  induction 1 as [h|h k h1 r h2 F Ep Hn Hs IH]; intros S ks Hw; [eauto|].
  destruct (perform_sound _ _ _ _ _ _ S F Ep) as (S1 & _).
  assert (H1 : exists ks1, List.length ks1 = List.length ks /\ walk h1 v ks1 q).
  { destruct (call_effect _ _ _ _ S Ep) as [U|(v0 & ks0 & x & e & _ & _ & A)].
    - exists ks. split; [reflexivity|]. eapply walk_untouched; eauto.
    - eapply walk_alters; eauto. intros is0 k0 y js W1 W2 W3 W4. apply Hn. exists x, e, is0, k0, y, js. auto. }
  destruct H1 as (ks1 & L1 & Hw1). destruct (IH S1 _ Hw1) as (ks2 & L2 & Hw2). exists ks2. split; [lia|exact Hw2].
Qed.

(** *** Documents without cycles *)
Lemma elem_at h l vs s : reads_elems h l vs s -> forall n p, nth_error l n = Some p ->
  exists u t, nth_error vs n = Some u /\ reads h p u t /\ height u <= height_elems vs /\ incl t s.
Proof.
  induction 1 as [|p v s l vs t H1 H2 IH]; intros n q Hn; [destruct n; discriminate|].
  change (height_elems (v :: vs)) with (Nat.max (height v) (height_elems vs)). destruct n as [|n]; cbn in Hn.
  - injection Hn as <-. exists v, s. repeat split; auto; [lia|]. now apply incl_appl.
  - destruct (IH _ _ Hn) as (u & t' & E1 & E2 & E3 & E4). exists u, t'. repeat split; auto; [lia|]. now apply incl_appr.
Qed.
Lemma member_at h l vs s : reads_members h l vs s -> forall k id p, alookup k l = Some (id, p) ->
  exists u t, alookup k vs = Some (id, u) /\ reads h p u t /\ height u <= height_members vs /\ incl t s.
Proof.
  induction 1 as [|k id p v s l vs t H1 H2 IH]; intros k' id' q Hn; [discriminate|].
  change (height_members ((k, (id, v)) :: vs)) with (Nat.max (height v) (height_members vs)). cbn in Hn |- *.
  destruct (beqb k' k).
  - injection Hn as <- <-. exists v, s. repeat split; auto; [lia|]. now apply incl_appl.
  - destruct (IH _ _ _ Hn) as (u & t' & E1 & E2 & E3 & E4). exists u, t'. repeat split; auto; [lia|]. now apply incl_appr.
Qed.
Lemma shows_step h p t k q : shows h p t -> step h p k q ->
  exists u, sits t [k] u /\ shows h q u /\ height u < height t.
Proof.
  intros [s H] (c & Ec & Ek). destruct H as [|a c0 v Ea Hl|a l vs s Ea Hr|a i kvs lo xs s Ea Hr]; cbn in Ec; try discriminate;
    rewrite Ea in Ec; injection Ec as <-.
  - destruct c0; try contradiction; destruct k; discriminate.
  - destruct k as [n|k]; [|discriminate]. cbn in Ek.
    destruct (elem_at _ _ _ _ Hr _ _ Ek) as (u & t & E1 & E2 & E3 & _). exists u. split; [|split; [exists t; exact E2|]].
    + apply nth_error_split in E1. destruct E1 as (l1 & l2 & -> & <-). constructor. constructor.
    + change (height (VArr vs)) with (S (height_elems vs)). lia.
  - destruct k as [n|k]; [discriminate|]. cbn in Ek. destruct (alookup k kvs) as [[id x]|] eqn:El; [|discriminate].
    cbn in Ek. injection Ek as ->.
    destruct (member_at _ _ _ _ Hr _ _ _ El) as (u & t & E1 & E2 & E3 & _). exists u. split; [|split; [exists t; exact E2|]].
    + econstructor; [eapply alookup_In; exact E1|constructor].
    + change (height (VObj i xs lo)) with (S (height_members xs)). lia.
Qed.
Lemma sits_trans t ks u : sits t ks u -> forall js w, sits u js w -> sits t (ks ++ js) w.
Proof. induction 1; cbn; auto; intros js w Hw; econstructor; eauto. Qed.
Lemma shows_walk h p ks q : walk h p ks q -> forall t, shows h p t ->
  exists u, sits t ks u /\ shows h q u /\ height u + List.length ks <= height t.
Proof.
  induction 1 as [|p k q ks r Hs Hw IH]; intros t Ht; [exists t; repeat split; [constructor|exact Ht|cbn; lia]|].
  destruct (shows_step _ _ _ _ _ Ht Hs) as (u & H1 & H2 & H3). destruct (IH _ H2) as (w & H4 & H5 & H6).
  exists w. split; [exact (sits_trans _ [k] _ H1 _ _ H4)|]. split; [exact H5|]. cbn. lia.
Qed.
Lemma no_cycle h v t ks x js : shows h v t -> walk h v ks x -> walk h x js x -> js = [].
Proof.
  intros Ht H1 H2. destruct (shows_walk _ _ _ _ H1 _ Ht) as (u & _ & Hu & _).
  destruct (shows_walk _ _ _ _ H2 _ Hu) as (w & _ & Hw & L).
  destruct Hu as [s Hu], Hw as [s' Hw]. destruct (proj1 (reads_fun h) _ _ _ Hu _ _ Hw) as [-> _].
  destruct js; [reflexivity|]. cbn in L. lia.
Qed.

(** *** One party *)
Lemma run_confined h a h2 a2 : run E W h a h2 a2 -> forall R, closed h R -> Forall (inside R) a ->
  confined R h h2 /\ Forall (inside (grow R h h2)) a2.
Proof.
  induction 1 as [h a|h a k h1 r h2 a2 Hi Ep Hr IH]; intros R C F.
  - split; [now apply confined_refl|]. eapply Forall_impl; [|exact F]. intros p. apply inside_grow.
  - assert (Ho : Forall (inside R) (operands k)).
    { rewrite Forall_forall in F |- *. auto. }
    pose proof (perform_stays E W R h k C Ho) as [C1 G]. rewrite Ep in C1, G. cbn [fst snd] in C1, G.
    destruct (IH (grow R h h1)) as [C2 F2].
    + apply C1.
    + apply Forall_app. split; [destruct r; cbn in *; auto|]. eapply Forall_impl; [|exact F]. intros p. apply inside_grow.
    + pose proof C1 as (L1 & _). pose proof C2 as (L2 & _). split.
      * eapply confined_trans; [apply (closed_bound _ _ C)|exact C1|exact C2].
      * eapply Forall_impl; [|exact F2]. intros p. apply inside_mono. intros x. unfold grow.
        intros [[Hx|Hx]|Hx]; [auto|right; lia|right; lia].
Qed.

(** All that can be reached from some pointers. *)
Definition reach_from (h : heap) (A : list ptr) : region := fun x => exists p, In p A /\ reaches h p (Some x).
Lemma reaches_trans h p q r : reaches h p q -> reaches h q r -> reaches h p r.
Proof. induction 1; auto. intros H'. econstructor; eauto. Qed.
Lemma walk_reaches h p ks q : walk h p ks q -> reaches h p q.
Proof.
  induction 1 as [|p k q ks r (c & E1 & E2) Hw IH]; [constructor|]. econstructor; [exact E1| |exact IH].
  eapply kid_pointer; eassumption.
Qed.
Lemma reaches_valid h p q : sound h -> valid h p -> reaches h p q -> valid h q.
Proof.
  intros S Hp Hr. rewrite valid_inside in *. eapply closed_reaches; [now apply sound_closed|exact Hp|exact Hr].
Qed.
Lemma reach_from_closed h A : sound h -> Forall (valid h) A -> closed h (reach_from h A).
Proof.
  intros S F x (p & Hp & Hr).
  rewrite Forall_forall in F. pose proof (reaches_valid _ _ _ S (F _ Hp) Hr) as Hv. cbn in Hv.
  destruct (nth_error h x) as [c|] eqn:Ec; [|apply nth_error_None in Ec; lia]. exists c. split; [reflexivity|].
  apply Forall_forall. intros [y|] Hy; [|exact I]. exists p. split; [exact Hp|]. eapply reaches_trans; [exact Hr|].
  econstructor; [exact Ec|exact Hy|constructor].
Qed.
Lemma reach_from_all h A : Forall (inside (reach_from h A)) A.
Proof. apply Forall_forall. intros [x|] Hx; [|exact I]. exists (Some x). split; [exact Hx|constructor]. Qed.

(** *** Documents without cycles, by pointers *)
Lemma elem_in h l vs s : reads_elems h l vs s -> forall p, In p l ->
  exists u t, reads h p u t /\ height u <= height_elems vs.
Proof.
  intros H p Hp. apply In_nth_error in Hp. destruct Hp as [n Hn].
  destruct (elem_at _ _ _ _ H _ _ Hn) as (u & t & _ & H1 & H2 & _). eauto.
Qed.
Lemma member_in h l vs s : reads_members h l vs s -> forall p, In p (map (fun e => snd (snd e)) l) ->
  exists u t, reads h p u t /\ height u <= height_members vs.
Proof.
  induction 1 as [|k id p v s l vs t H1 H2 IH]; intros q Hq; [destruct Hq|].
  change (height_members ((k, (id, v)) :: vs)) with (Nat.max (height v) (height_members vs)).
  destruct Hq as [<-|Hq].
  - exists v, s. split; [exact H1|lia].
  - destruct (IH _ Hq) as (u & t' & E1 & E2). exists u, t'. split; [exact E1|lia].
Qed.
Lemma shows_pointer h p t c q : shows h p t -> deref h p = Some c -> In q (pointers c) ->
  exists u, shows h q u /\ height u < height t.
Proof.
  intros [s H] Ec Hq. destruct H as [|a c0 v Ea Hl|a l vs s Ea Hr|a i kvs lo xs s Ea Hr]; cbn in Ec; try discriminate;
    rewrite Ea in Ec; injection Ec as <-.
  - destruct c0; try contradiction; destruct Hq.
  - destruct (elem_in _ _ _ _ Hr _ Hq) as (u & t & E1 & E2). exists u. split; [exists t; exact E1|].
    change (height (VArr vs)) with (S (height_elems vs)). lia.
  - destruct (member_in _ _ _ _ Hr _ Hq) as (u & t & E1 & E2). exists u. split; [exists t; exact E1|].
    change (height (VObj i xs lo)) with (S (height_members xs)). lia.
Qed.
Lemma shows_reaches h p q : reaches h p q -> forall t, shows h p t -> exists u, shows h q u /\ height u <= height t.
Proof.
  induction 1 as [|p c q r E1 E2 Hr IH]; intros t Ht; [eauto|].
  destruct (shows_pointer _ _ _ _ _ Ht E1 E2) as (u & Hu & L). destruct (IH _ Hu) as (w & Hw & L2). exists w. split; [exact Hw|lia].
Qed.
Lemma shows_one h p t u : shows h p t -> shows h p u -> t = u.
Proof. intros [s H] [s' H']. now destruct (proj1 (reads_fun h) _ _ _ H _ _ H'). Qed.
(** Nothing below a value of a document is above it. *)
Lemma no_way_up h v t x k y : shows h v t -> reaches h v x -> step h x k y -> ~ reaches h y x.
Proof.
  intros Ht Hx Hs Hr. destruct (shows_reaches _ _ _ Hx _ Ht) as (u & Hu & _).
  destruct (shows_step _ _ _ _ _ Hu Hs) as (w & _ & Hw & L). destruct (shows_reaches _ _ _ Hr _ Hw) as (z & Hz & L2).
  rewrite (shows_one _ _ _ _ Hz Hu) in L2. lia.
Qed.

(** *** Calls below a value *)

Lemma above_kept h v t q A h2 A2 : sound h -> shows h v t -> Forall (valid h) A -> below h v q A -> run E W h A h2 A2 ->
  forall x k y, reaches h v x -> step h x k y -> reaches h y q -> deref h2 x = deref h x.
Proof.
  intros S Ht F B Hr x k y Hx Hs Hy.
  destruct (run_confined _ _ _ _ Hr _ (reach_from_closed _ _ S F) (reach_from_all h A)) as [(L & _ & Fr) _].
  destruct x as [a|]; [|reflexivity]. cbn. apply Fr.
  - destruct Hs as (c & Ec & _). apply nth_error_Some. cbn in Ec. congruence.
  - intros (p & Hp & Hpa). refine (no_way_up _ _ _ _ _ _ Ht Hx Hs _). eapply reaches_trans; [exact Hy|].
    eapply B; eauto. discriminate.
Qed.
Lemma walk_below h v t ks q A h2 A2 : sound h -> shows h v t -> Forall (valid h) A -> below h v q A -> run E W h A h2 A2 ->
  walk h v ks q -> walk h2 v ks q.
Proof.
  intros S Ht F B Hr Hw. pose proof (above_kept _ _ _ _ _ _ _ S Ht F B Hr) as K.
  assert (G : forall p, reaches h v p -> walk h p ks q -> walk h2 p ks q).
  { clear Hw. induction ks as [|k ks IH]; intros p Hp Hw; inversion Hw as [|p' k' y ks' r Hs Hw']; subst; [constructor|].
    econstructor.
    - destruct Hs as (c & Ec & Ek). exists c. split; [|exact Ek].
      rewrite (K p k y); [exact Ec|exact Hp|exists c; auto|]. now apply walk_reaches in Hw'.
    - apply IH; [|exact Hw']. eapply reaches_trans; [exact Hp|]. apply (walk_reaches h p [k]). econstructor; [exact Hs|constructor]. }
  apply G; [constructor|exact Hw].
Qed.
Lemma find_same h h2 v p c : deref h2 v = deref h v -> h_find E W false h v p = (h, Ok c) -> h_find E W false h2 v p = (h2, Ok c).
Proof.
  intros Ed H. pose proof (find_plain E W h2 v p) as Hp. unfold h_find in *. rewrite Ed in *.
  destruct (deref h v) as [cc|]; [|discriminate]. destruct cc; try discriminate.
  - destruct (any_to_string p); try discriminate. unfold find_key in *. destruct (alookup a kvs) as [[id q]|]; [|discriminate].
    cbn [fst] in Hp. rewrite Hp. f_equal. now apply (f_equal snd) in H.
  - f_equal. now apply (f_equal snd) in H.
Qed.
Lemma get_below h v t q A h2 A2 p r : sound h -> shows h v t -> Forall (valid h) A -> below h v q A -> run E W h A h2 A2 ->
  h_get E W false h v p r = (h, Ok q) -> h_get E W false h2 v p r = (h2, Ok q).
Proof.
  intros So Ht F B Hr. pose proof (above_kept _ _ _ _ _ _ _ So Ht F B Hr) as K. unfold h_get.
  generalize (S (psum (p :: r))). intros f.
  assert (G : forall x p r, reaches h v x -> h_get_f E W f false h x p r = (h, Ok q) -> h_get_f E W f false h2 x p r = (h2, Ok q)).
  { induction f as [|f IH]; intros x p' r' Hx; cbn [h_get_f]; [discriminate|].
    destruct (peel p' r') as [[p1 r1]|]; [|discriminate].
    destruct (h_find E W false h x p1) as [h1 c] eqn:Ef. pose proof (find_plain E W h x p1) as Hf. rewrite Ef in Hf. cbn in Hf. subst h1.
    destruct c as [c| | |]; try discriminate. intros Hg.
    destruct (find_graph E W _ _ _ _ _ _ Ef) as (_ & _ & Hs). destruct (Hs c eq_refl) as (k & Hk).
    assert (Hc : reaches h c q).
    { destruct r1 as [|p2 r2]; [injection Hg as ->; constructor|]. destruct (get_f_graph E W _ _ _ _ _ _ _ _ Hg) as (_ & _ & G).
      destruct (G q eq_refl) as (ks & _ & Hw). now apply walk_reaches in Hw. }
    rewrite (find_same h h2 x p1 c (K _ _ _ Hx Hk Hc) Ef). destruct r1 as [|p2 r2]; [now injection Hg as ->|].
    apply IH; [|exact Hg]. eapply reaches_trans; [exact Hx|]. apply (walk_reaches h x [k]). econstructor; [exact Hk|constructor]. }
  apply G. constructor.
Qed.

(** *** Import *)
Lemma divided_run R Q h a b h2 a2 : run E W h a h2 a2 -> divided R Q h a b -> exists R2, divided R2 Q h2 a2 b /\
  forall x, Q x -> nth_error h2 x = nth_error h x.
Proof.
  intros Hr (H1 & H2 & H3 & H4 & H5). destruct (run_confined _ _ _ _ Hr R H1 H4) as [C F].
  exists (grow R h h2). split.
  - repeat split; auto; [apply C|eapply frame_closed; eauto|now apply apart_grow].
  - intros x Hx. apply C; [eapply closed_bound; eassumption|]. intros Hn. eapply H3; eassumption.
Qed.
Lemma shows_frame h h' Q p t : closed h Q -> inside Q p -> (forall x, Q x -> nth_error h' x = nth_error h x) ->
  shows h p t -> shows h' p t.
Proof.
  intros C Hp Hf [s H]. exists s. apply (proj1 (reads_frame h h') _ _ _ H). intros x Hx. apply Hf.
  pose proof (proj1 (reads_inside h Q C) _ _ _ H Hp) as Hs. rewrite Forall_forall in Hs. auto.
Qed.

Lemma import_divided h p h1 q A : sound h -> h_import h p = (h1, Ok q) -> Forall (valid h) A ->
  divided (fun a => a < List.length h) (grow nowhere h h1) h1 A [q].
Proof.
  intros S Hi F. pose proof (import_stays h p) as [C G]. rewrite Hi in C, G. cbn [fst snd okp] in C, G.
  pose proof C as (L & C1 & Fr). repeat split.
  - apply sound_closed in S. intros a Ha. destruct (S a Ha) as (c & E1 & E2). exists c. split; [|exact E2].
    rewrite Fr; [exact E1|exact Ha|intros []].
  - exact C1.
  - intros a Ha [[]|Hb]. lia.
  - eapply Forall_impl; [|exact F]. intros x. apply valid_inside.
  - constructor; auto.
Qed.

Lemma copy_forget v : ~ stray_at v -> forget (deep_copy v) = forget v.
Proof.
  induction v as [ |s|n src|i kvs lo IH|l IH|b| | | ] using V_ind'; intros H; try reflexivity;
    try (exfalso; apply H; constructor).
  - cbn [deep_copy forget]. f_equal. rewrite map_map. apply map_ext_in. intros [k [id x]] Hin. cbn.
    rewrite Forall_forall in IH. do 2 f_equal. apply (IH _ Hin). cbn. intros Hx. apply H. eapply stray_member; eassumption.
  - cbn [deep_copy forget]. f_equal. rewrite map_map. apply map_ext_in. intros x Hin.
    rewrite Forall_forall in IH. apply IH; [exact Hin|]. intros Hx. apply H. eapply stray_element; eassumption.
Qed.
Lemma import_copy h a v : shows h (Some a) v ->
  exists h1 q, h_import h (Some a) = (h1, Ok q) /\
    (forall b, b < List.length h -> nth_error h1 b = nth_error h b) /\
    (forall x, reaches h1 q (Some x) -> List.length h <= x) /\
    exists w, shows h1 q w /\ (~ stray_at v -> forget w = forget v) /\ (json_typed v -> json_typed w).
Proof.
  intros Hs. destruct (import_shows _ _ _ Hs) as (h1 & q & Hi & s & Hr & _).
  exists h1, q. split; [exact Hi|]. pose proof (import_stays h (Some a)) as [(L & C & F) G]. rewrite Hi in *. cbn [fst snd okp] in *.
  split; [intros b Hb; apply F; auto|]. split.
  - intros x Hx. pose proof (closed_reaches _ _ _ _ C G Hx) as Hin. cbn in Hin. destruct Hin as [[]|Hin]. lia.
  - exists (deep_copy v). split; [now exists s|]. split; [apply copy_forget|]. intros Ht. now apply copy_same.
Qed.

Lemma import_apart h p h1 q A h2 A2 B2 : sound h -> h_import h p = (h1, Ok q) -> Forall (valid h) A ->
  play E W h1 A [q] h2 A2 B2 ->
  (forall a b x, In a A2 -> In b B2 -> reaches h2 a (Some x) -> reaches h2 b (Some x) -> False) /\
  (forall k h3 r, incl (operands k) A2 -> perform E W h2 k = (h3, r) ->
     forall b t, In b B2 -> shows h2 b t -> shows h3 b t) /\
  (forall k h3 r, incl (operands k) B2 -> perform E W h2 k = (h3, r) ->
     forall a t, In a A2 -> shows h2 a t -> shows h3 a t).
Proof.
  intros So Hi F Hp. destruct (divided_play _ _ _ _ _ _ _ _ Hp _ _ (import_divided _ _ _ _ _ So Hi F)) as (R & Q & D).
  assert (G : forall R Q A B, divided R Q h2 A B -> forall k h3 r, incl (operands k) A -> perform E W h2 k = (h3, r) ->
     forall b t, In b B -> shows h2 b t -> shows h3 b t).
  { clear. intros R Q A B D k h3 r Hk Ep b t Hb [s Hs]. pose proof D as (_ & D2 & _ & _ & D5). rewrite Forall_forall in D5.
    apply (shows_frame h2 h3 Q); auto; [|now exists s]. intros x Hx.
    destruct D as (D1 & D2' & D3 & D4 & _).
    assert (Ho : Forall (inside R) (operands k)). { rewrite Forall_forall in D4 |- *. auto. }
    pose proof (perform_stays E W R h2 k D1 Ho) as [(L & C & Fr) _]. rewrite Ep in Fr. cbn [fst] in Fr.
    apply Fr; [eapply closed_bound; eassumption|]. intros Hn. eapply D3; eassumption. }
  split; [|split].
  - intros a b x Ha Hb Hax Hbx. destruct D as (D1 & D2 & D3 & D4 & D5). rewrite Forall_forall in D4, D5.
    exact (D3 x (closed_reaches _ _ _ _ D1 (D4 _ Ha) Hax) (closed_reaches _ _ _ _ D2 (D5 _ Hb) Hbx)).
  - eapply G. exact D.
  - eapply G. apply divided_sym. exact D.
Qed.

Lemma import_then_left h p h1 q A h2 A2 t : sound h -> h_import h p = (h1, Ok q) -> Forall (valid h) A ->
  run E W h1 A h2 A2 -> shows h1 q t -> shows h2 q t.
Proof.
  intros So Hi F Hr Hs. pose proof (import_divided _ _ _ _ _ So Hi F) as D.
  destruct (divided_run _ _ _ _ _ _ _ Hr D) as (R2 & _ & Hf). destruct D as (_ & D2 & _ & _ & D5). inversion D5; subst.
  eapply shows_frame; eauto.
Qed.
Lemma import_then_right h p h1 q h2 B2 a t : sound h -> h_import h p = (h1, Ok q) -> valid h a ->
  run E W h1 [q] h2 B2 -> shows h a t -> shows h2 a t.
Proof.
  intros So Hi F Hr Hs. pose proof (import_divided _ _ _ _ [a] So Hi (Forall_cons _ F (Forall_nil _))) as D.
  assert (Hs1 : shows h1 a t).
  { pose proof (import_stays h p) as [(L & C & Fr) _]. rewrite Hi in Fr. cbn [fst] in Fr.
    eapply shows_frame with (Q := fun a => a < List.length h); [now apply sound_closed|now apply valid_inside| |exact Hs].
    intros x Hx. apply Fr; auto. }
  apply divided_sym in D. destruct (divided_run _ _ _ _ _ _ _ Hr D) as (R2 & _ & Hf). destruct D as (_ & D2 & _ & _ & D5).
  inversion D5; subst. eapply shows_frame; eauto.
Qed.

(** *** Import returns for documents without cycles only *)
Lemma shows_back h h1 p t : sound h -> kept h h1 -> valid h p -> shows h1 p t -> shows h p t.
Proof.
  intros So (L & Fr) Hp Hs. apply (shows_frame h1 h (fun a => a < List.length h)).
  - apply sound_closed in So. intros a Ha. destruct (So a Ha) as (c & E1 & E2). exists c. split; [|exact E2]. now rewrite Fr.
  - now apply valid_inside.
  - intros x Hx. symmetry. now apply Fr.
  - exact Hs.
Qed.
Lemma shows_kept h h1 p t : sound h -> kept h h1 -> valid h p -> shows h p t -> shows h1 p t.
Proof.
  intros So (L & Fr) Hp Hs. apply (shows_frame h h1 (fun a => a < List.length h)); auto.
  now apply sound_closed.
Qed.
Lemma copy_kept f h p : kept h (fst (h_copy_f f h p)).
Proof. pose proof (copy_f_stays f h p) as [C _]. now apply kept_confined. Qed.
Lemma kept_reach h0 h c p : sound h0 -> kept h0 h -> valid h0 p -> deref h p = Some c -> Forall (valid h0) (pointers c).
Proof.
  intros So (L & Fr) Hp Ec. destruct p as [a|]; [|discriminate]. cbn in *. rewrite Fr in Ec by exact Hp. exact (So _ _ Ec).
Qed.
Lemma copy_only f : forall h0 h p h1 q, sound h0 -> kept h0 h -> valid h0 p -> h_copy_f f h p = (h1, Ok q) ->
  exists v, shows h0 p v.
Proof.
  induction f as [|f IH]; intros h0 h p h1 q So K Hp; cbn [h_copy_f]; [discriminate|].
  pose proof (fun c => kept_reach h0 h c p So K Hp) as Hk. destruct K as [L Fr].
  destruct p as [a|]; [|intros _; exists VNil, []; constructor]. cbn [deref] in *. cbn in Hp. rewrite Fr in * by exact Hp.
  destruct (nth_error h0 a) as [c|] eqn:Ec; [|apply nth_error_None in Ec; lia]. specialize (Hk _ eq_refl).
  destruct c; try (intros _; eexists; exists [a]; eapply reads_leaf; [exact Ec|reflexivity]).
  - cbn in Hk.
    match goal with |- context [map_heap ?g h kvs] => set (gg := g) end.
    assert (Hl : forall h2 r, map_heap gg h kvs = (h2, Ok r) -> exists xs s, reads_members h0 kvs xs s).
    { assert (K : kept h0 h) by (split; auto). clear Ec L Fr. revert h K Hk. induction kvs as [|[k [id x]] l IHl]; intros h K Hk h2 r; cbn [map_heap].
      - intros _. exists [], []. constructor.
      - cbn in Hk. inversion Hk as [|? ? Hx Hk']; subst. unfold gg at 1. pose proof (copy_kept f h x) as Kx.
        destruct (h_copy_f f h x) as [h3 o] eqn:Eo. cbn [fst] in Kx. destruct o as [o| | |]; cbn [rbind]; try discriminate.
        destruct (IH h0 h x h3 o So K Hx Eo) as [v [s Hv]].
        assert (K3 : kept h0 h3) by (eapply kept_trans; eassumption). specialize (IHl h3 K3 Hk').
        destruct (map_heap gg h3 l) as [h4 o4]. destruct o4; cbn [rbind]; try discriminate. intros _.
        destruct (IHl _ _ eq_refl) as (xs & s' & Hxs). exists ((k, (id, v)) :: xs), (s ++ s'). now constructor. }
    destruct (map_heap gg h kvs) as [h2 r]. destruct r; try discriminate. intros _. destruct (Hl _ _ eq_refl) as (xs & s & Hx).
    exists (VObj incr xs lower), (a :: s). eapply reads_obj; eassumption.
  - cbn in Hk.
    assert (Hl : forall h2 r, map_heap (h_copy_f f) h l = (h2, Ok r) -> exists xs s, reads_elems h0 l xs s).
    { assert (K : kept h0 h) by (split; auto). clear Ec L Fr. revert h K Hk. induction l as [|x l IHl]; intros h K Hk h2 r; cbn [map_heap].
      - intros _. exists [], []. constructor.
      - inversion Hk as [|? ? Hx Hk']; subst. pose proof (copy_kept f h x) as Kx.
        destruct (h_copy_f f h x) as [h3 o] eqn:Eo. cbn [fst] in Kx. destruct o as [o| | |]; try discriminate.
        destruct (IH h0 h x h3 o So K Hx Eo) as [v [s Hv]].
        assert (K3 : kept h0 h3) by (eapply kept_trans; eassumption). specialize (IHl h3 K3 Hk').
        destruct (map_heap (h_copy_f f) h3 l) as [h4 o4]. destruct o4; cbn [rbind]; try discriminate. intros _.
        destruct (IHl _ _ eq_refl) as (xs & s' & Hxs). exists (v :: xs), (s ++ s'). now constructor. }
    destruct (map_heap (h_copy_f f) h l) as [h2 r]. destruct r; try discriminate. intros _. destruct (Hl _ _ eq_refl) as (xs & s & Hx).
    exists (VArr xs), (a :: s). eapply reads_arr; eassumption.
Qed.
Lemma import_iff h a : sound h -> a < List.length h ->
  ((exists h1 q, h_import h (Some a) = (h1, Ok q)) <-> exists v, shows h (Some a) v).
Proof.
  intros So Ha. split.
  - intros (h1 & q & H). eapply copy_only; [exact So|apply kept_refl|exact Ha|exact H].
  - intros [v Hv]. destruct (import_shows _ _ _ Hv) as (h1 & q & H & _). eauto.
Qed.

(** *** What the calls return *)
Lemma chain_reaches n h q ls c : new_chain n h q ls c -> walk h q ls c.
Proof. induction 1; [constructor|]. econstructor; eauto. Qed.
Lemma alters_put h h' x k q : alters h h' x (EPut k q) -> step h' x k q.
Proof. intros [(c & c' & _ & E2 & (_ & He)) _]. exists c'. split; [exact E2|]. apply He. now left. Qed.
Lemma alters_ins h h' x n q : alters h h' x (EIns n q) -> step h' x (HIdx n) q.
Proof. intros [(c & c' & _ & E2 & (_ & He)) _]. exists c'. split; [exact E2|]. apply He. now left. Qed.
Lemma get_inside cl h v p r h' o : h_get E W cl h v p r = (h', o) ->
  untouched h h' /\ List.length h' = List.length h /\ forall q, o = Ok q -> exists ks, ks <> [] /\ walk h v ks q.
Proof. apply get_graph. Qed.
Lemma set_inside h v c p r h' o : h_set E h v c p r = (h', o) ->
  (forall q, o = Ok q -> q = c /\ exists ks x k q0 ls, walk h v ks x /\ alters h h' x (EPut k q0) /\
     new_chain (List.length h) h' q0 ls c /\ step h' x k q0 /\ walk h' q0 ls c /\
     forall y, step h x k y -> h_get E W false h v p r = (h, Ok y)) /\
  ((forall q, o <> Ok q) -> untouched h h').
Proof.
  intros H. pose proof (set_graph E W _ _ _ _ _ _ _ H) as G. split.
  - intros q ->. destruct G as (-> & _ & ks & x & k & q0 & ls & H1 & H2 & H3 & H4). split; [reflexivity|].
    exists ks, x, k, q0, ls. repeat (split; [assumption|]). split; [now apply alters_put in H2|]. split; [now apply chain_reaches in H3|assumption].
  - intros Hn. destruct o; cbn in G; try now apply kept_untouched. now destruct (Hn a).
Qed.
Lemma insert_inside af h v c p r h' o : h_insert E W af h v c p r = (h', o) ->
  (forall q, o = Ok q -> q = c /\ exists ks x n, walk h v ks x /\ alters h h' x (EIns n c) /\ step h' x (HIdx n) c) /\
  ((forall q, o <> Ok q) -> untouched h h').
Proof.
  intros H. apply insert_graph in H. split.
  - intros q ->. destruct H as (-> & ks & x & n & H1 & H2). split; [reflexivity|]. exists ks, x, n.
    repeat (split; [assumption|]). now apply alters_ins in H2.
  - intros Hn. destruct o; cbn in H; auto. now destruct (Hn a).
Qed.
Lemma append_inside fr h v c ps h' o : sound h -> h_append E W fr h v c ps = (h', o) ->
  (forall q, o = Ok q -> q = c /\ exists ks x, walk h v ks x /\
     ((exists n, alters h h' x (EIns n c) /\ step h' x (HIdx n) c) \/
      (exists k q0 ls, alters h h' x (EPut k q0) /\ (forall y, ~ step h x k y) /\ new_chain (List.length h) h' q0 ls c /\
                       ls <> [] /\ step h' x k q0 /\ walk h' q0 ls c))) /\
  ((forall q, o <> Ok q) -> untouched h h').
Proof.
  intros So H. apply append_graph in H; [|exact So]. split.
  - intros q ->. destruct H as (-> & ks & x & H1 & H2). split; [reflexivity|]. exists ks, x. split; [exact H1|].
    destruct H2 as [(n & H2)|(k & q0 & ls & H2 & H3 & H4 & H5)]; [left; exists n; split; [exact H2|now apply alters_ins in H2]|right].
    exists k, q0, ls. repeat (split; [assumption|]). split; [now apply alters_put in H2|now apply chain_reaches in H4].
  - intros Hn. destruct o; cbn in H; auto. now destruct (Hn a).
Qed.
Lemma delete_inside cl h v p r h' o : h_delete E W cl h v p r = (h', o) ->
  (o = Ok tt -> exists ks x k q, walk h v ks x /\ step h x k q /\ alters h h' x (EDel k)) /\
  (o <> Ok tt -> untouched h h').
Proof.
  intros H. apply delete_graph in H. split.
  - intros ->. exact H.
  - intros Hn. destruct o as [[]| | |]; cbn in H; auto. congruence.
Qed.

(** What a document shows at a place is what the value there shows. *)
Lemma seen_at h v t ks q : shows h v t -> walk h v ks q -> exists u, shows h q u /\ sits t ks u.
Proof. intros H1 H2. destruct (shows_walk _ _ _ _ H2 _ H1) as (u & Hu & Hs & _). eauto. Qed.

Lemma mutate_inside h v t q A h2 A2 : sound h -> shows h v t -> Forall (valid h) A -> below h v q A -> run E W h A h2 A2 ->
  (forall ks, walk h v ks q -> walk h2 v ks q) /\
  (forall p r, h_get E W false h v p r = (h, Ok q) -> h_get E W false h2 v p r = (h2, Ok q)) /\
  (forall t2 ks, walk h v ks q -> shows h2 v t2 -> exists u, shows h2 q u /\ sits t2 ks u).
Proof.
  intros H1 H2 H3 H4 H5. split; [intros ks; eapply walk_below; eassumption|]. split; [intros p r; eapply get_below; eassumption|].
  intros t2 ks Hw Ht. eapply seen_at; [exact Ht|]. eapply walk_below; eassumption.
Qed.
End Claims.
