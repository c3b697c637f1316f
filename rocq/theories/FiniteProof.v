(** Documents that do not contain themselves (C63). *)
From Verif Require Import Base Utf8 Float64 Value Scan Unmarshal Opt Marshal Access Path Edit ListLemmas ValueLemmas Heap SpecHeap
  HeapProof HeapCopy HeapGraph HeapClaims SpecFinite.
Open Scope nat_scope.

Lemma bounded_walk h p ks q : bounded h p -> walk h p ks q -> bounded h q.
Proof.
  intros (n & H) Hw. exists n. intros js r Hr. specialize (H _ _ (HeapClaims.walk_app _ _ _ _ _ _ Hw Hr)). rewrite app_length in H. lia.
Qed.
Lemma bounded_step h p k q : bounded h p -> step h p k q -> bounded h q.
Proof. intros H Hs. apply (bounded_walk _ _ [k] _ H). econstructor; [exact Hs|constructor]. Qed.
Lemma pump h x js : walk h x js x -> js <> [] -> forall n, exists ks, n <= List.length ks /\ walk h x ks x.
Proof.
  intros Hw Hn. induction n as [|n (ks & L & Hk)]; [exists []; split; [lia|constructor]|].
  exists (js ++ ks). split; [|eapply HeapClaims.walk_app; eassumption]. rewrite app_length. destruct js; [congruence|cbn; lia].
Qed.
Lemma bounded_loop h p ks x js : bounded h p -> walk h p ks x -> walk h x js x -> js = [].
Proof.
  intros Hb Hw Hl. destruct (bounded_walk _ _ _ _ Hb Hw) as (n & Hx). destruct js as [|k js]; [reflexivity|exfalso].
  destruct (pump _ _ _ Hl ltac:(discriminate) (S n)) as (ls & L & Hs). specialize (Hx _ _ Hs). lia.
Qed.

(** A walk that is at [x] in the end only. *)
Inductive first_walk (h : heap) (x : ptr) : ptr -> list hop -> Prop :=
| fw_here : first_walk h x x []
| fw_step p k q ks : p <> x -> step h p k q -> first_walk h x q ks -> first_walk h x p (k :: ks).
Lemma walk_first h p ks x : walk h p ks x -> exists js, first_walk h x p js.
Proof.
  induction 1 as [p|p k q ks r Hs Hw (js & IH)]; [exists []; constructor|].
  destruct (ptr_eq_dec p r) as [->|N]; [exists []; constructor|]. exists (k :: js). econstructor; eassumption.
Qed.
Lemma first_later h h' x p js : (forall q k r, q <> x -> step h q k r -> step h' q k r) -> first_walk h x p js -> walk h' p js x.
Proof. intros H. induction 1; [constructor|]. econstructor; [|eassumption]. now apply H. Qed.

Lemma alters_other h h' x e p k q : alters h h' x e -> p <> x -> step h p k q -> step h' p k q.
Proof.
  intros [_ Ho] N (c & E1 & E2). destruct (Ho _ _ N E1) as (c' & E3 & S). exists c'. split; [exact E3|]. now rewrite <- (same_struct_kid _ _ _ S).
Qed.
Lemma alters_back h h' x e p k q : alters h h' x e -> p <> x -> valid h p -> step h' p k q -> step h p k q.
Proof.
  intros [_ Ho] N V (c' & E1 & E2). destruct p as [a|]; [|discriminate]. cbn in V.
  destruct (nth_error h a) as [c|] eqn:Ea; [|apply nth_error_None in Ea; lia].
  destruct (Ho (Some a) c N Ea) as (c2 & E3 & S). rewrite E1 in E3. injection E3 as <-. exists c. split; [exact Ea|]. now rewrite (same_struct_kid _ _ _ S).
Qed.
Lemma step_valid h p k q : sound h -> step h p k q -> valid h q.
Proof.
  intros So (c & E1 & E2). destruct p as [a|]; [|discriminate]. pose proof (So _ _ E1) as H. rewrite Forall_forall in H. apply H. eapply kid_pointer; eassumption.
Qed.
Lemma step_one h p k q q' : step h p k q -> step h p k q' -> q = q'.
Proof. intros (c & E1 & E2) (c' & E3 & E4). rewrite E1 in E3. injection E3 as <-. rewrite E2 in E4. now injection E4. Qed.

(** The walks of what does not lead to [x] stay. *)
Lemma walks_apart h h' x e p : sound h -> alters h h' x e -> valid h p -> (forall js, ~ walk h p js x) ->
  forall ks q, walk h' p ks q -> walk h p ks q.
Proof.
  intros So A V N ks q Hw. revert V N. induction Hw as [p|p k q ks r Hs Hw IH]; intros V N; [constructor|].
  assert (Np : p <> x) by (intros ->; apply (N []); constructor).
  pose proof (alters_back _ _ _ _ _ _ _ A Np V Hs) as Hs'. econstructor; [exact Hs'|]. apply IH; [eapply step_valid; eassumption|].
  intros js Hj. apply (N (k :: js)). econstructor; eassumption.
Qed.

(** The longest walk grows by no more than what is brought in. *)
Lemma alters_bound h h' x e B : sound h -> alters h h' x e ->
  (forall k q, brings e k q -> forall ks r, walk h' q ks r -> List.length ks <= B) ->
  forall n p, valid h p -> (forall ks q, walk h p ks q -> List.length ks <= n) ->
  forall ks q, walk h' p ks q -> List.length ks <= n + S B.
Proof.
  intros So A HB. induction n as [|n IH]; intros p V Hn ks q Hw.
  - destruct Hw as [p|p k q ks r Hs Hw]; [cbn; lia|].
    assert (Z : forall k q, ~ step h p k q).
    { intros k' q' Hs'. specialize (Hn [k'] q' (walk_one _ _ _ _ Hs')). cbn in Hn. lia. }
    destruct (ptr_eq_dec p x) as [->|N]; [|destruct (Z k q); exact (alters_back _ _ _ _ _ _ _ A N V Hs)].
    destruct A as [(c & c' & E1 & E2 & (_ & He)) _]. destruct Hs as (c2 & E3 & E4). rewrite E2 in E3. injection E3 as <-.
    apply He in E4 as [E4|(k0 & E4 & _)]; [|destruct (Z k0 q); exists c; auto]. specialize (HB _ _ E4 _ _ Hw). cbn. lia.
  - destruct Hw as [p|p k q ks r Hs Hw]; [cbn; lia|]. cbn [List.length].
    assert (St : forall k0, step h p k0 q -> List.length ks <= n + S B).
    { intros k0 Hs0. apply (IH q (step_valid _ _ _ _ So Hs0)) with (q := r); [|exact Hw].
      intros js y Hy. specialize (Hn (k0 :: js) y ltac:(econstructor; eassumption)). cbn in Hn. lia. }
    destruct (ptr_eq_dec p x) as [->|N].
    + destruct A as [(c & c' & E1 & E2 & (_ & He)) _]. destruct Hs as (c2 & E3 & E4). rewrite E2 in E3. injection E3 as <-.
      apply He in E4 as [E4|(k0 & E4 & _)]; [specialize (HB _ _ E4 _ _ Hw); lia|].
      enough (List.length ks <= n + S B) by lia. apply (St k0). exists c. auto.
    + enough (List.length ks <= n + S B) by lia. apply (St k). exact (alters_back _ _ _ _ _ _ _ A N V Hs).
Qed.
Lemma alters_bounded h h' x e B : sound h -> alters h h' x e ->
  (forall k q, brings e k q -> forall ks r, walk h' q ks r -> List.length ks <= B) ->
  forall p, valid h p -> bounded h p -> bounded h' p.
Proof. intros So A HB p V (n & Hn). exists (n + S B). intros ks q Hw. exact (alters_bound _ _ _ _ _ So A HB n p V Hn ks q Hw). Qed.

Lemma untouched_bounded h h' p : sound h -> untouched h h' -> valid h p -> bounded h p -> bounded h' p.
Proof.
  intros So U V (n & Hn). exists n. intros ks q Hw. apply (Hn ks q). clear Hn. revert V. induction Hw as [p|p k q ks r Hs Hw IH]; intros V; [constructor|].
  assert (Hs' : step h p k q).
  { destruct Hs as (c' & E1 & E2). destruct p as [a|]; [|discriminate]. cbn in V.
    destruct (nth_error h a) as [c|] eqn:Ea; [|apply nth_error_None in Ea; lia].
    destruct (U (Some a) c Ea) as (c2 & E3 & S). rewrite E1 in E3. injection E3 as <-. exists c. split; [exact Ea|]. now rewrite (same_struct_kid _ _ _ S). }
  econstructor; [exact Hs'|]. apply IH. eapply step_valid; eassumption.
Qed.

Lemma chain_bound n h q ls c B : new_chain n h q ls c -> (forall ks r, walk h c ks r -> List.length ks <= B) ->
  forall ks r, walk h q ks r -> List.length ks <= List.length ls + B.
Proof.
  intros H HB. induction H as [c|a k q ls c La Hs O H IH]; intros ks r Hw; [exact (HB _ _ Hw)|].
  inversion Hw as [|? k' q' ks' ? Hs' Hw']; subst; [cbn; lia|]. pose proof (O _ _ Hs') as ->. pose proof (step_one _ _ _ _ _ Hs Hs') as <-.
  specialize (IH HB _ _ Hw'). cbn. lia.
Qed.

Lemma shows_bounded h p t : shows h p t -> bounded h p.
Proof.
  intros Hs. exists (height t). intros ks q Hw. revert t Hs. induction Hw as [p|p k q ks r Hs Hw IH]; intros t Ht; [cbn; lia|].
  destruct (shows_step _ _ _ _ _ Ht Hs) as (u & _ & Hu & L). specialize (IH _ Hu). cbn. lia.
Qed.

(** One thing brought in. *)
Definition bring_one (e : edit) : option ptr := match e with EPut _ q | EIns _ q => Some q | _ => None end.
Lemma bring_one_spec e q0 k q : bring_one e = Some q0 -> brings e k q -> q = q0.
Proof. destruct e; cbn; try discriminate; intros [= <-] H; now injection H. Qed.
Lemma bring_step h h' x e k q : alters h h' x e -> brings e k q -> step h' x k q.
Proof. intros [(c & c' & E1 & E2 & (_ & He)) _] Hb. exists c'. split; [exact E2|]. apply He. now left. Qed.

Lemma put_safe h h' x e q0 ls c : sound h -> valid h c -> alters h h' x e -> bring_one e = Some q0 ->
  new_chain (List.length h) h' q0 ls c -> bounded h c -> (forall js, ~ walk h c js x) ->
  forall p, valid h p -> bounded h p -> bounded h' p.
Proof.
  intros So Vc A Hb Hc (B & HB) N. apply (alters_bounded _ _ _ _ (List.length ls + B) So A).
  intros k q Hq ks r Hw. apply (bring_one_spec _ _ _ _ Hb) in Hq. subst q.
  apply (chain_bound _ _ _ _ _ _ Hc) with (r := r); [|exact Hw]. intros ks' r' Hw'. apply (HB ks' r'). exact (walks_apart _ _ _ _ _ So A Vc N _ _ Hw').
Qed.
Lemma put_unsafe h h' x e k q ls c v ks js : alters h h' x e -> brings e k q -> new_chain (List.length h) h' q ls c ->
  walk h v ks x -> walk h c js x -> ~ bounded h' v.
Proof.
  intros A Hb Hc Hv Hw HB. pose proof (fun p k q => alters_other h h' x e p k q A) as T.
  destruct (walk_first _ _ _ _ Hv) as (is1 & F1). destruct (walk_first _ _ _ _ Hw) as (is2 & F2).
  apply (first_later _ h' _ _ _ T) in F1. apply (first_later _ h' _ _ _ T) in F2.
  assert (L : walk h' x (k :: ls ++ is2) x).
  { econstructor; [exact (bring_step _ _ _ _ _ _ A Hb)|]. eapply HeapClaims.walk_app; [exact (chain_walk _ _ _ _ _ Hc)|exact F2]. }
  discriminate (bounded_loop _ _ _ _ _ HB F1 L).
Qed.

(** Only the container that was changed can be meant. *)
Lemma closes_where h h' c : sound h -> bounded h c -> valid h c -> closes h h' c ->
  (untouched h h' -> False) /\ (forall x e, alters h h' x e -> exists e' k q ls js, alters h h' x e' /\ brings e' k q /\
     new_chain (List.length h) h' q ls c /\ walk h c js x).
Proof.
  intros So HB Vc (x1 & e1 & k & q & ls & js & A & Hb & Hc & Hw). pose proof (bring_step _ _ _ _ _ _ A Hb) as Hs.
  assert (K : ~ step h x1 k q).
  { intros Hs0. inversion Hc as [c0 E1 E2 E3|a k0 q0 ks c0 La _ _ _ E1 E2 E3]; subst.
    - assert (L : walk h c (js ++ [k]) c) by (eapply HeapClaims.walk_app; [exact Hw|econstructor; [exact Hs0|constructor]]).
      apply (bounded_loop _ _ [] _ _ HB (walk_here _ _)) in L. destruct js; discriminate.
    - pose proof (step_valid _ _ _ _ So Hs0) as V. cbn in V. lia. }
  assert (Vx : valid h x1).
  { destruct A as [(c1 & _ & E1 & _) _]. destruct x1 as [a|]; [|exact I]. cbn in *. apply nth_error_Some. rewrite E1. discriminate. }
  split.
  - intros U. apply K. destruct Hs as (c' & E1 & E2). destruct x1 as [a|]; [|discriminate].
    cbn in Vx. destruct (nth_error h a) as [c0|] eqn:Ea; [|apply nth_error_None in Ea; lia].
    destruct (U (Some a) c0 Ea) as (c2 & E3 & S). rewrite E1 in E3. injection E3 as <-. exists c0. split; [exact Ea|]. now rewrite (same_struct_kid _ _ _ S).
  - intros x e A'. destruct (ptr_eq_dec x1 x) as [->|N]; [exists e1, k, q, ls, js; auto|].
    exfalso. apply K. exact (alters_back _ _ _ _ _ _ _ A' N Vx Hs).
Qed.

Section Calls.
Variable E : Env.
Variable W : World.

(** What a call that puts a value in does. *)
Lemma put_effect h k h1 r c : sound h -> perform E W h k = (h1, r) -> put_in k = Some c ->
  untouched h h1 \/ exists ks x e q ls, walk h (receiver k) ks x /\ alters h h1 x e /\ bring_one e = Some q /\ new_chain (List.length h) h1 q ls c.
Proof.
  intros So H Hc. destruct k; cbn [perform put_in receiver] in *; try discriminate; injection Hc as ->.
  - pose proof (set_graph E W _ _ _ _ _ _ _ H) as G. destruct r; cbn in G; try (left; now apply kept_untouched).
    destruct G as (_ & _ & ks & x & k & q0 & ls & H1 & H2 & H3 & _). right. exists ks, x, (EPut k q0), q0, ls. auto.
  - apply insert_graph in H. destruct r; cbn in H; auto. destruct H as (_ & ks & x & n & H1 & H2).
    right. exists ks, x, (EIns n c), c, []. repeat (split; [assumption || reflexivity|]). constructor.
  - apply append_graph in H; [|exact So]. destruct r; cbn in H; auto.
    destruct H as (_ & ks & x & H1 & [(n & H2)|(k & q0 & ls & H2 & _ & H3 & _)]); right.
    + exists ks, x, (EIns n c), c, []. repeat (split; [assumption || reflexivity|]). constructor.
    + exists ks, x, (EPut k q0), q0, ls. auto.
Qed.

Lemma bring_some e q : bring_one e = Some q -> exists k, brings e k q.
Proof. destruct e; cbn; try discriminate; intros [= <-]; eauto. Qed.

Lemma put_exactly h k h1 r c : sound h -> Forall (valid h) (operands k) -> put_in k = Some c -> bounded h (receiver k) -> bounded h c ->
  perform E W h k = (h1, r) ->
  (bounded h1 (receiver k) <-> ~ closes h h1 c) /\
  (~ closes h h1 c -> forall p, valid h p -> bounded h p -> bounded h1 p).
Proof.
  intros So V Hk Bv Bc H.
  assert (Vs : valid h (receiver k) /\ valid h c).
  { destruct k; cbn [put_in operands receiver] in *; try discriminate; injection Hk as ->; inversion V as [|? ? V1 V2]; subst; inversion V2; subst; auto. }
  destruct Vs as (Vv & Vc).
  assert (S2 : ~ closes h h1 c -> forall p, valid h p -> bounded h p -> bounded h1 p).
  { intros N p Vp Bp. destruct (put_effect _ _ _ _ _ So H Hk) as [U|(ks & x & e & q & ls & H1 & H2 & H3 & H4)].
    - eapply untouched_bounded; eassumption.
    - apply (put_safe _ _ _ _ _ _ _ So Vc H2 H3 H4 Bc); try assumption. intros js Hj. apply N.
      destruct (bring_some _ _ H3) as (k0 & Hb). exists x, e, k0, q, ls, js. auto. }
  split; [|exact S2]. split; [|intros N; apply S2; assumption].
  intros B1 C. destruct (closes_where _ _ _ So Bc Vc C) as (NU & HA).
  destruct (put_effect _ _ _ _ _ So H Hk) as [U|(ks & x & e & q & ls & H1 & H2 & _)]; [exact (NU U)|].
  destruct (HA _ _ H2) as (e' & k' & q' & ls' & js & A & Hb & Hc & Hw). exact (put_unsafe _ _ _ _ _ _ _ _ _ _ _ A Hb Hc H1 Hw B1).
Qed.

Lemma build_kept h w : kept h (fst (h_build h w)).
Proof. pose proof (build_fixed h w) as [C _]. now apply kept_confined. Qed.

Lemma other_bounded h k h1 r : sound h -> Forall (valid h) (operands k) -> put_in k = None -> perform E W h k = (h1, r) ->
  forall p, valid h p -> bounded h p -> bounded h1 p.
Proof.
  intros So V Hk H p Vp Bp. destruct k; cbn [perform put_in operands] in *; try discriminate.
  - pose proof (build_kept h v) as K. destruct (h_build h v) as [h2 q]. injection H as <- _. eapply untouched_bounded; [exact So|now apply kept_untouched|exact Vp|exact Bp].
  - apply get_graph in H as (U & _). eapply untouched_bounded; eassumption.
  - destruct (h_delete E W caseless h v first others) as [h2 o] eqn:Ed. injection H as <- <-. apply delete_graph in Ed.
    assert (D : untouched h h2 \/ exists x k, alters h h2 x (EDel k)).
    { destruct o; cbn in Ed; auto. destruct Ed as (ks & x & k & q & _ & _ & H2). right. eauto. }
    destruct D as [U|(x & k & A)]; [eapply untouched_bounded; eassumption|].
    apply (alters_bounded _ _ _ _ 0 So A); try assumption. intros k' q [].
  - pose proof (import_stays h v) as [C _]. rewrite H in C. eapply untouched_bounded; [exact So|now apply kept_untouched, kept_confined|exact Vp|exact Bp].
  - unfold h_sort in H. destruct less as [f|]; [|injection H as <- _; exact Bp].
    destruct (deref h v) as [c|] eqn:Ed; [|injection H as <- _; exact Bp].
    destruct c; try (injection H as <- _; exact Bp). injection H as <- _.
    destruct (edited_sort W l (f h)) as [g Hg]. pose proof (alters_store _ _ _ _ _ Ed Hg) as A.
    apply (alters_bounded _ _ _ _ 0 So A); try assumption. intros k' q [].
  - unfold h_load in H. destruct (unmarshal E b) as [[w [e|]]|e| |]; try (injection H as <- _; exact Bp).
    pose proof (build_kept h w) as K. pose proof (build_shows h w) as F. destruct (h_build h w) as [h2 q]. cbn [fst] in K.
    assert (B2 : bounded h2 p) by (eapply untouched_bounded; [exact So|now apply kept_untouched|exact Vp|exact Bp]).
    destruct (deref h2 v) as [c0|] eqn:Ev; [|injection H as <- _; exact B2].
    destruct (deref h2 q) as [c|] eqn:Eq; [|injection H as <- _; exact B2]. injection H as <- _.
    inversion V as [|? ? Vv _]; subst. destruct v as [a|]; [|discriminate]. cbn in Vv.
    destruct (nth_error h a) as [cv|] eqn:Ea; [|apply nth_error_None in Ea; lia].
    destruct F as (s & Hr & _ & Hs). rewrite Forall_forall in Hs.
    assert (Hr' : reads (store h2 (Some a) c) q w s).
    { apply (proj1 (reads_frame h2 _) _ _ _ Hr). intros y Hy. specialize (Hs _ Hy). symmetry.
      change (deref h2 (Some y) = deref (store h2 (Some a) c) (Some y)). rewrite deref_store_other; [reflexivity|]. intros [= ->]. lia. }
    assert (A : alters h (store h2 (Some a) c) (Some a) (EAll c)).
    { apply (alters_after h h2); [exact (kept_untouched _ _ K)|cbn; congruence|]. eapply alters_store; [exact Ev|]. split; [reflexivity|].
      intros k' q'. cbn [brings moved]. split; [now left|]. intros [H|(k & _ & H)]; [exact H|discriminate]. }
    apply (alters_bounded _ _ _ _ (height w) So A); try assumption. intros k' q' Hb ks r' Hw. cbn in Hb.
    assert (Nq : Some a <> q).
    { intros <-. inversion Hr; subst; (specialize (Hs a ltac:(now left))); lia. }
    assert (Hst : step (store h2 (Some a) c) q k' q') by (exists c; split; [rewrite deref_store_other by exact Nq; exact Eq|exact Hb]).
    destruct (shows_step _ _ _ _ _ (ex_intro _ s Hr') Hst) as (u & _ & (s' & Hu) & L).
    enough (List.length ks <= height u) by lia. clear - Hw Hu. assert (Ht : shows (store h2 (Some a) c) q' u) by (exists s'; exact Hu).
    clear Hu. revert u Ht. induction Hw as [p|p k q ks r Hs Hw IH]; intros t Ht; [cbn; lia|].
    destruct (shows_step _ _ _ _ _ Ht Hs) as (u' & _ & Hu & L). specialize (IH _ Hu). cbn. lia.
Qed.

Lemma gained_bounded h k h1 r : sound h -> Forall (valid h) (operands k) -> Forall (bounded h) (operands k) -> perform E W h k = (h1, r) ->
  (forall c, put_in k = Some c -> ~ closes h h1 c) -> forall q, In q (gained r) -> bounded h1 q.
Proof.
  intros So V B H N q Hq.
  assert (Bnil : bounded h1 None).
  { exists 0. intros ks x Hw. inversion Hw as [|? ? ? ? ? (c & Ec & _)]; subst; [cbn; lia|discriminate]. }
  assert (Cput : forall c, put_in k = Some c -> In c (operands k) -> bounded h1 c).
  { intros c Hc Hi. rewrite Forall_forall in V, B. refine (proj2 (put_exactly h k h1 r c So _ Hc _ (B _ Hi) H) (N _ Hc) c (V _ Hi) (B _ Hi)).
    - now rewrite Forall_forall.
    - apply B. destruct k; cbn in *; try discriminate; now left. }
  destruct k; cbn [perform put_in operands] in *.
  - pose proof (build_shows h v) as F. destruct (h_build h v) as [h2 p]. injection H as <- <-. destruct Hq as [<-|[]].
    destruct F as (s & Hr & _). eapply shows_bounded. exists s. exact Hr.
  - pose proof (get_graph _ _ _ _ _ _ _ _ _ H) as (U & _ & G). destruct r as [x| | |]; cbn in Hq; try contradiction. destruct Hq as [<-|[]].
    destruct (G x eq_refl) as (ks & _ & Hw). inversion V as [|? ? Vv _]; subst. inversion B as [|? ? Bv _]; subst.
    eapply bounded_walk; [eapply untouched_bounded; [exact So|exact U|exact Vv|exact Bv]|]. eapply walk_untouched; eassumption.
  - pose proof (set_graph E W _ _ _ _ _ _ _ H) as G. destruct r as [x| | |]; cbn in Hq; try contradiction. destruct Hq as [<-|[]].
    destruct G as (-> & _). apply Cput; [reflexivity|right; now left].
  - apply insert_graph in H. destruct r as [x| | |]; cbn in Hq; try contradiction. destruct Hq as [<-|[]].
    destruct H as (-> & _). apply Cput; [reflexivity|right; now left].
  - apply append_graph in H; [|exact So]. destruct r as [x| | |]; cbn in Hq; try contradiction. destruct Hq as [<-|[]].
    destruct H as (-> & _). apply Cput; [reflexivity|right; now left].
  - destruct (h_delete E W caseless h v first others) as [h2 o]. injection H as <- <-. destruct o; cbn in Hq; try contradiction. destruct Hq as [<-|[]]. exact Bnil.
  - destruct r as [x| | |]; cbn in Hq; try contradiction. destruct Hq as [<-|[]]. destruct v as [a|]; [|injection H as <- <-; exact Bnil].
    inversion V as [|? ? Va _]; subst. destruct (proj1 (import_iff h a So Va) (ex_intro _ _ (ex_intro _ _ H))) as (t & Ht).
    destruct (import_copy _ _ _ Ht) as (h2 & q2 & H2 & _ & _ & w & Hw & _). rewrite H in H2. injection H2 as <- <-. exact (shows_bounded _ _ _ Hw).
  - unfold h_sort in H. destruct less as [f|]; [|injection H as <- <-; destruct Hq as [<-|[]]; exact Bnil].
    destruct (deref h v) as [[]|]; injection H as <- <-; cbn in Hq; try contradiction; destruct Hq as [<-|[]]; exact Bnil.
  - unfold h_load in H. destruct (unmarshal E b) as [[w [e|]]|e| |]; try (injection H as <- <-; contradiction).
    destruct (h_build h w) as [h2 p]. destruct (deref h2 v); [|injection H as <- <-; contradiction].
    destruct (deref h2 p); injection H as <- <-; cbn in Hq; try contradiction. destruct Hq as [<-|[]]. exact Bnil.
Qed.

Lemma careful_bounded h a h2 a2 : careful E W h a h2 a2 -> sound h -> Forall (valid h) a -> Forall (bounded h) a ->
  sound h2 /\ Forall (valid h2) a2 /\ Forall (bounded h2) a2.
Proof.
  induction 1 as [h a|h a k h1 r h2 a2 Hi Hp HN HM Hc IH]; intros So V B; [auto|].
  assert (Vo : Forall (valid h) (operands k)) by (rewrite Forall_forall in *; auto).
  assert (Bo : Forall (bounded h) (operands k)) by (rewrite Forall_forall in *; auto).
  destruct (perform_sound _ _ _ _ _ _ So Vo Hp) as (So1 & L1 & Vr). apply IH; [exact So1| |].
  - apply Forall_app. split; [exact Vr|]. eapply Forall_impl; [|exact V]. intros x. now apply valid_later.
  - apply Forall_app. split.
    + apply Forall_forall. intros q Hq. exact (gained_bounded _ _ _ _ So Vo Bo Hp HN q Hq).
    + rewrite Forall_forall in *. intros x Hx. destruct (put_in k) as [c|] eqn:Ec.
      * refine (proj2 (put_exactly h k h1 r c So _ Ec _ _ Hp) (HN _ eq_refl) x (V _ Hx) (B _ Hx)).
        -- now apply Forall_forall.
        -- apply Bo. destruct k; cbn in *; try discriminate; now left.
        -- apply Bo. destruct k; cbn in *; try discriminate; injection Ec as ->; right; now left.
      * refine (other_bounded _ _ _ _ So _ Ec Hp x (V _ Hx) (B _ Hx)). now apply Forall_forall.
Qed.
End Calls.

(** *** What is bounded shows a tree *)
Lemma bounded_shows n : forall h p, sound h -> one_entry h -> valid h p -> (forall ks q, walk h p ks q -> List.length ks <= n) -> exists t, shows h p t.
Proof.
  induction n as [n IH] using (well_founded_induction lt_wf). intros h p So On V Hn.
  destruct p as [a|]; [|exists VNil, []; constructor]. cbn in V. destruct (nth_error h a) as [c|] eqn:Ea; [|apply nth_error_None in Ea; lia].
  assert (Sub : forall k q, kid c k = Some q -> exists t s, reads h q t s).
  { intros k q Hk. assert (Hs : step h (Some a) k q) by (exists c; auto).
    assert (Pos : 0 < n) by (specialize (Hn [k] q (walk_one _ _ _ _ Hs)); cbn in Hn; lia).
    destruct (IH (n - 1) ltac:(lia) h q So On (step_valid _ _ _ _ So Hs)) as (t & s & Ht); [|eauto].
    intros ks r Hw. specialize (Hn (k :: ks) r ltac:(econstructor; eassumption)). cbn in Hn. lia. }
  destruct c; try (eexists; exists [a]; eapply reads_leaf; [exact Ea|reflexivity]).
  - pose proof (On _ _ _ _ Ea) as ND.
    assert (Hl : exists xs s, reads_members h kvs xs s).
    { assert (Sub' : forall k id q, In (k, (id, q)) kvs -> exists t s, reads h q t s).
      { intros k id q Hin. apply (Sub (HKey k)). cbn. now rewrite (alookup_NoDup_In _ _ _ ND Hin). }
      clear - Sub'. induction kvs as [|[k [id q]] r IHr]; [exists [], []; constructor|].
      destruct (Sub' k id q (or_introl eq_refl)) as (t & s & Ht). destruct IHr as (xs & s' & Hr); [intros; eapply Sub'; right; eassumption|].
      exists ((k, (id, t)) :: xs), (s ++ s'). now constructor. }
    destruct Hl as (xs & s & Hx). exists (VObj incr xs lower), (a :: s). eapply reads_obj; eassumption.
  - assert (Hl : exists xs s, reads_elems h l xs s).
    { assert (Sub' : forall q, In q l -> exists t s, reads h q t s).
      { intros q Hin. apply In_nth_error in Hin as (i & Hi). exact (Sub (HIdx i) q Hi). }
      clear - Sub'. induction l as [|q r IHr]; [exists [], []; constructor|].
      destruct (Sub' q (or_introl eq_refl)) as (t & s & Ht). destruct IHr as (xs & s' & Hr); [intros; eapply Sub'; right; eassumption|].
      exists (t :: xs), (s ++ s'). now constructor. }
    destruct Hl as (xs & s & Hx). exists (VArr xs), (a :: s). eapply reads_arr; eassumption.
Qed.
Lemma bounded_iff h p : sound h -> one_entry h -> valid h p -> (bounded h p <-> exists t, shows h p t).
Proof.
  intros So On V. split; [intros (n & H); now apply (bounded_shows n)|]. intros (t & H). exact (shows_bounded _ _ _ H).
Qed.

(** *** Get does not mind sharing *)
Section Get.
Variable E : Env.
Variable W : World.

Lemma member_missing h l vs s k : reads_members h l vs s -> alookup k l = None -> alookup k vs = None.
Proof.
  induction 1 as [|k0 id p v s l vs t Hr Hm IH]; [reflexivity|]. cbn. destruct (beqb k k0); [discriminate|exact IH].
Qed.
Lemma elems_len h l vs s : reads_elems h l vs s -> List.length l = List.length vs.
Proof. induction 1; cbn; congruence. Qed.

Lemma find_shown h p t par : shows h p t ->
  match snd (h_find E W false h p par), find_child E W false t par with
  | Ok q, (t', Ok hp) => t' = t /\ exists u, child_at t hp = Some u /\ shows h q u
  | Err e, (t', Err e') => t' = t /\ e = e'
  | Panic, (t', Panic) => t' = t
  | Fuel, (t', Fuel) => t' = t
  | _, _ => False
  end.
Proof.
  intros [s H]. unfold h_find, find_child.
  destruct H as [|a c v Ea Hl|a l vs s Ea Hr|a i kvs lo xs s Ea Hr]; cbn [deref]; rewrite ?Ea.
  - reflexivity.
  - destruct c; cbn in Hl; try contradiction; subst v; cbn; auto.
  - cbn [snd]. rewrite (elems_len _ _ _ _ Hr). destruct (any_to_int par) as [pos|e| |]; cbn [rbind]; auto.
    destruct (pos_read (List.length vs) pos) as [n|] eqn:Ep; [|auto]. split; [reflexivity|].
    pose proof (pos_read_lt _ _ _ Ep) as L. rewrite <- (elems_len _ _ _ _ Hr) in L.
    destruct (elem_at _ _ _ _ Hr n (nth n l None) (nth_error_nth' l None L)) as (u & s' & Hu & Hs & _). exists u. split; [exact Hu|exists s'; exact Hs].
  - destruct (any_to_string par) as [k|e| |]; [|cbn; auto..]. unfold find_key.
    destruct (alookup k kvs) as [[id q]|] eqn:El.
    + destruct (member_at _ _ _ _ Hr _ _ _ El) as (u & s' & Hu & Hs & _). rewrite Hu. cbn [snd]. rewrite El.
      split; [reflexivity|]. exists u. cbn. rewrite Hu. split; [reflexivity|exists s'; exact Hs].
    + rewrite (member_missing _ _ _ _ _ Hr El). cbn. auto.
Qed.
Lemma locate_shown f : forall h p t par r, shows h p t ->
  match snd (h_get_f E W f false h p par r), snd (locate_f E W f false t par r) with
  | Ok q, Ok hs => exists u, sub_at t hs = Some u /\ shows h q u
  | Err e, Err e' => e = e'
  | Panic, Panic | Fuel, Fuel => True
  | _, _ => False
  end.
Proof.
  induction f as [|f IH]; intros h p t par r Hs; cbn [h_get_f locate_f]; [exact I|].
  destruct (peel par r) as [[p' r']|]; [|reflexivity].
  pose proof (find_shown h p t p' Hs) as F. pose proof (find_plain E W h p p') as Hp.
  destruct (h_find E W false h p p') as [h' c]. cbn [fst snd] in *. subst h'.
  destruct (find_child E W false t p') as [t' o]. destruct c as [q|e| |], o as [hp|e'| |]; try contradiction; cbn [snd].
  - destruct F as (-> & u & Hu & Hq). destruct r' as [|q' r'].
    + exists u. cbn. rewrite Hu. auto.
    + rewrite Hu. specialize (IH h q u q' r' Hq). destruct (locate_f E W f false u q' r') as [c' t']. cbn [snd] in *.
      destruct (snd (h_get_f E W f false h q q' r')), t'; try contradiction; cbn [rbind]; auto.
      cbn [sub_at]. rewrite Hu. exact IH.
  - apply F.
  - exact I.
  - exact I.
Qed.
Theorem get_shown h p t par r : shows h p t ->
  fst (h_get E W false h p par r) = h /\
  match snd (h_get E W false h p par r), snd (get E W false t par r) with
  | Ok q, Ok u => shows h q u
  | Err e, Err e' => e = e'
  | Panic, Panic | Fuel, Fuel => True
  | _, _ => False
  end.
Proof.
  intros Hs. split; [apply get_f_plain|]. pose proof (locate_shown (S (psum (par :: r))) h p t par r Hs) as H.
  unfold get, locate, h_get. pose proof (PathProof.locate_f_same E W (S (psum (par :: r))) t par r) as Hf.
  destruct (locate_f E W (S (psum (par :: r))) false t par r) as [t' o]. cbn [fst snd] in *. subst t'.
  destruct (snd (h_get_f E W (S (psum (par :: r))) false h p par r)), o; try contradiction; cbn [rbind]; auto.
  destruct H as (u & -> & Hu). exact Hu.
Qed.
End Get.
