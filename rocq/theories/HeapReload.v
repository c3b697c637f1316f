(** SortArray and UnmarshalJSON in memory. *)
From Coq Require Import Permutation.
From Verif Require Import Base ListLemmas Utf8 Float64 Value ValueLemmas Scan Unmarshal Opt Marshal SortProof Access SpecJson SpecValue
  Path SpecPath Edit Iter Heap SpecHeap SpecShare HeapProof HeapCopy HeapGraph HeapClaims HeapTree.
Local Open Scope nat_scope.

(** *** Looking at a tree *)
Lemma view_reads h :
  (forall p v s, reads h p v s -> forall n, height v < n -> view_f n h p = v) /\
  (forall l vs s, reads_elems h l vs s -> forall n, height_elems vs < n -> map (view_f n h) l = vs) /\
  (forall l vs s, reads_members h l vs s -> forall n, height_members vs < n ->
     map (fun e => (fst e, (fst (snd e), view_f n h (snd (snd e))))) l = vs).
Proof.
  apply reads_all_ind.
  - intros [|n] L; reflexivity.
  - intros a c v Ea Hl n L. destruct n as [|n]; [lia|]. cbn [view_f deref]. rewrite Ea.
    destruct c; cbn in Hl; try contradiction; subst; reflexivity.
  - intros a l vs s Ea Hr IH n L. destruct n as [|n]; [lia|]. cbn [view_f deref]. rewrite Ea.
    change (height (VArr vs)) with (S (height_elems vs)) in L. rewrite IH by lia. reflexivity.
  - intros a i kvs lo xs s Ea Hr IH n L. destruct n as [|n]; [lia|]. cbn [view_f deref]. rewrite Ea.
    change (height (VObj i xs lo)) with (S (height_members xs)) in L. rewrite IH by lia. reflexivity.
  - reflexivity.
  - intros p v s l vs t H1 IH1 H2 IH2 n L. change (height_elems (v :: vs)) with (Nat.max (height v) (height_elems vs)) in L.
    cbn [map]. rewrite IH1, IH2 by lia. reflexivity.
  - reflexivity.
  - intros k id p v s l vs t H1 IH1 H2 IH2 n L.
    change (height_members ((k, (id, v)) :: vs)) with (Nat.max (height v) (height_members vs)) in L.
    cbn [map fst snd]. rewrite IH1, IH2 by lia. reflexivity.
Qed.
Lemma view_shows h p v : shows h p v -> view h p = v.
Proof.
  intros H. pose proof (shows_height _ _ _ H) as L. destruct H as [s H].
  apply (proj1 (view_reads h) _ _ _ H). lia.
Qed.

(** *** SortArray *)
Lemma elems_zip h l vs s : reads_elems h l vs s ->
  exists z : list (ptr * V * list nat), l = map (fun x => fst (fst x)) z /\ vs = map (fun x => snd (fst x)) z /\
    s = flat_map snd z /\ Forall (fun x => reads h (fst (fst x)) (snd (fst x)) (snd x)) z.
Proof.
  induction 1 as [|p v s l vs t H1 H2 (z & -> & -> & -> & F)]; [exists []; repeat constructor|].
  exists ((p, v, s) :: z). repeat split. constructor; assumption.
Qed.
Lemma zip_elems h (z : list (ptr * V * list nat)) : Forall (fun x => reads h (fst (fst x)) (snd (fst x)) (snd x)) z ->
  reads_elems h (map (fun x => fst (fst x)) z) (map (fun x => snd (fst x)) z) (flat_map snd z).
Proof. induction 1 as [|x z H1 H2 IH]; cbn; constructor; assumption. Qed.

Lemma elems_sort W h l vs s f g : reads_elems h l vs s ->
  (forall x y vx vy, shows h x vx -> shows h y vy -> f x y = g vx vy) ->
  exists s', reads_elems h (go_sort W f l) (go_sort W g vs) s' /\ Permutation s' s.
Proof.
  intros H Hf. destruct (elems_zip _ _ _ _ H) as (z & -> & -> & -> & F). rewrite !go_sort_map.
  set (fz := fun x y : ptr * V * list nat => f (fst (fst x)) (fst (fst y))).
  assert (Ez : go_sort W (fun x y => g (snd (fst x)) (snd (fst y))) z = go_sort W fz z).
  { apply go_sort_ext. intros x y Hx Hy. symmetry. rewrite Forall_forall in F. apply Hf.
    - exists (snd x). now apply F.
    - exists (snd y). now apply F. }
  rewrite Ez. pose proof (go_sort_perm W fz z) as P. exists (flat_map snd (go_sort W fz z)). split.
  - apply zip_elems. rewrite Forall_forall in F |- *. intros x Hx. apply F. eapply Permutation_in; eassumption.
  - now apply Permutation_flat_map.
Qed.

(** SortArray on an unshared array. *)
Lemma share_sort W h p v s f g : unshared h p v s ->
  (forall x y vx vy, shows h x vx -> shows h y vy -> f h x y = g vx vy) ->
  forall h' r, h_sort W h p (Some f) = (h', r) ->
  match sort_array W v (Some g) with
  | Ok v' => r = Ok None /\ turned h h' p s [] v'
  | o => h' = h /\ same_result (fun _ _ => False) r o
  end.
Proof.
  intros [H N] Hf h' r E1.
  assert (Same : turned h h p s [] v).
  { split; [auto|]. exists s. split; [split; assumption|]. intros a Ha. now left. }
  unfold h_sort in E1. pose proof (reads_deref _ _ _ _ H) as D.
  destruct v as [|x|n src|i kvs lo|vs|b| | |]; cbn [sort_array api_is_array is_nil on_value rbind];
    destruct (deref h p) as [c|] eqn:Ed; try contradiction; try destruct c; try contradiction;
    injection E1 as <- <-; cbn; auto.
  split; [reflexivity|]. destruct (reads_arr_tree _ _ _ _ H) as (a & ps & t & -> & -> & Ea & Hr).
  cbn [deref] in Ed. rewrite Ea in Ed. injection Ed as <-.
  destruct (elems_sort W h ps vs t (f h) g Hr Hf) as (t' & Hr' & Hp). inversion N as [|? ? N1 N2]; subst.
  split.
  - intros b Lb Hb. cbn [store]. apply nth_error_set_nth_other. intros ->. apply Hb. now left.
  - exists (a :: t'). split.
    + split.
      * eapply reads_arr.
        -- cbn [store]. apply nth_error_set_nth_same. apply nth_error_Some. congruence.
        -- apply (frame_elems h); [exact Hr'|]. intros b Hb. cbn [store]. apply nth_error_set_nth_other. intros ->.
           apply N1. eapply Permutation_in; eassumption.
      * constructor; [|eapply Permutation_NoDup; [symmetry; exact Hp|exact N2]].
        intros Hin. apply N1. eapply Permutation_in; eassumption.
    + intros b [<-|Hb]; [left; now left|]. left. right. eapply Permutation_in; eassumption.
Qed.

(** *** UnmarshalJSON *)
Lemma load_ok E h p c0 b w : deref h p = Some c0 -> unmarshal E b = Ok (w, None) -> w <> VNil ->
  exists h' a s, h_load E h p b = (h', Ok None) /\ p = Some a /\ reads h' p w s /\ NoDup s /\
    (forall x, In x s -> x = a \/ List.length h <= x) /\
    (forall x, x < List.length h -> x <> a -> nth_error h' x = nth_error h x).
Proof.
  intros Ed Eu Nw. unfold h_load. rewrite Eu.
  pose proof (build_shows h w) as B. pose proof (build_fixed h w) as F. destruct (h_build h w) as [h1 r]. cbn [fst snd] in F.
  destruct B as (t & R & N & B). destruct F as [(L & _ & F) _]. cbn [fst] in L, F.
  assert (K : forall x, x < List.length h -> nth_error h1 x = nth_error h x) by (intros x Lx; apply F; auto).
  destruct p as [a|]; [|discriminate]. cbn [deref] in Ed.
  assert (La : a < List.length h) by (apply nth_error_Some; congruence).
  cbn [deref]. rewrite K, Ed by exact La.
  destruct r as [x|]; [|inversion R; subst; congruence].
  assert (Hx : In x t) by (inversion R; subst; now left).
  rewrite Forall_forall in B. pose proof (B x Hx) as Bx.
  destruct (nth_error h1 x) as [c|] eqn:Ex; [|apply nth_error_None in Ex; lia].
  assert (Keep : forall y, y <> a -> nth_error (store h1 (Some a) c) y = nth_error h1 y).
  { intros y Ny. cbn [store]. apply nth_error_set_nth_other. congruence. }
  assert (Here : nth_error (store h1 (Some a) c) a = Some c).
  { cbn [store]. apply nth_error_set_nth_same. lia. }
  set (h2 := store h1 (Some a) c) in *. exists h2, a, (a :: tl t). split; [cbn [deref]; now rewrite Ex|]. split; [reflexivity|].
  assert (Na : ~ In a t) by (intros Ha; apply B in Ha; lia).
  assert (It : incl (tl t) t) by (destruct t; [intros ? []|intros y Hy; now right]).
  split; [|split; [|split]].
  - inversion R as [|? c1 ? E1 Hl|? l vs s E1 Hr|? i kvs lo xs s E1 Hr]; subst; rewrite Ex in E1; injection E1 as ->; cbn [tl].
    + eapply reads_leaf; eassumption.
    + eapply reads_arr; [exact Here|]. apply (frame_elems h1); [exact Hr|]. intros y Hy. apply Keep. intros ->. apply Na. now right.
    + eapply reads_obj; [exact Here|]. apply (frame_members h1); [exact Hr|]. intros y Hy. apply Keep. intros ->. apply Na. now right.
  - constructor; [intros Ha; apply Na, It, Ha|]. destruct t; [constructor|]. now inversion N.
  - intros y [<-|Hy]; [now left|]. right. apply It, B in Hy. lia.
  - intros y Ly Ny. rewrite Keep by exact Ny. now apply K.
Qed.


Lemma load_cases E h p b : (deref h p <> None) ->
  (exists w h' a s, unmarshal E b = Ok (w, None) /\ json_typed w /\ h_load E h p b = (h', Ok None) /\ p = Some a /\
     reads h' p w s /\ NoDup s /\ (forall x, In x s -> x = a \/ List.length h <= x) /\
     (forall x, x < List.length h -> x <> a -> nth_error h' x = nth_error h x)) \/
  (exists w e, unmarshal E b = Ok (w, Some e) /\ h_load E h p b = (h, Err e)).
Proof.
  intros Hp. destruct (unmarshal_total E b) as (w & [e|] & Eu & Hw).
  - right. exists w, e. split; [exact Eu|]. unfold h_load. now rewrite Eu.
  - left. destruct (deref h p) as [c0|] eqn:Ed; [|congruence].
    destruct (load_ok E h p c0 b w Ed Eu) as (h' & a & s & H); [intros ->; inversion Hw|].
    exists w, h', a, s. tauto.
Qed.

Lemma share_load E h p v s b : unshared h p v s ->
  forall h' r v' r', h_load E h p b = (h', r) -> unmarshal_json E v b = (v', r') ->
  turned h h' p s [] v' /\ same_result (fun q _ => q = None) r r'.
Proof.
  intros [H N] h' r v' r' E1 E2. unfold unmarshal_json in E2.
  assert (Same : forall h2, kept h h2 -> turned h h2 p s [] v).
  { intros h2 K. split; [intros x Lx _; now apply K|]. exists s. split; [split; [exact (kept_frame _ _ _ _ _ K H)|exact N]|].
    intros x Hx. now left. }
  pose proof (reads_deref _ _ _ _ H) as D. destruct (deref h p) as [c|] eqn:Ed.
  - destruct (load_cases E h p b) as [(w & h2 & a & s2 & Eu & Hw & El & -> & R2 & N2 & I2 & F2)|(w & e & Eu & El)]; [congruence|..];
      rewrite E1 in El; injection El as -> ->; rewrite Eu in E2.
    + assert (Ev : v' = w /\ r' = Ok tt).
      { destruct v; try contradiction; destruct w; try (injection E2 as <- <-; now split); inversion Hw. }
      destruct Ev as [-> ->]. split; [|reflexivity]. assert (Ha : In a s) by (inversion H; subst; now left). split.
      * intros x Lx Hx. apply F2; [exact Lx|]. intros ->. contradiction.
      * exists s2. split; [split; assumption|]. intros x Hx. destruct (I2 x Hx) as [->|L]; [now left|]. right. now right.
    + injection E2 as <- <-. split; [apply Same; split; auto|reflexivity].
  - assert (v = VNil) by (destruct v; try contradiction; reflexivity). subst v. assert (Ep : p = None) by (inversion H; subst; [reflexivity|cbn [deref] in Ed; congruence]). subst p.
    unfold h_load in E1. destruct (unmarshal E b) as [[w [e|]]|e| |].
    + injection E1 as <- <-. injection E2 as <- <-. split; [apply Same; split; auto|reflexivity].
    + pose proof (build_fixed h w) as F. destruct (h_build h w) as [h1 q]. cbn [deref] in E1. injection E1 as <- <-.
      injection E2 as <- <-. split; [|reflexivity]. apply Same. destruct F as [(L & _ & F) _]. split; [exact L|]. intros x Lx. apply F; auto.
    + injection E1 as <- <-. injection E2 as <- <-. split; [apply Same; split; auto|reflexivity].
    + injection E1 as <- <-. injection E2 as <- <-. split; [apply Same; split; auto|reflexivity].
    + injection E1 as <- <-. injection E2 as <- <-. split; [apply Same; split; auto|reflexivity].
Qed.

(** *** What the holders of the receiver see *)
Lemma reads_reaches_all h :
  (forall p v s, reads h p v s -> forall x, In x s -> reaches h p (Some x)) /\
  (forall l vs s, reads_elems h l vs s -> forall x, In x s -> exists p, In p l /\ reaches h p (Some x)) /\
  (forall l vs s, reads_members h l vs s -> forall x, In x s -> exists p, In p (map (fun e => snd (snd e)) l) /\ reaches h p (Some x)).
Proof.
  apply reads_all_ind.
  - intros x [].
  - intros a c v Ea Hl x [<-|[]]. constructor.
  - intros a l vs s Ea Hr IH x [<-|Hx]; [constructor|]. destruct (IH x Hx) as (p & Hp & H).
    eapply reaches_next; [exact Ea|exact Hp|exact H].
  - intros a i kvs lo xs s Ea Hr IH x [<-|Hx]; [constructor|]. destruct (IH x Hx) as (p & Hp & H).
    eapply reaches_next; [exact Ea|exact Hp|exact H].
  - intros x [].
  - intros p v s l vs t H1 IH1 H2 IH2 x Hx. apply in_app_or in Hx. destruct Hx as [Hx|Hx].
    + exists p. split; [now left|auto].
    + destruct (IH2 x Hx) as (q & Hq & H). exists q. split; [now right|exact H].
  - intros x [].
  - intros k id p v s l vs t H1 IH1 H2 IH2 x Hx. apply in_app_or in Hx. destruct Hx as [Hx|Hx].
    + exists p. split; [now left|auto].
    + destruct (IH2 x Hx) as (q & Hq & H). exists q. split; [now right|exact H].
Qed.
Lemma reads_reaches h p v s x : reads h p v s -> In x s -> reaches h p (Some x).
Proof. intros H. now apply (proj1 (reads_reaches_all h) p v s). Qed.

Lemma shown_elems h l : (forall p, In p l -> exists t, shows h p t) -> exists vs s, reads_elems h l vs s.
Proof.
  induction l as [|p l IH]; intros H; [exists [], []; constructor|].
  destruct (H p (or_introl eq_refl)) as (t & s & Ht). destruct IH as (vs & s2 & Hr); [intros q Hq; apply H; now right|].
  exists (t :: vs), (s ++ s2). now constructor.
Qed.
Lemma shown_members h (l : list (bytes * (Z * ptr))) : (forall p, In p (map (fun e => snd (snd e)) l) -> exists t, shows h p t) ->
  exists vs s, reads_members h l vs s.
Proof.
  induction l as [|[k [id p]] l IH]; intros H; [exists [], []; constructor|].
  destruct (H p (or_introl eq_refl)) as (t & s & Ht). destruct IH as (vs & s2 & Hr); [intros q Hq; apply H; now right|].
  exists ((k, (id, t)) :: vs), (s ++ s2). now constructor.
Qed.
Lemma shown_cell h a c : nth_error h a = Some c -> (forall p, In p (pointers c) -> exists t, shows h p t) -> exists t, shows h (Some a) t.
Proof.
  intros Ea H. destruct c as [|x|n src|i kvs lo|l|b| |]; try (eexists; exists [a]; eapply reads_leaf; [exact Ea|reflexivity]).
  - destruct (shown_members _ _ H) as (vs & s & Hr). exists (VObj i vs lo), (a :: s). eapply reads_obj; eassumption.
  - destruct (shown_elems _ _ H) as (vs & s & Hr). exists (VArr vs), (a :: s). eapply reads_arr; eassumption.
Qed.

Lemma shows_somewhere h h' p w : shows h' p w -> (forall x, x < List.length h -> Some x <> p -> nth_error h' x = nth_error h x) ->
  forall n d t, height t < n -> shows h d t -> exists t', shows h' d t'.
Proof.
  intros Hw F. induction n as [|n IH]; intros d t L Hd; [lia|].
  destruct (ptr_eq_dec d p) as [->|Nd]; [eauto|]. destruct d as [a|]; [|exists VNil, []; constructor].
  assert (Ha : exists c, nth_error h a = Some c) by (destruct Hd as [s Hd]; inversion Hd; subst; eauto).
  destruct Ha as [c Ec].
  assert (La : a < List.length h) by (apply nth_error_Some; congruence).
  apply shown_cell with (c := c); [rewrite F by assumption; exact Ec|]. intros q Hq.
  destruct (shows_pointer h (Some a) t c q Hd Ec Hq) as (u & Hu & Lu). apply (IH q u); [lia|exact Hu].
Qed.

(** A way that does not pass the receiver. *)
Lemma walk_past h h' p : (forall x, x < List.length h -> Some x <> p -> nth_error h' x = nth_error h x) ->
  forall d ks q, walk h d ks q -> (forall is js, ks = is ++ js -> js <> [] -> ~ walk h d is p) -> walk h' d ks q.
Proof.
  intros F d ks q Hw. induction Hw as [|d k q ks r Hs Hw IH]; intros Hn; [constructor|].
  assert (Nd : d <> p). { intros ->. apply (Hn [] (k :: ks) eq_refl); [discriminate|constructor]. }
  econstructor.
  - destruct Hs as (c & E1 & E2). exists c. split; [|exact E2]. destruct d as [a|]; [|discriminate]. cbn [deref] in *.
    rewrite F; [exact E1| |exact Nd]. apply nth_error_Some. congruence.
  - apply IH. intros is0 js -> Nj Hi. apply (Hn (k :: is0) js eq_refl Nj). econstructor; eassumption.
Qed.

Lemma load_seen E h p b w d t : deref h p <> None -> unmarshal E b = Ok (w, None) -> shows h d t ->
  exists h' t', h_load E h p b = (h', Ok None) /\ shows h' d t' /\
    (forall ks, walk h d ks p -> sits t' ks w) /\
    (forall ks q u, walk h d ks q -> ~ reaches h q p -> (forall is js, ks = is ++ js -> ~ walk h d is p) ->
       shows h q u -> sits t' ks u).
Proof.
  intros Hp Eu Hd. destruct (load_cases E h p b Hp) as [(w0 & h' & a & s & Eu0 & Hw & El & -> & R2 & N2 & I2 & F2)|(w0 & e & Eu0 & _)];
    rewrite Eu in Eu0; [|discriminate]. injection Eu0 as <-.
  assert (F : forall x, x < List.length h -> Some x <> Some a -> nth_error h' x = nth_error h x).
  { intros x Lx Nx. apply F2; [exact Lx|congruence]. }
  destruct (shows_somewhere h h' (Some a) w (ex_intro _ s R2) F (S (height t)) d t (Nat.lt_succ_diag_r _) Hd) as [t' Ht'].
  exists h', t'. split; [exact El|]. split; [exact Ht'|].
  assert (See : forall ks q u, walk h d ks q -> (forall is js, ks = is ++ js -> js <> [] -> ~ walk h d is (Some a)) ->
    shows h' q u -> sits t' ks u).
  { intros ks q u Hk Hn Hu. pose proof (walk_past h h' (Some a) F d ks q Hk Hn) as Hk'.
    destruct (seen_at h' d t' ks q Ht' Hk') as (u' & Hu' & Hs). now rewrite (shows_one _ _ _ _ Hu Hu'). }
  split.
  - intros ks Hk. apply (See ks (Some a) w Hk); [|exists s; exact R2]. intros is0 js -> Nj Hi.
    apply walk_inv in Hk. destruct Hk as (q & H1 & H2). apply Nj.
    assert (q = Some a).
    { clear - H1 Hi. revert q H1. induction Hi as [|d k q0 is0 r Hs Hi IH]; intros q H1; inversion H1; subst; [reflexivity|].
      apply IH. destruct Hs as (c & E1 & E2). match goal with H : step _ _ _ _ |- _ => destruct H as (c' & E3 & E4) end.
      rewrite E1 in E3. injection E3 as <-. rewrite E2 in E4. injection E4 as <-. assumption. }
    subst q. exact (no_cycle h d t is0 (Some a) js Hd Hi H2).
  - intros ks q u Hk Hr Hn Hu. apply (See ks q u Hk); [intros; eapply Hn; eassumption|].
    destruct Hu as [su Hu]. exists su. apply (frame_reads h); [exact Hu|]. intros x Hx.
    apply F; [exact (reads_lt _ _ _ _ _ Hu Hx)|]. intros [= ->]. apply Hr. eapply reads_reaches; eassumption.
Qed.

(** Everything that does not lead to the receiver shows what it showed. *)
Lemma load_apart E h p b h' r q t : h_load E h p b = (h', r) -> ~ reaches h q p -> shows h q t -> shows h' q t.
Proof.
  intros El Hr [s Hs]. exists s. apply (frame_reads h); [exact Hs|]. intros x Hx. pose proof (reads_lt _ _ _ _ _ Hs Hx) as Lx.
  destruct (deref h p) as [c|] eqn:Ed.
  - destruct (load_cases E h p b) as [(w0 & h2 & a & s2 & _ & _ & El2 & -> & _ & _ & _ & F2)|(w0 & e & _ & El2)]; [congruence|..];
      rewrite El in El2; injection El2 as -> ->; [|reflexivity].
    apply F2; [exact Lx|]. intros ->. apply Hr. eapply reads_reaches; eassumption.
  - unfold h_load in El. destruct (unmarshal E b) as [[w [e|]]|e| |]; try (injection El as <- _; reflexivity).
    pose proof (build_fixed h w) as F. destruct (h_build h w) as [h1 y]. destruct F as [(L & _ & F) _]. cbn [fst] in L, F.
    destruct p as [a|]; cbn [deref] in *; [|injection El as <- _; apply F; auto].
    rewrite <- (F x Lx) by auto. destruct (nth_error h1 a) as [c0|]; [|now injection El as <- _].
    match type of El with match ?o with _ => _ end = _ => destruct o as [c|] end; [|now injection El as <- _].
    injection El as <- _. cbn [store]. apply nth_error_set_nth_other. intros ->.
    apply nth_error_None in Ed. lia.
Qed.
