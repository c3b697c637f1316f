(** Series of requests to an unshared document. *)
From Verif Require Import Base ListLemmas Utf8 Float64 Value Scan Unmarshal Opt Marshal Access Path Edit Iter Heap SpecHeap SpecShare HeapProof
  HeapCopy HeapGraph HeapTree HeapReload.
Local Open Scope nat_scope.

Section WithEnv.
Context (E : Env) (W : World).

Lemma became_turned h h1 p s t v1 : became h h1 p s t v1 -> turned h h1 p s t v1.
Proof.
  intros (_ & O & s1 & R & N & F). split; [exact O|]. exists s1. split; [split; assumption|]. rewrite Forall_forall in F. exact F.
Qed.

Lemma share_set h p v s c w t first others : unshared h p v s -> unshared h c w t -> (forall a, In a s -> ~ In a t) ->
  forall h' r v' r', h_set E h p c first others = (h', r) -> set_at E v (arg_v w) first others = (v', r') ->
  turned h h' p s t v' /\ same_result (fun q x => q = c /\ x = w) r r'.
Proof.
  intros [H N] [Hc Nc] D h' r v' r' E1 E2. unfold h_set in E1. unfold set_at in E2. cbn [snd fst arg_v] in E2.
  pose proof (set_ref E (S (psum (first :: others))) h p v s c w t first others H N Hc Nc D) as Q. rewrite E1, E2 in Q.
  destruct Q as (L & O & Q).
  assert (Z : agree (fun _ _ => False) r r' /\ v' = v /\ kept h h' /\ (forall cv2, uninitialized cv2 = uninitialized w ->
             set_f E (S (psum (first :: others))) v cv2 first others = (v, r')) ->
             turned h h' p s t v' /\ same_result (fun q x => q = c /\ x = w) r r').
  { intros (A1 & -> & A3 & _). split; [|destruct r, r'; try contradiction; auto]. split; [exact O|].
    exists s. split; [split; [exact (kept_frame _ _ _ _ _ A3 H)|exact N]|auto]. }
  destruct r as [q|e| |], r' as [x|e'| |]; try exact (Z Q).
  destruct Q as (-> & -> & s1 & A1 & A2 & A3 & _). split; [|split; reflexivity].
  apply became_turned. split; [exact L|]. split; [exact O|]. eauto.
Qed.

Lemma share_insert h p v s c w t (after : bool) first others : unshared h p v s -> unshared h c w t -> (forall a, In a s -> ~ In a t) ->
  forall h' r v' r', h_insert E W after h p c first others = (h', r) ->
  (if after then insert_after E W v (arg_v w) first others else insert_before E W v (arg_v w) first others) = (v', r') ->
  turned h h' p s t v' /\ same_result (fun q x => q = c /\ x = w) r r'.
Proof.
  intros [H N] [Hc Nc] D h' r v' r' E1 E2. unfold h_insert in E1.
  pose proof (insert_ref E W (S (psum (first :: others))) after h p v s c w t first others H N Hc Nc D) as Q. rewrite E1 in Q.
  unfold insert_after, insert_before in E2. cbn [snd fst arg_v] in E2.
  replace (insert_f E W (S (psum (first :: others))) after v w first others) with (v', r') in Q by (symmetry; destruct after; exact E2).
  destruct Q as [Q1 Q2]. split; [now apply became_turned|exact Q2].
Qed.

Lemma share_append h p v s c w t (front : bool) params : unshared h p v s -> unshared h c w t -> (forall a, In a s -> ~ In a t) ->
  forall h' r v' r', h_append E W front h p c params = (h', r) ->
  (if front then append_beginning E W v (arg_v w) params else append_end E W v (arg_v w) params) = (v', r') ->
  turned h h' p s t v' /\ same_result (fun q x => q = c /\ x = w) r r'.
Proof.
  intros [H N] [Hc Nc] D h' r v' r' E1 E2.
  pose proof (append_ref E W front h p v s c w t params H N Hc Nc D) as Q. rewrite E1 in Q.
  unfold append_beginning, append_end in E2.
  replace (append_at E W front v (arg_v w) params) with (v', r') in Q by (symmetry; destruct front; exact E2).
  destruct Q as [Q1 Q2]. split; [now apply became_turned|exact Q2].
Qed.

Lemma share_delete h p v s caseless first others : unshared h p v s ->
  forall h' r v' r', h_delete E W caseless h p first others = (h', r) -> delete_at E W caseless v first others = (v', r') ->
  turned h h' p s [] v' /\ same_result eq r r'.
Proof.
  intros [H N] h' r v' r' E1 E2. unfold h_delete in E1. unfold delete_at in E2.
  pose proof (delete_ref E W (S (psum (first :: others))) caseless h p v s first others H N) as Q. rewrite E1, E2 in Q.
  destruct Q as [Q1 Q2]. split; [now apply became_turned|]. destruct r as [[]|e| |], r' as [[]|e'| |]; try contradiction; auto. reflexivity.
Qed.

Lemma share_get h p v s caseless first others : unshared h p v s ->
  forall h' r v' r', h_get E W caseless h p first others = (h', r) -> get E W caseless v first others = (v', r') ->
  turned h h' p s [] v' /\ same_result (shows h') r r'.
Proof.
  intros [H N] h' r v' r' E1 E2. unfold get in E2.
  pose proof (get_ref E W caseless h p v s first others H N) as Q. rewrite E1 in Q.
  destruct (locate E W caseless v first others) as [v1 o]. destruct Q as (L & O & s1 & R1 & N1 & I1 & A1).
  injection E2 as <- <-. split; [apply became_turned; now apply became_got with (s1 := s1)|].
  destruct r as [q|e| |], o as [hs|e'| |]; cbn [agree rbind] in *; try contradiction; auto.
  destruct A1 as (u & t & S1 & R2 & _). rewrite S1. exists t. exact R2.
Qed.

Lemma new_unshared h w : let '(h1, c) := h_build h w in
  kept h h1 /\ exists t, unshared h1 c w t /\ forall a, In a t -> List.length h <= a.
Proof.
  pose proof (build_shows h w) as B. pose proof (build_fixed h w) as F. destruct (h_build h w) as [h1 c].
  destruct B as (t & R & N & B). split.
  - destruct F as [(L & _ & F) _]. split; [exact L|]. intros a La. apply F; [exact La|auto].
  - exists t. split; [split; assumption|]. rewrite Forall_forall in B. intros a Ha. destruct (B a Ha). assumption.
Qed.
Lemma unshared_kept h h1 p v s : kept h h1 -> unshared h p v s -> unshared h1 p v s.
Proof. intros K [H N]. split; [exact (kept_frame _ _ _ _ _ K H)|exact N]. Qed.
Lemma shows_old h h2 p s t v2 c w : turned h h2 p s t v2 -> unshared h c w t -> (forall a, In a s -> ~ In a t) -> shows h2 c w.
Proof.
  intros (O & _) [H _] D. exists t. apply (frame_reads h); [exact H|]. intros a Ha. apply O; [exact (reads_lt _ _ _ _ _ H Ha)|].
  intros C. exact (D a C Ha).
Qed.

Lemma ask_answer h p v s q : unshared h p v s -> forall h1 r v1 w, ask E W h p q = (h1, r) -> answer E W v q = (v1, w) ->
  (exists s1, unshared h1 p v1 s1) /\ same_result (shows h1) r w.
Proof.
  intros U h1 r v1 w A1 A2.
  assert (New : forall w0 k, with_new E W h w0 k = (h1, r) -> exists h0 c t, kept h h0 /\ unshared h0 p v s /\ unshared h0 c w0 t /\
     (forall a, In a s -> ~ In a t) /\ perform E W h0 (k c) = (h1, r)).
  { intros w0 k Hk. unfold with_new in Hk. pose proof (new_unshared h w0) as Nu. destruct (h_build h w0) as [h0 c].
    destruct Nu as (K & t & Ut & Ht). exists h0, c, t. split; [exact K|]. split; [exact (unshared_kept _ _ _ _ _ K U)|]. split; [exact Ut|].
    split; [|exact Hk]. intros a Ha Ha2. pose proof (reads_lt _ _ _ _ _ (proj1 U) Ha). specialize (Ht _ Ha2). lia. }
  assert (Fin : forall h0 c w0 t, unshared h0 c w0 t -> (forall a, In a s -> ~ In a t) -> turned h0 h1 p s t v1 /\ same_result (fun q x => q = c /\ x = w0) r w ->
     (exists s1, unshared h1 p v1 s1) /\ same_result (shows h1) r w).
  { intros h0 c w0 t Ut D (T & Sr). split; [destruct T as (_ & s1 & U1 & _); eauto|].
    destruct r as [x|e| |], w as [y|e'| |]; cbn [same_result] in *; auto. destruct Sr as [-> ->].
    exact (shows_old _ _ _ _ _ _ _ _ T Ut D). }
  destruct q as [cl first others|w0 first others|af w0 first others|fr w0 params|cl first others|less|b]; cbn [ask answer] in A1, A2.
  - cbn [perform] in A1. destruct (share_get _ _ _ _ cl first others U _ _ _ _ A1 A2) as ((_ & s1 & U1 & _) & Sr). split; eauto.
  - destruct (New _ _ A1) as (h0 & c & t & K & U0 & Ut & D & P). cbn [perform] in P.
    apply (Fin h0 c w0 t Ut D). exact (share_set _ _ _ _ _ _ _ _ _ U0 Ut D _ _ _ _ P A2).
  - destruct (New _ _ A1) as (h0 & c & t & K & U0 & Ut & D & P). cbn [perform] in P.
    apply (Fin h0 c w0 t Ut D). refine (share_insert _ _ _ _ _ _ _ af _ _ U0 Ut D _ _ _ _ P _). destruct af; exact A2.
  - destruct (New _ _ A1) as (h0 & c & t & K & U0 & Ut & D & P). cbn [perform] in P.
    apply (Fin h0 c w0 t Ut D). refine (share_append _ _ _ _ _ _ _ fr _ U0 Ut D _ _ _ _ P _). destruct fr; exact A2.
  - cbn [perform] in A1. destruct (h_delete E W cl h p first others) as [h' o] eqn:E1. destruct (delete_at E W cl v first others) as [v' o'] eqn:E2.
    injection A1 as <- <-. injection A2 as <- <-.
    destruct (share_delete _ _ _ _ cl first others U _ _ _ _ E1 E2) as ((_ & s1 & U1 & _) & Sr). split; [eauto|].
    destruct o, o'; cbn [same_result rbind] in *; auto. exists []. constructor.
  - cbn [perform] in A1. destruct less as [g|]; cbn [option_map] in A1.
    + pose proof (share_sort W h p v s (by_sight g) g U) as Q. rewrite A1 in Q.
      specialize (Q (fun x y vx vy Hx Hy => f_equal2 g (view_shows _ _ _ Hx) (view_shows _ _ _ Hy)) _ _ eq_refl).
      destruct (sort_array W v (Some g)) as [v'|e| |]; injection A2 as <- <-.
      * destruct Q as (-> & _ & s1 & U1 & _). split; [eauto|]. exists []. constructor.
      * destruct Q as (-> & Q). split; [eauto|]. destruct r; try contradiction; exact Q.
      * destruct Q as (-> & Q). split; [eauto|]. destruct r; try contradiction; exact Q.
      * destruct Q as (-> & Q). split; [eauto|]. destruct r; try contradiction; exact Q.
    + cbn in A1, A2. injection A1 as <- <-. injection A2 as <- <-. split; [eauto|]. exists []. constructor.
  - cbn [perform] in A1. destruct (unmarshal_json E v b) as [v' o'] eqn:E2. injection A2 as <- <-.
    destruct (share_load E _ _ _ _ b U _ _ _ _ A1 E2) as ((_ & s1 & U1 & _) & Sr). split; [eauto|].
    destruct r as [q|e| |], o' as [x|e'| |]; cbn [same_result rbind] in *; try contradiction; auto. subst q. exists []. constructor.
Qed.

Lemma tells_answers qs : forall h p v s, unshared h p v s ->
  exists h2, tells E W p h qs (snd (answers E W v qs)) h2 /\ exists s2, unshared h2 p (fst (answers E W v qs)) s2.
Proof.
  induction qs as [|q qs IH]; intros h p v s U; cbn [answers].
  - exists h. split; [constructor|eauto].
  - destruct (ask E W h p q) as [h1 r] eqn:A1. destruct (answer E W v q) as [v1 w] eqn:A2.
    destruct (ask_answer _ _ _ _ _ U _ _ _ _ A1 A2) as ((s1 & U1) & Sr).
    destruct (IH _ _ _ _ U1) as (h2 & T & U2). destruct (answers E W v1 qs) as [v2 ws]. cbn [fst snd] in *.
    exists h2. split; [|exact U2]. now apply tells_next with (r := r) (h1 := h1).
Qed.

Lemma same_shown h r w w' : same_result (shows h) r w -> same_result (shows h) r w' -> w = w'.
Proof.
  destruct r as [p|e| |], w as [a|e1| |], w' as [b|e2| |]; cbn; try contradiction; try congruence.
  intros [s1 H1] [s2 H2]. destruct (reads_one _ _ _ _ _ _ H1 H2) as [-> _]. reflexivity.
Qed.
Lemma tells_one qs : forall h p ws h2 ws' h2', tells E W p h qs ws h2 -> tells E W p h qs ws' h2' -> ws = ws' /\ h2 = h2'.
Proof.
  induction qs as [|q qs IH]; intros h p ws h2 ws' h2' T1 T2; inversion T1; inversion T2; subst; [auto|].
  match goal with A : ask _ _ _ _ _ = _, B : ask _ _ _ _ _ = _ |- _ => rewrite A in B; injection B as <- <- end.
  match goal with A : tells _ _ _ _ _ _ _, B : tells _ _ _ _ _ _ _ |- _ => destruct (IH _ _ _ _ _ _ A B) as [<- <-] end.
  split; [|reflexivity]. f_equal. eapply same_shown; eassumption.
Qed.

Lemma contents_decide h p h' p' v s s' qs ws ws' h2 h2' : unshared h p v s -> unshared h' p' v s' ->
  tells E W p h qs ws h2 -> tells E W p' h' qs ws' h2' ->
  ws = ws' /\ exists v2, shows h2 p v2 /\ shows h2' p' v2.
Proof.
  intros U U' T T'. destruct (tells_answers qs _ _ _ _ U) as (h3 & T3 & s3 & U3). destruct (tells_answers qs _ _ _ _ U') as (h4 & T4 & s4 & U4).
  destruct (tells_one _ _ _ _ _ _ _ T T3) as [-> ->]. destruct (tells_one _ _ _ _ _ _ _ T' T4) as [-> ->].
  split; [reflexivity|]. exists (fst (answers E W v qs)). split; [exists s3|exists s4]; [apply U3|apply U4].
Qed.

End WithEnv.
