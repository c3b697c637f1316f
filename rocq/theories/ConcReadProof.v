(** Concurrent reading. *)
From Verif Require Import Base Utf8 Float64 Value Scan Opt Path ConcRead SpecConcRead ListLemmas ValueLemmas RangeEditProof HistoryClaims.

Lemma Forall_set_nth {A} (P : A -> Prop) l : forall n x, Forall P l -> P x -> Forall P (set_nth n x l).
Proof. induction l as [|y l IH]; intros [|n] x H Hx; cbn [set_nth]; inversion H; subst; auto. Qed.
Lemma nth_app_end {A} (l : list A) i d : (i < List.length l -> nth i (l ++ [d]) d = nth i l d)%nat /\ nth (List.length l) (l ++ [d]) d = d.
Proof. split; [intros H; now rewrite app_nth1|]. now rewrite nth_middle. Qed.
Lemma nth_app_default {A} (l : list A) i d : nth i (l ++ [d]) d = nth i l d.
Proof.
  destruct (Nat.lt_ge_cases i (List.length l)) as [H|H]; [now rewrite app_nth1|].
  rewrite app_nth2 by exact H. rewrite (nth_overflow l) by exact H. destruct (i - List.length l)%nat as [|[|n]]; reflexivity.
Qed.
Lemma akeys_In {A} k c (l : list (bytes * A)) : In (k, c) l -> In k (akeys l).
Proof. intros H. apply (in_map fst) in H. exact H. Qed.
Lemma remove_key_In k e l : In e (remove_key k l) <-> e <> k /\ In e l.
Proof. unfold remove_key. rewrite filter_In. destruct (beqb_spec k e) as [->|H]; cbn [negb]; intuition congruence. Qed.
Lemma pick_In (n : nat) (e : bytes) r : In (nth (n mod List.length (e :: r)) (e :: r) []) (e :: r).
Proof. apply nth_In. apply Nat.mod_upper_bound. discriminate. Qed.

Section Conc.
Variables (E : Env) (d : tree).

(** *** Answers *)
Definition sound (a : answer) : Prop :=
  match snd a with
  | Some c => fits E d a c
  | None => let '(o, k, _, _) := a in ~ In k (akeys (members_of d o))
  end.

Lemma sound_sensitive a : sound a -> caseless_answer a = false -> right E d a.
Proof.
  destruct a as [[[o k] cl] [c|]]; unfold sound, right, fits, caseless_answer; cbn [snd]; [auto|].
  intros H -> c [H'|[H' _]]; [|discriminate]. apply H. now apply akeys_In in H'.
Qed.

(** *** Any interleaving *)
Record index_ok (ms : list (bytes * nat)) (x : index) (tags : list bytes) : Prop := {
  ix_len : List.length tags = List.length (x_inner x);
  ix_field : forall m, x_field x = Some m -> (m < List.length (x_maps x))%nat;
  ix_inner : forall i k, In k (nth i (x_inner x) []) -> In k (akeys ms) /\ to_lower E k = nth i tags [];
  ix_map : forall m lk i, alookup lk (nth m (x_maps x) []) = Some i -> (i < List.length tags)%nat /\ nth i tags [] = lk;
}.

Definition pc_ok (ms : list (bytes * nat)) (k : bytes) (tags : list bytes) (p : pc) : Prop :=
  let key k' todo := In k' (akeys ms) /\ incl todo (akeys ms) in
  let tagged i k' := (i < List.length tags)%nat /\ nth i tags [] = to_lower E k' in
  match p with
  | AtStart | AtCheck | AtMake | AtFind | AtSeek _ => True
  | AtLoop todo => incl todo (akeys ms)
  | AtNil k' todo | AtLoad k' todo | AtHave _ k' todo => key k' todo
  | AtMiss i k' todo | AtPut _ i k' todo | AtAdd i k' todo => key k' todo /\ tagged i k'
  | AtRange i _ => tagged i k
  end.

Definition thread_ok (tags : nat -> list bytes) (t : thread) : Prop :=
  Forall sound (t_log t) /\
  match t_prog t with
  | Done => True
  | Look o k cl _ =>
    (t_pc t <> AtStart -> cl = true /\ ~ In k (akeys (members_of d o))) /\ pc_ok (members_of d o) k (tags o) (t_pc t)
  end.

Definition grown (tags tags' : nat -> list bytes) : Prop := forall o, exists e, tags' o = tags o ++ e.
Lemma grown_tag tags tags' o i lk : grown tags tags' -> (i < List.length (tags o))%nat /\ nth i (tags o) [] = lk ->
  (i < List.length (tags' o))%nat /\ nth i (tags' o) [] = lk.
Proof. intros H [Hi Ht]. destruct (H o) as [e ->]. rewrite app_length, app_nth1 by exact Hi. split; [lia|exact Ht]. Qed.
Lemma thread_grown tags tags' t : grown tags tags' -> thread_ok tags t -> thread_ok tags' t.
Proof.
  intros Hg [Hl Ht]. split; [exact Hl|]. destruct (t_prog t) as [|o k cl next]; [exact I|]. destruct Ht as [H1 H2]. split; [exact H1|].
  destruct (t_pc t); cbn [pc_ok] in *; auto; try (destruct H2 as [H2 H3]; split; [exact H2|]); eapply grown_tag; eassumption.
Qed.
Lemma grown_refl tags : grown tags tags.
Proof. intros o. exists []. now rewrite app_nil_r. Qed.

Definition all_ok (s : store) (tags : nat -> list bytes) : Prop := forall o, index_ok (members_of d o) (s o) (tags o).

Lemma all_ok_set s tags o x tg : all_ok s tags -> index_ok (members_of d o) x tg ->
  all_ok (set_index s o x) (fun o' => if (o' =? o)%nat then tg else tags o').
Proof. intros H Hx o'. unfold set_index. destruct (Nat.eqb_spec o' o) as [->|]; [exact Hx|apply H]. Qed.
Lemma grown_set tags o e : grown tags (fun o' => if (o' =? o)%nat then tags o ++ e else tags o').
Proof. intros o'. destruct (Nat.eqb_spec o' o) as [->|]; [now exists e|]. exists []. now rewrite app_nil_r. Qed.

Lemma lookup_names {A} k (ms : list (bytes * A)) : alookup k ms = None -> ~ In k (akeys ms).
Proof. apply alookup_None. Qed.

Lemma step_ok n s t s' t' tags : all_ok s tags -> thread_ok tags t -> step E d n s t = Some (s', t') ->
  exists tags', grown tags tags' /\ all_ok s' tags' /\ thread_ok tags' t'.
Proof.
  intros Hs [Hl Ht] Hst. unfold step in Hst. destruct (t_prog t) as [|o k cl next] eqn:Ep; [discriminate|].
  destruct Ht as [Hcl Hpc]. set (ms := members_of d o) in *. pose proof (Hs o) as Hx. fold ms in Hx.
  assert (Reply : forall r, sound (o, k, cl, r) -> thread_ok tags (Thread (next r) AtStart ((o, k, cl, r) :: t_log t))).
  { intros r Hr. split; cbn [t_log t_prog t_pc]; [now constructor|]. destruct (next r); [exact I|]. split; [congruence|exact I]. }
  assert (Same : forall t1, thread_ok tags t1 -> Some (s, t1) = Some (s', t') ->
            exists tags', grown tags tags' /\ all_ok s' tags' /\ thread_ok tags' t').
  { intros t1 H1 [= <- <-]. exists tags. split; [apply grown_refl|]. auto. }
  assert (Go : forall tg p, cl = true /\ ~ In k (akeys ms) -> pc_ok ms k (tg o) p ->
             thread_ok tg (Thread (Look o k cl next) p (t_log t))).
  { intros tg p H1 H2. split; cbn [t_log t_prog t_pc]; auto. }
  assert (Write : forall x e p, index_ok ms x (tags o ++ e) -> cl = true /\ ~ In k (akeys ms) ->
             pc_ok ms k (tags o ++ e) p -> Some (set_index s o x, Thread (Look o k cl next) p (t_log t)) = Some (s', t') ->
            exists tags', grown tags tags' /\ all_ok s' tags' /\ thread_ok tags' t').
  { intros x e p Hx1 H1 H2 [= <- <-]. eexists. split; [apply (grown_set tags o e)|]. split; [now apply all_ok_set|].
    apply Go; [exact H1|]. now rewrite Nat.eqb_refl. }
  destruct (t_pc t) as [ | | |todo|k' todo|k' todo|m k' todo|i k' todo|m i k' todo|i k' todo| |m|i seen] eqn:Epc; cbn [pc_ok] in Hpc;
    try specialize (Hcl ltac:(congruence)).
  - destruct (alookup k ms) as [c|] eqn:Ek.
    + refine (Same _ (Reply (Some c) _) Hst). left. now apply alookup_In.
    + apply lookup_names in Ek. destruct cl; [|exact (Same _ (Reply None Ek) Hst)].
      refine (Same _ (Go tags _ _ _) Hst); [split; [reflexivity|exact Ek]|exact I].
  - refine (Same _ (Go tags _ Hcl _) Hst). now destruct (x_field (s o)).
  - refine (Write _ [] _ _ Hcl _ Hst); rewrite app_nil_r; [|now cbn].
    destruct Hx as [a b c e]. constructor; cbn [x_field x_maps x_inner]; auto.
    + intros m [= <-]. rewrite app_length. cbn. lia.
    + intros m lk i Hi. rewrite nth_app_default in Hi. now apply (e m).
  - destruct todo as [|e r]; [exact (Same _ (Go tags AtFind Hcl I) Hst)|].
    refine (Same _ (Go tags _ Hcl _) Hst). cbn [pc_ok]. split; [apply Hpc, pick_In|]. intros z Hz. apply remove_key_In in Hz. now apply Hpc.
  - refine (Same _ (Go tags _ Hcl _) Hst). destruct (x_field (s o)); cbn [pc_ok]; [exact Hpc|apply Hpc].
  - destruct (x_field (s o)); [|discriminate]. refine (Same _ (Go tags _ Hcl _) Hst). exact Hpc.
  - destruct (alookup (to_lower E k') (nth m (x_maps (s o)) [])) as [i|] eqn:Ei.
    + refine (Same _ (Go tags _ Hcl _) Hst). cbn [pc_ok]. split; [exact Hpc|]. now apply (ix_map _ _ _ Hx m).
    + refine (Write _ [to_lower E k'] _ _ Hcl _ Hst).
      * destruct Hx as [a b c e]. constructor; cbn [x_field x_maps x_inner]; auto.
        -- rewrite !app_length, a. reflexivity.
        -- intros i z Hz. rewrite nth_app_default in Hz.
           assert (i < List.length (tags o))%nat as Hi.
           { destruct (Nat.lt_ge_cases i (List.length (tags o))) as [G|G]; [exact G|]. rewrite nth_overflow in Hz by lia. contradiction. }
           destruct (c i z Hz) as [H1 H2]. split; [exact H1|]. now rewrite app_nth1.
        -- intros m0 lk i Hi. destruct (e m0 lk i Hi) as [H1 H2]. rewrite app_length, app_nth1 by exact H1. split; [lia|exact H2].
      * cbn [pc_ok]. split; [exact Hpc|]. rewrite <- (ix_len _ _ _ Hx), app_length, nth_middle. split; [cbn; lia|reflexivity].
  - destruct (x_field (s o)); [|discriminate]. refine (Same _ (Go tags _ Hcl _) Hst). exact Hpc.
  - refine (Write _ [] _ _ Hcl _ Hst); rewrite app_nil_r; [|exact Hpc].
    destruct Hx as [a b c e]. constructor; cbn [x_field x_maps x_inner]; auto.
    + intros m0 Hm0. rewrite len_set_nth. auto.
    + intros m0 lk j Hj. destruct (Nat.eq_dec m m0) as [<-|Hne].
      * destruct (Nat.lt_ge_cases m (List.length (x_maps (s o)))) as [G|G].
        -- rewrite nth_set_nth_eq in Hj by exact G. destruct (bytes_dec lk (to_lower E k')) as [->|Hlk].
           ++ rewrite alookup_aset_same in Hj. injection Hj as <-. exact (proj2 Hpc).
           ++ rewrite alookup_aset_other in Hj by congruence. now apply (e m).
        -- rewrite nth_overflow in Hj by (rewrite len_set_nth; exact G). discriminate.
      * rewrite nth_set_nth_ne in Hj by congruence. now apply (e m0).
  - refine (Write _ [] _ _ Hcl _ Hst); rewrite app_nil_r; [|exact (proj2 (proj1 Hpc))].
    destruct Hx as [a b c e]. constructor; cbn [x_field x_maps x_inner]; auto.
    + now rewrite len_set_nth.
    + intros j z Hz. destruct (Nat.eq_dec i j) as [<-|Hne].
      * rewrite nth_set_nth_eq in Hz by (rewrite <- a; apply Hpc). apply In_sadd in Hz as [->|Hz]; [|now apply c].
        split; [exact (proj1 (proj1 Hpc))|]. symmetry. exact (proj2 (proj2 Hpc)).
      * rewrite nth_set_nth_ne in Hz by congruence. now apply c.
  - destruct (x_field (s o)); [|discriminate]. refine (Same _ (Go tags _ Hcl _) Hst). exact I.
  - destruct (alookup (to_lower E k) (nth m (x_maps (s o)) [])) as [i|] eqn:Ei.
    + refine (Same _ (Go tags _ Hcl _) Hst). cbn [pc_ok]. now apply (ix_map _ _ _ Hx m).
    + refine (Same _ (Reply None _) Hst). exact (proj2 Hcl).
  - destruct (filter _ _) as [|e r] eqn:Ef.
    + refine (Same _ (Reply None _) Hst). exact (proj2 Hcl).
    + pose proof (pick_In n e r) as Hp. set (k' := nth _ (e :: r) []) in *. rewrite <- Ef in Hp. apply filter_In in Hp.
      destruct (ix_inner _ _ _ Hx i k' (proj1 Hp)) as [Hk Htag].
      destruct (alookup k' ms) as [c|] eqn:Ek; [|apply lookup_names in Ek; contradiction].
      refine (Same _ (Reply (Some c) _) Hst). right. destruct Hcl as [Hc1 Hc2]. split; [exact Hc1|]. split; [exact Hc2|]. exists k'. split; [now apply alookup_In|].
      rewrite Htag. apply Hpc.
Qed.

Definition state_ok (st : store * list thread) : Prop :=
  exists tags, all_ok (fst st) tags /\ Forall (thread_ok tags) (snd st).

Lemma turn_ok st c st' : state_ok st -> turn E d st c = Some st' -> state_ok st'.
Proof.
  intros (tags & Hs & Ht) H. unfold turn in H. destruct (nth_error (snd st) (fst c)) as [t|] eqn:En; [|discriminate].
  destruct (step E d (snd c) (fst st) t) as [[s' t']|] eqn:Es; [|discriminate]. injection H as <-.
  assert (Hti : thread_ok tags t) by (rewrite Forall_forall in Ht; apply Ht; eapply nth_error_In; exact En).
  destruct (step_ok _ _ _ _ _ _ Hs Hti Es) as (tags' & Hg & Hs' & Ht'). exists tags'. split; [exact Hs'|].
  apply Forall_set_nth; [|exact Ht']. eapply Forall_impl; [|exact Ht]. intros a Ha. now apply (thread_grown tags).
Qed.
Lemma play_ok : forall sched st st', state_ok st -> play E d sched st = Some st' -> state_ok st'.
Proof.
  induction sched as [|c r IH]; intros st st' H Hp; cbn [play] in Hp; [now injection Hp as <-|].
  destruct (turn E d st c) as [st1|] eqn:Et; [|discriminate]. apply (IH st1); [now apply (turn_ok st c)|exact Hp].
Qed.

(** *** Where the index is built *)
Lemma lower_lookup (inner : list (list bytes)) lk (l : list (bytes * nat)) :
  alookup lk (map (fun e : bytes * nat => (fst e, nth (snd e) inner [])) l) =
  match alookup lk l with Some i => Some (nth i inner []) | None => None end.
Proof. induction l as [|[z i] l IH]; cbn [map alookup fst snd]; [reflexivity|]. now destruct (beqb _ _). Qed.
Lemma built_index s o : built E d s o -> exists m, x_field (s o) = Some m /\
  (forall k, In k (akeys (members_of d o)) -> exists i, alookup (to_lower E k) (nth m (x_maps (s o)) []) = Some i /\ In k (nth i (x_inner (s o)) [])) /\
  (forall lk i k, alookup lk (nth m (x_maps (s o)) []) = Some i -> In k (nth i (x_inner (s o)) []) -> In k (akeys (members_of d o)) /\ to_lower E k = lk).
Proof.
  intros (mm & Hl & H1 & H2). unfold lower_of in Hl. destruct (x_field (s o)) as [m|]; [|discriminate]. injection Hl as <-. exists m.
  assert (HL := fun lk => lower_lookup (x_inner (s o)) lk (nth m (x_maps (s o)) [])).
  split; [reflexivity|]. split.
  - intros k Hk. destruct (H1 k Hk) as (ks & Ha & Hin). rewrite HL in Ha.
    destruct (alookup (to_lower E k) (nth m (x_maps (s o)) [])) as [i|]; [|discriminate]. injection Ha as <-. eauto.
  - intros lk i k Ha Hin. apply (H2 lk (nth i (x_inner (s o)) [])); [rewrite HL, Ha; reflexivity|exact Hin].
Qed.
Lemma index_built s o m tags : index_ok (members_of d o) (s o) tags -> x_field (s o) = Some m ->
  (forall k, In k (akeys (members_of d o)) -> exists i, alookup (to_lower E k) (nth m (x_maps (s o)) []) = Some i /\ In k (nth i (x_inner (s o)) [])) ->
  built E d s o.
Proof.
  intros Hx Hf H1. unfold built, lower_of. rewrite Hf. eexists. split; [reflexivity|].
  assert (HL := fun lk => lower_lookup (x_inner (s o)) lk (nth m (x_maps (s o)) [])).
  split.
  - intros k Hk. destruct (H1 k Hk) as (i & Ha & Hin). exists (nth i (x_inner (s o)) []). rewrite HL, Ha. auto.
  - intros lk ks k Ha Hin. rewrite HL in Ha. destruct (alookup lk (nth m (x_maps (s o)) [])) as [i|] eqn:Ei; [|discriminate]. injection Ha as <-.
    destruct (ix_inner _ _ _ Hx i k Hin) as [G1 G2]. split; [exact G1|]. rewrite G2. now apply (ix_map _ _ _ Hx m).
Qed.

Definition calm (C : nat -> Prop) (s : store) (t : thread) : Prop :=
  Forall (right E d) (t_log t) /\ looks_within C (t_prog t) /\
  match t_prog t with
  | Done => True
  | Look o k cl _ =>
    match t_pc t with
    | AtStart => True
    | AtCheck | AtFind => cl = true /\ ~ In k (akeys (members_of d o))
    | AtSeek m => cl = true /\ ~ In k (akeys (members_of d o)) /\ x_field (s o) = Some m
    | AtRange i seen => cl = true /\ ~ In k (akeys (members_of d o)) /\ seen = [] /\
        exists m, x_field (s o) = Some m /\ alookup (to_lower E k) (nth m (x_maps (s o)) []) = Some i
    | _ => False
    end
  end.

Lemma step_calm (C : nat -> Prop) s n t s' t' : (forall o, C o -> built E d s o) -> calm C s t -> step E d n s t = Some (s', t') -> s' = s /\ calm C s t'.
Proof.
  intros HC (Hl & Hw & Ht) Hst. unfold step in Hst. destruct (t_prog t) as [|o k cl next] eqn:Ep; [discriminate|].
  cbn [looks_within] in Hw. destruct Hw as [Hw1 Hw2]. set (ms := members_of d o) in *.
  assert (Reply : forall r, right E d (o, k, cl, r) -> Some (s, Thread (next r) AtStart ((o, k, cl, r) :: t_log t)) = Some (s', t') -> s' = s /\ calm C s t').
  { intros r Hr [= <- <-]. split; [reflexivity|]. split; cbn [t_log t_prog t_pc]; [now constructor|]. split; [apply Hw2|]. now destruct (next r). }
  assert (Go : forall p, calm C s (Thread (Look o k cl next) p (t_log t)) -> Some (s, Thread (Look o k cl next) p (t_log t)) = Some (s', t') -> s' = s /\ calm C s t').
  { intros p Hp [= <- <-]. auto. }
  destruct (t_pc t) as [ | | |todo|k' todo|k' todo|m k' todo|i k' todo|m i k' todo|i k' todo| |m|i seen] eqn:Epc; try contradiction.
  - destruct (alookup k ms) as [c|] eqn:Ek.
    + apply (Reply (Some c)); [|exact Hst]. left. now apply alookup_In.
    + apply lookup_names in Ek. destruct cl.
      * apply (Go AtCheck); [|exact Hst]. split; [exact Hl|]. cbn [t_prog looks_within t_pc]. auto.
      * apply (Reply None); [|exact Hst]. intros c [H|[H _]]; [|discriminate]. apply Ek. now apply akeys_In in H.
  - destruct (built_index s o (HC o (Hw1 (proj1 Ht)))) as (m & Hf & _). rewrite Hf in Hst. apply (Go AtFind); [|exact Hst].
    split; [exact Hl|]. cbn [t_prog looks_within t_pc]. auto.
  - destruct (built_index s o (HC o (Hw1 (proj1 Ht)))) as (m & Hf & _). rewrite Hf in Hst. apply (Go (AtSeek m)); [|exact Hst].
    split; [exact Hl|]. cbn [t_prog looks_within t_pc]. tauto.
  - destruct Ht as (Hcl & Hk & Hf). destruct (built_index s o (HC o (Hw1 Hcl))) as (m' & Hf' & Hall & Hback).
    rewrite Hf in Hf'. injection Hf' as <-.
    destruct (alookup (to_lower E k) (nth m (x_maps (s o)) [])) as [i|] eqn:Ei.
    + apply (Go (AtRange i [])); [|exact Hst]. split; [exact Hl|]. cbn [t_prog looks_within t_pc]. split; [auto|]. repeat (split; [auto|]). exists m. auto.
    + apply (Reply None); [|exact Hst]. intros c [H|(_ & _ & k' & Hin & Hlow)].
      * apply Hk. now apply akeys_In in H.
      * destruct (Hall k') as (i & Hi & _); [now apply akeys_In in Hin|]. rewrite Hlow in Hi. congruence.
  - destruct Ht as (Hcl & Hk & -> & m & Hf & Hi). destruct (built_index s o (HC o (Hw1 Hcl))) as (m' & Hf' & Hall & Hback).
    rewrite Hf in Hf'. injection Hf' as <-. destruct (filter _ _) as [|e r] eqn:Ef.
    + apply (Reply None); [|exact Hst]. intros c [H|(_ & _ & k' & Hin & Hlow)].
      * apply Hk. now apply akeys_In in H.
      * destruct (Hall k') as (i' & Hi' & Hin'); [now apply akeys_In in Hin|]. rewrite Hlow, Hi in Hi'. injection Hi' as <-.
        assert (In k' []) as []. rewrite <- Ef. apply filter_In. auto.
    + pose proof (pick_In n e r) as Hp. set (k' := nth _ (e :: r) []) in *. rewrite <- Ef in Hp. apply filter_In in Hp.
      destruct (Hback _ _ _ Hi (proj1 Hp)) as [Hk' Hlow]. fold ms in Hk'.
      destruct (alookup k' ms) as [c|] eqn:Ek; [|apply lookup_names in Ek; contradiction].
      apply (Reply (Some c)); [|exact Hst]. right. split; [exact Hcl|]. split; [exact Hk|]. exists k'. split; [now apply alookup_In|exact Hlow].
Qed.

Lemma play_calm (C : nat -> Prop) : forall sched s l st', (forall o, C o -> built E d s o) -> Forall (calm C s) l -> play E d sched (s, l) = Some st' ->
  fst st' = s /\ Forall (calm C s) (snd st').
Proof.
  induction sched as [|c r IH]; intros s l st' HC Hl Hp; cbn [play] in Hp; [now injection Hp as <-|].
  unfold turn in Hp. cbn [fst snd] in Hp. destruct (nth_error l (fst c)) as [t|] eqn:En; [|discriminate].
  destruct (step E d (snd c) s t) as [[s1 t1]|] eqn:Es; [|discriminate].
  destruct (step_calm C s (snd c) t s1 t1 HC) as [-> Ht1]; [|exact Es|].
  { rewrite Forall_forall in Hl. apply Hl. eapply nth_error_In; exact En. }
  apply (IH s (set_nth (fst c) t1 l) st' HC); [|exact Hp]. now apply Forall_set_nth.
Qed.

Lemma calm_reads C s t p w : calm C s t -> touches t = Some (p, w) -> w = false.
Proof.
  intros (_ & _ & Ht) H. unfold touches in H. destruct (t_prog t) as [|o k cl next]; [discriminate|].
  destruct (t_pc t); try contradiction; congruence.
Qed.

(** *** One reader alone builds the index *)
Definition has (x : index) (k : bytes) : Prop :=
  exists m i, x_field x = Some m /\ alookup (to_lower E k) (nth m (x_maps x) []) = Some i /\ In k (nth i (x_inner x) []).

Definition complete (s : store) (o : nat) : Prop :=
  (exists m, x_field (s o) = Some m) /\ forall e, In e (akeys (members_of d o)) -> has (s o) e.
Definition quiet (s : store) (o : nat) : Prop := s o = index0 \/ complete s o.

Definition alone (s : store) (t : thread) : Prop :=
  Forall (right E d) (t_log t) /\
  (forall o k r, In (o, k, true, r) (t_log t) -> ~ In k (akeys (members_of d o)) -> complete s o) /\
  match t_prog t with
  | Done => forall o, quiet s o
  | Look o k cl next =>
    let ms := members_of d o in let x := s o in
    let rest todo := forall e, In e (akeys ms) -> In e todo \/ has x e in
    (forall o', o' <> o -> quiet s o') /\
    match t_pc t with
    | AtStart | AtCheck => quiet s o
    | AtMake => x = index0
    | AtLoop todo => (exists m, x_field x = Some m) /\ rest todo
    | AtNil e todo | AtLoad e todo => (exists m, x_field x = Some m) /\ rest (e :: todo)
    | AtHave m e todo => x_field x = Some m /\ rest (e :: todo)
    | AtMiss i e todo => (exists m, x_field x = Some m /\ alookup (to_lower E e) (nth m (x_maps x) []) = None) /\ rest (e :: todo)
    | AtPut m i e todo => x_field x = Some m /\ alookup (to_lower E e) (nth m (x_maps x) []) = None /\ rest (e :: todo)
    | AtAdd i e todo => (exists m, x_field x = Some m /\ alookup (to_lower E e) (nth m (x_maps x) []) = Some i) /\ rest (e :: todo)
    | AtFind => complete s o
    | AtSeek m => x_field x = Some m /\ complete s o
    | AtRange i seen => seen = [] /\ (exists m, x_field x = Some m /\ alookup (to_lower E k) (nth m (x_maps x) []) = Some i) /\ complete s o
    end
  end.

Lemma has_same x x' e : x_field x = x_field x' -> (forall m, nth m (x_maps x) [] = nth m (x_maps x') []) ->
  (forall i z, In z (nth i (x_inner x) []) -> In z (nth i (x_inner x') [])) -> has x e -> has x' e.
Proof. intros H1 H2 H3 (m & i & Hf & Ha & Hi). exists m, i. rewrite <- H1, <- H2. auto. Qed.

Lemma set_index_same s o x : set_index s o x o = x.
Proof. unfold set_index. now rewrite Nat.eqb_refl. Qed.

Lemma set_index_other s o x o' : o' <> o -> set_index s o x o' = s o'.
Proof. intros H. unfold set_index. destruct (Nat.eqb_spec o' o); [contradiction|reflexivity]. Qed.

Lemma step_alone n s t s' t' tags : all_ok s tags -> thread_ok tags t ->
  alone s t -> step E d n s t = Some (s', t') -> alone s' t'.
Proof.
  intros Hs Hto (Hlog & Hdone & Ha) Hst. unfold step in Hst. unfold thread_ok in Hto. destruct Hto as [_ Hto].
  destruct (t_prog t) as [|o k cl next] eqn:Ep; [discriminate|].
  destruct Ha as (Hoth & Ha). destruct Hto as [Hcl Hpc]. pose proof (Hs o) as Hx. set (ms := members_of d o) in *.
  assert (Reply : forall r, right E d (o, k, cl, r) -> quiet s o -> (cl = true -> ~ In k (akeys ms) -> complete s o) ->
            Some (s, Thread (next r) AtStart ((o, k, cl, r) :: t_log t)) = Some (s', t') -> alone s' t').
  { intros r Hr Hq Hc [= <- <-]. assert (Hall : forall o', quiet s o') by (intros o'; destruct (Nat.eq_dec o' o) as [->|]; auto).
    split; cbn [t_log t_prog t_pc]; [now constructor|]. split.
    - intros o1 k1 r1 [H|H] Hn; [injection H as -> -> -> ->; now apply Hc|]. exact (Hdone o1 k1 r1 H Hn).
    - destruct (next r); [exact Hall|]. split; auto. }
  assert (Go : forall p, (let rest todo := forall e, In e (akeys ms) -> In e todo \/ has (s o) e in
      match p with
      | AtStart | AtCheck => quiet s o
      | AtMake => s o = index0
      | AtLoop todo => (exists m, x_field (s o) = Some m) /\ rest todo
      | AtNil e todo | AtLoad e todo => (exists m, x_field (s o) = Some m) /\ rest (e :: todo)
      | AtHave m e todo => x_field (s o) = Some m /\ rest (e :: todo)
      | AtMiss i e todo => (exists m, x_field (s o) = Some m /\ alookup (to_lower E e) (nth m (x_maps (s o)) []) = None) /\ rest (e :: todo)
      | AtPut m i e todo => x_field (s o) = Some m /\ alookup (to_lower E e) (nth m (x_maps (s o)) []) = None /\ rest (e :: todo)
      | AtAdd i e todo => (exists m, x_field (s o) = Some m /\ alookup (to_lower E e) (nth m (x_maps (s o)) []) = Some i) /\ rest (e :: todo)
      | AtFind => complete s o
      | AtSeek m => x_field (s o) = Some m /\ complete s o
      | AtRange i seen => seen = [] /\ (exists m, x_field (s o) = Some m /\ alookup (to_lower E k) (nth m (x_maps (s o)) []) = Some i) /\ complete s o
      end) -> Some (s, Thread (Look o k cl next) p (t_log t)) = Some (s', t') -> alone s' t').
  { intros p Hp [= <- <-]. split; [exact Hlog|]. split; [exact Hdone|]. cbn [t_prog t_pc]. split; [exact Hoth|exact Hp]. }
  assert (Write : forall x p, (complete s o -> complete (set_index s o x) o) -> (let rest todo := forall e, In e (akeys ms) -> In e todo \/ has x e in
      match p with
      | AtLoop todo => (exists m, x_field x = Some m) /\ rest todo
      | AtMiss i e todo => (exists m, x_field x = Some m /\ alookup (to_lower E e) (nth m (x_maps x) []) = None) /\ rest (e :: todo)
      | AtAdd i e todo => (exists m, x_field x = Some m /\ alookup (to_lower E e) (nth m (x_maps x) []) = Some i) /\ rest (e :: todo)
      | _ => False
      end) -> Some (set_index s o x, Thread (Look o k cl next) p (t_log t)) = Some (s', t') -> alone s' t').
  { intros x p Hkeep Hp [= <- <-]. split; [exact Hlog|].
    assert (Hsame : forall o', o' <> o -> complete s o' -> complete (set_index s o x) o').
    { intros o' Hne H. unfold complete. rewrite set_index_other by exact Hne. exact H. }
    split.
    - intros o1 k1 r1 Hin Hn. specialize (Hdone o1 k1 r1 Hin Hn). cbn [t_log] in *. destruct (Nat.eq_dec o1 o) as [->|Hne]; auto.
    - cbn [t_prog t_pc]. split.
      + intros o' Hne. destruct (Hoth o' Hne) as [H|H]; [left; now rewrite set_index_other|right; auto].
      + rewrite set_index_same. destruct p; try contradiction; exact Hp. }
  assert (Hkeep : forall x, (forall e, has (s o) e -> has x e) -> x_field x = x_field (s o) -> complete s o -> complete (set_index s o x) o).
  { intros x H Hf [H1 H2]. unfold complete. rewrite set_index_same. rewrite Hf. auto. }
  destruct (t_pc t) as [ | | |todo|e todo|e todo|m e todo|i e todo|m i e todo|i e todo| |m|i seen] eqn:Epc; cbn [pc_ok] in Hpc;
    try specialize (Hcl ltac:(congruence)).
  - destruct (alookup k ms) as [c|] eqn:Ek.
    + apply (Reply (Some c)); auto; [left; now apply alookup_In|]. intros _ Hn. exfalso. apply Hn. now apply alookup_Some_key in Ek.
    + apply lookup_names in Ek. destruct cl.
      * apply (Go AtCheck); auto.
      * apply (Reply None); auto; [|discriminate]. intros c [H|[H _]]; [|discriminate]. apply Ek. now apply akeys_In in H.
  - destruct Ha as [Ha|Ha].
    + rewrite Ha in Hst. apply (Go AtMake); auto.
    + destruct (proj1 Ha) as [m Hm]. rewrite Hm in Hst. apply (Go AtFind); auto.
  - apply Write in Hst; auto.
    + intros [[m Hm] _]. rewrite Ha in Hm. discriminate.
    + split; [eexists; reflexivity|]. intros e He. left. exact He.
  - destruct todo as [|e r].
    + apply (Go AtFind); auto. destruct Ha as [Hf Hr]. split; [exact Hf|]. intros e He. now destruct (Hr e He) as [[]|].
    + set (e' := nth (n mod List.length (e :: r)) (e :: r) []) in *. apply Go in Hst; auto.
      destruct Ha as [Hf Hr]. split; [exact Hf|]. intros z Hz.
      destruct (Hr z Hz) as [H|H]; [|now right]. left. destruct (bytes_dec z e') as [->|Hne]; [now left|]. right. apply remove_key_In. auto.
  - destruct Ha as [[m Hf] Hr]. rewrite Hf in Hst. apply Go in Hst; eauto.
  - destruct Ha as [[m Hf] Hr]. rewrite Hf in Hst. apply Go in Hst; eauto.
  - destruct Ha as [Hf Hr]. destruct (alookup (to_lower E e) (nth m (x_maps (s o)) [])) as [i|] eqn:Ei.
    + apply Go in Hst; eauto.
    + assert (Hmore : forall z, has (s o) z -> has (Index (x_field (s o)) (x_maps (s o)) (x_inner (s o) ++ [[]])) z).
      { intros z. apply has_same; auto. intros j w Hw. cbn [x_inner]. now rewrite nth_app_default. }
      apply Write in Hst; auto. cbn [x_field x_maps]. split; [eauto|]. intros z Hz. destruct (Hr z Hz) as [H|H]; [now left|right; auto].
  - destruct Ha as [[m [Hf Hm]] Hr]. rewrite Hf in Hst. apply Go in Hst; eauto.
  - destruct Ha as (Hf & Hm & Hr). pose proof (ix_field _ _ _ Hx m Hf) as Hlt.
    assert (Hmore : forall z, has (s o) z ->
       has (Index (x_field (s o)) (set_nth m (aset (to_lower E e) i (nth m (x_maps (s o)) [])) (x_maps (s o))) (x_inner (s o))) z).
    { intros z (m' & j & H1 & H2 & H3). rewrite Hf in H1. injection H1 as <-.
      exists m, j. cbn [x_field x_maps x_inner]. split; [exact Hf|]. rewrite nth_set_nth_eq by exact Hlt. split; [|exact H3].
      rewrite alookup_aset_other; [exact H2|]. intros Heq. first [rewrite Heq in Hm|rewrite <- Heq in Hm]; congruence. }
    apply Write in Hst; auto. cbn [x_field x_maps].
    split; [exists m; split; [exact Hf|]; rewrite nth_set_nth_eq by exact Hlt; apply alookup_aset_same|].
    intros z Hz. destruct (Hr z Hz) as [H|H]; [now left|right; auto].
  - destruct Ha as [[m [Hf Hm]] Hr].
    assert (Hi : (i < List.length (x_inner (s o)))%nat) by (rewrite <- (ix_len _ _ _ Hx); apply Hpc).
    assert (Hmore : forall z, has (s o) z ->
       has (Index (x_field (s o)) (x_maps (s o)) (set_nth i (sadd e (nth i (x_inner (s o)) [])) (x_inner (s o)))) z).
    { intros z. apply has_same; auto.
      intros j w Hw. cbn [x_inner]. destruct (Nat.eq_dec i j) as [<-|Hne]; [rewrite nth_set_nth_eq by exact Hi; apply In_sadd; auto|now rewrite nth_set_nth_ne]. }
    apply Write in Hst; auto. cbn [x_field x_maps]. split; [eauto|].
    intros z Hz. destruct (Hr z Hz) as [[<-|H]|H]; [right|now left|right; auto].
    exists m, i. cbn [x_field x_maps x_inner]. split; [exact Hf|]. split; [exact Hm|]. rewrite nth_set_nth_eq by exact Hi. apply In_sadd. auto.
  - destruct (proj1 Ha) as [m Hf]. rewrite Hf in Hst. apply Go in Hst; auto.
  - destruct Ha as [Hf Hc]. destruct Hcl as [-> Hk].
    destruct (alookup (to_lower E k) (nth m (x_maps (s o)) [])) as [i|] eqn:Ei.
    + apply Go in Hst; eauto.
    + apply Reply in Hst; auto; [|now right]. intros c [H|(_ & _ & k' & Hin & Hlow)].
      * apply Hk. now apply akeys_In in H.
      * destruct (proj2 Hc k') as (m' & i & H1 & H2 & _); [now apply akeys_In in Hin|]. rewrite Hlow in H2. congruence.
  - destruct Ha as (-> & (m & Hf & Hm) & Hc). destruct Hcl as [-> Hk].
    destruct (filter _ _) as [|e r] eqn:Ef.
    + apply Reply in Hst; auto; [|now right]. intros c [H|(_ & _ & k' & Hin & Hlow)].
      * apply Hk. now apply akeys_In in H.
      * destruct (proj2 Hc k') as (m' & i' & H1 & H2 & H3); [now apply akeys_In in Hin|]. rewrite Hlow in H2.
        rewrite Hf in H1. injection H1 as <-. rewrite Hm in H2. injection H2 as <-.
        assert (In k' []) as []. rewrite <- Ef. apply filter_In. auto.
    + pose proof (pick_In n e r) as Hp. set (k' := nth _ (e :: r) []) in *. rewrite <- Ef in Hp. apply filter_In in Hp.
      destruct (ix_inner _ _ _ Hx i k' (proj1 Hp)) as [Hk' Htag]. fold ms in Hk'.
      destruct (alookup k' ms) as [c|] eqn:Ek; [|apply lookup_names in Ek; contradiction].
      apply Reply in Hst; auto; [|now right]. right. split; [reflexivity|]. split; [exact Hk|]. exists k'. split; [now apply alookup_In|].
      rewrite Htag. apply Hpc.
Qed.

Lemma play_alone : forall sched s t st' tags, all_ok s tags -> thread_ok tags t -> alone s t ->
  play E d sched (s, [t]) = Some st' -> exists s' t' tags', st' = (s', [t']) /\ all_ok s' tags' /\ alone s' t'.
Proof.
  induction sched as [|[[|j] n] r IH]; intros s t st' tags Hs Ht Ha Hp; cbn [play] in Hp.
  - injection Hp as <-. exists s, t, tags. auto.
  - unfold turn in Hp. cbn [fst snd nth_error] in Hp. destruct (step E d n s t) as [[s1 t1]|] eqn:Es; [|discriminate].
    destruct (step_ok _ _ _ _ _ _ Hs Ht Es) as (tags1 & _ & Hs1 & Ht1).
    apply (IH s1 t1 st' tags1 Hs1 Ht1 (step_alone _ _ _ _ _ _ Hs Ht Ha Es) Hp).
  - unfold turn in Hp. cbn [fst snd nth_error] in Hp. destruct j; discriminate.
Qed.
Lemma complete_built s o tags : all_ok s tags -> complete s o -> built E d s o.
Proof.
  intros Hs [[m Hm] H]. apply (index_built s o m (tags o)); [apply Hs|exact Hm|]. intros k Hk. destruct (H k Hk) as (m' & i & H1 & H2 & H3).
  rewrite Hm in H1. injection H1 as <-. eauto.
Qed.
End Conc.

(** *** The claims *)
Lemma fresh_ok E d s : fresh s -> all_ok E d s (fun _ => []).
Proof. intros H o. rewrite H. constructor; cbn; auto; [discriminate| |]; intros [|i]; cbn; try contradiction; discriminate. Qed.
Lemma starts_ok E d tags p : thread_ok E d tags (starts p).
Proof. split; [constructor|]. cbn. destruct p; [exact I|]. split; [congruence|exact I]. Qed.

Lemma reading_sound E d s ps sched s' l : fresh s -> play E d sched (s, map starts ps) = Some (s', l) ->
  Forall (fun t => Forall (fun a =>
    (forall c, snd a = Some c -> fits E d a c) /\
    (forall o k cl, a = (o, k, cl, None) -> ~ In k (map fst (members_of d o))) /\
    (caseless_answer a = false -> right E d a)) (t_log t)) l.
Proof.
  intros Hf Hp. destruct (play_ok E d sched (s, map starts ps) (s', l)) as (tags & _ & H); [|exact Hp|].
  { exists (fun _ => []). split; [now apply fresh_ok|]. apply Forall_forall. intros t Ht. cbn in Ht. apply in_map_iff in Ht as (p & <- & _). apply starts_ok. }
  cbn [snd] in H. eapply Forall_impl; [|exact H]. intros t [Ht _]. eapply Forall_impl; [|exact Ht]. intros a Ha. split; [|split].
  - intros c Hc. unfold sound in Ha. now rewrite Hc in Ha.
  - intros o k cl ->. exact Ha.
  - now apply sound_sensitive.
Qed.

Lemma reading_built E d s ps (C : nat -> Prop) sched s' l : (forall o, C o -> built E d s o) -> Forall (looks_within C) ps ->
  play E d sched (s, map starts ps) = Some (s', l) ->
  s' = s /\ Forall (fun t => Forall (right E d) (t_log t)) l /\ ~ racing l.
Proof.
  intros HC Hw Hp. destruct (play_calm E d C sched s (map starts ps) (s', l) HC) as [H1 H2]; [|exact Hp|].
  { apply Forall_forall. intros t Ht. apply in_map_iff in Ht as (p & <- & Hin). rewrite Forall_forall in Hw. split; [constructor|]. split; [now apply Hw|]. cbn. now destruct p. }
  cbn [fst snd] in *. split; [exact H1|]. split; [eapply Forall_impl; [|exact H2]; intros t Ht; apply Ht|].
  intros (i & j & t & u & p & w & w' & _ & Hi & Hj & Ht & Hu & Hor). rewrite Forall_forall in H2.
  apply nth_error_In, H2 in Hi. apply nth_error_In, H2 in Hj.
  apply (calm_reads E d C s) in Ht; [|exact Hi]. apply (calm_reads E d C s) in Hu; [|exact Hj]. destruct Hor; congruence.
Qed.

Lemma reading_alone E d s p sched s' l : fresh s -> play E d sched (s, [starts p]) = Some (s', l) ->
  exists t, l = [t] /\ Forall (right E d) (t_log t) /\
  forall o k r, In (o, k, true, r) (t_log t) -> ~ In k (map fst (members_of d o)) -> built E d s' o.
Proof.
  intros Hf Hp.
  destruct (play_alone E d sched s (starts p) (s', l) (fun _ => [])) as (s1 & t1 & tags & Heq & Hok & Ha);
    [now apply fresh_ok|apply starts_ok| |exact Hp|].
  { split; [constructor|]. split; [intros o k r []|]. cbn. assert (forall o, quiet E d s o) by (intros o; left; apply Hf). destruct p; auto. }
  injection Heq as -> ->. exists t1. split; [reflexivity|]. destruct Ha as (H1 & H2 & _). split; [exact H1|].
  intros o k r Hin Hn. apply (complete_built E d s1 o tags Hok). exact (H2 o k r Hin Hn).
Qed.

Lemma reading_warmed E d s p sched s1 t ps sched2 s2 l : fresh s -> play E d sched (s, [starts p]) = Some (s1, [t]) ->
  Forall (looks_within (warmed d t)) ps -> play E d sched2 (s1, map starts ps) = Some (s2, l) ->
  Forall (right E d) (t_log t) /\ s2 = s1 /\ Forall (fun u => Forall (right E d) (t_log u)) l /\ ~ racing l.
Proof.
  intros Hf Hp Hw Hp2. destruct (reading_alone E d s p sched s1 [t] Hf Hp) as (t' & Heq & Hr & Hb). injection Heq as <-.
  split; [exact Hr|]. apply (reading_built E d s1 ps (warmed d t) sched2); [|exact Hw|exact Hp2]. intros o (k & r & Hin & Hn). exact (Hb o k r Hin Hn).
Qed.

(** *** What a step touches *)
Lemma step_writes E d n s t s' t' p : step E d n s t = Some (s', t') -> ~ same_at s s' p -> touches t = Some (p, true).
Proof.
  intros Hst Hd. unfold step in Hst. unfold touches. destruct (t_prog t) as [|o k cl next]; [discriminate|].
  assert (Hno : s' = s -> False) by (intros ->; apply Hd; destruct p; reflexivity).
  assert (W : forall x, s' = set_index s o x -> (match p with PField o' | PMap o' _ | PInner o' _ => o' end) = o).
  { intros x ->. destruct p as [o'|o' m|o' i]; cbn [same_at] in Hd; destruct (Nat.eq_dec o' o) as [->|Hne]; auto;
      exfalso; apply Hd; now rewrite set_index_other. }
  destruct (t_pc t) as [ | | |todo|e todo|e todo|m e todo|i e todo|m i e todo|i e todo| |m|i seen].
  - destruct (alookup k _); [|destruct cl]; injection Hst as Hst _; congruence.
  - injection Hst as Hst _; congruence.
  - injection Hst as Hst _. specialize (W _ (eq_sym Hst)). subst s'. destruct p as [o'|o' m|o' i]; subst o'; cbn [same_at] in Hd; rewrite set_index_same in Hd; cbn [x_maps x_inner] in Hd.
    + reflexivity.
    + exfalso. apply Hd. now rewrite nth_app_default.
    + now exfalso.
  - destruct todo; injection Hst as Hst _; congruence.
  - injection Hst as Hst _; congruence.
  - destruct (x_field (s o)); [|discriminate]. injection Hst as Hst _; congruence.
  - destruct (alookup _ _); injection Hst as Hst _; [congruence|]. specialize (W _ (eq_sym Hst)). subst s'.
    destruct p as [o'|o' m'|o' i]; subst o'; cbn [same_at] in Hd; rewrite set_index_same in Hd; cbn [x_field x_maps x_inner] in Hd; exfalso; apply Hd; auto.
    now rewrite nth_app_default.
  - destruct (x_field (s o)); [|discriminate]. injection Hst as Hst _; congruence.
  - injection Hst as Hst _. specialize (W _ (eq_sym Hst)). subst s'.
    destruct p as [o'|o' m'|o' j]; subst o'; cbn [same_at] in Hd; rewrite set_index_same in Hd; cbn [x_field x_maps x_inner] in Hd; try now exfalso.
    destruct (Nat.eq_dec m m') as [->|Hne]; [reflexivity|]. exfalso. apply Hd. now rewrite nth_set_nth_ne.
  - injection Hst as Hst _. specialize (W _ (eq_sym Hst)). subst s'.
    destruct p as [o'|o' m'|o' j]; subst o'; cbn [same_at] in Hd; rewrite set_index_same in Hd; cbn [x_field x_maps x_inner] in Hd; try now exfalso.
    destruct (Nat.eq_dec i j) as [->|Hne]; [reflexivity|]. exfalso. apply Hd. now rewrite nth_set_nth_ne.
  - destruct (x_field (s o)); [|discriminate]. injection Hst as Hst _; congruence.
  - destruct (alookup _ _); injection Hst as Hst _; congruence.
  - destruct (filter _ _); [injection Hst as Hst _; congruence|]. destruct (alookup _ _); injection Hst as Hst _; congruence.
Qed.

Lemma step_reads E d n s s2 t : as_many s s2 -> (forall p w, touches t = Some (p, w) -> same_at s s2 p) ->
  match step E d n s t, step E d n s2 t with
  | Some (s', t'), Some (s2', t2') => t' = t2' /\ (forall p, touches t = Some (p, true) -> same_at s' s2' p) /\ as_many s' s2'
  | None, None => True
  | _, _ => False
  end.
Proof.
  intros Hm Hs. unfold step, touches in *. destruct (t_prog t) as [|o k cl next]; [exact I|]. destruct (Hm o) as [Hm1 Hm2].
  assert (A : forall x y, List.length (x_maps x) = List.length (x_maps y) -> List.length (x_inner x) = List.length (x_inner y) ->
             as_many (set_index s o x) (set_index s2 o y)).
  { intros x y H1 H2 o'. unfold set_index. destruct (o' =? o)%nat; auto. }
  destruct (t_pc t) as [ | | |todo|e todo|e todo|m e todo|i e todo|m i e todo|i e todo| |m|i seen];
    try (specialize (Hs _ _ eq_refl); cbn [same_at] in Hs); try rewrite <- Hs.
  - destruct (alookup k _); [|destruct cl]; split; auto; split; auto; discriminate.
  - split; auto; split; auto; discriminate.
  - rewrite Hm1. split; [reflexivity|]. split.
    + intros p [= <-]. cbn [same_at]. now rewrite !set_index_same.
    + apply A; cbn [x_maps x_inner]; [rewrite !app_length; now rewrite Hm1|exact Hm2].
  - destruct todo; split; auto; split; auto; discriminate.
  - split; auto; split; auto; discriminate.
  - destruct (x_field (s o)); [|exact I]. split; auto; split; auto; discriminate.
  - destruct (alookup _ _); [split; auto; split; auto; discriminate|]. rewrite Hm2. split; [reflexivity|]. split; [discriminate|].
    apply A; cbn [x_maps x_inner]; [exact Hm1|rewrite !app_length; now rewrite Hm2].
  - destruct (x_field (s o)); [|exact I]. split; auto; split; auto; discriminate.
  - split; [reflexivity|]. split.
    + intros p [= <-]. cbn [same_at]. rewrite !set_index_same. cbn [x_maps].
      destruct (Nat.lt_ge_cases m (List.length (x_maps (s o)))) as [G|G].
      * rewrite !nth_set_nth_eq; [reflexivity|congruence|exact G].
      * rewrite !nth_overflow; rewrite ?len_set_nth; [reflexivity|lia|lia].
    + apply A; cbn [x_maps x_inner]; rewrite ?len_set_nth; auto.
  - split; [reflexivity|]. split.
    + intros p [= <-]. cbn [same_at]. rewrite !set_index_same. cbn [x_inner].
      destruct (Nat.lt_ge_cases i (List.length (x_inner (s o)))) as [G|G].
      * rewrite !nth_set_nth_eq; [reflexivity|congruence|exact G].
      * rewrite !nth_overflow; rewrite ?len_set_nth; [reflexivity|lia|lia].
    + apply A; cbn [x_maps x_inner]; rewrite ?len_set_nth; auto.
  - destruct (x_field (s o)); [|exact I]. split; auto; split; auto; discriminate.
  - destruct (alookup _ _); split; auto; split; auto; discriminate.
  - destruct (filter _ _); [split; auto; split; auto; discriminate|]. destruct (alookup _ _); split; auto; split; auto; discriminate.
Qed.
