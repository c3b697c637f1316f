(** C75: calls on two documents that are Equal. *)
From Verif Require Import Base Utf8 Float64 Value Scan Unmarshal Opt Marshal Access Path Edit Iter Compare Contain ListLemmas ValueLemmas
  SpecJson SpecValue SpecNum SpecSafe SpecTwin CompareProof CompareClaims PartsProof SortProof ContainProof SpecContain SpecPath.
From Verif Require EditClaims ExampleWorld.
From Coq Require Import QArith.
Open Scope Z_scope.

(** *** A relation that is easy to keep *)
Notation NEQ := (fun s t => number_equal s t = true).
Inductive alike : V -> V -> Prop :=
| AL_null : alike VNull VNull
| AL_bool b : alike (VBool b) (VBool b)
| AL_str s : alike (VStr s) (VStr s)
| AL_num n s m t : number_equal s t = true -> alike (VNum n s) (VNum m t)
| AL_arr l l' : Forall2 alike l l' -> alike (VArr l) (VArr l')
| AL_obj i kvs lo i' kvs' lo' :
    NoDup (akeys kvs) -> NoDup (akeys kvs') ->
    (forall k id x, alookup k kvs = Some (id, x) -> exists id' y, alookup k kvs' = Some (id', y) /\ alike x y) ->
    (forall k, alookup k kvs = None -> alookup k kvs' = None) ->
    alike (VObj i kvs lo) (VObj i' kvs' lo').

Inductive orel : option (Z * V) -> option (Z * V) -> Prop :=
| OR_none : orel None None
| OR_some id x id' y : alike x y -> orel (Some (id, x)) (Some (id', y)).
Definition mrel (kvs kvs' : list (bytes * (Z * V))) : Prop :=
  NoDup (akeys kvs) /\ NoDup (akeys kvs') /\ forall k, orel (alookup k kvs) (alookup k kvs').

Lemma alike_obj i kvs lo w : alike (VObj i kvs lo) w <-> exists i' kvs' lo', w = VObj i' kvs' lo' /\ mrel kvs kvs'.
Proof.
  split.
  - intros H. inversion H as [| | | | |? ? ? i' kvs' lo' N N' K K0]; subst. exists i', kvs', lo'. split; [reflexivity|].
    repeat split; try assumption. intros k. destruct (alookup k kvs) as [[id x]|] eqn:E1.
    + destruct (K _ _ _ E1) as (id' & y & -> & Ha). now constructor.
    + rewrite (K0 _ E1). constructor.
  - intros (i' & kvs' & lo' & -> & N & N' & K). constructor; try assumption.
    + intros k id x E1. specialize (K k). rewrite E1 in K. inversion K; subst. eauto.
    + intros k E1. specialize (K k). rewrite E1 in K. now inversion K.
Qed.

Lemma alike_mk i kvs lo i' kvs' lo' : mrel kvs kvs' -> alike (VObj i kvs lo) (VObj i' kvs' lo').
Proof. intros H. apply alike_obj. now exists i', kvs', lo'. Qed.

Lemma alike_twins v : forall w, alike v w <-> json_typed v /\ json_typed w /\ same_value NEQ v w.
Proof.
  induction v as [|s|n src|i kvs lo IH|l IH|b| | |] using V_ind'; intros w;
    try (split; [intros H; inversion H; subst; repeat split; try exact I; now constructor|
                 intros (Hv & Hw & H); inversion H; subst; try contradiction; now constructor]).
  - rewrite alike_obj. split.
    + intros (i' & kvs' & lo' & -> & N & N' & K). rewrite Forall_forall in IH.
      assert (A : forall k id x, In (k, (id, x)) kvs -> exists id' y, In (k, (id', y)) kvs' /\ alike x y).
      { intros k id x Hx. specialize (K k). rewrite (alookup_NoDup_In _ _ _ N Hx) in K. inversion K as [|? ? ? ? Ha E1 E2]; subst.
        symmetry in E2. eauto using alookup_In. }
      assert (B : forall k id' y, In (k, (id', y)) kvs' -> exists id x, In (k, (id, x)) kvs /\ alike x y).
      { intros k id' y Hy. specialize (K k). rewrite (alookup_NoDup_In _ _ _ N' Hy) in K. inversion K as [|? ? ? ? Ha E1 E2]; subst.
        symmetry in E1. eauto using alookup_In. }
      split; [|split].
      * apply json_typed_obj. split; [exact N|]. apply Forall_forall. intros [k [id x]] Hx. destruct (A _ _ _ Hx) as (id' & y & Hy & Ha).
        now apply (IH _ Hx y).
      * apply json_typed_obj. split; [exact N'|]. apply Forall_forall. intros [k [id' y]] Hy. destruct (B _ _ _ Hy) as (id & x & Hx & Ha).
        now apply (IH _ Hx y).
      * constructor.
        -- intros k. split; intros Hk; apply in_map_iff in Hk as ([k' [id x]] & <- & Hx); cbn [fst].
           ++ destruct (A _ _ _ Hx) as (id' & y & Hy & _). apply in_map_iff. now exists (k', (id', y)).
           ++ destruct (B _ _ _ Hx) as (id' & y & Hy & _). apply in_map_iff. now exists (k', (id', y)).
        -- intros k id x id' y Hx Hy. specialize (K k). rewrite (alookup_NoDup_In _ _ _ N Hx), (alookup_NoDup_In _ _ _ N' Hy) in K.
           inversion K; subst. now apply (IH _ Hx y).
    + intros (Hv & Hw & H). inversion H as [| | | | |? ? ? i' kvs' lo' K S]; subst. exists i', kvs', lo'. split; [reflexivity|].
      apply json_typed_obj in Hv as (N & Hv). apply json_typed_obj in Hw as (N' & Hw). rewrite Forall_forall in *.
      split; [exact N|]. split; [exact N'|]. intros k. destruct (alookup k kvs) as [[id x]|] eqn:E1.
      * pose proof (alookup_In _ _ _ E1) as Hx. destruct (alookup k kvs') as [[id' y]|] eqn:E2.
        -- pose proof (alookup_In _ _ _ E2) as Hy. constructor. apply (IH _ Hx). repeat split; [apply (Hv _ Hx)|apply (Hw _ Hy)|]. eapply S; eassumption.
        -- exfalso. apply alookup_None in E2. apply E2. apply K. eapply alookup_Some_key; exact E1.
      * destruct (alookup k kvs') as [[id' y]|] eqn:E2; [|constructor]. exfalso. apply alookup_None in E1. apply E1. apply K. eapply alookup_Some_key; exact E2.
  - split.
    + intros H. inversion H as [| | | |? l' F|]; subst. rewrite !json_typed_arr.
      assert (G : Forall json_typed l /\ Forall json_typed l' /\ Forall2 (same_value NEQ) l l').
      { clear H. revert l' F. induction IH as [|x r Hx _ IHr]; intros l' F; inversion F as [|? y ? r' Ha Hr]; subst; [repeat constructor|].
        apply Hx in Ha as (A & B & C). destruct (IHr _ Hr) as (A' & B' & C'). repeat split; constructor; assumption. }
      destruct G as (A & B & C). repeat split; [assumption|assumption|now constructor].
    + intros (Hv & Hw & H). inversion H as [| | | |? l' F|]; subst. constructor. rewrite json_typed_arr in Hv, Hw.
      clear H. revert l' Hw F. induction IH as [|x r Hx _ IHr]; intros l' Hw F; inversion F as [|? y ? r' Ha Hr]; subst; constructor.
      * apply Hx. inversion Hv; inversion Hw; subst. auto.
      * inversion Hv; inversion Hw; subst. apply IHr; assumption.
Qed.

Lemma twins_alike v w : twins v w <-> alike v w.
Proof.
  rewrite alike_twins. unfold twins. split.
  - intros (Hv & Hw & H). repeat split; try assumption. destruct (equal_iff ExampleWorld.world1 v w [] Hv Hw) as [A _]. apply A, H.
  - intros (Hv & Hw & H). repeat split; try assumption. intros W path. now apply equal_iff.
Qed.
Lemma equal_twins W path v w : json_typed v -> json_typed w -> equal W path v w = true -> twins v w.
Proof. intros Hv Hw H. apply twins_alike, alike_twins. repeat split; try assumption. now apply (equal_iff W v w path). Qed.

Lemma Forall2_nth {A B} (R : A -> B -> Prop) l l' : Forall2 R l l' -> forall n,
  match nth_error l n, nth_error l' n with Some x, Some y => R x y | None, None => True | _, _ => False end.
Proof. induction 1 as [|x y l l' H HF IH]; intros [|n]; cbn; auto. apply IH. Qed.
Lemma Forall2_len {A B} (R : A -> B -> Prop) l l' : Forall2 R l l' -> List.length l = List.length l'.
Proof. induction 1; cbn; congruence. Qed.
Lemma Forall2_set_nth {A B} (R : A -> B -> Prop) l l' x y : R x y -> Forall2 R l l' -> forall n, Forall2 R (set_nth n x l) (set_nth n y l').
Proof. intros Hx. induction 1 as [|a b l l' H HF IH]; intros [|n]; cbn [set_nth]; constructor; auto. Qed.
Lemma Forall2_firstn {A B} (R : A -> B -> Prop) l l' : Forall2 R l l' -> forall n, Forall2 R (firstn n l) (firstn n l').
Proof. induction 1; intros [|n]; cbn; constructor; auto. Qed.
Lemma Forall2_skipn {A B} (R : A -> B -> Prop) l l' : Forall2 R l l' -> forall n, Forall2 R (skipn n l) (skipn n l').
Proof. induction 1; intros [|n]; cbn; try constructor; auto. Qed.

Lemma mrel_aset kvs kvs' k id id' x y : mrel kvs kvs' -> alike x y -> mrel (aset k (id, x) kvs) (aset k (id', y) kvs').
Proof.
  intros (N & N' & K) Ha. split; [now apply aset_names|]. split; [now apply aset_names|]. intros k0.
  destruct (beqb_spec k0 k) as [->|Hn]; [rewrite !alookup_aset_same; now constructor|].
  rewrite !alookup_aset_other by assumption. apply K.
Qed.
Lemma aremove_keys {A} k (l : list (bytes * A)) : NoDup (akeys l) -> NoDup (akeys (aremove k l)).
Proof.
  assert (I : forall k', In k' (akeys (aremove k l)) -> In k' (akeys l)).
  { induction l as [|[k1 a] l IH]; cbn [aremove]; [auto|]. intros k'. destruct (beqb k k1); cbn; intuition. }
  revert I. induction l as [|[k1 a] l IH]; intros _ H; [constructor|]. cbn [akeys map fst] in H. inversion H as [|? ? H1 H2]; subst.
  assert (I : forall k', In k' (akeys (aremove k l)) -> In k' (akeys l)).
  { clear. induction l as [|[k1 a] l IH]; cbn [aremove]; [auto|]. intros k'. destruct (beqb k k1); cbn; intuition. }
  cbn [aremove]. destruct (beqb k k1); [now apply IH|]. cbn [akeys map fst]. constructor; [|now apply IH]. intros Hi. apply H1. now apply I.
Qed.
Lemma mrel_aremove kvs kvs' k : mrel kvs kvs' -> mrel (aremove k kvs) (aremove k kvs').
Proof.
  intros (N & N' & K). split; [now apply aremove_keys|]. split; [now apply aremove_keys|]. intros k0.
  destruct (beqb_spec k0 k) as [->|Hn]; [rewrite !alookup_aremove_same; constructor|].
  rewrite !alookup_aremove_other by assumption. apply K.
Qed.

(** *** Places *)
Definition oalike (a b : option V) : Prop :=
  match a, b with Some x, Some y => alike x y | None, None => True | _, _ => False end.

Lemma child_alike v w h : alike v w -> oalike (child_at v h) (child_at w h).
Proof.
  intros H. destruct v as [|s|n src|i kvs lo|l|b| | |]; try (inversion H; subst; exact I).
  - apply alike_obj in H as (i' & kvs' & lo' & -> & _ & _ & K). destruct h as [n|k]; [exact I|]. cbn [child_at].
    specialize (K k). inversion K; subst; cbn; auto.
  - inversion H as [| | | |? l' F|]; subst. destruct h as [n|k]; [|exact I]. cbn [child_at]. apply (Forall2_nth _ _ _ F).
Qed.
Lemma put_child_alike v w h c d : alike v w -> alike c d -> alike (put_child v h c) (put_child w h d).
Proof.
  intros H Hc. destruct v as [|s|n src|i kvs lo|l|b| | |]; try (inversion H; subst; destruct h; exact H).
  - pose proof H as H0. apply alike_obj in H as (i' & kvs' & lo' & -> & M). destruct h as [n|k]; [exact H0|]. cbn [put_child].
    destruct M as (N & N' & K). pose proof (K k) as Kk. inversion Kk as [E1 E2|id x id' y Ha E1 E2]; [exact H0|].
    apply alike_mk, mrel_aset; [now repeat split|assumption].
  - inversion H as [| | | |? l' F|]; subst. destruct h as [n|k]; [|exact H]. cbn [put_child]. constructor. now apply Forall2_set_nth.
Qed.
Lemma sub_alike hs : forall v w, alike v w -> oalike (sub_at v hs) (sub_at w hs).
Proof.
  induction hs as [|h hs IH]; intros v w H; cbn [sub_at]; [exact H|].
  pose proof (child_alike v w h H) as K. destruct (child_at v h), (child_at w h); cbn in K; try contradiction; [now apply IH|exact I].
Qed.
Lemma put_at_alike hs : forall v w c d, alike v w -> alike c d -> alike (put_at v hs c) (put_at w hs d).
Proof.
  induction hs as [|h hs IH]; intros v w c d H Hc; cbn [put_at]; [exact Hc|].
  pose proof (child_alike v w h H) as K. destruct (child_at v h), (child_at w h); cbn in K; try contradiction; [|exact H].
  apply put_child_alike; [exact H|]. now apply IH.
Qed.

Section Calls.
Variable E : Env.

Inductive ans : res V -> res V -> Prop :=
| AN_ok x y : alike x y -> ans (Ok x) (Ok y)
| AN_err e : ans (Err e) (Err e)
| AN_panic : ans Panic Panic
| AN_fuel : ans Fuel Fuel.
(** The document afterwards and the answer. *)
Definition pair_alike (a b : V * res V) : Prop := alike (fst a) (fst b) /\ ans (snd a) (snd b).
Definition pair_same {A} (a b : V * res A) : Prop := alike (fst a) (fst b) /\ snd a = snd b.

Ltac both := (split; cbn [fst snd]; [assumption|constructor]).

Lemma find_child_alike W W' v w p : alike v w -> pair_same (find_child E W false v p) (find_child E W' false w p).
Proof.
  intros H. destruct v as [|s|n src|i kvs lo|l|b| | |]; try (inversion H; subst; (split; [assumption|reflexivity])).
  - pose proof H as H0. apply alike_obj in H as (i' & kvs' & lo' & -> & M). cbn [find_child].
    destruct (any_to_string p) as [k|e| |]; try (split; [assumption|reflexivity]).
    unfold find_key. destruct M as (N & N' & K). pose proof (K k) as Kk.
    destruct (alookup k kvs) as [[id x]|], (alookup k kvs') as [[id' y]|]; inversion Kk; subst; (split; [assumption|reflexivity]).
  - inversion H as [| | | |? l' F|]; subst. cbn [find_child]. split; [assumption|]. cbn [snd]. rewrite (Forall2_len _ _ _ F). reflexivity.
Qed.
Lemma locate_alike W W' f : forall v w p o, alike v w -> pair_same (locate_f E W f false v p o) (locate_f E W' f false w p o).
Proof.
  induction f as [|f IH]; intros v w p o H; cbn [locate_f]; [split; [assumption|reflexivity]|].
  destruct (peel p o) as [[p' r]|]; [|split; [assumption|reflexivity]].
  destruct (find_child_alike W W' v w p' H) as [A B]. destruct (find_child E W false v p') as [v1 h], (find_child E W' false w p') as [w1 h'].
  cbn [fst snd] in A, B. subst h'. destruct h as [h|e| |]; try (split; [assumption|reflexivity]).
  destruct r as [|q r]; [split; [assumption|reflexivity]|].
  pose proof (child_alike v1 w1 h A) as K. destruct (child_at v1 h) as [c|], (child_at w1 h) as [d|]; cbn in K; try contradiction; [|split; [assumption|reflexivity]].
  destruct (IH c d q r K) as [A' B']. destruct (locate_f E W f false c q r) as [c' t], (locate_f E W' f false d q r) as [d' t'].
  cbn [fst snd] in A', B'. subst t'. split; [|reflexivity]. cbn [fst]. now apply put_child_alike.
Qed.
Lemma get_alike W W' v w p o : alike v w -> pair_alike (get E W false v p o) (get E W' false w p o).
Proof.
  intros H. unfold get, locate. destruct (locate_alike W W' (S (psum (p :: o))) v w p o H) as [A B].
  destruct (locate_f E W _ false v p o) as [v1 r], (locate_f E W' _ false w p o) as [w1 r']. cbn [fst snd] in A, B. subst r'.
  split; [exact A|]. cbn [snd]. destruct r as [hs|e| |]; cbn [rbind]; try constructor.
  pose proof (sub_alike hs v1 w1 A) as K. destruct (sub_at v1 hs), (sub_at w1 hs); cbn in K; try contradiction; now constructor.
Qed.

Lemma alike_nil v w : alike v w -> is_nil v = false /\ is_nil w = false.
Proof. intros H. inversion H; subst; split; reflexivity. Qed.
Lemma alike_there v w : alike v w -> not_exist v = false /\ not_exist w = false.
Proof. intros H. inversion H; subst; split; reflexivity. Qed.
Lemma alike_init v w : alike v w -> uninitialized v = false /\ uninitialized w = false.
Proof. intros H. inversion H; subst; split; reflexivity. Qed.

Lemma set_to_object_alike v w k c d : alike v w -> alike c d ->
  (exists v' w', set_to_object E v k c = Ok v' /\ set_to_object E w k d = Ok w' /\ alike v' w') \/
  (set_to_object E v k c = Panic /\ set_to_object E w k d = Panic).
Proof.
  intros H Hc. destruct v as [|s|n src|i kvs lo|l|b| | |]; try (inversion H; subst; right; (split; reflexivity)).
  apply alike_obj in H as (i' & kvs' & lo' & -> & M). left. cbn [set_to_object]. do 2 eexists. split; [reflexivity|]. split; [reflexivity|].
  apply alike_mk. now apply mrel_aset.
Qed.
Lemma set_at_index_alike l l' c d pos : Forall2 alike l l' -> alike c d ->
  match set_at_index l c pos, set_at_index l' d pos with
  | Ok a, Ok b => Forall2 alike a b | Err e, Err e' => e = e' | _, _ => False end.
Proof.
  intros F Hc. unfold set_at_index. rewrite <- (Forall2_len _ _ _ F).
  destruct (pos =? Z.of_nat (List.length l)); [apply Forall2_app; [assumption|now repeat constructor]|].
  destruct (pos_read (List.length l) pos) as [n|]; [now apply Forall2_set_nth|reflexivity].
Qed.
Lemma at_last_alike v w c d p : alike v w -> alike c d -> pair_alike (at_last_param E v c p) (at_last_param E w d p).
Proof.
  intros H Hc. destruct v as [|s|n src|i kvs lo|l|b| | |]; try (inversion H; subst; cbn [at_last_param]; both).
  - pose proof H as H0. apply alike_obj in H as (i' & kvs' & lo' & -> & M). cbn [at_last_param].
    destruct (any_to_string p) as [k|e| |]; try both.
    destruct (set_to_object_alike _ _ k c d H0 Hc) as [(v' & w' & -> & -> & A)|[-> ->]]; [|both]. split; [exact A|]. now constructor.
  - inversion H as [| | | |? l' F|]; subst. cbn [at_last_param]. destruct (any_to_int p) as [pos|e| |]; try both.
    pose proof (set_at_index_alike l l' c d pos F Hc) as K.
    destruct (set_at_index l c pos), (set_at_index l' d pos); try contradiction; [|subst; both].
    split; cbn [fst snd]; constructor; assumption.
Qed.
Lemma new_container_alike q : match new_container q with Ok c => alike c c | _ => True end.
Proof.
  unfold new_container. destruct (any_to_string q); [|destruct (any_to_int q) as [i| | |]; try exact I; destruct (i =? 0); [|exact I]; repeat constructor..].
  apply alike_mk. repeat split; constructor.
Qed.
Lemma nth_alike l l' n : Forall2 alike l l' -> (n < List.length l)%nat -> alike (nth n l VNil) (nth n l' VNil).
Proof.
  intros F. revert n. induction F as [|x y l l' H F IH]; intros n Hn; cbn [List.length] in Hn; [lia|].
  destruct n as [|n]; [exact H|]. cbn [nth]. apply IH. lia.
Qed.
Lemma pos_read_in le pos n : pos_read le pos = Some n -> (n < le)%nat.
Proof.
  unfold pos_read. destruct (Z.eqb_spec (Z.of_nat le) 0); [discriminate|]. destruct (Z.ltb_spec pos 0).
  - destruct (Z.ltb_spec (pos + Z.of_nat le) 0); [discriminate|]. intros [= <-]. lia.
  - destruct (Z.leb_spec (Z.of_nat le) pos); [discriminate|]. intros [= <-]. lia.
Qed.

Lemma set_alike f : forall v w c d p o, alike v w -> alike c d -> pair_alike (set_f E f v c p o) (set_f E f w d p o).
Proof.
  induction f as [|f IH]; intros v w c d p o H Hc; cbn [set_f]; [both|].
  destruct (peel p o) as [[p' r]|]; [|both].
  destruct (alike_init _ _ H) as [-> ->]. destruct (alike_init _ _ Hc) as [-> ->].
  destruct r as [|q r]; [now apply at_last_alike|].
  destruct v as [|s|n src|i kvs lo|l|b| | |]; try (inversion H; subst; both).
  - pose proof H as H0. apply alike_obj in H as (i' & kvs' & lo' & -> & M).
    destruct (any_to_string p') as [k|e| |]; try both.
    pose proof M as (N & N' & K). pose proof (K k) as Kk. inversion Kk as [E1 E2|id x id' y Ha E1 E2].
    + pose proof (new_container_alike q) as Hn. destruct (new_container q) as [x|e| |]; try both.
      destruct (IH x x c d q r Hn Hc) as [A B]. destruct (set_f E f x c q r) as [x1 r1], (set_f E f x d q r) as [x2 r2].
      cbn [fst snd] in A, B. inversion B; subst; try both.
      destruct (set_to_object_alike _ _ k x1 x2 H0 A) as [(v' & w' & -> & -> & A')|[-> ->]]; [|both]. split; [exact A'|]. now constructor.
    + destruct (IH x y c d q r Ha Hc) as [A B]. destruct (set_f E f x c q r) as [x1 r1], (set_f E f y d q r) as [x2 r2].
      cbn [fst snd] in A, B. split; [|exact B]. apply alike_mk. now apply mrel_aset.
  - inversion H as [| | | |? l' F|]; subst. destruct (any_to_int p') as [pos|e| |]; try both.
    rewrite <- (Forall2_len _ _ _ F). destruct (pos_read (List.length l) pos) as [n|] eqn:En.
    + apply pos_read_in in En. pose proof (nth_alike _ _ _ F En) as Hx.
      destruct (IH _ _ c d q r Hx Hc) as [A B]. destruct (set_f E f (nth n l VNil) c q r) as [x1 r1], (set_f E f (nth n l' VNil) d q r) as [x2 r2].
      cbn [fst snd] in A, B. split; [|exact B]. constructor. now apply Forall2_set_nth.
    + pose proof (new_container_alike q) as Hn. destruct (new_container q) as [x|e| |]; try both.
      destruct (IH x x c d q r Hn Hc) as [A B]. destruct (set_f E f x c q r) as [x1 r1], (set_f E f x d q r) as [x2 r2].
      cbn [fst snd] in A, B. inversion B; subst; try both.
      split; cbn [fst snd]; constructor; try assumption. apply Forall2_app; [assumption|now repeat constructor].
Qed.
Lemma set_at_alike v w c d p o : alike v w -> alike c d -> pair_alike (set_at E v (arg_v c) p o) (set_at E w (arg_v d) p o).
Proof. intros H Hc. unfold set_at, arg_v. cbn [fst snd]. now apply set_alike. Qed.

Lemma insert_last_alike af v w c d p : alike v w -> alike c d -> pair_alike (insert_last af v c p) (insert_last af w d p).
Proof.
  intros H Hc. destruct v as [|s|n src|i kvs lo|l|b| | |]; try (inversion H; subst; both).
  inversion H as [| | | |? l' F|]; subst. cbn [insert_last]. destruct (any_to_int p) as [pos|e| |]; try both.
  rewrite <- (Forall2_len _ _ _ F).
  destruct (if af then _ else _) as [n|]; [|both]. split; [|now constructor]. cbn [fst]. constructor. unfold insert_to_arr.
  apply Forall2_app; [now apply Forall2_firstn|]. constructor; [assumption|now apply Forall2_skipn].
Qed.
Lemma insert_alike W W' af f : forall v w c d p o, alike v w -> alike c d ->
  pair_alike (insert_f E W f af v c p o) (insert_f E W' f af w d p o).
Proof.
  induction f as [|f IH]; intros v w c d p o H Hc; cbn [insert_f]; [both|].
  destruct (peel p o) as [[p' r]|]; [|both].
  destruct (alike_nil _ _ H) as [-> ->]. destruct (alike_there _ _ H) as [-> ->].
  destruct r as [|q r]; [now apply insert_last_alike|].
  unfold locate. destruct (locate_alike W W' (S (psum (p' :: removelast (q :: r)))) v w p' (removelast (q :: r)) H) as [A B].
  destruct (locate_f E W _ false v p' _) as [v1 t], (locate_f E W' _ false w p' _) as [w1 t']. cbn [fst snd] in A, B. subst t'.
  destruct t as [hs|e| |]; try both.
  pose proof (sub_alike hs v1 w1 A) as K. destruct (sub_at v1 hs) as [x|], (sub_at w1 hs) as [y|]; cbn in K; try contradiction; [|both].
  inversion K as [| | | |l l' F|]; subst; try both.
  destruct (IH _ _ c d (last (q :: r) PNil) [] K Hc) as [A' B'].
  destruct (insert_f E W f af (VArr l) c _ []) as [x1 r1], (insert_f E W' f af (VArr l') d _ []) as [x2 r2].
  cbn [fst snd] in A', B'. split; [|exact B']. cbn [fst]. now apply put_at_alike.
Qed.
Lemma append_alike W W' front v w c d ps : alike v w -> alike c d ->
  pair_alike (append_at E W front v (arg_v c) ps) (append_at E W' front w (arg_v d) ps).
Proof.
  intros H Hc. unfold append_at, arg_v. cbn [fst].
  destruct (alike_nil _ _ H) as [-> ->]. destruct (alike_there _ _ H) as [-> ->].
  assert (Hadd : forall l l', Forall2 alike l l' -> alike (VArr (if front then c :: l else l ++ [c])) (VArr (if front then d :: l' else l' ++ [d]))).
  { intros l l' F. constructor. destruct front; [now constructor|]. apply Forall2_app; [assumption|now repeat constructor]. }
  destruct (joint_params ps) as [[|p r]|]; [| |both].
  - inversion H as [| | | |l l' F|]; subst; try both. split; [now apply Hadd|now constructor].
  - unfold locate. destruct (locate_alike W W' (S (psum (p :: r))) v w p r H) as [A B].
    destruct (locate_f E W _ false v p _) as [v1 t], (locate_f E W' _ false w p _) as [w1 t']. cbn [fst snd] in A, B. subst t'.
    destruct t as [hs|e| |]; try both.
    + pose proof (sub_alike hs v1 w1 A) as K. destruct (sub_at v1 hs) as [x|], (sub_at w1 hs) as [y|]; cbn in K; try contradiction; [|both].
      inversion K as [| | | |l l' F|]; subst; try both.
      split; [|now constructor]. cbn [fst]. apply put_at_alike; [assumption|now apply Hadd].
    + destruct e; try both.
      assert (Hc1 : alike (VArr [c]) (VArr [d])) by (repeat constructor; assumption).
      destruct (set_at_alike v1 w1 _ _ p r A Hc1) as [A' B']. unfold arg_v in *.
      destruct (set_at E v1 _ p r) as [v2 r2], (set_at E w1 _ p r) as [w2 r2']. cbn [fst snd] in A', B'.
      inversion B'; subst; (split; [exact A'|now constructor]).
Qed.
Lemma delete_here_alike W W' v w p : alike v w -> pair_same (delete_here E W false v p) (delete_here E W' false w p).
Proof.
  intros H. destruct v as [|s|n src|i kvs lo|l|b| | |]; try (inversion H; subst; (split; [assumption|reflexivity])).
  - pose proof H as H0. apply alike_obj in H as (i' & kvs' & lo' & -> & M). cbn [delete_here].
    destruct (any_to_string p) as [k|e| |]; try (split; [assumption|reflexivity]).
    unfold del_from_object. pose proof M as (N & N' & K). pose proof (K k) as Kk.
    destruct (alookup k kvs) as [[id x]|], (alookup k kvs') as [[id' y]|]; inversion Kk; subst; (split; [|reflexivity]); [|assumption].
    cbn [fst]. apply alike_mk. now apply mrel_aremove.
  - inversion H as [| | | |? l' F|]; subst. cbn [delete_here]. destruct (any_to_int p) as [pos|e| |]; try (split; [assumption|reflexivity]).
    rewrite <- (Forall2_len _ _ _ F). destruct (pos_read _ pos) as [n|]; (split; [|reflexivity]); [|assumption].
    cbn [fst]. constructor. unfold delete_in_arr. apply Forall2_app; [now apply Forall2_firstn|now apply Forall2_skipn].
Qed.
Lemma delete_alike W W' f : forall v w p o, alike v w -> pair_same (delete_f E W f false v p o) (delete_f E W' f false w p o).
Proof.
  induction f as [|f IH]; intros v w p o H; cbn [delete_f]; [split; [assumption|reflexivity]|].
  destruct (peel p o) as [[p' r]|]; [|split; [assumption|reflexivity]].
  destruct r as [|q r]; [now apply delete_here_alike|].
  unfold locate. destruct (locate_alike W W' (S (psum (p' :: removelast (q :: r)))) v w p' (removelast (q :: r)) H) as [A B].
  destruct (locate_f E W _ false v p' _) as [v1 t], (locate_f E W' _ false w p' _) as [w1 t']. cbn [fst snd] in A, B. subst t'.
  destruct t as [hs|e| |]; try (split; [assumption|reflexivity]).
  pose proof (sub_alike hs v1 w1 A) as K. destruct (sub_at v1 hs) as [x|], (sub_at w1 hs) as [y|]; cbn in K; try contradiction; [|split; [assumption|reflexivity]].
  destruct (IH x y (last (q :: r) PNil) [] K) as [A' B'].
  destruct (delete_f E W f false x _ []) as [x1 r1], (delete_f E W' f false y _ []) as [x2 r2].
  cbn [fst snd] in A', B'. subst. split; [|reflexivity]. cbn [fst]. now apply put_at_alike.
Qed.

(** *** Sorting *)
Lemma Forall2_map_rel {A B C} (R : A -> B -> Prop) (f : A -> C) (g : B -> C) l l' :
  (forall x y, R x y -> f x = g y) -> Forall2 R l l' -> map f l = map g l'.
Proof. intros H. induction 1; cbn; f_equal; auto. Qed.
Lemma arrange_rel {A B} (R : A -> B -> Prop) l l' : Forall2 R l l' -> forall idx, Forall2 R (arrange l idx) (arrange l' idx).
Proof.
  intros F idx. unfold arrange. induction idx as [|i idx IH]; cbn [flat_map]; [constructor|]. apply Forall2_app; [|exact IH].
  pose proof (Forall2_nth _ _ _ F i) as K. destruct (nth_error l i), (nth_error l' i); try contradiction; repeat constructor; assumption.
Qed.
Lemma go_sort_alike W f g l l' : (forall x x' y y', alike x x' -> alike y y' -> f x y = g x' y') -> Forall2 alike l l' ->
  Forall2 alike (go_sort W f l) (go_sort W g l').
Proof.
  intros H F. unfold go_sort.
  replace (map (fun x => map (g x) l') l') with (map (fun x => map (f x) l) l).
  - rewrite <- (Forall2_len _ _ _ F). now apply arrange_rel.
  - apply (Forall2_map_rel alike); [|exact F]. intros x y Hxy. apply (Forall2_map_rel alike); [|exact F]. intros x' y' H'. now apply H.
Qed.
Lemma sort_alike W f g v w : (forall x x' y y', alike x x' -> alike y y' -> f x y = g x' y') -> alike v w ->
  exists v' w', sort_array W v (Some f) = Ok v' /\ sort_array W w (Some g) = Ok w' /\ alike v' w'.
Proof.
  intros H Ha. unfold sort_array, api_is_array, on_value.
  inversion Ha as [| | | |l l' F|]; subst; cbn [rbind vtype_of vtype_eqb negb]; do 2 eexists; (split; [reflexivity|]; split; [reflexivity|]); try exact Ha.
  constructor. now apply go_sort_alike.
Qed.

(** *** Series *)
Lemma ans_outcome r s : ans r s -> outcome r = outcome s.
Proof. intros H. inversion H; reflexivity. Qed.
Lemma both_alike a b : pair_alike a b -> alike (fst (both_of a)) (fst (both_of b)) /\ snd (both_of a) = snd (both_of b).
Proof. intros [A B]. split; [exact A|]. cbn. now apply ans_outcome. Qed.

Lemma parsed_alike b v : unmarshal E b = Ok (v, None) -> alike v v.
Proof.
  intros H. apply twins_alike. apply (unmarshal_typed E) in H. apply (equal_twins ExampleWorld.world1 [] v v H H). now apply equal_refl.
Qed.

Lemma perform_alike W d d' v w a b : alike v w -> same_call a b ->
  alike (fst (perform E W d v a)) (fst (perform E W d' w b)) /\ snd (perform E W d v a) = snd (perform E W d' w b).
Proof.
  intros H HC. inversion HC as [p o|p o|p o|x y p o Ht|x y p o Ht|x y p o Ht|front x y ps Ht|p o|f g Hfg|bb| |]; subst; cbn [perform];
    try (apply twins_alike in Ht).
  - apply both_alike. now apply get_alike.
  - destruct (get_alike W W v w p o H) as [A B]. destruct (get E W false v p o) as [v1 r], (get E W false w p o) as [w1 s].
    cbn [fst snd] in A, B. inversion B; subst; (split; [assumption|reflexivity]).
  - unfold must_get. destruct (get_alike W W v w p o H) as [A B]. destruct (get E W false v p o) as [v1 r], (get E W false w p o) as [w1 s].
    cbn [fst snd] in A, B. inversion B; subst; (split; [assumption|reflexivity]).
  - apply both_alike. now apply set_at_alike.
  - apply both_alike. unfold insert_before, arg_v. cbn [fst snd]. now apply insert_alike.
  - apply both_alike. unfold insert_after, arg_v. cbn [fst snd]. now apply insert_alike.
  - apply both_alike. now apply append_alike.
  - unfold both_of, delete_at. destruct (delete_alike W W (S (psum (p :: o))) v w p o H) as [A B]. cbn [fst snd]. now rewrite B.
  - destruct (sort_alike W f g v w) as (v' & w' & -> & -> & A); [|exact H|split; [exact A|reflexivity]].
    intros x x' y y' Hx Hy. apply Hfg; now apply twins_alike.
  - unfold both_of, unmarshal_json. destruct (alike_nil _ _ H) as [Nv Nw].
    destruct (unmarshal E bb) as [[u [e|]]|e| |] eqn:Eu; try (split; [assumption|reflexivity]).
    pose proof (parsed_alike _ _ Eu) as Hu.
    destruct v, w; try discriminate Nv; try discriminate Nw; inversion Hu; subst; (split; [assumption|reflexivity]).
  - split; [assumption|]. inversion H as [| | | |l l' F|? ? ? ? ? ? N N' K K0]; subst; try reflexivity.
  - split; [assumption|]. inversion H; subst; reflexivity.
Qed.
End Calls.

Theorem twins_series : forall (E : Env) (v w : V) (l l' : list (World * opt * act)),
  twins v w -> Forall2 same_step l l' ->
  snd (series E v l) = snd (series E w l') /\ twins (fst (series E v l)) (fst (series E w l')).
Proof.
  intros E v w l l' H HF. rewrite twins_alike in *. revert v w H.
  induction HF as [|[[W d] a] [[W' d'] b] l l' [Hw Hc] HF IH]; intros v w H; cbn [series]; [auto|].
  cbn [fst snd] in Hw, Hc. subst W'. destruct (perform_alike E W d d' v w a b H Hc) as [A B].
  destruct (perform E W d v a) as [v1 x], (perform E W d' w b) as [w1 y]. cbn [fst snd] in A, B. subst y.
  destruct (IH _ _ A) as [C D]. destruct (series E v1 l) as [v2 xs], (series E w1 l') as [w2 ys]. cbn [fst snd] in *. subst. auto.
Qed.

(** *** Answers *)
Theorem twins_get (E : Env) (W W' : World) v w p o : twins v w ->
  same_answer (snd (get E W false v p o)) (snd (get E W' false w p o)).
Proof.
  intros H. pose proof (EditClaims.get_all_ends E W false v p o) as G. destruct H as (Hv & Hw & H).
  specialize (G (ContainProof.typed_no_nil _ Hv)). assert (H0 : alike v w) by (apply twins_alike; now repeat split).
  destruct (get_alike E W W' v w p o H0) as [_ B].
  inversion B as [x y Ha E1 E2|e E1 E2|E1 E2|E1 E2]; rewrite <- E1 in G; try contradiction; constructor. now apply twins_alike.
Qed.

Lemma mrel_length kvs kvs' : mrel kvs kvs' -> List.length kvs = List.length kvs'.
Proof.
  intros (N & N' & K).
  assert (A : incl (akeys kvs) (akeys kvs') /\ incl (akeys kvs') (akeys kvs)).
  { split; intros k Hk; apply in_map_iff in Hk as ([k' [id x]] & <- & Hx); cbn [fst]; specialize (K k').
    - rewrite (alookup_NoDup_In _ _ _ N Hx) in K. inversion K as [|? ? ? ? _ E1 E2]; subst. eapply alookup_Some_key; symmetry; exact E2.
    - rewrite (alookup_NoDup_In _ _ _ N' Hx) in K. inversion K as [|? ? ? ? _ E1 E2]; subst. eapply alookup_Some_key; symmetry; exact E1. }
  destruct A as [A B]. pose proof (NoDup_incl_length N A) as L1. pose proof (NoDup_incl_length N' B) as L2.
  unfold akeys in L1, L2. rewrite !map_length in L1, L2. lia.
Qed.
Theorem twins_kind v w : twins v w -> value_type v = value_type w /\ api_len v = api_len w.
Proof.
  rewrite twins_alike. intros H. split; [now inversion H|].
  destruct v as [|s|n src|i kvs lo|l|b| | |]; try (inversion H; subst; reflexivity).
  - apply alike_obj in H as (i' & kvs' & lo' & -> & M). unfold api_len, on_value. now rewrite (mrel_length _ _ M).
  - inversion H as [| | | |? l' F|]; subst. unfold api_len, on_value. now rewrite (Forall2_len _ _ _ F).
Qed.

Lemma dec_cmp_alike s s' t t' : number_equal s s' = true -> number_equal t t' = true -> dec_cmp (dec_of s) (dec_of t) = dec_cmp (dec_of s') (dec_of t').
Proof. rewrite !number_equal_q, !dec_cmp_q. intros -> ->. reflexivity. Qed.
Lemma beqb_eq_cmp s t : beqb s t = true -> dec_cmp (dec_of s) (dec_of t) = Eq.
Proof. intros H. apply beqb_eq in H as ->. rewrite dec_cmp_q. now apply Qeq_alt. Qed.
Theorem twins_compare v v' w w' : twins v v' -> twins w w' ->
  less_than v w = less_than v' w' /\ less_or_equal v w = less_or_equal v' w' /\
  greater_than v w = greater_than v' w' /\ greater_or_equal v w = greater_or_equal v' w'.
Proof.
  rewrite !twins_alike. intros H K.
  unfold less_than, less_or_equal, greater_than, greater_or_equal.
  assert (G : greater_than_ok v w = greater_than_ok v' w' /\ greater_or_equal_ok v w = greater_or_equal_ok v' w').
  { unfold greater_than_ok, greater_or_equal_ok. inversion H as [| | |n s m t Hst| |]; subst; inversion K as [| | |n' s' m' t' Hst'| |]; subst; try (split; reflexivity).
    pose proof (dec_cmp_alike _ _ _ _ Hst Hst') as D. pose proof (beqb_eq_cmp s s') as B1. pose proof (beqb_eq_cmp t t') as B2.
    rewrite <- D in *. split; [reflexivity|].
    destruct (beqb s s'); [rewrite (B1 eq_refl) in *|]; (destruct (beqb t t'); [try rewrite (B2 eq_refl) in *|]); reflexivity. }
  destruct G as [-> ->]. auto.
Qed.

(** *** Contains *)
Lemma alike_sym v : forall w, alike v w -> alike w v.
Proof.
  intros w H. apply twins_alike. apply twins_alike in H as (Hv & Hw & H). repeat split; try assumption. intros W path.
  rewrite (equal_sym W W path path w v Hw Hv). apply H.
Qed.
Lemma alike_trans u v w : alike u v -> alike v w -> alike u w.
Proof.
  rewrite <- !twins_alike. intros (Hu & Hv & H) (_ & Hw & K). repeat split; try assumption. intros W path.
  now apply (equal_trans W path u v w).
Qed.
Lemma alike_EQ v w : alike v w -> ContainProof.EQ v w.
Proof. intros H. apply twins_alike in H as (_ & _ & H). exact H. Qed.
Lemma leads_alike v ps hs w : leads v ps hs w -> forall v', alike v v' -> exists w', leads v' ps hs w' /\ alike w w'.
Proof.
  induction 1 as [v|i kvs lo k id x ps hs c Hi _ IH|a x b p i ps hs c Hp Hr _ IH]; intros v' H.
  - exists v'. split; [constructor|exact H].
  - apply alike_obj in H as (i' & kvs' & lo' & -> & N & N' & K). specialize (K k). rewrite (alookup_NoDup_In _ _ _ N Hi) in K.
    inversion K as [|? ? id' y Ha E1 E2]; subst. symmetry in E2. destruct (IH _ Ha) as (w' & L & A). exists w'. split; [|exact A].
    econstructor; [|exact L]. eapply alookup_In; exact E2.
  - inversion H as [| | | |? l' F|]; subst. apply Forall2_app_inv_l in F as (a' & b0 & Fa & Fb & ->). inversion Fb as [|? y ? b' Hx Fb']; subst.
    destruct (IH _ Hx) as (w' & L & A). exists w'. split; [|exact A]. rewrite (Forall2_len _ _ _ Fa). econstructor; [exact Hp| |exact L].
    unfold refers in *. now rewrite <- (Forall2_len _ _ _ Fa), <- (Forall2_len _ _ _ Fb').
Qed.
Lemma contained_alike v w : contained ContainProof.EQ v w -> forall v' w', alike v v' -> alike w w' -> contained ContainProof.EQ v' w'.
Proof.
  revert v. induction w as [|s|n src|i2 kvs2 lo2 IH|l2 IH|b| | |] using V_ind'; intros v C v' w' Hv Hw;
    inversion C as [? ? S1 S2 Q|i kvs lo ? ? ? HC|a l b0 ? F]; subst; try contradiction.
  all: try (apply contained_scalar; [inversion Hv; subst; try contradiction; exact I|inversion Hw; subst; exact I|
    apply alike_EQ; eapply alike_trans; [apply alike_sym; exact Hv|]; eapply alike_trans; [|exact Hw];
    apply twins_alike; apply alike_twins in Hv as (Jv & _); apply alike_twins in Hw as (Jw & _); repeat split; assumption]).
  - apply alike_obj in Hv as (i' & kvs' & lo' & -> & N & N' & K). apply alike_obj in Hw as (i2' & kvs2' & lo2' & -> & N2 & N2' & K2).
    apply contained_obj. intros k id y Hy. specialize (K2 k). rewrite (alookup_NoDup_In _ _ _ N2' Hy) in K2. inversion K2 as [|id1 x1 ? ? Ha E1 E2]; subst.
    symmetry in E1. pose proof (alookup_In _ _ _ E1) as Hx1. destruct (HC _ _ _ Hx1) as (id3 & x3 & Hx3 & C3).
    specialize (K k). rewrite (alookup_NoDup_In _ _ _ N Hx3) in K. inversion K as [|? ? id4 x4 Ha4 E3 E4]; subst. symmetry in E4.
    exists id4, x4. split; [eapply alookup_In; exact E4|]. rewrite Forall_forall in IH. apply (IH _ Hx1 _ C3 _ _ Ha4 Ha).
  - inversion Hv as [| | | |? l' Fv|]; subst. inversion Hw as [| | | |? l2' Fw|]; subst.
    apply Forall2_app_inv_l in Fv as (a' & r & _ & Fv & ->). apply Forall2_app_inv_l in Fv as (l1 & b' & Fl & _ & ->).
    apply contained_arr. clear -F Fl Fw. revert l1 l2' Fl Fw. induction F as [|x y l l2 Hq F IHF]; intros l1 l2' Fl Fw;
      inversion Fl as [|? x' ? r1 Hx F1]; subst; inversion Fw as [|? y' ? r2 Hy F2]; subst; constructor; [|now apply IHF].
    apply alike_EQ. eapply alike_trans; [apply alike_sym; exact Hx|]. eapply alike_trans; [|exact Hy].
    apply twins_alike. apply alike_twins in Hx as (Jx & _). apply alike_twins in Hy as (Jy & _). now repeat split.
Qed.
Theorem twins_contains (E : Env) (W W' : World) v v' w w' ps : twins v v' -> twins w w' -> Forall plain ps ->
  contains E W v w ps = contains E W' v' w' ps.
Proof.
  intros Hv Hw Hp.
  destruct (ContainProof.contains_spec E W v w ps (proj1 Hv) (proj1 Hw) Hp) as (b & -> & Hb).
  destruct (ContainProof.contains_spec E W' v' w' ps (proj1 (proj2 Hv)) (proj1 (proj2 Hw)) Hp) as (b' & -> & Hb').
  f_equal. apply eq_true_iff_eq. rewrite Hb, Hb'. apply twins_alike in Hv. apply twins_alike in Hw.
  split; intros (hs & x & L & C).
  - destruct (leads_alike _ _ _ _ L _ Hv) as (y & Ly & A). exists hs, y. split; [exact Ly|]. eapply contained_alike; eassumption.
  - destruct (leads_alike _ _ _ _ L _ (alike_sym _ _ Hv)) as (y & Ly & A). exists hs, y. split; [exact Ly|].
    eapply contained_alike; try eassumption. now apply alike_sym.
Qed.

Lemma parsed_twins (E : Env) (W : World) path a b v w : unmarshal E a = Ok (v, None) -> unmarshal E b = Ok (w, None) ->
  equal W path v w = true -> twins v w.
Proof. intros Ha Hb. apply equal_twins; [exact (unmarshal_typed E a v Ha)|exact (unmarshal_typed E b w Hb)]. Qed.

Definition doc (E : Env) (b : string) : V := match unmarshal E (bs b) with Ok (v, None) => v | _ => VNil end.
Theorem told_apart : exists (E : Env) (W : World) a b v w a' b' v' w',
  unmarshal E a = Ok (v, None) /\ unmarshal E b = Ok (w, None) /\ twins v w /\
  unmarshal E a' = Ok (v', None) /\ unmarshal E b' = Ok (w', None) /\ twins v' w' /\
  api_int64 E v <> api_int64 E w /\ marshal_opt E W opt0 v <> marshal_opt E W opt0 w /\
  ~ same_answer (snd (get E W true v' (PStr (bs "AB")) [])) (snd (get E W true w' (PStr (bs "AB")) [])).
Proof.
  exists ExampleWorld.env0, ExampleWorld.world1, (bs "9007199254740993"), (bs "9007199254740993.0"),
    (doc ExampleWorld.env0 "9007199254740993"), (doc ExampleWorld.env0 "9007199254740993.0"),
    (bs "{""aB"":1,""Ab"":2}"), (bs "{""Ab"":2,""aB"":1}"), (doc ExampleWorld.env0 "{""aB"":1,""Ab"":2}"), (doc ExampleWorld.env0 "{""Ab"":2,""aB"":1}").
  assert (U1 : unmarshal ExampleWorld.env0 (bs "9007199254740993") = Ok (doc ExampleWorld.env0 "9007199254740993", None)) by (vm_compute; reflexivity).
  assert (U2 : unmarshal ExampleWorld.env0 (bs "9007199254740993.0") = Ok (doc ExampleWorld.env0 "9007199254740993.0", None)) by (vm_compute; reflexivity).
  assert (U3 : unmarshal ExampleWorld.env0 (bs "{""aB"":1,""Ab"":2}") = Ok (doc ExampleWorld.env0 "{""aB"":1,""Ab"":2}", None)) by (vm_compute; reflexivity).
  assert (U4 : unmarshal ExampleWorld.env0 (bs "{""Ab"":2,""aB"":1}") = Ok (doc ExampleWorld.env0 "{""Ab"":2,""aB"":1}", None)) by (vm_compute; reflexivity).
  split; [exact U1|]. split; [exact U2|]. split; [apply (parsed_twins _ ExampleWorld.world1 [] _ _ _ _ U1 U2); vm_compute; reflexivity|].
  split; [exact U3|]. split; [exact U4|]. split; [apply (parsed_twins _ ExampleWorld.world1 [] _ _ _ _ U3 U4); vm_compute; reflexivity|].
  split; [vm_compute; discriminate|]. split; [vm_compute; discriminate|].
  vm_compute. intros H. inversion H as [x y (_ & _ & T)|]; subst. specialize (T ExampleWorld.world1 []). vm_compute in T. discriminate.
Qed.
