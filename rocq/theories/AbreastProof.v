(** Two documents whose members were set in the same order, and calls on them (C93). *)
From Verif Require Import Base Utf8 Float64 Value Scan Unmarshal Pure Opt Marshal Access Path Edit Compare SpecJson SpecValue SpecLax SpecText SpecOpts SpecOrder SpecPath SpecSafe
  SpecPieces SpecSplice SpecSetSplice SpecTwin SpecSave ListLemmas ValueLemmas OrderProof OrderHistory HistoryProof CompareProof CompareClaims PartsProof SortProof ContainProof TwinProof.

(** *** The relation *)
Definition bound (n i : Z) (kvs : list (bytes * (Z * V))) : Prop :=
  Forall (fun e => fst (snd e) <= i) kvs /\ 0 <= i <= n /\ Z.of_nat (List.length kvs) <= n.
Definition inorder (kvs kvs' : list (bytes * (Z * V))) : Prop :=
  forall k1 k2 a x b y a' x' b' y', k1 <> k2 ->
  alookup k1 kvs = Some (a, x) -> alookup k2 kvs = Some (b, y) -> alookup k1 kvs' = Some (a', x') -> alookup k2 kvs' = Some (b', y') ->
  a < b /\ a' < b' \/ b < a /\ b' < a'.
Inductive abreast (n : Z) : V -> V -> Prop :=
| AB_null : abreast n VNull VNull
| AB_bool b : abreast n (VBool b) (VBool b)
| AB_str s : abreast n (VStr s) (VStr s)
| AB_num a b s : s <> [] -> abreast n (VNum a s) (VNum b s)
| AB_arr l l' : Forall2 (abreast n) l l' -> abreast n (VArr l) (VArr l')
| AB_obj i kvs lo i' kvs' lo' :
    NoDup (akeys kvs) -> NoDup (akeys kvs') ->
    (forall k id x, alookup k kvs = Some (id, x) -> exists id' y, alookup k kvs' = Some (id', y) /\ abreast n x y) ->
    (forall k, alookup k kvs = None -> alookup k kvs' = None) ->
    inorder kvs kvs' -> bound n i kvs -> bound n i' kvs' ->
    abreast n (VObj i kvs lo) (VObj i' kvs' lo').
Inductive obr (n : Z) : option (Z * V) -> option (Z * V) -> Prop :=
| OB_none : obr n None None
| OB_some id x id' y : abreast n x y -> obr n (Some (id, x)) (Some (id', y)).
Definition mbr (n i : Z) (kvs : list (bytes * (Z * V))) (i' : Z) (kvs' : list (bytes * (Z * V))) : Prop :=
  NoDup (akeys kvs) /\ NoDup (akeys kvs') /\ (forall k, obr n (alookup k kvs) (alookup k kvs')) /\
  inorder kvs kvs' /\ bound n i kvs /\ bound n i' kvs'.

Lemma br_obj n i kvs lo w : abreast n (VObj i kvs lo) w <-> exists i' kvs' lo', w = VObj i' kvs' lo' /\ mbr n i kvs i' kvs'.
Proof.
  split.
  - intros H. inversion H as [| | | | |? ? ? i' kvs' lo' N N' K K0 O B B']; subst. exists i', kvs', lo'. split; [reflexivity|].
    split; [exact N|]. split; [exact N'|]. split; [|auto]. intros k. destruct (alookup k kvs) as [[id x]|] eqn:E1.
    + destruct (K _ _ _ E1) as (id' & y & -> & Ha). now constructor.
    + rewrite (K0 _ E1). constructor.
  - intros (i' & kvs' & lo' & -> & N & N' & K & O & B & B'). constructor; try assumption.
    + intros k id x E1. specialize (K k). rewrite E1 in K. inversion K; subst. eauto.
    + intros k E1. specialize (K k). rewrite E1 in K. now inversion K.
Qed.
Lemma br_mk n i kvs lo i' kvs' lo' : mbr n i kvs i' kvs' -> abreast n (VObj i kvs lo) (VObj i' kvs' lo').
Proof. intros H. apply br_obj. now exists i', kvs', lo'. Qed.

Lemma bound_look n i kvs k a x : bound n i kvs -> alookup k kvs = Some (a, x) -> a <= i.
Proof. intros (H & _) L. apply alookup_In in L. rewrite Forall_forall in H. exact (H _ L). Qed.
Lemma bound_le n m i kvs : n <= m -> bound n i kvs -> bound m i kvs.
Proof. intros Hm (A & B & C). repeat split; try assumption; lia. Qed.
Lemma br_le n m v : n <= m -> forall w, abreast n v w -> abreast m v w.
Proof.
  intros Hm. induction v as [|s|a src|i kvs lo IH|l IH|b| | |] using V_ind'; intros w H; try (inversion H; subst; now constructor).
  - inversion H as [| | | | |? ? ? i' kvs' lo' N N' K K0 O B B']; subst. constructor; eauto using bound_le.
    intros k id x L. destruct (K _ _ _ L) as (id' & y & A1 & A2). exists id', y. split; [exact A1|]. rewrite Forall_forall in IH.
    apply (IH _ (alookup_In _ _ _ L)). exact A2.
  - inversion H as [| | | |? l' F|]; subst. constructor. clear H. induction F; constructor; inversion IH; subst; auto.
Qed.

Lemma aset_all {A} (P : bytes * A -> Prop) k e (l : list (bytes * A)) : (forall k', P (k', e)) -> Forall P l -> Forall P (aset k e l).
Proof.
  intros He. induction 1 as [|[k' e'] l H Hl IH]; cbn [aset]; [now repeat constructor|]. destruct (beqb k k'); constructor; auto.
Qed.
Lemma aset_length_same {A} k (e e0 : A) (l : list (bytes * A)) : alookup k l = Some e0 -> List.length (aset k e l) = List.length l.
Proof.
  induction l as [|[k' e'] l IH]; cbn [alookup aset]; [discriminate|]. destruct (beqb k k'); [reflexivity|]. intros H. cbn. now rewrite IH.
Qed.
Lemma aremove_all {A} (P : bytes * A -> Prop) k (l : list (bytes * A)) : Forall P l -> Forall P (aremove k l).
Proof. rewrite aremove_filter. apply Forall_filter. Qed.
Lemma aremove_length {A} k (l : list (bytes * A)) : (List.length (aremove k l) <= List.length l)%nat.
Proof. induction l as [|[k' x] l IH]; cbn [aremove]; [lia|]. destruct (beqb k k'); cbn [List.length]; lia. Qed.

(** A child in its place. *)
Lemma mbr_keep n i kvs i' kvs' k id x id' y c d : mbr n i kvs i' kvs' -> alookup k kvs = Some (id, x) -> alookup k kvs' = Some (id', y) ->
  abreast n c d -> mbr n i (aset k (id, c) kvs) i' (aset k (id', d) kvs').
Proof.
  intros (N & N' & K & O & B & B') L L' Hc. split; [now apply aset_names|]. split; [now apply aset_names|]. split; [|split; [|split]].
  - intros k0. destruct (beqb_spec k0 k) as [->|Hn]; [rewrite !alookup_aset_same; now constructor|].
    rewrite !alookup_aset_other by assumption. apply K.
  - intros k1 k2 a1 x1 a2 x2 b1 y1 b2 y2 Hk. destruct (beqb_spec k1 k) as [->|H1]; destruct (beqb_spec k2 k) as [->|H2]; try contradiction;
      rewrite ?alookup_aset_same, ?alookup_aset_other by assumption; intros E1 E2 E3 E4.
    + injection E1 as <- <-. injection E3 as <- <-. exact (O _ _ _ _ _ _ _ _ _ _ Hk L E2 L' E4).
    + injection E2 as <- <-. injection E4 as <- <-. exact (O _ _ _ _ _ _ _ _ _ _ Hk E1 L E3 L').
    + exact (O _ _ _ _ _ _ _ _ _ _ Hk E1 E2 E3 E4).
  - pose proof (bound_look _ _ _ _ _ _ B L) as Hi. destruct B as (B1 & B2 & B3). split; [apply aset_all; [intros; exact Hi|exact B1]|]. split; [exact B2|].
    now rewrite (aset_length_same _ _ _ _ L).
  - pose proof (bound_look _ _ _ _ _ _ B' L') as Hi. destruct B' as (B1 & B2 & B3). split; [apply aset_all; [intros; exact Hi|exact B1]|]. split; [exact B2|].
    now rewrite (aset_length_same _ _ _ _ L').
Qed.
(** A member set anew. *)
Lemma bound_set n i kvs k c : n + 1 < two32 -> bound n i kvs -> bound (n + 1) (wrap_u32 (i + 1)) (aset k (wrap_u32 (i + 1), c) kvs) /\ wrap_u32 (i + 1) = i + 1.
Proof.
  intros Hn (A & B & C). assert (Ew : wrap_u32 (i + 1) = i + 1) by (unfold wrap_u32; apply Z.mod_small; lia). rewrite Ew. split; [|reflexivity].
  split; [apply aset_all; [intros; cbn; lia|]; revert A; apply Forall_impl; intros; lia|]. split; [lia|].
  pose proof (length_aset k (i + 1, c) kvs). lia.
Qed.
Lemma mbr_set n i kvs i' kvs' k c d : n + 1 < two32 -> mbr n i kvs i' kvs' -> abreast (n + 1) c d ->
  mbr (n + 1) (wrap_u32 (i + 1)) (aset k (wrap_u32 (i + 1), c) kvs) (wrap_u32 (i' + 1)) (aset k (wrap_u32 (i' + 1), d) kvs').
Proof.
  intros Hs (N & N' & K & O & B & B') Hc. destruct (bound_set n i kvs k c Hs B) as [G1 Ew]. destruct (bound_set n i' kvs' k d Hs B') as [G2 Ew'].
  split; [now apply aset_names|]. split; [now apply aset_names|]. split; [|split; [|split; assumption]].
  - intros k0. destruct (beqb_spec k0 k) as [->|Hn]; [rewrite !alookup_aset_same; now constructor|].
    rewrite !alookup_aset_other by assumption. specialize (K k0). inversion K; subst; constructor. eapply br_le; [|eassumption]. lia.
  - intros k1 k2 a1 x1 a2 x2 b1 y1 b2 y2 Hk. destruct (beqb_spec k1 k) as [->|H1]; destruct (beqb_spec k2 k) as [->|H2]; try contradiction;
      rewrite ?alookup_aset_same, ?alookup_aset_other by assumption; intros E1 E2 E3 E4.
    + injection E1 as <- <-. injection E3 as <- <-. pose proof (bound_look _ _ _ _ _ _ B E2). pose proof (bound_look _ _ _ _ _ _ B' E4). right. lia.
    + injection E2 as <- <-. injection E4 as <- <-. pose proof (bound_look _ _ _ _ _ _ B E1). pose proof (bound_look _ _ _ _ _ _ B' E3). left. lia.
    + exact (O _ _ _ _ _ _ _ _ _ _ Hk E1 E2 E3 E4).
Qed.
Lemma mbr_aremove n i kvs i' kvs' k : mbr n i kvs i' kvs' -> mbr n i (aremove k kvs) i' (aremove k kvs').
Proof.
  intros (N & N' & K & O & B & B'). split; [now apply aremove_keys|]. split; [now apply aremove_keys|]. split; [|split; [|split]].
  - intros k0. destruct (beqb_spec k0 k) as [->|Hn]; [rewrite !alookup_aremove_same; constructor|].
    rewrite !alookup_aremove_other by assumption. apply K.
  - intros k1 k2 a1 x1 a2 x2 b1 y1 b2 y2 Hk. destruct (beqb_spec k1 k) as [->|H1]; [rewrite alookup_aremove_same; discriminate|].
    destruct (beqb_spec k2 k) as [->|H2]; [rewrite !alookup_aremove_same; discriminate|].
    rewrite !alookup_aremove_other by assumption. now apply O.
  - destruct B as (B1 & B2 & B3). split; [now apply aremove_all|]. split; [exact B2|]. pose proof (aremove_length k kvs). lia.
  - destruct B' as (B1 & B2 & B3). split; [now apply aremove_all|]. split; [exact B2|]. pose proof (aremove_length k kvs'). lia.
Qed.

(** *** Places *)
Definition obrv (n : Z) (a b : option V) : Prop :=
  match a, b with Some x, Some y => abreast n x y | None, None => True | _, _ => False end.
Section Places.
Variable n : Z.
Lemma child_br v w h : abreast n v w -> obrv n (child_at v h) (child_at w h).
Proof.
  intros H. destruct v as [|s|j src|i kvs lo|l|b| | |]; try (inversion H; subst; exact I).
  - apply br_obj in H as (i' & kvs' & lo' & -> & _ & _ & K & _). destruct h as [j|k]; [exact I|]. cbn [child_at].
    specialize (K k). inversion K; subst; cbn; auto.
  - inversion H as [| | | |? l' F|]; subst. destruct h as [j|k]; [|exact I]. cbn [child_at]. apply (Forall2_nth _ _ _ F).
Qed.
Lemma put_child_br v w h c d : abreast n v w -> abreast n c d -> abreast n (put_child v h c) (put_child w h d).
Proof.
  intros H Hc. destruct v as [|s|j src|i kvs lo|l|b| | |]; try (inversion H; subst; destruct h; exact H).
  - pose proof H as H0. apply br_obj in H as (i' & kvs' & lo' & -> & M). destruct h as [j|k]; [exact H0|]. cbn [put_child].
    destruct M as (N & N' & K & O & B0 & B0'). pose proof (K k) as Kk. inversion Kk as [E1 E2|id x id' y Ha E1 E2]; [exact H0|].
    apply br_mk. eapply mbr_keep; eauto. now repeat (split; [assumption|]).
  - inversion H as [| | | |? l' F|]; subst. destruct h as [j|k]; [|exact H]. cbn [put_child]. constructor. now apply Forall2_set_nth.
Qed.
Lemma sub_br hs : forall v w, abreast n v w -> obrv n (sub_at v hs) (sub_at w hs).
Proof.
  induction hs as [|h hs IH]; intros v w H; cbn [sub_at]; [exact H|].
  pose proof (child_br v w h H) as K. destruct (child_at v h), (child_at w h); cbn in K; try contradiction; [now apply IH|exact I].
Qed.
Lemma put_at_br hs : forall v w c d, abreast n v w -> abreast n c d -> abreast n (put_at v hs c) (put_at w hs d).
Proof.
  induction hs as [|h hs IH]; intros v w c d H Hc; cbn [put_at]; [exact Hc|].
  pose proof (child_br v w h H) as K. destruct (child_at v h), (child_at w h); cbn in K; try contradiction; [|exact H].
  apply put_child_br; [exact H|]. now apply IH.
Qed.
End Places.

Section Calls.
Variable E : Env.
Variable n : Z.
Hypothesis Hn0 : 0 <= n.
Hypothesis Hs32 : n + 1 < two32.
Lemma br_up v w : abreast n v w -> abreast (n + 1) v w.
Proof using. apply br_le. lia. Qed.
Lemma brs_up l l' : Forall2 (abreast n) l l' -> Forall2 (abreast (n + 1)) l l'.
Proof using. induction 1; constructor; auto using br_up. Qed.

Inductive ans : res V -> res V -> Prop :=
| AN_ok x y : ans (Ok x) (Ok y)
| AN_err e : ans (Err e) (Err e)
| AN_panic : ans Panic Panic
| AN_fuel : ans Fuel Fuel.
(** The document afterwards and the answer. *)
Definition pair_br (m : Z) (a b : V * res V) : Prop := abreast m (fst a) (fst b) /\ ans (snd a) (snd b).
Definition pair_same {A} (a b : V * res A) : Prop := abreast n (fst a) (fst b) /\ snd a = snd b.

Ltac both := (split; cbn [fst snd]; [first [assumption|apply br_up; assumption]|constructor]).

Lemma find_child_br W W' v w p : abreast n v w -> pair_same (find_child E W false v p) (find_child E W' false w p).
Proof.
  intros H. destruct v as [|s|j src|i kvs lo|l|b| | |]; try (inversion H; subst; (split; [assumption|reflexivity])).
  - pose proof H as H0. apply br_obj in H as (i' & kvs' & lo' & -> & M). cbn [find_child].
    destruct (any_to_string p) as [k|e| |]; try (split; [assumption|reflexivity]).
    unfold find_key. destruct M as (N & N' & K & O & B0 & B0'). pose proof (K k) as Kk.
    destruct (alookup k kvs) as [[id x]|], (alookup k kvs') as [[id' y]|]; inversion Kk; subst; (split; [assumption|reflexivity]).
  - inversion H as [| | | |? l' F|]; subst. cbn [find_child]. split; [assumption|]. cbn [snd]. rewrite (Forall2_len _ _ _ F). reflexivity.
Qed.
Lemma locate_br W W' f : forall v w p o, abreast n v w -> pair_same (locate_f E W f false v p o) (locate_f E W' f false w p o).
Proof.
  induction f as [|f IH]; intros v w p o H; cbn [locate_f]; [split; [assumption|reflexivity]|].
  destruct (peel p o) as [[p' r]|]; [|split; [assumption|reflexivity]].
  destruct (find_child_br W W' v w p' H) as [A B]. destruct (find_child E W false v p') as [v1 h], (find_child E W' false w p') as [w1 h'].
  cbn [fst snd] in A, B. subst h'. destruct h as [h|e| |]; try (split; [assumption|reflexivity]).
  destruct r as [|q r]; [split; [assumption|reflexivity]|].
  pose proof (child_br n v1 w1 h A) as K. destruct (child_at v1 h) as [c|], (child_at w1 h) as [d|]; cbn in K; try contradiction; [|split; [assumption|reflexivity]].
  destruct (IH c d q r K) as [A' B']. destruct (locate_f E W f false c q r) as [c' t], (locate_f E W' f false d q r) as [d' t'].
  cbn [fst snd] in A', B'. subst t'. split; [|reflexivity]. cbn [fst]. now apply put_child_br.
Qed.
Lemma get_br W W' v w p o : abreast n v w -> pair_br n (get E W false v p o) (get E W' false w p o).
Proof.
  intros H. unfold get, locate. destruct (locate_br W W' (S (psum (p :: o))) v w p o H) as [A B].
  destruct (locate_f E W _ false v p o) as [v1 r], (locate_f E W' _ false w p o) as [w1 r']. cbn [fst snd] in A, B. subst r'.
  split; [exact A|]. cbn [snd]. destruct r as [hs|e| |]; cbn [rbind]; try constructor.
  pose proof (sub_br n hs v1 w1 A) as K. destruct (sub_at v1 hs), (sub_at w1 hs); cbn in K; try contradiction; now constructor.
Qed.

Lemma br_nil v w : abreast n v w -> is_nil v = false /\ is_nil w = false.
Proof. intros H. inversion H; subst; split; reflexivity. Qed.
Lemma br_there v w : abreast n v w -> not_exist v = false /\ not_exist w = false.
Proof. intros H. inversion H; subst; split; reflexivity. Qed.
Lemma br_init v w : abreast n v w -> uninitialized v = false /\ uninitialized w = false.
Proof. intros H. inversion H; subst; split; reflexivity. Qed.

Lemma set_to_object_br v w k c d : abreast n v w -> abreast (n + 1) c d ->
  (exists v' w', set_to_object E v k c = Ok v' /\ set_to_object E w k d = Ok w' /\ abreast (n + 1) v' w') \/
  (set_to_object E v k c = Panic /\ set_to_object E w k d = Panic).
Proof.
  intros H Hc. destruct v as [|s|j src|i kvs lo|l|b| | |]; try (inversion H; subst; right; (split; reflexivity)).
  apply br_obj in H as (i' & kvs' & lo' & -> & M). left. cbn [set_to_object]. do 2 eexists. split; [reflexivity|]. split; [reflexivity|].
  apply br_mk. now apply mbr_set.
Qed.
Lemma set_at_index_br l l' c d pos : Forall2 (abreast n) l l' -> abreast n c d ->
  match set_at_index l c pos, set_at_index l' d pos with
  | Ok a, Ok b => Forall2 (abreast n) a b | Err e, Err e' => e = e' | _, _ => False end.
Proof.
  intros F Hc. unfold set_at_index. rewrite <- (Forall2_len _ _ _ F).
  destruct (pos =? Z.of_nat (List.length l)); [apply Forall2_app; [assumption|now repeat constructor]|].
  destruct (pos_read (List.length l) pos) as [j|]; [now apply Forall2_set_nth|reflexivity].
Qed.
Lemma at_last_br v w c d p : abreast n v w -> abreast n c d -> pair_br (n + 1) (at_last_param E v c p) (at_last_param E w d p).
Proof.
  intros H Hc. destruct v as [|s|j src|i kvs lo|l|b| | |]; try (inversion H; subst; cbn [at_last_param]; both).
  - pose proof H as H0. apply br_obj in H as (i' & kvs' & lo' & -> & M). cbn [at_last_param].
    destruct (any_to_string p) as [k|e| |]; try both.
    destruct (set_to_object_br _ _ k c d H0 (br_up _ _ Hc)) as [(v' & w' & -> & -> & A)|[-> ->]]; [|both]. split; [exact A|]. now constructor.
  - inversion H as [| | | |? l' F|]; subst. cbn [at_last_param]. destruct (any_to_int p) as [pos|e| |]; try both.
    pose proof (set_at_index_br l l' c d pos F Hc) as K.
    destruct (set_at_index l c pos), (set_at_index l' d pos); try contradiction; [|subst; both].
    split; cbn [fst snd]; constructor. now apply brs_up.
Qed.
Lemma new_container_br q : match new_container q with Ok c => abreast n c c | _ => True end.
Proof.
  unfold new_container. destruct (any_to_string q); [|destruct (any_to_int q) as [i| | |]; try exact I; destruct (i =? 0); [|exact I]; repeat constructor..].
  apply br_mk. split; [constructor|]. split; [constructor|]. split; [intros k; constructor|]. split; [discriminate|].
  split; (split; [constructor|]; cbn; lia).
Qed.
Lemma nth_br l l' j : Forall2 (abreast n) l l' -> (j < List.length l)%nat -> abreast n (nth j l VNil) (nth j l' VNil).
Proof.
  intros F. revert j. induction F as [|x y l l' H F IH]; intros j Hn; cbn [List.length] in Hn; [lia|].
  destruct j as [|j]; [exact H|]. cbn [nth]. apply IH. lia.
Qed.
Lemma pos_read_in le pos j : pos_read le pos = Some j -> (j < le)%nat.
Proof.
  unfold pos_read. destruct (Z.eqb_spec (Z.of_nat le) 0); [discriminate|]. destruct (Z.ltb_spec pos 0).
  - destruct (Z.ltb_spec (pos + Z.of_nat le) 0); [discriminate|]. intros [= <-]. lia.
  - destruct (Z.leb_spec (Z.of_nat le) pos); [discriminate|]. intros [= <-]. lia.
Qed.

Lemma set_br f : forall v w c d p o, abreast n v w -> abreast n c d -> pair_br (n + 1) (set_f E f v c p o) (set_f E f w d p o).
Proof.
  induction f as [|f IH]; intros v w c d p o H Hc; cbn [set_f]; [both|].
  destruct (peel p o) as [[p' r]|]; [|both].
  destruct (br_init _ _ H) as [-> ->]. destruct (br_init _ _ Hc) as [-> ->].
  destruct r as [|q r]; [now apply at_last_br|].
  destruct v as [|s|j src|i kvs lo|l|b| | |]; try (inversion H; subst; both).
  - pose proof H as H0. apply br_obj in H as (i' & kvs' & lo' & -> & M).
    destruct (any_to_string p') as [k|e| |]; try both.
    pose proof M as (N & N' & K & O & B0 & B0'). pose proof (K k) as Kk. inversion Kk as [E1 E2|id x id' y Ha E1 E2].
    + pose proof (new_container_br q) as Hn. destruct (new_container q) as [x|e| |]; try both.
      destruct (IH x x c d q r Hn Hc) as [A B]. destruct (set_f E f x c q r) as [x1 r1], (set_f E f x d q r) as [x2 r2].
      cbn [fst snd] in A, B. inversion B; subst; try both.
      destruct (set_to_object_br _ _ k x1 x2 H0 A) as [(v' & w' & -> & -> & A')|[-> ->]]; [|both]. split; [exact A'|]. now constructor.
    + destruct (IH x y c d q r Ha Hc) as [A B]. destruct (set_f E f x c q r) as [x1 r1], (set_f E f y d q r) as [x2 r2].
      cbn [fst snd] in A, B. split; [|exact B]. apply br_mk. destruct (proj1 (br_obj _ _ _ _ _) (br_up _ _ H0)) as (? & ? & ? & [= <- <- <-] & M1). eapply mbr_keep; eauto.
  - inversion H as [| | | |? l' F|]; subst. destruct (any_to_int p') as [pos|e| |]; try both.
    rewrite <- (Forall2_len _ _ _ F). destruct (pos_read (List.length l) pos) as [j|] eqn:En.
    + apply pos_read_in in En. pose proof (nth_br _ _ _ F En) as Hx.
      destruct (IH _ _ c d q r Hx Hc) as [A B]. destruct (set_f E f (nth j l VNil) c q r) as [x1 r1], (set_f E f (nth j l' VNil) d q r) as [x2 r2].
      cbn [fst snd] in A, B. split; [|exact B]. constructor. apply Forall2_set_nth; [exact A|now apply brs_up].
    + pose proof (new_container_br q) as Hn. destruct (new_container q) as [x|e| |]; try both.
      destruct (IH x x c d q r Hn Hc) as [A B]. destruct (set_f E f x c q r) as [x1 r1], (set_f E f x d q r) as [x2 r2].
      cbn [fst snd] in A, B. inversion B; subst; try both.
      split; cbn [fst snd]; constructor. apply Forall2_app; [now apply brs_up|now repeat constructor].
Qed.
Lemma set_at_br v w c d p o : abreast n v w -> abreast n c d -> pair_br (n + 1) (set_at E v (arg_v c) p o) (set_at E w (arg_v d) p o).
Proof. intros H Hc. unfold set_at, arg_v. cbn [fst snd]. now apply set_br. Qed.

Lemma insert_last_br af v w c d p : abreast n v w -> abreast n c d -> pair_br n (insert_last af v c p) (insert_last af w d p).
Proof.
  intros H Hc. destruct v as [|s|j src|i kvs lo|l|b| | |]; try (inversion H; subst; both).
  inversion H as [| | | |? l' F|]; subst. cbn [insert_last]. destruct (any_to_int p) as [pos|e| |]; try both.
  rewrite <- (Forall2_len _ _ _ F).
  destruct (if af then _ else _) as [j|]; [|both]. split; [|now constructor]. cbn [fst]. constructor. unfold insert_to_arr.
  apply Forall2_app; [now apply Forall2_firstn|]. constructor; [assumption|now apply Forall2_skipn].
Qed.
Lemma insert_br W W' af f : forall v w c d p o, abreast n v w -> abreast n c d ->
  pair_br n (insert_f E W f af v c p o) (insert_f E W' f af w d p o).
Proof.
  induction f as [|f IH]; intros v w c d p o H Hc; cbn [insert_f]; [both|].
  destruct (peel p o) as [[p' r]|]; [|both].
  destruct (br_nil _ _ H) as [-> ->]. destruct (br_there _ _ H) as [-> ->].
  destruct r as [|q r]; [now apply insert_last_br|].
  unfold locate. destruct (locate_br W W' (S (psum (p' :: removelast (q :: r)))) v w p' (removelast (q :: r)) H) as [A B].
  destruct (locate_f E W _ false v p' _) as [v1 t], (locate_f E W' _ false w p' _) as [w1 t']. cbn [fst snd] in A, B. subst t'.
  destruct t as [hs|e| |]; try both.
  pose proof (sub_br n hs v1 w1 A) as K. destruct (sub_at v1 hs) as [x|], (sub_at w1 hs) as [y|]; cbn in K; try contradiction; [|both].
  inversion K as [| | | |l l' F|]; subst; try both.
  destruct (IH _ _ c d (last (q :: r) PNil) [] K Hc) as [A' B'].
  destruct (insert_f E W f af (VArr l) c _ []) as [x1 r1], (insert_f E W' f af (VArr l') d _ []) as [x2 r2].
  cbn [fst snd] in A', B'. split; [|exact B']. cbn [fst]. now apply put_at_br.
Qed.
Lemma append_br W W' front v w c d ps : abreast n v w -> abreast n c d ->
  pair_br (n + 1) (append_at E W front v (arg_v c) ps) (append_at E W' front w (arg_v d) ps).
Proof.
  intros H Hc. unfold append_at, arg_v. cbn [fst].
  destruct (br_nil _ _ H) as [-> ->]. destruct (br_there _ _ H) as [-> ->].
  assert (Hadd : forall l l', Forall2 (abreast n) l l' -> abreast n (VArr (if front then c :: l else l ++ [c])) (VArr (if front then d :: l' else l' ++ [d]))).
  { intros l l' F. constructor. destruct front; [now constructor|]. apply Forall2_app; [assumption|now repeat constructor]. }
  destruct (joint_params ps) as [[|p r]|]; [| |both].
  - inversion H as [| | | |l l' F|]; subst; try both. split; [now apply br_up, Hadd|now constructor].
  - unfold locate. destruct (locate_br W W' (S (psum (p :: r))) v w p r H) as [A B].
    destruct (locate_f E W _ false v p _) as [v1 t], (locate_f E W' _ false w p _) as [w1 t']. cbn [fst snd] in A, B. subst t'.
    destruct t as [hs|e| |]; try both.
    + pose proof (sub_br n hs v1 w1 A) as K. destruct (sub_at v1 hs) as [x|], (sub_at w1 hs) as [y|]; cbn in K; try contradiction; [|both].
      inversion K as [| | | |l l' F|]; subst; try both.
      split; [|now constructor]. cbn [fst]. apply br_up, put_at_br; [assumption|now apply Hadd].
    + destruct e; try both.
      assert (Hc1 : abreast n (VArr [c]) (VArr [d])) by (repeat constructor; assumption).
      destruct (set_at_br v1 w1 _ _ p r A Hc1) as [A' B']. unfold arg_v in *.
      destruct (set_at E v1 _ p r) as [v2 r2], (set_at E w1 _ p r) as [w2 r2']. cbn [fst snd] in A', B'.
      inversion B'; subst; (split; [exact A'|now constructor]).
Qed.
Lemma delete_here_br W W' v w p : abreast n v w -> pair_same (delete_here E W false v p) (delete_here E W' false w p).
Proof.
  intros H. destruct v as [|s|j src|i kvs lo|l|b| | |]; try (inversion H; subst; (split; [assumption|reflexivity])).
  - pose proof H as H0. apply br_obj in H as (i' & kvs' & lo' & -> & M). cbn [delete_here].
    destruct (any_to_string p) as [k|e| |]; try (split; [assumption|reflexivity]).
    unfold del_from_object. pose proof M as (N & N' & K & O & B0 & B0'). pose proof (K k) as Kk.
    destruct (alookup k kvs) as [[id x]|], (alookup k kvs') as [[id' y]|]; inversion Kk; subst; (split; [|reflexivity]); [|assumption].
    cbn [fst]. apply br_mk. now apply mbr_aremove.
  - inversion H as [| | | |? l' F|]; subst. cbn [delete_here]. destruct (any_to_int p) as [pos|e| |]; try (split; [assumption|reflexivity]).
    rewrite <- (Forall2_len _ _ _ F). destruct (pos_read _ pos) as [j|]; (split; [|reflexivity]); [|assumption].
    cbn [fst]. constructor. unfold delete_in_arr. apply Forall2_app; [now apply Forall2_firstn|now apply Forall2_skipn].
Qed.
Lemma delete_br W W' f : forall v w p o, abreast n v w -> pair_same (delete_f E W f false v p o) (delete_f E W' f false w p o).
Proof.
  induction f as [|f IH]; intros v w p o H; cbn [delete_f]; [split; [assumption|reflexivity]|].
  destruct (peel p o) as [[p' r]|]; [|split; [assumption|reflexivity]].
  destruct r as [|q r]; [now apply delete_here_br|].
  unfold locate. destruct (locate_br W W' (S (psum (p' :: removelast (q :: r)))) v w p' (removelast (q :: r)) H) as [A B].
  destruct (locate_f E W _ false v p' _) as [v1 t], (locate_f E W' _ false w p' _) as [w1 t']. cbn [fst snd] in A, B. subst t'.
  destruct t as [hs|e| |]; try (split; [assumption|reflexivity]).
  pose proof (sub_br n hs v1 w1 A) as K. destruct (sub_at v1 hs) as [x|], (sub_at w1 hs) as [y|]; cbn in K; try contradiction; [|split; [assumption|reflexivity]].
  destruct (IH x y (last (q :: r) PNil) [] K) as [A' B'].
  destruct (delete_f E W f false x _ []) as [x1 r1], (delete_f E W' f false y _ []) as [x2 r2].
  cbn [fst snd] in A', B'. subst. split; [|reflexivity]. cbn [fst]. now apply put_at_br.
Qed.

End Calls.
