(** The laws of edits in sequence (C62). *)
From Verif Require Import Base Utf8 Float64 Value Opt Marshal ListLemmas ValueLemmas Access Path Edit
  SpecPath SpecReach PathProof EditProof SetProof SetClaims SetExact EditClaims SpecLaws LawsProof.

Lemma put_any c d ps : forall o a, put o ps c = Some a -> exists b, put o ps d = Some b.
Proof.
  induction ps as [|p r IH]; intros o a H; [cbn; eauto|]. cbn [put] in H |- *.
  destruct (match o with Some v => Some v | None => fresh p end) as [v|]; [|discriminate].
  destruct (resolve v p (no_more r)) as [h|]; [|discriminate].
  destruct (put (child_at v h) r c) as [x|] eqn:Ex; [|discriminate].
  destruct (IH _ _ Ex) as (b & Eb). rewrite Eb. cbn. eauto.
Qed.

Lemma set_init E v c p ps v' x : Forall plain (p :: ps) -> set_c E v c p ps = (v', Ok x) -> uninitialized c = false.
Proof.
  intros HP H. destruct ps as [|q r]; [rewrite set_c_one in H by exact (Forall_inv HP)|rewrite set_c_more in H by exact (Forall_inv HP)];
    (destruct (uninitialized v); [discriminate|]); (destruct (uninitialized c); [discriminate|reflexivity]).
Qed.

Lemma set_same E c ps p v v' w : maps_ok v -> maps_ok v' -> maps_ok c -> Forall plain (p :: ps) -> uninitialized c = false ->
  same_doc v v' -> put (Some v') (p :: ps) c = Some w -> exists u, set_at E v (arg_v c) p ps = (u, Ok c) /\ same_doc u w.
Proof.
  intros M M' Mc HP Hc HS Hw.
  pose proof (put_same (p :: ps) (Some v) (Some v') c (some_maps M) (some_maps M') Mc (orel_some _ _ _ HS)) as R. rewrite Hw in R.
  destruct (put (Some v) (p :: ps) c) as [w0|] eqn:E0; inversion R; subst.
  destruct (put_set E c Hc Mc ps p v w0 HP M E0) as (u & Hu & Su). exists u. rewrite set_at_set_c. split; [exact Hu|].
  eapply same_trans; eassumption.
Qed.

Theorem set_twice E v c d p ps v1 x : maps_ok v -> maps_ok c -> maps_ok d -> d <> VNil -> d <> VNotExist ->
  Forall plain (p :: ps) -> reach_ok v (p :: ps) -> set_at E v (arg_v c) p ps = (v1, Ok x) ->
  exists v2 v2', set_at E v1 (arg_v d) p ps = (v2, Ok d) /\ set_at E v (arg_v d) p ps = (v2', Ok d) /\ same_doc v2 v2'.
Proof.
  intros M Mc Md D1 D2 HP R H. rewrite set_at_set_c in H. pose proof (set_init _ _ _ _ _ _ _ HP H) as Hc.
  assert (Hd : uninitialized d = false) by (destruct d; try reflexivity; congruence).
  destruct (set_put E c Hc ps p v v1 x HP H (reach_of _ _ R)) as (a & Ea).
  destruct (put_set E c Hc Mc ps p v a HP M Ea) as (v1' & H' & S1). rewrite H' in H. injection H as -> _.
  destruct (put_any c d _ _ _ Ea) as (b & Eb).
  pose proof (put_put (p :: ps) (Some v) c d a (some_maps M) Mc Md Ea) as RP. rewrite Eb in RP.
  destruct (put (Some a) (p :: ps) d) as [b'|] eqn:Eb'; inversion RP; subst.
  pose proof (set_maps _ _ _ _ _ _ _ M Mc HP H') as M1.
  pose proof (put_maps _ _ _ _ (some_maps M) Mc Ea) as Ma.
  destruct (set_same E d ps p v1 a b' M1 Ma Md HP Hd S1 Eb') as (v2 & E2 & S2).
  destruct (set_same E d ps p v v b M M Md HP Hd (same_refl v) Eb) as (v2' & E2' & S2').
  exists v2, v2'. split; [exact E2|]. split; [exact E2'|].
  eapply same_trans; [exact S2|]. eapply same_trans; [eassumption|]. now apply same_sym.
Qed.

Theorem set_there E W v c p ps : maps_ok v -> Forall plain (p :: ps) -> c <> VNil -> c <> VNotExist ->
  get E W false v p ps = (v, Ok c) -> exists v', set_at E v (arg_v c) p ps = (v', Ok c) /\ same_doc v' v.
Proof.
  intros M HP C1 C2 H. apply (get_leads E W v p ps c M HP) in H as (hs & Hl).
  assert (Hc : uninitialized c = false) by (destruct c; try reflexivity; congruence).
  destruct (put_there _ _ _ _ M Hl) as (w & Ew & Sw).
  destruct (set_same E c ps p v v w M M (leads_maps _ _ _ _ Hl M) HP Hc (same_refl v) Ew) as (u & Hu & Su).
  exists u. split; [exact Hu|]. eapply same_trans; eassumption.
Qed.

(** *** Independent writes *)
Lemma put_reach0 qs : forall o d b, Forall from_start qs -> put o qs d = Some b -> reach o qs.
Proof.
  induction qs as [|q s IH]; intros [v|] d b FS H; try exact I. rewrite put_cons in H.
  destruct (resolve v q (no_more s)) as [h|] eqn:Eh; [|discriminate].
  destruct (put (child_at v h) s d) as [x|] eqn:Ex; [|discriminate]. split.
  - intros l i -> Hi. left. pose proof (resolve_bound _ _ _ _ _ (Forall_inv FS) Hi Eh). lia.
  - intros h' b' Hr. rewrite (resolve_hop _ _ _ _ (Forall_inv FS) Hr), <- (resolve_hop _ _ _ _ (Forall_inv FS) Eh).
    exact (IH _ _ _ (Forall_inv_tail FS) Ex).
Qed.

Lemma resolve_index v p b h : resolve v p b = Some h -> kind_of v = Some false -> exists i, index_value p = Some i.
Proof. destruct v; try discriminate. cbn. destruct (index_value p); [eauto|discriminate]. Qed.

Lemma put_reach ps : forall qs o c d a b, Forall from_start ps -> Forall from_start qs -> unrelated (place_of ps) (place_of qs) ->
  put o ps c = Some a -> put o qs d = Some b -> reach (Some a) qs.
Proof.
  induction ps as [|p r IH]; intros [|q s] o c d a b FP FQ U Ha Hb;
    try (exfalso; exact (unrelated_left _ U)); try (exfalso; exact (unrelated_right _ U)).
  cbn [put] in Ha, Hb.
  destruct (match o with Some v => Some v | None => fresh p end) as [v|] eqn:Ev; [|discriminate].
  destruct (resolve v p (no_more r)) as [h|] eqn:Eh; [|discriminate].
  destruct (put (child_at v h) r c) as [x|] eqn:Ex; [|discriminate]. injection Ha as <-.
  destruct (match o with Some v => Some v | None => fresh q end) as [v'|] eqn:Ev'; [|discriminate].
  destruct (resolve v' q (no_more s)) as [h'|] eqn:Eh'; [|discriminate].
  destruct (put (child_at v' h') s d) as [y|] eqn:Ey; [|discriminate]. injection Hb as <-.
  pose proof (resolve_fits _ _ _ _ Eh) as F. pose proof (resolve_fits _ _ _ _ Eh') as F'.
  pose proof (resolve_kind _ _ _ _ Eh') as K'.
  assert (D : v = v' \/ kind_of v <> kind_of v').
  { destruct o as [v0|]; [left; congruence|].
    apply fresh_kind in Ev as (_ & [-> | ->]); apply fresh_kind in Ev' as (_ & [-> | ->]); auto; right; discriminate. }
  destruct D as [<-|D].
  - split.
    + intros l i El Hi. destruct v as [ |s0|nn src|i0 kvs lo|l0|b0| | | ], h as [n|k]; try contradiction F; try discriminate El.
      cbn [place] in El. injection El as <-. left. pose proof (resolve_bound _ _ _ _ _ (Forall_inv FQ) Hi Eh') as B.
      rewrite (place_length l0 n x F). lia.
    + intros g b' Hr. rewrite (resolve_hop _ _ _ _ (Forall_inv FQ) Hr), <- (resolve_hop _ _ _ _ (Forall_inv FQ) Eh').
      rewrite child_place by exact F. destruct (hop_dec h' h) as [->|N].
      * pose proof (resolve_hop _ _ _ _ (Forall_inv FP) Eh) as Hp. pose proof (resolve_hop _ _ _ _ (Forall_inv FQ) Eh') as Hq.
        apply (IH s (child_at v h) c d x y); try assumption; try (now apply (Forall_inv_tail)); eauto using Forall_inv_tail.
        apply (unrelated_cons _ _ _ _ U). congruence.
      * exact (put_reach0 _ _ _ _ (Forall_inv_tail FQ) Ey).
  - split.
    + intros l i El Hi. exfalso. apply D. rewrite K'.
      rewrite <- (place_kind v h x), El. destruct q; cbn in Hi |- *; try discriminate Hi; reflexivity.
    + intros g b' Hr. exfalso. apply D. rewrite K', <- (resolve_kind _ _ _ _ Hr). now rewrite place_kind.
Qed.

Lemma reach_same ps : forall o o', (forall v, o = Some v -> maps_ok v) -> (forall v, o' = Some v -> maps_ok v) ->
  orel same_doc o o' -> reach o ps -> reach o' ps.
Proof.
  induction ps as [|p r IH]; intros o o' Mo Mo' R H; [destruct o'; exact I|]. inversion R as [|v v' HS]; subst; [exact I|].
  specialize (Mo _ eq_refl). specialize (Mo' _ eq_refl). destruct H as (H1 & H2). split.
  - intros l' i -> Hi. apply same_sym, same_arr_inv in HS as (l & -> & HF). specialize (H1 l i eq_refl Hi).
    unfold index_kept in *. rewrite (same_len _ _ HF). destruct H1 as [B|(B & ->)]; [now left|]. right. split; [exact B|]. now inversion HF.
  - intros h b Hr. rewrite <- (resolve_same _ _ _ _ HS) in Hr. destruct (same_kids _ _ Mo Mo' HS) as (_ & K).
    apply (IH (child_at v h)); [exact (fun y E => child_maps v h y Mo E)|exact (fun y E => child_maps v' h y Mo' E)|apply K|exact (H2 _ _ Hr)].
Qed.

Theorem sets_commute E v c d p ps q qs v1 v2 v12 x1 x2 x12 : maps_ok v -> maps_ok c -> maps_ok d ->
  Forall plain (p :: ps) -> Forall plain (q :: qs) -> Forall from_start (p :: ps) -> Forall from_start (q :: qs) ->
  unrelated (place_of (p :: ps)) (place_of (q :: qs)) -> reach_ok v (p :: ps) -> reach_ok v (q :: qs) ->
  set_at E v (arg_v c) p ps = (v1, Ok x1) -> set_at E v (arg_v d) q qs = (v2, Ok x2) ->
  set_at E v1 (arg_v d) q qs = (v12, Ok x12) ->
  exists v21, set_at E v2 (arg_v c) p ps = (v21, Ok c) /\ same_doc v12 v21.
Proof.
  intros M Mc Md HP HQ FP FQ U RP RQ H1 H2 H12. rewrite set_at_set_c in H1, H2, H12.
  pose proof (set_init _ _ _ _ _ _ _ HP H1) as Hc. pose proof (set_init _ _ _ _ _ _ _ HQ H2) as Hd.
  destruct (set_put E c Hc ps p v v1 x1 HP H1 (reach_of _ _ RP)) as (a & Ea).
  destruct (put_set E c Hc Mc ps p v a HP M Ea) as (v1' & H1' & S1). rewrite H1' in H1. injection H1 as -> _.
  destruct (set_put E d Hd qs q v v2 x2 HQ H2 (reach_of _ _ RQ)) as (b & Eb).
  destruct (put_set E d Hd Md qs q v b HQ M Eb) as (v2' & H2' & S2). rewrite H2' in H2. injection H2 as -> _.
  pose proof (set_maps _ _ _ _ _ _ _ M Mc HP H1') as M1. pose proof (set_maps _ _ _ _ _ _ _ M Md HQ H2') as M2.
  pose proof (put_maps _ _ _ _ (some_maps M) Mc Ea) as Ma. pose proof (put_maps _ _ _ _ (some_maps M) Md Eb) as Mb.
  pose proof (put_reach _ _ _ _ _ _ _ FP FQ U Ea Eb) as RA.
  assert (R1 : reach (Some v1) (q :: qs)).
  { apply (reach_same _ (Some a) (Some v1) (some_maps Ma) (some_maps M1)); [constructor; now apply same_sym|exact RA]. }
  destruct (set_put E d Hd qs q v1 v12 x12 HQ H12 R1) as (w & Ew).
  destruct (put_set E d Hd Md qs q v1 w HQ M1 Ew) as (v12' & H12' & S12). rewrite H12' in H12. injection H12 as -> _.
  pose proof (put_same (q :: qs) (Some v1) (Some a) d (some_maps M1) (some_maps Ma) Md (orel_some _ _ _ S1)) as RS. rewrite Ew in RS.
  destruct (put (Some a) (q :: qs) d) as [w'|] eqn:Ew'; inversion RS; subst.
  pose proof (put_comm _ _ _ _ _ _ _ (some_maps M) Mc Md FP FQ U Ea Eb) as RC. rewrite Ew' in RC.
  destruct (put (Some b) (p :: ps) c) as [u|] eqn:Eu; inversion RC; subst.
  destruct (set_same E c ps p v2 b u M2 Mb Mc HP Hc S2 Eu) as (v21 & E21 & S21).
  exists v21. split; [exact E21|]. eapply same_trans; [exact S12|]. eapply same_trans; [eassumption|].
  eapply same_trans; [eassumption|]. now apply same_sym.
Qed.

(** *** Edits that undo each other *)
Lemma aset_twice {A} k (x y : A) l : aset k x (aset k y l) = aset k x l.
Proof.
  induction l as [|[k' z] l IH]; cbn.
  - destruct (beqb_spec k k); [reflexivity|congruence].
  - destruct (beqb_spec k k') as [->|N]; cbn.
    + destruct (beqb_spec k' k'); [reflexivity|congruence].
    + destruct (beqb_spec k k'); [congruence|]. now rewrite IH.
Qed.
Lemma set_nth_twice {A} n (x y : A) : forall l, set_nth n x (set_nth n y l) = set_nth n x l.
Proof. induction n; intros [|z l]; cbn; try reflexivity. now rewrite IHn. Qed.
Lemma nth_set_nth {A} n (x y : A) : forall l, nth_error l n = Some y -> nth_error (set_nth n x l) n = Some x.
Proof. induction n; intros [|z l] H; cbn in *; try discriminate; auto. Qed.

Lemma child_put v h x y : child_at v h = Some x -> child_at (put_child v h y) h = Some y.
Proof.
  destruct v as [ |s|nn src|i kvs lo|l|b| | | ], h as [n|k]; cbn; try discriminate.
  - destruct (alookup k kvs) as [[id z]|]; [|discriminate]. intros _. cbn. now rewrite alookup_aset_same.
  - intros H. cbn. exact (nth_set_nth n y x l H).
Qed.
Lemma put_child_twice v h x y z : child_at v h = Some x -> put_child (put_child v h y) h z = put_child v h z.
Proof.
  destruct v as [ |s|nn src|i kvs lo|l|b| | | ], h as [n|k]; cbn; try discriminate.
  - destruct (alookup k kvs) as [[id w]|]; [|discriminate]. intros _. cbn. rewrite alookup_aset_same, aset_twice. reflexivity.
  - intros _. now rewrite set_nth_twice.
Qed.
Lemma put_at_twice hs : forall v d d' d'', sub_at v hs = Some d -> put_at (put_at v hs d') hs d'' = put_at v hs d''.
Proof.
  induction hs as [|h hs IH]; intros v d d' d'' H; [reflexivity|]. cbn [sub_at put_at] in *.
  destruct (child_at v h) as [x|] eqn:Ex; [|discriminate]. rewrite (child_put _ _ _ _ Ex), (IH _ _ _ _ H).
  now apply (put_child_twice v h x).
Qed.

Lemma put_child_same v h x y : maps_ok v -> maps_ok y -> child_at v h = Some x -> same_doc y x -> same_doc (put_child v h y) v.
Proof.
  intros M My Hx HS. destruct v as [ |s|nn src|i kvs lo|l|b| | | ], h as [n|k]; cbn in Hx; try discriminate; cbn [put_child].
  - destruct (alookup k kvs) as [[id z]|] eqn:El; [|discriminate]. injection Hx as ->. apply maps_ok_obj in M as (ND & MF).
    assert (Mx : maps_ok x) by (rewrite Forall_forall in MF; exact (MF _ (alookup_In _ _ _ El))).
    rewrite <- (aset_id k (id, x) kvs El) at 2. apply member_same; assumption.
  - rewrite <- (set_nth_id n l x Hx) at 2. now apply set_nth_same.
Qed.
Lemma put_at_same hs : forall v d d', maps_ok v -> maps_ok d' -> sub_at v hs = Some d -> same_doc d' d -> same_doc (put_at v hs d') v /\ maps_ok (put_at v hs d').
Proof.
  induction hs as [|h hs IH]; intros v d d' M Md H HS.
  - cbn in *. injection H as ->. auto.
  - cbn [sub_at put_at] in *. destruct (child_at v h) as [x|] eqn:Ex; [|discriminate].
    pose proof (child_maps _ _ _ M Ex) as Mx. destruct (IH _ _ _ Mx Md H HS) as (S1 & M1). split; [exact (put_child_same _ _ _ _ M M1 Ex S1)|].
    destruct v as [ |s|nn src|i kvs lo|l|b| | | ], h as [n|k]; cbn in Ex; try discriminate; cbn [put_child].
    + destruct (alookup k kvs) as [[id z]|] eqn:El; [|discriminate]. apply maps_ok_obj in M as (ND & MF). apply maps_ok_obj.
      split; [now apply (NoDup_aset k)|]. apply Forall_aset; [exact MF|intros; exact M1].
    + apply maps_ok_arr in M. apply maps_ok_arr. destruct (nth_error_split' _ _ _ Ex) as (a & b & -> & <-). rewrite set_nth_app.
      apply Forall_app in M as (Ma & Mb). apply Forall_app. split; [exact Ma|]. constructor; [exact M1|exact (Forall_inv_tail Mb)].
Qed.

(** Deleting a child of what was put at the place a path leads to. *)
Lemma delete_back E W v v' ps hs d d' q first others hs0 c0 : maps_ok v -> maps_ok v' -> leads v ps hs d ->
  changed (fun a a' => a = d /\ a' = d') hs v v' -> Forall plain (first :: others) -> first :: others = ps ++ [q] ->
  leads d' [q] hs0 c0 ->
  exists d'', removed q d' d'' /\ delete_at E W false v' first others = (put_at v hs d'', Ok tt) /\ sub_at v hs = Some d.
Proof.
  intros M M' Hl Hc HP Hsp Hq.
  destruct (changed_leads _ ps d hs v Hl M v' Hc) as (d1 & -> & Hl' & _).
  assert (HL : exists hs0 c0, leads v' (first :: others) hs0 c0).
  { rewrite Hsp. exists (hs ++ hs0), c0. exact (leads_app _ _ _ _ _ _ _ Hl' Hq). }
  apply (delete_succeeds E W v' first others M' HP) in HL as (v'' & HD).
  destruct (delete_ok E W v' ps q first others v'' M' HP Hsp HD) as (hs1 & d1 & Hl1 & Hc1).
  destruct (leads_det _ _ _ _ Hl' _ _ M' Hl1) as (<- & <-).
  destruct (changed_put _ _ _ _ Hc1 M') as (d0 & d'' & (-> & HR) & _ & ->).
  destruct (changed_put _ _ _ _ Hc M) as (d0' & d0'' & (-> & ->) & Hs & ->).
  exists d''. split; [exact HR|]. split; [|exact Hs]. rewrite HD. f_equal. exact (put_at_twice hs v d d' d'' Hs).
Qed.

Lemma split_same {A} (a a' : list A) x x' b b' : a ++ x :: b = a' ++ x' :: b' -> List.length a = List.length a' -> a = a' /\ x = x' /\ b = b'.
Proof. intros H L. apply SetExact.app_eq_length in H as (-> & H); [|exact L]. injection H as -> ->. auto. Qed.

Lemma refers_same (a a' : list V) x x' b b' i : a ++ x :: b = a' ++ x' :: b' -> refers i a b -> refers i a' b' -> a = a' /\ x = x' /\ b = b'.
Proof.
  intros H R R'. apply split_same; [exact H|]. apply (f_equal (@List.length V)) in H. rewrite !app_length in H. cbn [List.length] in H.
  unfold refers in *. lia.
Qed.

Lemma removed_elem_inv q j a c b w : index_value q = Some j -> refers j a b -> removed q (VArr (a ++ c :: b)) w -> w = VArr (a ++ b).
Proof.
  intros Hq R H. inversion H as [|a' e b' p i Hi R' E1 E2 E3]; subst. rewrite Hq in Hi. injection Hi as <-.
  destruct (refers_same _ _ _ _ _ _ _ E2 R' R) as (-> & _ & ->). reflexivity.
Qed.

Lemma plain_snoc ps p q first others first' others' i : Forall plain (first :: others) -> first :: others = ps ++ [p] ->
  first' :: others' = ps ++ [q] -> index_value q = Some i -> Forall plain (first' :: others').
Proof.
  intros HP Hsp Hsp' Hq. rewrite Hsp'. rewrite Hsp in HP. apply Forall_app in HP as (A1 & _). apply Forall_app. split; [exact A1|].
  constructor; [exact (index_plain _ _ Hq)|constructor].
Qed.

Lemma added_split af c i d d' : added af c i d d' -> exists a b, d = VArr (a ++ b) /\ d' = VArr (a ++ c :: b) /\ refers (new_index af i) a b.
Proof.
  unfold added. destruct af; intros (a & e & b & -> & Rf & ->).
  - exists (a ++ [e]), b. rewrite <- !app_assoc. split; [reflexivity|]. split; [reflexivity|].
    unfold refers, new_index in *. rewrite app_length. cbn [List.length]. destruct (Z.ltb_spec i 0); lia.
  - exists a, (e :: b). split; [reflexivity|]. split; [reflexivity|].
    unfold refers, new_index in *. cbn [List.length]. destruct (Z.ltb_spec i 0); lia.
Qed.

Lemma maps_mid (a : list V) c b : maps_ok (VArr (a ++ b)) -> maps_ok c -> maps_ok (VArr (a ++ c :: b)).
Proof.
  rewrite !maps_ok_arr, !Forall_app. intros (A & B) C. split; [exact A|]. constructor; assumption.
Qed.

Theorem insert_delete E W (af : bool) v c ps p first others q first' others' i v' x : maps_ok v -> maps_ok c ->
  Forall plain (first :: others) -> first :: others = ps ++ [p] -> first' :: others' = ps ++ [q] ->
  index_value p = Some i -> index_value q = Some (new_index af i) ->
  (if af then insert_after E W v (arg_v c) first others else insert_before E W v (arg_v c) first others) = (v', Ok x) ->
  delete_at E W false v' first' others' = (v, Ok tt).
Proof.
  intros M Mc HP Hsp Hsp' Hi Hq H.
  apply (insert_iff E W af v c ps p first others v' x M HP Hsp) in H as (_ & hs & d & i' & Hl & Hi' & Hc).
  rewrite Hi in Hi'. injection Hi' as <-.
  assert (M' : maps_ok v').
  { refine (changed_maps _ _ _ _ _ Hc M). intros y y' (_ & HA) My.
    destruct (added_split _ _ _ _ _ HA) as (a & b & -> & -> & _). now apply maps_mid. }
  pose proof (plain_snoc _ _ _ _ _ _ _ _ HP Hsp Hsp' Hq) as HP'.
  destruct (changed_leads _ ps d hs v Hl M v' Hc) as (d' & HA & Hl' & Hc').
  destruct (added_split _ _ _ _ _ HA) as (a & b & -> & -> & Rf).
  destruct (delete_back E W v v' ps hs _ _ q first' others' _ _ M M' Hl Hc' HP' Hsp'
              (leads_elem _ _ _ _ _ [] [] _ Hq Rf (leads_here c))) as (d'' & HR & HD & Hs).
  rewrite (removed_elem_inv _ _ _ _ _ _ Hq Rf HR) in HD. rewrite HD. f_equal. exact (put_at_id hs v _ Hs).
Qed.

Theorem append_delete E W front v c ps hs l q first others v' x : maps_ok v -> maps_ok c -> Forall plain ps ->
  leads v ps hs (VArr l) -> append_at E W front v (arg_v c) ps = (v', Ok x) ->
  first :: others = ps ++ [q] -> index_value q = Some (if front then 0 else -1) ->
  delete_at E W false v' first others = (v, Ok tt).
Proof.
  intros M Mc HP Hl H Hsp Hq.
  assert (Hc : changed (fun a a' => a = VArr l /\ a' = VArr (end_added front c l)) hs v v').
  { apply (append_iff E W front v c ps v' x M HP) in H as (_ & [(hs' & l' & Hl' & Hc)|(p & r & y & -> & Hm & _)]).
    - destruct (leads_det _ _ _ _ Hl _ _ M Hl') as (<- & E1). injection E1 as <-. exact Hc.
    - exfalso. apply (loc_missing E W r v p HP M) in Hm.
      rewrite (loc_complete E W r v p hs (VArr l) M Hl) in Hm. discriminate. }
  assert (HE : exists a b, l = a ++ b /\ end_added front c l = a ++ c :: b /\ refers (if front then 0 else -1) a b).
  { destruct front; [exists [], l|exists l, []]; cbn; (split; [now rewrite ?app_nil_r|]); (split; [reflexivity|]); unfold refers; cbn; lia. }
  destruct HE as (a & b & -> & Ee & Rf). rewrite Ee in Hc.
  assert (M' : maps_ok v').
  { refine (changed_maps _ _ _ _ _ Hc M). intros y y' (-> & ->) My. now apply maps_mid. }
  assert (HP' : Forall plain (first :: others)).
  { rewrite Hsp. apply Forall_app. split; [exact HP|]. constructor; [exact (index_plain _ _ Hq)|constructor]. }
  destruct (delete_back E W v v' ps hs _ _ q first others _ _ M M' Hl Hc HP' Hsp
              (leads_elem _ _ _ _ _ [] [] _ Hq Rf (leads_here c))) as (d'' & HR & HD & Hs).
  rewrite (removed_elem_inv _ _ _ _ _ _ Hq Rf HR) in HD. rewrite HD. f_equal. exact (put_at_id hs v _ Hs).
Qed.

Lemma changed_impl (R R' : V -> V -> Prop) hs v v' : (forall y y', R y y' -> R' y y') -> changed R hs v v' -> changed R' hs v v'.
Proof. intros I H. induction H; constructor; auto. Qed.

(** Deleting an element and putting it back. *)
Theorem delete_insert E W v ps p first others i hs a e b v' : maps_ok v -> Forall plain (first :: others) ->
  first :: others = ps ++ [p] -> index_value p = Some i -> leads v ps hs (VArr (a ++ e :: b)) -> refers i a b ->
  delete_at E W false v first others = (v', Ok tt) ->
  (forall q first' others', first' :: others' = ps ++ [q] -> b <> [] ->
     index_value q = Some (if i <? 0 then i + 1 else i) -> insert_before E W v' (arg_v e) first' others' = (v, Ok e)) /\
  (forall q first' others', first' :: others' = ps ++ [q] -> a <> [] ->
     index_value q = Some (if i <? 0 then i else i - 1) -> insert_after E W v' (arg_v e) first' others' = (v, Ok e)) /\
  (b = [] -> append_end E W v' (arg_v e) ps = (v, Ok e)) /\
  (a = [] -> append_beginning E W v' (arg_v e) ps = (v, Ok e)).
Proof.
  intros M HP Hsp Hi Hl Rf H.
  destruct (delete_ok E W v ps p first others v' M HP Hsp H) as (hs1 & d1 & Hl1 & Hc1).
  destruct (leads_det _ _ _ _ Hl _ _ M Hl1) as (<- & <-).
  destruct (changed_leads _ ps _ hs v Hl M v' Hc1) as (d' & HR & Hl' & Hc).
  pose proof (removed_elem_inv _ _ _ _ _ _ Hi Rf HR) as ->.
  pose proof (leads_maps _ _ _ _ Hl M) as Md. apply maps_ok_arr, Forall_app in Md as (Ma & Mb).
  assert (M' : maps_ok v').
  { refine (changed_maps _ _ _ _ _ Hc M). intros y y' (_ & ->) _. apply maps_ok_arr, Forall_app. split; [exact Ma|exact (Forall_inv_tail Mb)]. }
  destruct (changed_put _ _ _ _ Hc M) as (d0 & d0' & (-> & ->) & Hs & Ev).
  assert (Back : changed (fun y y' => y = VArr (a ++ b) /\ y' = VArr (a ++ e :: b)) hs v' v).
  { pose proof (leads_sub _ _ _ _ Hl' M') as Hs'.
    pose proof (put_changed (fun y y' => y = VArr (a ++ b) /\ y' = VArr (a ++ e :: b)) hs v' _ (VArr (a ++ e :: b)) M' Hs' (conj eq_refl eq_refl)) as B.
    assert (Ep : put_at v' hs (VArr (a ++ e :: b)) = v).
    { rewrite Ev. rewrite (put_at_twice hs v _ _ _ Hs). exact (put_at_id hs v _ Hs). }
    now rewrite Ep in B. }
  assert (HPs : Forall plain ps) by (rewrite Hsp in HP; apply Forall_app in HP as (A1 & _); exact A1).
  split; [|split; [|split]].
  - intros q first' others' Hsp' Nb Hq. pose proof (plain_snoc _ _ _ _ _ _ _ _ HP Hsp Hsp' Hq) as HP'.
    apply (insert_iff E W false v' e ps q first' others' v e M' HP' Hsp'). split; [reflexivity|].
    exists hs, (VArr (a ++ b)), (if i <? 0 then i + 1 else i). split; [exact Hl'|]. split; [exact Hq|].
    refine (changed_impl _ _ _ _ _ _ Back). intros y y' (-> & ->). split; [reflexivity|].
    destruct b as [|e' b]; [congruence|]. exists a, e', b. split; [reflexivity|]. split; [|reflexivity].
    unfold refers in *. cbn [List.length] in *. destruct (Z.ltb_spec i 0); lia.
  - intros q first' others' Hsp' Na Hq. pose proof (plain_snoc _ _ _ _ _ _ _ _ HP Hsp Hsp' Hq) as HP'.
    apply (insert_iff E W true v' e ps q first' others' v e M' HP' Hsp'). split; [reflexivity|].
    exists hs, (VArr (a ++ b)), (if i <? 0 then i else i - 1). split; [exact Hl'|]. split; [exact Hq|].
    refine (changed_impl _ _ _ _ _ _ Back). intros y y' (-> & ->). split; [reflexivity|].
    destruct (SetExact.last_or_nil a) as [->|(m & z & ->)]; [congruence|]. exists m, z, b. rewrite <- !app_assoc. split; [reflexivity|]. split; [|reflexivity].
    unfold refers in *. rewrite app_length in Rf. cbn [List.length] in *. destruct (Z.ltb_spec i 0); lia.
  - intros ->. apply (append_iff E W false v' e ps v e M' HPs). split; [reflexivity|]. left. rewrite app_nil_r in *. exists hs, a.
    split; [exact Hl'|]. exact Back.
  - intros ->. apply (append_iff E W true v' e ps v e M' HPs). split; [reflexivity|]. left. exists hs, b.
    split; [exact Hl'|]. exact Back.
Qed.

(** *** Members *)
Lemma removed_member_same k i kvs lo w : maps_ok (VObj i kvs lo) -> removed (PStr k) (VObj i kvs lo) w ->
  maps_ok w /\ (exists lo' kvs', w = VObj i kvs' lo') /\
  forall h, child_at w h = match h with HKey k' => if bytes_dec k' k then None else child_at (VObj i kvs lo) h | _ => None end.
Proof.
  intros M H. inversion H as [i0 a k0 e b lo0 lo' Hk E1 E2 E3|]. subst.
  apply maps_ok_obj in M as (ND & MF).
  assert (ND' : NoDup (map fst (a ++ b))) by (rewrite map_app in *; cbn in ND; exact (NoDup_remove_1 _ _ _ ND)).
  assert (MF' : Forall (fun e => maps_ok (snd (snd e))) (a ++ b)).
  { apply Forall_app in MF as (M1 & M2). apply Forall_app. split; [exact M1|exact (Forall_inv_tail M2)]. }
  split; [apply maps_ok_obj; auto|]. split; [eauto|].
  intros [n|k']; [reflexivity|]. cbn. destruct (bytes_dec k' k) as [->|N].
  - now rewrite (proj2 (alookup_None k (a ++ b)) Hk).
  - destruct (alookup k' (a ++ b)) as [[id x]|] eqn:El.
    + rewrite (alookup_NoDup_In k' (id, x) (a ++ (k, e) :: b) ND); [reflexivity|].
      apply alookup_In, in_app_or in El. apply in_or_app. destruct El; [now left|right; now right].
    + rewrite (proj2 (alookup_None k' (a ++ (k, e) :: b))); [reflexivity|].
      apply alookup_None in El. unfold akeys in *. rewrite map_app, in_app_iff in *. cbn. intuition congruence.
Qed.

Lemma set_leads E ps : forall v hs i kvs lo k c v' x first others, maps_ok v -> Forall plain ps ->
  leads v ps hs (VObj i kvs lo) -> first :: others = ps ++ [PStr k] -> set_at E v (arg_v c) first others = (v', Ok x) ->
  changed (fun a a' => a = VObj i kvs lo /\ member_set k c a a') hs v v'.
Proof.
  intros v hs i kvs lo k c v' x first others M HP Hl Hsp H.
  assert (HP' : Forall plain (first :: others)) by (rewrite Hsp; apply Forall_app; split; [exact HP|repeat constructor]).
  destruct (set_creates E v c first others v' x M HP' H) as (_ & ps1 & p & ps2 & hs1 & d & E1 & Hl1 & Hc).
  rewrite Hsp in E1. destruct (SetExact.last_or_nil ps2) as [->|(m & z & ->)].
  - apply app_inj_tail in E1 as (-> & <-). destruct (leads_det _ _ _ _ Hl _ _ M Hl1) as (<- & <-).
    refine (changed_impl _ _ _ _ _ _ Hc). intros y y' (-> & HW). split; [reflexivity|]. inversion HW; subst; try assumption; try discriminate.
  - exfalso. rewrite app_comm_cons, app_assoc in E1. apply app_inj_tail in E1 as (E1 & <-). subst ps.
    destruct (SetExact.leads_split _ _ _ _ _ Hl) as (hs2 & hs3 & d2 & _ & Hl2 & Hl3).
    destruct (leads_det _ _ _ _ Hl1 _ _ M Hl2) as (<- & <-).
    destruct (changed_put _ _ _ _ Hc M) as (d0 & d' & (-> & HW) & _ & _).
    assert (HN : forall hs x, ~ leads d [p] hs x).
    { inversion HW; subst; try assumption; try (destruct m; discriminate). }
    inversion Hl3; subst.
    + eapply HN. eapply leads_key; [eassumption|constructor].
    + eapply HN. eapply leads_elem; [eassumption|eassumption|constructor].
Qed.

Theorem set_delete E W v ps hs i kvs lo k c first others v' x : maps_ok v -> maps_ok c -> Forall plain ps ->
  leads v ps hs (VObj i kvs lo) -> ~ In k (map fst kvs) -> first :: others = ps ++ [PStr k] ->
  set_at E v (arg_v c) first others = (v', Ok x) ->
  exists v'', delete_at E W false v' first others = (v'', Ok tt) /\ same_doc v'' v.
Proof.
  intros M Mc HP Hl Hk Hsp H.
  assert (HP' : Forall plain (first :: others)) by (rewrite Hsp; apply Forall_app; split; [exact HP|repeat constructor]).
  pose proof H as HS. rewrite set_at_set_c in HS. pose proof (set_maps _ _ _ _ _ _ _ M Mc HP' HS) as M'.
  pose proof (set_leads E ps v hs i kvs lo k c v' x first others M HP Hl Hsp H) as Hc.
  destruct (changed_leads _ ps _ hs v Hl M v' Hc) as (d' & HM & Hl' & Hc').
  pose proof (leads_maps _ _ _ _ Hl M) as Md. pose proof (leads_maps _ _ _ _ Hl' M') as Md'.
  destruct HM as (i1 & kvs1 & lo1 & i' & kvs' & lo' & E1 & -> & Ei & ND' & Hin & Hot). injection E1 as <- <- <-.
  destruct (delete_back E W v v' ps hs _ _ (PStr k) first others _ _ M M' Hl Hc' HP' Hsp
              (leads_key _ _ _ _ _ _ [] [] _ Hin (leads_here c))) as (d'' & HR & HD & Hs).
  exists (put_at v hs d''). split; [exact HD|].
  destruct (removed_member_same _ _ _ _ _ Md' HR) as (Md'' & (lo2 & kvs2 & ->) & Kids).
  apply (put_at_same hs v _ _ M Md'' Hs). apply kids_same; try assumption; try reflexivity; [discriminate|].
  intros h. rewrite Kids. destruct h as [n|k']; [constructor|]. destruct (bytes_dec k' k) as [->|N].
  - cbn. rewrite (proj2 (alookup_None k kvs) Hk). constructor.
  - cbn. apply maps_ok_obj in Md as (ND & _).
    destruct (alookup k' kvs) as [e|] eqn:El.
    + rewrite (alookup_NoDup_In k' e kvs' ND' (proj2 (Hot k' e N) (alookup_In _ _ _ El))). apply orel_refl.
    + destruct (alookup k' kvs') as [e|] eqn:El'; [|constructor].
      apply alookup_In, (Hot k' e N), (alookup_NoDup_In _ _ _ ND) in El'. congruence.
Qed.

Theorem delete_set E W v ps hs i kvs lo k id c first others v' : maps_ok v -> Forall plain ps -> c <> VNil -> c <> VNotExist ->
  leads v ps hs (VObj i kvs lo) -> In (k, (id, c)) kvs -> first :: others = ps ++ [PStr k] ->
  delete_at E W false v first others = (v', Ok tt) ->
  exists v'', set_at E v' (arg_v c) first others = (v'', Ok c) /\ same_doc v'' v.
Proof.
  intros M HP C1 C2 Hl Hk Hsp H.
  assert (HP' : Forall plain (first :: others)) by (rewrite Hsp; apply Forall_app; split; [exact HP|repeat constructor]).
  destruct (delete_ok E W v ps _ first others v' M HP' Hsp H) as (hs1 & d1 & Hl1 & Hc1).
  destruct (leads_det _ _ _ _ Hl _ _ M Hl1) as (<- & <-).
  destruct (changed_leads _ ps _ hs v Hl M v' Hc1) as (d' & HR & Hl' & Hc).
  pose proof (leads_maps _ _ _ _ Hl M) as Md.
  destruct (removed_member_same _ _ _ _ _ Md HR) as (Md' & (lo2 & kvs2 & ->) & Kids).
  pose proof Md as Md0. apply maps_ok_obj in Md0 as (ND & MF).
  assert (Mc : maps_ok c) by (rewrite Forall_forall in MF; exact (MF _ Hk)).
  assert (M' : maps_ok v') by (refine (changed_maps _ _ _ _ _ Hc M); intros y y' (_ & ->) _; exact Md').
  assert (Hst : settable v' (first :: others)).
  { rewrite Hsp. clear - Hl' HP. remember (VObj i kvs2 lo2) as d eqn:Ed. induction Hl'; cbn [app].
    - subst. constructor.
    - destruct ps as [|p ps]; cbn [app] in *; (eapply settable_into_key; [eassumption|apply IHHl'; [exact (Forall_inv_tail HP)|exact Ed]]).
    - destruct ps as [|p' ps]; cbn [app] in *; (eapply settable_into_elem; [eassumption|eassumption|apply IHHl'; [exact (Forall_inv_tail HP)|exact Ed]]). }
  apply (set_when E v' c first others M' HP' C1 C2) in Hst as (v'' & Hset). exists v''. split; [exact Hset|].
  pose proof (set_leads E ps v' hs _ _ _ k c v'' c first others M' HP Hl' Hsp Hset) as Hc2.
  destruct (changed_put _ _ _ _ Hc2 M') as (d0 & d2 & (-> & HM) & Hs' & ->).
  destruct (changed_put _ _ _ _ Hc M) as (d0' & d0'' & (-> & ->) & Hs & ->).
  rewrite (put_at_twice hs v _ _ _ Hs).
  destruct HM as (i1 & kvs1 & lo1 & i' & kvs' & lo' & E1 & -> & Ei & ND' & Hin & Hot). injection E1 as <- <- <-.
  assert (M2 : maps_ok (VObj i' kvs' lo')).
  { apply maps_ok_obj. split; [exact ND'|]. apply Forall_forall. intros (k1, (id1, x1)) H1. cbn. destruct (bytes_dec k1 k) as [->|N].
    - pose proof (alookup_NoDup_In _ _ _ ND' Hin). pose proof (alookup_NoDup_In _ _ _ ND' H1). congruence.
    - apply (Hot k1 _ N) in H1. apply maps_ok_obj in Md' as (_ & MF'). rewrite Forall_forall in MF'. exact (MF' _ H1). }
  apply (put_at_same hs v _ _ M M2 Hs). apply kids_same; try assumption; try reflexivity; [discriminate|].
  intros h. destruct h as [n|k']; [constructor|]. destruct (bytes_dec k' k) as [->|N].
  - cbn. rewrite (alookup_NoDup_In _ _ _ ND' Hin), (alookup_NoDup_In _ _ _ ND Hk). constructor. apply same_refl.
  - specialize (Kids (HKey k')). cbn in Kids |- *. destruct (bytes_dec k' k) as [|_]; [congruence|].
    assert (El : alookup k' kvs' = alookup k' kvs2).
    { apply maps_ok_obj in Md' as (ND2 & _). destruct (alookup k' kvs2) as [e|] eqn:E2.
      - exact (alookup_NoDup_In _ _ _ ND' (proj2 (Hot k' e N) (alookup_In _ _ _ E2))).
      - destruct (alookup k' kvs') as [e|] eqn:E3; [|reflexivity]. apply alookup_In, (Hot k' e N), (alookup_NoDup_In _ _ _ ND2) in E3. congruence. }
    rewrite El, Kids. apply orel_refl.
Qed.

(** *** What documents that hold the same show *)
Theorem same_reads E W v v' p ps : maps_ok v -> maps_ok v' -> Forall plain (p :: ps) -> same_doc v v' ->
  (forall c, get E W false v p ps = (v, Ok c) -> exists c', get E W false v' p ps = (v', Ok c') /\ same_doc c c').
Proof.
  intros M M' HP HS c H. apply (get_leads E W v p ps c M HP) in H as (hs & Hl).
  assert (HL : exists c', leads v' (p :: ps) hs c' /\ same_doc c c').
  { clear HP. revert v v' hs M M' HS Hl. induction (p :: ps) as [|q qs IH]; intros v v' hs M M' HS Hl.
    - inversion Hl; subst. exists v'. split; [constructor|exact HS].
    - destruct (leads_child _ _ _ _ _ M Hl) as (h & hs' & y & -> & Hy & Hl' & Hr).
      destruct (same_kids _ _ M M' HS) as (_ & K). specialize (K h). rewrite Hy in K. inversion K as [|y0 y' HS' E1 E2]; subst.
      destruct (IH _ _ _ (child_maps _ _ _ M Hy) (child_maps _ _ _ M' (eq_sym E2)) HS' Hl') as (c' & Hc' & Sc).
      exists c'. split; [|exact Sc]. eapply leads_step; [|symmetry; exact E2|exact Hc']. rewrite <- (resolve_same _ _ q true HS). apply Hr. }
  destruct HL as (c' & Hl' & Sc). exists c'. split; [|exact Sc]. apply (get_leads E W v' p ps c' M' HP). eauto.
Qed.
