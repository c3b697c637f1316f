(** C70: which error a call along a path gives. *)
From Verif Require Import Base Float64 Value Scan Opt Marshal Access Path SpecPath ListLemmas PathProof Edit EditProof
  SetProof EditClaims SpecErrors.

(** *** Following a path *)
Section Follow.
Variable S : V -> param -> list param -> err -> Prop.

Lemma fails_key i kvs lo k id x ps e : NoDup (map fst kvs) -> In (k, (id, x)) kvs ->
  (fails S (VObj i kvs lo) (PStr k :: ps) e <-> S (VObj i kvs lo) (PStr k) ps e \/ fails S x ps e).
Proof.
  intros ND Hin. split.
  - intros (ps1 & p & ps2 & hs & d & Hsp & Hl & Hs). destruct ps1 as [|z zs].
    + injection Hsp as <- <-. inversion Hl; subst. now left.
    + cbn in Hsp. injection Hsp as <- ->. right.
      inversion Hl as [|i1 kvs1 lo1 k1 id1 x1 ps3 hs1 c1 Hin1 Hl1|a1 x1 b1 p1 i1 ps3 hs1 c1 Hp1 Rf1 Hl1]; subst.
      pose proof (alookup_NoDup_In _ _ _ ND Hin) as L1. pose proof (alookup_NoDup_In _ _ _ ND Hin1) as L2.
      rewrite L1 in L2. injection L2 as <- <-. exists zs, p, ps2, hs1, d. auto.
  - intros [Hs|(ps1 & p & ps2 & hs & d & -> & Hl & Hs)].
    + exists [], (PStr k), ps, [], (VObj i kvs lo). split; [reflexivity|]. split; [constructor|assumption].
    + exists (PStr k :: ps1), p, ps2, (HKey k :: hs), d. split; [reflexivity|]. split; [|assumption].
      eapply leads_key; eassumption.
Qed.

Lemma fails_elem a x b p i ps e : index_value p = Some i -> refers i a b ->
  (fails S (VArr (a ++ x :: b)) (p :: ps) e <-> S (VArr (a ++ x :: b)) p ps e \/ fails S x ps e).
Proof.
  intros Hp Rf. split.
  - intros (ps1 & q & ps2 & hs & d & Hsp & Hl & Hs). destruct ps1 as [|z zs].
    + injection Hsp as <- <-. inversion Hl; subst. now left.
    + cbn in Hsp. injection Hsp as <- ->. right.
      inversion Hl as [|i1 kvs1 lo1 k1 id1 x1 ps3 hs1 c1 Hin1 Hl1|a1 x1 b1 p1 i1 ps3 hs1 c1 Hp1 Rf1 Hl1 E1]; subst.
      rewrite Hp in Hp1. injection Hp1 as <-.
      assert (Ln : List.length a1 = List.length a).
      { pose proof (pos_read_refers _ _ x _ Rf) as P1. pose proof (pos_read_refers _ _ x1 _ Rf1) as P2. rewrite E1 in P2. congruence. }
      assert (x1 = x).
      { assert (N1 : nth_error (a1 ++ x1 :: b1) (List.length a1) = Some x1) by apply nth_error_app_here.
        rewrite E1, Ln, nth_error_app_here in N1. congruence. }
      subst x1. exists zs, q, ps2, hs1, d. auto.
  - intros [Hs|(ps1 & q & ps2 & hs & d & -> & Hl & Hs)].
    + exists [], p, ps, [], (VArr (a ++ x :: b)). split; [reflexivity|]. split; [constructor|assumption].
    + exists (p :: ps1), q, ps2, (HIdx (List.length a) :: hs), d. split; [reflexivity|]. split; [|assumption].
      eapply leads_elem; eassumption.
Qed.

(** Nothing there for the first parameter. *)
Lemma fails_here v p ps e : (forall ps' hs c, ~ leads v (p :: ps') hs c) ->
  (fails S v (p :: ps) e <-> S v p ps e).
Proof.
  intros Hn. split.
  - intros (ps1 & q & ps2 & hs & d & Hsp & Hl & Hs). destruct ps1 as [|z zs].
    + injection Hsp as <- <-. inversion Hl; subst. assumption.
    + cbn in Hsp. injection Hsp as <- ->. now elim (Hn _ _ _ Hl).
  - intros Hs. exists [], p, ps, [], v. split; [reflexivity|]. split; [constructor|assumption].
Qed.
End Follow.

Lemma dead_missing i kvs lo k ps hs c : ~ In k (map fst kvs) -> ~ leads (VObj i kvs lo) (PStr k :: ps) hs c.
Proof.
  intros Hn H. inversion H as [|i1 kvs1 lo1 k1 id1 x1 ps3 hs1 c1 Hin1 Hl1|]; subst. apply Hn.
  change k with (fst (k, (id1, x1))). now apply in_map.
Qed.
Lemma dead_name i kvs lo p ps hs c : no_name p -> ~ leads (VObj i kvs lo) (p :: ps) hs c.
Proof. intros Hn H. inversion H; subst. now elim (Hn k). Qed.
Lemma dead_index l p ps hs c : no_index p -> ~ leads (VArr l) (p :: ps) hs c.
Proof. intros Hn H. inversion H; subst. unfold no_index in Hn. congruence. Qed.
Lemma dead_range l p i ps hs c : index_value p = Some i -> ~ within i l -> ~ leads (VArr l) (p :: ps) hs c.
Proof.
  intros Hi Hn H. inversion H; subst. apply Hn. assert (i0 = i) by congruence. subst.
  unfold within, refers in *. rewrite app_length. cbn [List.length]. lia.
Qed.
Lemma dead_scalar v p ps hs c : (forall l, v <> VArr l) -> (forall i kvs lo, v <> VObj i kvs lo) -> ~ leads v (p :: ps) hs c.
Proof. intros Ha Ho H. inversion H; subst; [eapply Ho; reflexivity|eapply Ha; reflexivity]. Qed.

(** *** Reading *)
Lemma no_name_err p : no_name p -> any_to_string p = Err ErrParameterError.
Proof. intros H. destruct p; try reflexivity. now elim (H s). Qed.
Lemma no_index_err p : no_index p -> any_to_int p = Err (index_error p).
Proof. intros H. destruct p; try reflexivity; discriminate. Qed.
Lemma name_dec p : (exists k, p = PStr k) \/ no_name p.
Proof. destruct p; try (right; intros k H; discriminate). left. eauto. Qed.
Lemma index_dec p : (exists i, index_value p = Some i) \/ no_index p.
Proof. unfold no_index. destruct (index_value p); eauto. Qed.

Lemma find1_err E W v p r e : find1 E W v p = Err e <-> stuck v p r e.
Proof.
  split.
  - unfold find1. destruct v as [ |s|nn src|i kvs lo|l|b| | | ]; cbn [find_child snd]; intros H;
      try (injection H as <-; now apply stuck_scalar); try discriminate.
    + destruct (name_dec p) as [(k & ->)|Hn].
      * cbn [any_to_string] in H. unfold find_key in H. destruct (alookup k kvs) eqn:El; [discriminate|].
        cbn in H. injection H as <-. apply stuck_name. now apply alookup_None.
      * rewrite (no_name_err p Hn) in H. injection H as <-. now apply stuck_no_name.
    + destruct (index_dec p) as [(i & Hi)|Hn].
      * rewrite (fits_any_to_int _ _ Hi) in H. cbn [rbind] in H.
        destruct (pos_read (List.length l) i) eqn:Er; [discriminate|]. injection H as <-.
        eapply stuck_range; [eassumption|]. now apply pos_read_none.
      * rewrite (no_index_err p Hn) in H. injection H as <-. now apply stuck_no_index.
  - unfold find1. intros H. inversion H; subst; cbn [find_child snd].
    + cbn [any_to_string]. unfold find_key. rewrite (proj2 (alookup_None _ _)) by assumption. reflexivity.
    + rewrite (fits_any_to_int _ _ H0). cbn [rbind]. rewrite (proj2 (pos_read_none _ _)) by assumption. reflexivity.
    + now rewrite (no_name_err p H0).
    + now rewrite (no_index_err p H0).
    + destruct v; try contradiction; reflexivity.
Qed.

Lemma loc_err E W : forall ps v p e, Forall plain (p :: ps) -> maps_ok v ->
  loc E W v p ps = Err e <-> fails stuck v (p :: ps) e.
Proof.
  induction ps as [|q r IH]; intros v p e HP M.
  - rewrite (loc_one _ _ _ _ (Forall_inv HP)).
    assert (Hx : fails stuck v [p] e <-> stuck v p [] e).
    { split.
      - intros (ps1 & p' & ps2 & hs & d & Hsp & Hl & Hs). destruct ps1 as [|z [|? ?]]; try discriminate.
        injection Hsp as <- <-. inversion Hl; subst. assumption.
      - intros Hs. exists [], p, [], [], v. split; [reflexivity|]. split; [constructor|assumption]. }
    rewrite Hx, <- (find1_err E W). destruct (find1 E W v p) as [h|e'| |]; cbn [rbind]; split; congruence.
  - rewrite (loc_more _ _ _ _ _ _ (Forall_inv HP)).
    destruct (find1 E W v p) as [h|e'| |] eqn:E1.
    + cbn [rbind].
      assert (Hns : forall r, ~ stuck v p r e).
      { intros r' Hs. apply (find1_err E W) in Hs. congruence. }
      destruct (find1_ok E W v p h E1) as [(i & kvs & lo & k & id & x & -> & -> & -> & Ek)|(a & x & b & i & -> & Hi & -> & Rf)].
      * cbn [child_at]. rewrite Ek. apply maps_ok_obj in M as (ND & MF). rewrite Forall_forall in MF.
        pose proof (alookup_In _ _ _ Ek) as Hin.
        rewrite (fails_key stuck i kvs lo k id x (q :: r) e ND Hin).
        rewrite <- (IH x q e (Forall_inv_tail HP) (MF _ Hin)).
        destruct (loc E W x q r) as [t|e1| |]; cbn [rbind]; split; intros H; try discriminate; try (right; congruence);
          destruct H as [H|H]; try congruence; now elim (Hns _ H).
      * cbn [child_at]. rewrite nth_error_app_here. apply maps_ok_arr, Forall_app in M as (_ & M).
        rewrite (fails_elem stuck a x b p i (q :: r) e Hi Rf).
        rewrite <- (IH x q e (Forall_inv_tail HP) (Forall_inv M)).
        destruct (loc E W x q r) as [t|e1| |]; cbn [rbind]; split; intros H; try discriminate; try (right; congruence);
          destruct H as [H|H]; try congruence; now elim (Hns _ H).
    + cbn [rbind]. pose proof (proj1 (find1_err E W v p (q :: r) e') E1) as Hs'.
      rewrite fails_here.
      * rewrite <- (find1_err E W), E1. split; congruence.
      * intros ps' hs c Hl. inversion Hl as [|i1 kvs1 lo1 k1 id1 x1 ps3 hs1 c1 Hin1 Hl1|a1 x1 b1 p1 i1 ps3 hs1 c1 Hp1 Rf1 Hl1]; subst.
        -- apply maps_ok_obj in M as (ND & _). rewrite (find1_key E W _ _ _ _ _ _ (alookup_NoDup_In _ _ _ ND Hin1)) in E1. discriminate.
        -- rewrite (find1_elem E W _ _ _ _ _ Hp1 Rf1) in E1. discriminate.
    + cbn [rbind]. split; [discriminate|].
      intros Hf. assert (v = VNil).
      { unfold find1 in E1. destruct v as [ |s|nn src|i kvs lo|l|b| | | ]; cbn [find_child snd] in E1; try discriminate; try reflexivity.
        - destruct (name_dec p) as [(k & ->)|Hn]; [|rewrite (no_name_err p Hn) in E1; discriminate].
          cbn in E1. destruct (find_key E W false k kvs lo) as [? [?|]]; discriminate.
        - destruct (index_dec p) as [(i & Hi)|Hn]; [rewrite (fits_any_to_int _ _ Hi) in E1; cbn [rbind] in E1; destruct pos_read; discriminate|].
          rewrite (no_index_err p Hn) in E1. discriminate. }
      subst v. apply fails_here in Hf; [|intros; apply dead_scalar; discriminate]. inversion Hf; subst. contradiction.
    + exfalso. eapply (find_child_nofuel E W false v p). exact E1.
Qed.

Theorem get_error : forall (E : Env) (W : World) (v : V) (p : param) (ps : list param) (e : err),
  maps_ok v -> Forall plain (p :: ps) ->
  (snd (get E W false v p ps) = Err e <-> fails stuck v (p :: ps) e).
Proof.
  intros E W v p ps e M HP. rewrite get_pair. cbn [snd]. rewrite <- (loc_err E W ps v p e HP M).
  destruct (loc E W v p ps) as [hs|e'| |] eqn:El; cbn [rbind]; try (split; congruence).
  destruct (loc_sound E W ps v p hs HP El) as (c & _ & ->). split; discriminate.
Qed.

(** *** Deleting *)
Lemma delete_here_err E W d p r e : snd (delete_here E W false d p) = Err e <-> stuck d p r e.
Proof.
  rewrite <- (find1_err E W d p r e). unfold find1, delete_here.
  destruct d as [ |s|nn src|i kvs lo|l|b| | | ]; cbn [find_child snd]; try (split; congruence).
  - destruct (any_to_string p) as [k|e'| |]; cbn [snd]; try (split; congruence).
    unfold del_from_object, find_key. destruct (alookup k kvs); cbn; split; congruence.
  - destruct (any_to_int p) as [i|e'| |]; cbn [snd rbind]; try (split; congruence).
    destruct (pos_read (List.length l) i); cbn [snd]; split; congruence.
Qed.

Lemma fails_snoc S v ps p e : maps_ok v ->
  fails S v (ps ++ [p]) e <->
  (exists ps1 q ps2 hs d, ps = ps1 ++ q :: ps2 /\ leads v ps1 hs d /\ S d q (ps2 ++ [p]) e) \/
  (exists hs d, leads v ps hs d /\ S d p [] e).
Proof.
  intros M. split.
  - intros (ps1 & q & ps2 & hs & d & Hsp & Hl & Hs).
    destruct (exists_last (l := q :: ps2) ltac:(discriminate)) as (m & z & Hm).
    rewrite Hm, app_assoc in Hsp. apply app_inj_tail in Hsp. destruct Hsp as (-> & <-).
    destruct m as [|y m]; cbn [app] in Hm.
    + injection Hm as <- ->. right. rewrite app_nil_r. eauto.
    + injection Hm as <- ->. left. exists ps1, q, m, hs, d. auto.
  - intros [(ps1 & q & ps2 & hs & d & -> & Hl & Hs)|(hs & d & Hl & Hs)].
    + exists ps1, q, (ps2 ++ [p]), hs, d. rewrite <- app_assoc. auto.
    + exists ps, p, [], hs, d. auto.
Qed.

Lemma stuck_rest d p r r' e : stuck d p r e -> stuck d p r' e.
Proof. intros H. inversion H; subst; econstructor; eassumption. Qed.

Theorem delete_error : forall (E : Env) (W : World) (v : V) (p : param) (ps : list param) (e : err),
  maps_ok v -> Forall plain (p :: ps) ->
  (snd (delete_at E W false v p ps) = Err e <-> fails stuck v (p :: ps) e).
Proof.
  intros E W v first others e M HP.
  destruct (exists_last (l := first :: others) ltac:(discriminate)) as (ps & p & Hsp).
  assert (HPs : Forall plain ps).
  { rewrite Hsp in HP. apply Forall_app in HP as (HP1 & _). exact HP1. }
  rewrite (delete_shape E W v ps p first others HP Hsp). rewrite Hsp, (fails_snoc stuck v ps p e M).
  destruct ps as [|q qs].
  - cbn [loc' sub_at]. destruct (delete_here E W false v p) as [d' r] eqn:Ed. cbn [snd].
    pose proof (delete_here_err E W v p [] e) as Hd. rewrite Ed in Hd. cbn [snd] in Hd. rewrite Hd. split.
    + intros Hs. right. exists [], v. split; [constructor|assumption].
    + intros [(ps1 & z & ps2 & hs & d & Hx & _)|(hs & d & Hl & Hs)]; [destruct ps1; discriminate|].
      inversion Hl; subst. assumption.
  - cbn [loc']. destruct (loc E W v q qs) as [hs|e'| |] eqn:El.
    + destruct (loc_sound E W qs v q hs HPs El) as (d & Hl & Hsub). rewrite Hsub.
      pose proof (delete_here_err E W d p [] e) as Hd.
      destruct (delete_here E W false d p) as [d' r] eqn:Ed. cbn [snd] in *. rewrite Hd. split.
      * intros Hs. right. eauto.
      * intros [(ps1 & z & ps2 & hs1 & d1 & Hx & Hl1 & Hs1)|(hs1 & d1 & Hl1 & Hs1)].
        -- exfalso. assert (F : fails stuck v (q :: qs) e).
           { exists ps1, z, ps2, hs1, d1. split; [assumption|]. split; [assumption|]. eapply stuck_rest; eassumption. }
           apply (loc_err E W qs v q e HPs M) in F. congruence.
        -- destruct (proj2 (loc'_leads E W v (q :: qs) hs1 M HPs d1) Hl1) as (El1 & Es1). cbn [loc'] in El1.
           rewrite El in El1. injection El1 as <-. rewrite Hsub in Es1. injection Es1 as <-. assumption.
    + cbn [snd]. pose proof (proj1 (loc_err E W qs v q e' HPs M) El) as F. split.
      * intros H. injection H as <-. destruct F as (ps1 & z & ps2 & hs & d & Hx & Hl & Hs).
        left. exists ps1, z, ps2, hs, d. split; [assumption|]. split; [assumption|]. eapply stuck_rest; eassumption.
      * intros [(ps1 & z & ps2 & hs1 & d1 & Hx & Hl1 & Hs1)|(hs1 & d1 & Hl1 & Hs1)].
        -- assert (F1 : fails stuck v (q :: qs) e).
           { exists ps1, z, ps2, hs1, d1. split; [assumption|]. split; [assumption|]. eapply stuck_rest; eassumption. }
           apply (loc_err E W qs v q e HPs M) in F1. congruence.
        -- destruct (proj2 (loc'_leads E W v (q :: qs) hs1 M HPs d1) Hl1) as (El1 & _). cbn [loc'] in El1. congruence.
    + cbn [snd]. split; [discriminate|]. intros [(ps1 & z & ps2 & hs1 & d1 & Hx & Hl1 & Hs1)|(hs1 & d1 & Hl1 & Hs1)].
      * assert (F1 : fails stuck v (q :: qs) e).
        { exists ps1, z, ps2, hs1, d1. split; [assumption|]. split; [assumption|]. eapply stuck_rest; eassumption. }
        apply (loc_err E W qs v q e HPs M) in F1. congruence.
      * destruct (proj2 (loc'_leads E W v (q :: qs) hs1 M HPs d1) Hl1) as (El1 & _). cbn [loc'] in El1. congruence.
    + exfalso. eapply (locate_nofuel E W false v q qs). exact El.
Qed.

(** *** Setting *)
Lemma creatable_dec q : creatable q \/ (exists i, index_value q = Some i /\ i <> 0) \/ (no_name q /\ no_index q).
Proof.
  destruct (name_dec q) as [(k & ->)|Hn]; [left; left; eauto|].
  destruct (index_dec q) as [(i & Hi)|Hx]; [|auto].
  destruct (Z.eq_dec i 0) as [->|Hi0]; [left; right; assumption|right; left; eauto].
Qed.

Lemma unbuildable_nil e : ~ unbuildable [] e.
Proof. intros (r1 & q & r2 & H & _). destruct r1; discriminate. Qed.
Lemma unbuildable_cons q r e : creatable q -> (unbuildable (q :: r) e <-> unbuildable r e).
Proof.
  intros Hc. split.
  - intros (r1 & z & r2 & H & HF & HB). destruct r1 as [|y r1].
    + injection H as <- ->. exfalso. destruct Hc as [(k & ->)|Hc].
      * destruct HB as [(i & Hi & _)|(Hn & _)]; [discriminate|now elim (Hn k)].
      * destruct HB as [(i & Hi & Hi0 & _)|(_ & Hx & _)]; [congruence|unfold no_index in Hx; congruence].
    + injection H as <- ->. inversion HF; subst. exists r1, z, r2. auto.
  - intros (r1 & z & r2 & -> & HF & HB). exists (q :: r1), z, r2. split; [reflexivity|]. split; [now constructor|assumption].
Qed.
Lemma unbuildable_first q r e : ~ creatable q -> (unbuildable (q :: r) e <->
  (exists i, index_value q = Some i /\ i <> 0 /\ e = ErrOutOfRange) \/ (no_name q /\ no_index q /\ e = EOther)).
Proof.
  intros Hc. split.
  - intros (r1 & z & r2 & H & HF & HB). destruct r1 as [|y r1].
    + injection H as <- ->. assumption.
    + injection H as <- ->. inversion HF; subst. contradiction.
  - intros HB. exists [], q, r. split; [reflexivity|]. split; [constructor|assumption].
Qed.

(** The container made for [q]. *)
Lemma new_container_cases q :
  (exists k, q = PStr k /\ new_container q = Ok new_object) \/
  (index_value q = Some 0 /\ new_container q = Ok new_array) \/
  ((exists i, index_value q = Some i /\ i <> 0) /\ new_container q = Err ErrOutOfRange) \/
  (no_name q /\ no_index q /\ new_container q = Err EOther).
Proof.
  unfold new_container. destruct (name_dec q) as [(k & ->)|Hn]; [left; exists k; split; reflexivity|right].
  rewrite (no_name_err q Hn). destruct (index_dec q) as [(i & Hi)|Hx].
  - rewrite (fits_any_to_int _ _ Hi). destruct (Z.eqb_spec i 0) as [->|Hi0]; [left; auto|right; left; eauto].
  - right. right. rewrite (no_index_err q Hx). auto.
Qed.

Lemma fails_fresh_obj k r e : fails set_stuck new_object (PStr k :: r) e <-> unbuildable r e.
Proof.
  unfold new_object. rewrite fails_here by (intros; now apply dead_missing).
  split.
  - intros H. inversion H as [? ? ? [H0|H0]|? ? ? H0|? ? ? ? ? H0| | | |]; subst; try discriminate; try contradiction; try assumption.
    now elim (H0 k).
  - intros H. apply ss_new_member; [now intros []|assumption].
Qed.
Lemma fails_fresh_arr q r e : index_value q = Some 0 -> (fails set_stuck new_array (q :: r) e <-> unbuildable r e).
Proof.
  intros Hq. unfold new_array.
  assert (Hw : ~ within 0 []) by (unfold within; cbn; lia).
  rewrite fails_here by (intros; eapply dead_range; eassumption).
  split.
  - intros H. inversion H as [? ? ? [H0|H0]|? ? ? H0| |? ? ? H0|? ? ? H0 H1 H2| |]; subst; try discriminate; try contradiction; try assumption.
    + unfold no_index in H0. congruence.
    + cbn in H2. congruence.
  - intros H. eapply ss_new_elem; eassumption.
Qed.

Lemma fails_fresh q child r e : new_container q = Ok child -> (fails set_stuck child (q :: r) e <-> unbuildable (q :: r) e).
Proof.
  intros H. destruct (new_container_cases q) as [(k & -> & Hc)|[(Hq & Hc)|[(_ & Hc)|(_ & _ & Hc)]]]; rewrite H in Hc; try discriminate;
    injection Hc as ->.
  - rewrite fails_fresh_obj. symmetry. apply unbuildable_cons. left. eauto.
  - rewrite (fails_fresh_arr q r e Hq). symmetry. apply unbuildable_cons. right. assumption.
Qed.
Lemma unbuildable_new q e' r e : new_container q = Err e' -> (unbuildable (q :: r) e <-> e = e').
Proof.
  intros H. destruct (new_container_cases q) as [(k & -> & Hc)|[(Hq & Hc)|[((i & Hi & Hi0) & Hc)|(Hn & Hx & Hc)]]]; rewrite H in Hc; try discriminate;
    injection Hc as ->; rewrite unbuildable_first.
  - split; [intros [(_ & _ & _ & ->)|(_ & Hx & _)]; [reflexivity|unfold no_index in Hx; congruence]|].
    intros ->. left. eauto.
  - intros [(k & ->)|Hc]; [discriminate|congruence].
  - split; [intros [(i & Hi & _)|(_ & _ & ->)]; [unfold no_index in Hx; congruence|reflexivity]|]. intros ->. auto.
  - intros [(k & ->)|Hc]; [now elim (Hn k)|unfold no_index in Hx; congruence].
Qed.

Lemma set_f_err E c : uninitialized c = false -> forall r n v p e,
  (psum (p :: r) < n)%nat -> Forall plain (p :: r) -> maps_ok v ->
  snd (set_f E n v c p r) = Err e <-> fails set_stuck v (p :: r) e.
Proof.
  intros Hc r. induction r as [|q r IH]; intros n v p e Hn HP M; (destruct n as [|n]; [lia|]);
    cbn [set_f]; rewrite (peel_plain _ _ (Forall_inv HP)), Hc.
  - assert (Hx : fails set_stuck v [p] e <-> set_stuck v p [] e).
    { split.
      - intros (ps1 & p' & ps2 & hs & d & Hsp & Hl & Hs). destruct ps1 as [|z [|? ?]]; try discriminate.
        injection Hsp as <- <-. inversion Hl; subst. assumption.
      - intros Hs. exists [], p, [], [], v. split; [reflexivity|]. split; [constructor|assumption]. }
    rewrite Hx. clear Hx.
    destruct (uninitialized v) eqn:Hu.
    { cbn [snd]. split.
      - intros H. injection H as <-. apply ss_uninit. destruct v; try discriminate; auto.
      - intros H. destruct v; try discriminate; inversion H; subst; try reflexivity; try contradiction; congruence. }
    destruct v as [ |s|nn src|i kvs lo|l|b| | | ]; try discriminate; cbn [at_last_param snd];
      try (split; [intros H; injection H as <-; now apply ss_scalar
                  |intros H; inversion H as [? ? ? [H0|H0]| | | | | |]; subst; try discriminate; reflexivity]).
    + destruct (name_dec p) as [(k & ->)|Hnn].
      * cbn. split; [discriminate|]. intros H.
        inversion H as [? ? ? [H0|H0]|? ? ? H0|? ? ? ? ? H0| | |? ? ? ? ? ? ? H0|]; subst; try discriminate; try contradiction.
        -- now elim (H0 k).
        -- now elim (unbuildable_nil _ H0).
      * rewrite (no_name_err p Hnn). cbn [snd]. split.
        -- intros H. injection H as <-. now apply ss_no_name.
        -- intros H. inversion H as [? ? ? [H0|H0]|? ? ? H0|? ? ? ? ? H0| | |? ? ? ? ? ? ? H0|]; subst; try discriminate; try contradiction; try reflexivity.
           now elim (unbuildable_nil _ H0).
    + destruct (index_dec p) as [(i & Hi)|Hx].
      * rewrite (fits_any_to_int _ _ Hi). unfold set_at_index.
        destruct (Z.eqb_spec i (Z.of_nat (List.length l))) as [He|He].
        { cbn [snd]. split; [discriminate|]. intros H.
          inversion H as [? ? ? [H0|H0]|? ? ? H0| |? ? ? H0|? ? ? H0 H1 H2| |? ? ? ? ? H0 H1 H2]; subst; try discriminate; try contradiction.
          - unfold no_index in H0. congruence.
          - congruence.
          - now elim (unbuildable_nil _ H2). }
        destruct (pos_read (List.length l) i) as [m|] eqn:Er; cbn [snd].
        { split; [discriminate|]. intros H. exfalso.
          assert (Hw : within i l).
          { destruct (pos_read_some _ _ _ Er) as (a & x & b & -> & _ & Rf). unfold within, refers in *.
            rewrite app_length; cbn [List.length]; lia. }
          inversion H as [? ? ? [H0|H0]|? ? ? H0| |? ? ? H0|? ? ? H0 H1 H2| |? ? ? ? ? H0 H1 H2]; subst; try discriminate; try contradiction.
          - unfold no_index in H0. congruence.
          - assert (i0 = i) by congruence. subst. contradiction.
          - now elim (unbuildable_nil _ H2). }
        apply pos_read_none in Er. split.
        -- intros H. injection H as <-. eapply ss_range; eassumption.
        -- intros H. inversion H as [? ? ? [H0|H0]|? ? ? H0| |? ? ? H0|? ? ? H0 H1 H2| |? ? ? ? ? H0 H1 H2]; subst; try discriminate; try contradiction; try reflexivity.
           ++ unfold no_index in H0. congruence.
           ++ now elim (unbuildable_nil _ H2).
      * rewrite (no_index_err p Hx). cbn [snd]. split.
        -- intros H. injection H as <-. now apply ss_no_index.
        -- intros H. inversion H as [? ? ? [H0|H0]|? ? ? H0| |? ? ? H0|? ? ? H0 H1 H2| |? ? ? ? ? H0 H1 H2]; subst; try discriminate; try contradiction; try reflexivity.
           ++ unfold no_index in Hx. congruence.
           ++ now elim (unbuildable_nil _ H2).
  - pose proof (Forall_inv_tail HP) as HP2.
    assert (Hfuel : (psum (q :: r) < n)%nat).
    { cbn [psum] in *. pose proof (psize_pos p). lia. }
    assert (Hq : forall child e0, maps_ok child -> snd (set_f E n child c q r) = Err e0 <-> fails set_stuck child (q :: r) e0).
    { intros child e0 Mc. now apply IH. }
    destruct (uninitialized v) eqn:Hu.
    { cbn [snd].
      rewrite fails_here by (intros; apply dead_scalar; intros; destruct v; discriminate).
      split.
      - intros H. injection H as <-. apply ss_uninit. destruct v; try discriminate; auto.
      - intros H. destruct v; try discriminate; inversion H; subst; try reflexivity; try contradiction; congruence. }
    destruct v as [ |s|nn src|i kvs lo|l|b| | | ]; try discriminate; cbn [snd];
      try (rewrite fails_here by (intros; apply dead_scalar; intros; discriminate);
           split; [intros H; injection H as <-; now apply ss_scalar
                  |intros H; inversion H as [? ? ? [H0|H0]| | | | | |]; subst; try discriminate; reflexivity]).
    + apply maps_ok_obj in M as (ND & MF). rewrite Forall_forall in MF.
      destruct (name_dec p) as [(k & ->)|Hnn].
      * cbn [any_to_string]. destruct (alookup k kvs) as [[id x]|] eqn:El.
        -- pose proof (alookup_In _ _ _ El) as Hin. rewrite (fails_key set_stuck i kvs lo k id x (q :: r) e ND Hin).
           specialize (Hq x e (MF _ Hin)).
           assert (Hns : ~ set_stuck (VObj i kvs lo) (PStr k) (q :: r) e).
           { intros H. inversion H as [? ? ? [H0|H0]|? ? ? H0|? ? ? ? ? H0| | |? ? ? ? ? ? H0 H1|]; subst; try discriminate; try contradiction.
             - now elim (H0 k).
             - apply H0. change k with (fst (k, (id, x))). now apply in_map. }
           destruct (set_f E n x c q r) as [child' res]. cbn [snd] in *. rewrite Hq. tauto.
        -- apply alookup_None in El. rewrite fails_here by (intros; now apply dead_missing).
           assert (Hst : set_stuck (VObj i kvs lo) (PStr k) (q :: r) e <-> unbuildable (q :: r) e).
           { split.
             - intros H. inversion H as [? ? ? [H0|H0]|? ? ? H0|? ? ? ? ? H0| | |? ? ? ? ? ? H0 H1|]; subst; try discriminate; try contradiction; try assumption.
               now elim (H0 k).
             - intros H. now apply ss_new_member. }
           rewrite Hst. destruct (new_container q) as [child|e'| |] eqn:Enc.
           ++ assert (Mc : maps_ok child).
              { destruct (new_container_cases q) as [(k' & -> & Hcc)|[(Hqq & Hcc)|[(_ & Hcc)|(_ & _ & Hcc)]]]; rewrite Enc in Hcc; try discriminate; injection Hcc as ->.
                - unfold new_object. apply maps_ok_obj. split; constructor.
                - unfold new_array. apply maps_ok_arr. constructor. }
              specialize (Hq child e Mc). rewrite (fails_fresh q child r e Enc) in Hq. rewrite <- Hq.
              destruct (set_f E n child c q r) as [child' res]. cbn [snd] in *.
              destruct res as [y|e1| |]; cbn [snd set_to_object]; try reflexivity; try (split; congruence).
           ++ cbn [snd]. rewrite (unbuildable_new q e' r e Enc). split; congruence.
           ++ exfalso. destruct (new_container_cases q) as [(k' & -> & Hcc)|[(Hqq & Hcc)|[(_ & Hcc)|(_ & _ & Hcc)]]]; rewrite Enc in Hcc; discriminate.
           ++ exfalso. destruct (new_container_cases q) as [(k' & -> & Hcc)|[(Hqq & Hcc)|[(_ & Hcc)|(_ & _ & Hcc)]]]; rewrite Enc in Hcc; discriminate.
      * rewrite (no_name_err p Hnn). cbn [snd]. rewrite fails_here by (intros; now apply dead_name). split.
        -- intros H. injection H as <-. now apply ss_no_name.
        -- intros H. inversion H as [? ? ? [H0|H0]|? ? ? H0|? ? ? ? ? H0| | |? ? ? ? ? ? H0 H1|]; subst; try discriminate; try contradiction; try reflexivity.
           now elim (Hnn k).
    + pose proof (proj1 (maps_ok_arr l) M) as ML.
      destruct (index_dec p) as [(i & Hi)|Hx].
      * rewrite (fits_any_to_int _ _ Hi). destruct (pos_read (List.length l) i) as [m|] eqn:Er.
        -- destruct (pos_read_some _ _ _ Er) as (a & x & b & -> & <- & Rf).
           rewrite (fails_elem set_stuck a x b p i (q :: r) e Hi Rf).
           apply Forall_app in ML as (_ & ML).
           assert (Hnth : nth (List.length a) (a ++ x :: b) VNil = x) by (rewrite app_nth2, Nat.sub_diag; [reflexivity|lia]).
           rewrite Hnth. specialize (Hq x e (Forall_inv ML)).
           assert (Hns : ~ set_stuck (VArr (a ++ x :: b)) p (q :: r) e).
           { intros H. assert (Hw : within i (a ++ x :: b)) by (unfold within, refers in *; rewrite app_length; cbn [List.length]; lia).
             inversion H as [? ? ? [H0|H0]|? ? ? H0| |? ? ? H0|? ? ? H0 H1 H2| |? ? ? ? ? H0 H1 H2]; subst; try discriminate; try contradiction.
             - unfold no_index in H0. congruence.
             - assert (i0 = i) by congruence. subst. contradiction. }
           destruct (set_f E n x c q r) as [child' res]. cbn [snd] in *. rewrite Hq. tauto.
        -- apply pos_read_none in Er. rewrite fails_here by (intros; eapply dead_range; eassumption).
           assert (Hst : set_stuck (VArr l) p (q :: r) e <-> unbuildable (q :: r) e).
           { split.
             - intros H. inversion H as [? ? ? [H0|H0]|? ? ? H0| |? ? ? H0|? ? ? H0 H1 H2| |? ? ? ? ? H0 H1 H2]; subst; try discriminate; try contradiction; try assumption.
               unfold no_index in H0. congruence.
             - intros H. eapply ss_new_elem; eassumption. }
           rewrite Hst. destruct (new_container q) as [child|e'| |] eqn:Enc.
           ++ assert (Mc : maps_ok child).
              { destruct (new_container_cases q) as [(k' & -> & Hcc)|[(Hqq & Hcc)|[(_ & Hcc)|(_ & _ & Hcc)]]]; rewrite Enc in Hcc; try discriminate; injection Hcc as ->.
                - unfold new_object. apply maps_ok_obj. split; constructor.
                - unfold new_array. apply maps_ok_arr. constructor. }
              specialize (Hq child e Mc). rewrite (fails_fresh q child r e Enc) in Hq. rewrite <- Hq.
              destruct (set_f E n child c q r) as [child' res]. cbn [snd] in *.
              destruct res as [y|e1| |]; cbn [snd]; try reflexivity; try (split; congruence).
           ++ cbn [snd]. rewrite (unbuildable_new q e' r e Enc). split; congruence.
           ++ exfalso. destruct (new_container_cases q) as [(k' & -> & Hcc)|[(Hqq & Hcc)|[(_ & Hcc)|(_ & _ & Hcc)]]]; rewrite Enc in Hcc; discriminate.
           ++ exfalso. destruct (new_container_cases q) as [(k' & -> & Hcc)|[(Hqq & Hcc)|[(_ & Hcc)|(_ & _ & Hcc)]]]; rewrite Enc in Hcc; discriminate.
      * rewrite (no_index_err p Hx). cbn [snd]. rewrite fails_here by (intros; now apply dead_index). split.
        -- intros H. injection H as <-. now apply ss_no_index.
        -- intros H. inversion H as [? ? ? [H0|H0]|? ? ? H0| |? ? ? H0|? ? ? H0 H1 H2| |? ? ? ? ? H0 H1 H2]; subst; try discriminate; try contradiction; try reflexivity.
           unfold no_index in Hx. congruence.
Qed.

Theorem set_error : forall (E : Env) (v c : V) (p : param) (ps : list param) (e : err),
  maps_ok v -> Forall plain (p :: ps) -> c <> VNil -> c <> VNotExist ->
  (snd (set_at E v (arg_v c) p ps) = Err e <-> fails set_stuck v (p :: ps) e).
Proof.
  intros E v c p ps e M HP H1 H2. unfold set_at. cbn [arg_v snd fst]. apply set_f_err; auto.
  destruct c; try reflexivity; congruence.
Qed.
Theorem set_error_arg : forall (E : Env) (v c : V) (p : param) (ps : list param),
  Forall plain (p :: ps) -> c = VNil \/ c = VNotExist ->
  set_at E v (arg_v c) p ps = (v, Err ErrValueUninitialized).
Proof.
  intros E v c p ps HP H. unfold set_at. cbn [arg_v snd fst set_f].
  rewrite (peel_plain _ _ (Forall_inv HP)). destruct (uninitialized v); [reflexivity|]. destruct H as [-> | ->]; reflexivity.
Qed.

(** *** Inserting *)
Lemma insert_last_err af d c p e : d <> VNil ->
  snd (insert_last af d c p) = Err e <->
  ((forall l, d <> VArr l) /\ e = ErrNotArrayValue) \/
  (exists l, d = VArr l /\ ((no_index p /\ e = index_error p) \/ (exists i, index_value p = Some i /\ ~ within i l /\ e = ErrOutOfRange))).
Proof.
  intros Hd. destruct d as [ |s|nn src|i kvs lo|l|b| | | ]; cbn [insert_last snd];
    try (split; [intros H; injection H as <-; left; split; [discriminate|reflexivity]
                |intros [(_ & ->)|(l & H & _)]; [reflexivity|discriminate]]); try congruence.
  destruct (index_dec p) as [(i & Hi)|Hx].
  - rewrite (fits_any_to_int _ _ Hi), pos_insert_after_read, pos_insert_before_read.
    destruct (pos_read (List.length l) i) as [m|] eqn:Er.
    + assert (Hw : within i l).
      { destruct (pos_read_some _ _ _ Er) as (a & x & b & -> & _ & Rf). unfold within, refers in *. rewrite app_length; cbn [List.length]; lia. }
      split; [destruct af; cbn; discriminate|].
      intros [(H & _)|(l' & H & [(Hx & _)|(j & Hj & Hn & _)])]; [now elim (H l)|unfold no_index in Hx; congruence|].
      injection H as <-. assert (j = i) by congruence. subst. contradiction.
    + apply pos_read_none in Er.
      cbn [option_map]. destruct af; cbn [snd]; (split; [intros He; injection He as <-; right; exists l; split; [reflexivity|]; right; exists i; auto|]);
        (intros [(H0 & _)|(l' & H0 & [(Hx & _)|(j & Hj & Hn & ->)])]; [now elim (H0 l)|unfold no_index in Hx; congruence|reflexivity]).
  - rewrite (no_index_err p Hx). cbn [snd]. split.
    + intros H. injection H as <-. right. exists l. auto.
    + intros [(H & _)|(l' & H & [(_ & ->)|(j & Hj & _)])]; [now elim (H l)|reflexivity|unfold no_index in Hx; congruence].
Qed.

Lemma leads_same (E : Env) (W : World) v ps hs hs' d d' : maps_ok v -> Forall plain ps ->
  leads v ps hs d -> leads v ps hs' d' -> hs = hs' /\ d = d'.
Proof.
  intros M HP H1 H2. destruct (proj2 (loc'_leads E W v ps hs M HP d) H1) as (L1 & S1).
  destruct (proj2 (loc'_leads E W v ps hs' M HP d') H2) as (L2 & S2).
  rewrite L1 in L2. injection L2 as <-. rewrite S1 in S2. injection S2 as <-. auto.
Qed.
Lemma leads_no_fail (E : Env) (W : World) v ps hs d e : maps_ok v -> Forall plain ps -> leads v ps hs d -> ~ fails stuck v ps e.
Proof.
  intros M HP Hl F. destruct (proj2 (loc'_leads E W v ps hs M HP d) Hl) as (L1 & _). destruct ps as [|q qs].
  - destruct F as ([|? ?] & p & ps2 & hs1 & d1 & Hx & _); discriminate.
  - apply (loc_err E W qs v q e HP M) in F. cbn [loc'] in L1. congruence.
Qed.
Lemma leads_ne v ps hs d : leads v ps hs d -> ps <> [] -> v <> VNotExist.
Proof. intros H Hn ->. inversion H; subst; congruence. Qed.

Theorem insert_error : forall (E : Env) (W : World) (af : bool) (v c : V) (first : param) (others ps : list param) (p : param) (e : err),
  maps_ok v -> Forall plain (first :: others) -> first :: others = ps ++ [p] -> v <> VNil ->
  (snd (if af then insert_after E W v (arg_v c) first others else insert_before E W v (arg_v c) first others) = Err e <->
   insert_fails v ps p e).
Proof.
  intros E W af v c first others ps p e M HP Hsp Nv.
  assert (HPs : Forall plain ps).
  { rewrite Hsp in HP. apply Forall_app in HP as (HP1 & _). exact HP1. }
  assert (E0 : (if af then insert_after E W v (arg_v c) first others else insert_before E W v (arg_v c) first others)
               = insert_f E W (S (psum (first :: others))) af v c first others) by (destruct af; reflexivity).
  rewrite E0. assert (Nv' : is_nil v = false) by (destruct v; try reflexivity; congruence).
  destruct (not_exist v) eqn:Xv.
  - destruct v; try discriminate. cbn [insert_f]. rewrite (peel_plain _ _ (Forall_inv HP)). cbn [is_nil not_exist snd]. split.
    + intros H. injection H as <-. now apply if_uninit.
    + intros H. inversion H as [|e1 Hne|H1 Hne|hs d H1 Hl|hs l Hl|hs l i Hl]; subst; try reflexivity; try congruence.
      * now elim (leads_ne _ _ _ _ Hl H1).
      * inversion Hl.
      * inversion Hl.
  - assert (Xv' : v <> VNotExist) by (intros ->; discriminate).
    rewrite (insert_shape E W af v c ps p first others HP Hsp Nv' Xv). destruct ps as [|q qs].
    + cbn [loc' sub_at]. rewrite (insert_last_err af v c p e Nv). split.
      * intros [(Ha & ->)|(l & -> & [(Hx & ->)|(i & Hi & Hw & ->)])].
        -- now apply if_root.
        -- eapply if_index; [constructor|assumption].
        -- eapply if_range; [constructor|eassumption|assumption].
      * intros H. inversion H as [|e1 Hne F|H1 Hne Hnn Ha|hs d H1 Hl|hs l Hl Hx|hs l i Hl Hi Hw]; subst; try congruence.
        -- destruct F as ([|? ?] & z & ps2 & hs1 & d1 & Hz & _); discriminate.
        -- left. auto.
        -- inversion Hl; subst. right. exists l. auto.
        -- inversion Hl; subst. right. exists l. split; [reflexivity|]. right. eauto.
    + cbn [loc']. destruct (loc E W v q qs) as [hs|e'| |] eqn:El.
      * destruct (loc_sound E W qs v q hs HPs El) as (d & Hl & Hsub). rewrite Hsub.
        assert (Hd : snd (match d with
                 | VArr l => let '(d', r) := insert_last af (VArr l) c p in (put_at v hs d', r)
                 | VNil => (v, Panic)
                 | _ => (v, Err ErrTypeNotMatch)
                 end) = Err e <-> (d <> VNil /\ (forall l, d <> VArr l) /\ e = ErrTypeNotMatch) \/
                 (exists l, d = VArr l /\ ((no_index p /\ e = index_error p) \/ (exists i, index_value p = Some i /\ ~ within i l /\ e = ErrOutOfRange)))).
        { destruct d as [ |s|nn src|i kvs lo|l|b| | | ]; cbn [snd];
            try (split; [intros H; injection H as <-; left; repeat split; discriminate
                        |intros [(_ & _ & ->)|(l & H & _)]; [reflexivity|discriminate]]).
          - pose proof (insert_last_err af (VArr l) c p e ltac:(discriminate)) as Hi.
            destruct (insert_last af (VArr l) c p) as [d' r]. cbn [snd] in *. rewrite Hi. split.
            + intros [(H & _)|H]; [now elim (H l)|auto].
            + intros [(_ & H & _)|H]; [now elim (H l)|auto].
          - split; [discriminate|]. intros [(H & _)|(l & H & _)]; [congruence|discriminate]. }
        etransitivity; [exact Hd|]. clear Hd. split.
        -- intros [(Hn & Ha & ->)|(l & -> & [(Hx & ->)|(i & Hi & Hw & ->)])].
           ++ eapply if_type; [discriminate|eassumption|assumption|assumption].
           ++ eapply if_index; eassumption.
           ++ eapply if_range; eassumption.
        -- intros H. inversion H as [|e1 Hne F|H1 Hne Hnn Ha|hs1 d1 H1 Hl1 Hn Ha|hs1 l Hl1 Hx|hs1 l i Hl1 Hi Hw]; subst; try congruence.
           ++ now elim (leads_no_fail E W _ _ _ _ _ M HPs Hl F).
           ++ destruct (leads_same E W _ _ _ _ _ _ M HPs Hl Hl1) as (_ & <-). left. auto.
           ++ destruct (leads_same E W _ _ _ _ _ _ M HPs Hl Hl1) as (_ & ->). right. exists l. auto.
           ++ destruct (leads_same E W _ _ _ _ _ _ M HPs Hl Hl1) as (_ & ->). right. exists l. split; [reflexivity|]. right. eauto.
      * cbn [snd]. pose proof (proj1 (loc_err E W qs v q e' HPs M) El) as F. split.
        -- intros H. injection H as <-. now apply if_stuck.
        -- intros H. inversion H as [|e1 Hne F1|H1 Hne Hnn Ha|hs1 d1 H1 Hl1 Hn Ha|hs1 l Hl1 Hx|hs1 l i Hl1 Hi Hw]; subst; try congruence;
             try (now elim (leads_no_fail E W _ _ _ _ _ M HPs Hl1 F)).
           apply (loc_err E W qs v q e HPs M) in F1. congruence.
      * cbn [snd]. split; [discriminate|].
        intros H. inversion H as [|e1 Hne F1|H1 Hne Hnn Ha|hs1 d1 H1 Hl1 Hn Ha|hs1 l Hl1 Hx|hs1 l i Hl1 Hi Hw]; subst; try congruence.
        -- apply (loc_err E W qs v q e HPs M) in F1. congruence.
        -- destruct (proj2 (loc'_leads E W v (q :: qs) _ M HPs _) Hl1) as (El1 & _). cbn [loc'] in El1. congruence.
        -- destruct (proj2 (loc'_leads E W v (q :: qs) _ M HPs _) Hl1) as (El1 & _). cbn [loc'] in El1. congruence.
        -- destruct (proj2 (loc'_leads E W v (q :: qs) _ M HPs _) Hl1) as (El1 & _). cbn [loc'] in El1. congruence.
      * exfalso. eapply (locate_nofuel E W false v q qs). exact El.
Qed.

(** *** Appending *)
Theorem append_error : forall (E : Env) (W : World) (fr : bool) (v c : V) (ps : list param) (e : err),
  maps_ok v -> Forall plain ps -> v <> VNil ->
  (snd (append_at E W fr v (arg_v c) ps) = Err e <-> append_fails v ps e).
Proof.
  intros E W fr v c ps e M HP Nv. unfold append_at. rewrite (joint_plain _ HP). cbn [fst arg_v].
  assert (Nv' : is_nil v = false) by (destruct v; try reflexivity; congruence). rewrite Nv'.
  destruct (not_exist v) eqn:Xv.
  - destruct v; try discriminate. cbn [snd]. split.
    + intros H. injection H as <-. now apply af_uninit.
    + intros H. inversion H as [ps1 H1|H1|ps1 hs d H1 Hl|ps1 e1 H1|ps1 e1 F1 F2]; subst; try reflexivity; try congruence.
      * now elim (leads_ne _ _ _ _ Hl H1).
      * destruct ps as [|q qs]; [destruct F1 as ([|? ?] & z & ps2 & hs1 & d1 & Hz & _); discriminate|].
        apply fails_here in F1; [inversion F1|intros; apply dead_scalar; discriminate].
  - assert (Xv' : v <> VNotExist) by (intros ->; discriminate). destruct ps as [|p r].
    + assert (Hf : forall S e, ~ fails S v [] e).
      { intros S e1 ([|? ?] & z & ps2 & hs1 & d1 & Hz & _); discriminate. }
      destruct v as [ |s|nn src|i kvs lo|l|b| | | ]; try congruence; cbn [snd];
        try (split; [intros H; injection H as <-; apply af_root; discriminate
                    |intros H; inversion H as [ps1 H1|H1|ps1 hs d H1 Hl|ps1 e1 H1 F|ps1 e1 F1 F2]; subst; try congruence;
                     [now elim (Hf _ _ F)|now elim (Hf _ _ F1)]]).
      split; [discriminate|]. intros H. inversion H as [ps1 H1|H1 H2 H3|ps1 hs d H1 Hl|ps1 e1 H1 F|ps1 e1 F1 F2]; subst; try congruence;
        try (now elim (Hf _ _ F)); try (now elim (Hf _ _ F1)).
    + rewrite locate_pair. destruct (loc E W v p r) as [hs|e'| |] eqn:El.
      * destruct (loc_sound E W r v p hs HP El) as (d & Hl & Hsub). rewrite Hsub.
        assert (Hd : forall w, snd (match d with
                 | VArr l => (w l, Ok c)
                 | VNil => (v, Panic)
                 | _ => (v, Err ErrTypeNotMatch)
                 end) = Err e <-> (d <> VNil /\ (forall l, d <> VArr l) /\ e = ErrTypeNotMatch)).
        { intros w. destruct d as [ |s|nn src|i kvs lo|l|b| | | ]; cbn [snd];
            try (split; [intros H; injection H as <-; repeat split; discriminate|intros (_ & _ & ->); reflexivity]).
          - split; [discriminate|]. intros (_ & H & _). now elim (H l).
          - split; [discriminate|]. intros (H & _). congruence. }
        etransitivity; [exact (Hd (fun l => put_at v hs (VArr (if fr then c :: l else l ++ [c]))))|]. clear Hd. split.
        -- intros (Hn & Ha & ->). eapply af_type; [discriminate|eassumption|assumption|assumption].
        -- intros H. inversion H as [ps1 H1|H1 H2 H3|ps1 hs1 d1 H1 Hl1 Hn Ha|ps1 e1 H1 F|ps1 e1 F1 F2]; subst; try congruence.
           ++ destruct (leads_same E W _ _ _ _ _ _ M HP Hl Hl1) as (_ & <-). auto.
           ++ now elim (leads_no_fail E W _ _ _ _ _ M HP Hl F).
           ++ now elim (leads_no_fail E W _ _ _ _ _ M HP Hl F1).
      * pose proof (proj1 (loc_err E W r v p e' HP M) El) as F.
        assert (Hu : forall e1, fails stuck v (p :: r) e1 -> e1 = e').
        { intros e1 F1. apply (loc_err E W r v p e1 HP M) in F1. congruence. }
        assert (Ho : e' <> ErrNotFound -> e = e' <-> append_fails v (p :: r) e).
        { intros Hne. split.
          - intros ->. now apply af_stuck.
          - intros H. inversion H as [ps1 H1|H1 H2 H3|ps1 hs1 d1 H1 Hl1 Hn Ha|ps1 e1 H1 F3|ps1 e1 F1 F2]; subst; try congruence.
            + now elim (leads_no_fail E W _ _ _ _ _ M HP Hl1 F).
            + now apply Hu.
            + now elim Hne; rewrite (Hu _ F1). }
        destruct e'; try (cbn [snd]; rewrite <- Ho by discriminate; split; congruence).
        pose proof (set_error E v (VArr [c]) p r e M HP ltac:(discriminate) ltac:(discriminate)) as Hs.
        destruct (set_at E v (arg_v (VArr [c])) p r) as [v2 res]. cbn [snd] in Hs.
        assert (Hr : snd (match res with Ok _ => (v2, Ok c) | e0 => (v2, e0) end) = Err e <-> res = Err e).
        { destruct res; cbn [snd]; split; congruence. }
        rewrite Hr, Hs. split.
        -- intros F2. now apply af_build.
        -- intros H. inversion H as [ps1 H1|H1 H2 H3|ps1 hs1 d1 H1 Hl1 Hn Ha|ps1 e1 H1 F3|ps1 e1 F1 F2]; subst; try congruence.
           ++ now elim (leads_no_fail E W _ _ _ _ _ M HP Hl1 F).
           ++ now apply Hu in F3.
      * cbn [snd]. split; [discriminate|].
        assert (Hu : forall e1, ~ fails stuck v (p :: r) e1).
        { intros e1 F1. apply (loc_err E W r v p e1 HP M) in F1. congruence. }
        intros H. inversion H as [ps1 H1|H1 H2 H3|ps1 hs1 d1 H1 Hl1 Hn Ha|ps1 e1 H1 F3|ps1 e1 F1 F2]; subst; try congruence.
        -- destruct (proj2 (loc'_leads E W v (p :: r) _ M HP _) Hl1) as (El1 & _). cbn [loc'] in El1. congruence.
        -- now elim (Hu _ F3).
        -- now elim (Hu _ F1).
      * exfalso. eapply (locate_nofuel E W false v p r). exact El.
Qed.

(** *** The classes one by one *)
Theorem not_found_class : forall (E : Env) (W : World) (v : V) (p : param) (ps : list param),
  maps_ok v -> Forall plain (p :: ps) ->
  (snd (get E W false v p ps) = Err ErrNotFound <-> missing_member v (p :: ps)) /\
  (snd (delete_at E W false v p ps) = Err ErrNotFound <-> missing_member v (p :: ps)).
Proof.
  intros E W v p ps M HP.
  assert (H : fails stuck v (p :: ps) ErrNotFound <-> missing_member v (p :: ps)).
  { split.
    - intros (ps1 & q & ps2 & hs & d & Hx & Hl & Hs). inversion Hs as [i kvs lo k r Hn| | |l q' r Hn Hi He|]; subst; [|destruct q; discriminate].
      exists ps1, k, ps2, hs, i, kvs, lo. auto.
    - intros (ps1 & k & ps2 & hs & i & kvs & lo & Hx & Hl & Hn). exists ps1, (PStr k), ps2, hs, (VObj i kvs lo).
      split; [assumption|]. split; [assumption|]. now apply stuck_name. }
  rewrite get_error, delete_error by assumption. auto.
Qed.
Theorem out_of_range_class : forall (E : Env) (W : World) (v : V) (p : param) (ps : list param),
  maps_ok v -> Forall plain (p :: ps) ->
  let missing_element := exists ps1 q ps2 hs l i, p :: ps = ps1 ++ q :: ps2 /\ leads v ps1 hs (VArr l) /\
    index_value q = Some i /\ (i < - Z.of_nat (List.length l) \/ i >= Z.of_nat (List.length l)) in
  (snd (get E W false v p ps) = Err ErrOutOfRange <-> missing_element) /\
  (snd (delete_at E W false v p ps) = Err ErrOutOfRange <-> missing_element).
Proof.
  intros E W v p ps M HP missing_element.
  assert (H : fails stuck v (p :: ps) ErrOutOfRange <-> missing_element).
  { split.
    - intros (ps1 & q & ps2 & hs & d & Hx & Hl & Hs). inversion Hs as [|l q' i r Hi Hw| |l q' r Hn Hi He|]; subst; [|destruct q; discriminate].
      exists ps1, q, ps2, hs, l, i. unfold within in Hw. repeat (split; [assumption|]). lia.
    - intros (ps1 & q & ps2 & hs & l & i & Hx & Hl & Hi & Hw). exists ps1, q, ps2, hs, (VArr l).
      split; [assumption|]. split; [assumption|]. eapply stuck_range; [eassumption|]. unfold within. lia. }
  rewrite get_error, delete_error by assumption. auto.
Qed.

Lemma set_stuck_not_found d p r : ~ set_stuck d p r ErrNotFound.
Proof.
  assert (U : forall r, ~ unbuildable r ErrNotFound).
  { intros r' (r1 & q & r2 & _ & _ & [(i & _ & _ & H)|(_ & _ & H)]); discriminate. }
  intros H. inversion H; subst; try (now eapply U; eassumption). destruct p; discriminate.
Qed.
Theorem never_not_found : forall (E : Env) (W : World) (v c : V), maps_ok v ->
  (forall p ps, Forall plain (p :: ps) -> snd (set_at E v (arg_v c) p ps) <> Err ErrNotFound) /\
  (forall fr ps, Forall plain ps -> v <> VNil -> snd (append_at E W fr v (arg_v c) ps) <> Err ErrNotFound).
Proof.
  intros E W v c M. split.
  - intros p ps HP. destruct (uninitialized c) eqn:Hu.
    + rewrite set_error_arg; [discriminate|assumption|destruct c; try discriminate; auto].
    + intros H. apply set_error in H; [|assumption|assumption|intros ->; discriminate|intros ->; discriminate].
      destruct H as (ps1 & q & ps2 & hs & d & _ & _ & Hs). now apply set_stuck_not_found in Hs.
  - intros fr ps HP Nv H. apply append_error in H; [|assumption|assumption|assumption].
    inversion H as [| | |ps1 e1 _ _ Hn|ps1 e1 _ F]; subst; [congruence|].
    destruct F as (ps1 & q & ps2 & hs & d & _ & _ & Hs). now apply set_stuck_not_found in Hs.
Qed.
