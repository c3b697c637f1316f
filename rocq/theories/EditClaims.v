(** Claims about Get, Insert, Append, Delete, slices as paths, Must forms. *)
From Verif Require Import Base Utf8 Float64 Value Opt Marshal ListLemmas ValueLemmas Access Path Edit SpecPath PathProof EditProof SetProof SetClaims.
From Verif Require ExampleWorld ForgetProof.

(** ** Get: one step, chaining *)

Lemma get_elem E W a x b p i : index_value p = Some i -> refers i a b ->
  get E W false (VArr (a ++ x :: b)) p [] = (VArr (a ++ x :: b), Ok x).
Proof.
  intros Hp Rf. rewrite get_pair, (loc_one _ _ _ _ (index_plain _ _ Hp)), (find1_elem E W a x b p i Hp Rf).
  cbn [rbind sub_at child_at]. now rewrite nth_error_app_here.
Qed.

Lemma get_out_of_range E W l p i ps : index_value p = Some i ->
  ~ (- Z.of_nat (List.length l) <= i < Z.of_nat (List.length l)) ->
  get E W false (VArr l) p ps = (VArr l, Err ErrOutOfRange).
Proof.
  intros Hp HB. apply pos_read_none in HB.
  assert (E1 : find1 E W (VArr l) p = Err ErrOutOfRange).
  { unfold find1. cbn [find_child snd]. rewrite (fits_any_to_int _ _ Hp). cbn [rbind]. now rewrite HB. }
  rewrite get_pair. destruct ps as [|q r].
  - rewrite (loc_one _ _ _ _ (index_plain _ _ Hp)), E1. reflexivity.
  - rewrite (loc_more _ _ _ _ _ _ (index_plain _ _ Hp)), E1. reflexivity.
Qed.

Lemma get_member E W i kvs lo k id x : NoDup (map fst kvs) -> In (k, (id, x)) kvs ->
  get E W false (VObj i kvs lo) (PStr k) [] = (VObj i kvs lo, Ok x).
Proof.
  intros ND Hin. pose proof (alookup_NoDup_In _ _ _ ND Hin) as El.
  rewrite get_pair, loc_one by exact I. rewrite (find1_key E W i kvs lo k id x El). cbn [rbind sub_at child_at]. now rewrite El.
Qed.

Lemma find1_missing E W i kvs lo k : ~ In k (map fst kvs) -> find1 E W (VObj i kvs lo) (PStr k) = Err ErrNotFound.
Proof. intros H. apply alookup_None in H. unfold find1. cbn. unfold find_key. now rewrite H. Qed.

Lemma get_missing E W i kvs lo k ps : ~ In k (map fst kvs) ->
  get E W false (VObj i kvs lo) (PStr k) ps = (VObj i kvs lo, Err ErrNotFound).
Proof.
  intros H. rewrite get_pair. destruct ps as [|q r].
  - rewrite loc_one by exact I. now rewrite find1_missing.
  - rewrite loc_more by exact I. now rewrite find1_missing.
Qed.

Lemma get_chain E W v p q r : plain p ->
  get E W false v p (q :: r) =
  match get E W false v p [] with
  | (_, Ok c) => (v, snd (get E W false c q r))
  | (_, e) => (v, e)
  end.
Proof.
  intros P. rewrite !get_pair, (loc_more _ _ _ _ _ _ P), (loc_one _ _ _ _ P).
  destruct (find1 E W v p) as [h|e| |] eqn:E1; try reflexivity. cbn [rbind sub_at].
  destruct (child_at v h) as [c|] eqn:Ec; [|reflexivity].
  rewrite get_pair. cbn [snd]. destruct (loc E W c q r) as [t|e| |]; try reflexivity. cbn [rbind sub_at]. now rewrite Ec.
Qed.

(** Get on a tree without nil pointers ends. *)
Lemma get_ends E W : forall ps v p, no_nil v -> Forall plain (p :: ps) -> ends (snd (get E W false v p ps)).
Proof.
  induction ps as [|q r IH]; intros v p N HP.
  - rewrite get_pair. cbn [snd]. rewrite (loc_one _ _ _ _ (Forall_inv HP)).
    destruct (find1 E W v p) as [h|e| |] eqn:E1; [| exact I | |].
    + cbn [rbind sub_at]. destruct (find_child_h E W false v p v h) as (c & Ec).
      { rewrite find_child_pair. now rewrite E1. }
      rewrite Ec. exact I.
    + apply find1_nopanic in E1; [contradiction|]. now destruct v.
    + exfalso. exact (find_child_nofuel E W false v p E1).
  - rewrite (get_chain _ _ _ _ _ _ (Forall_inv HP)).
    pose proof (IH v p) as _. rewrite get_pair. rewrite (loc_one _ _ _ _ (Forall_inv HP)).
    destruct (find1 E W v p) as [h|e| |] eqn:E1; [| exact I | |].
    + cbn [rbind sub_at]. destruct (find_child_h E W false v p v h) as (c & Ec).
      { rewrite find_child_pair. now rewrite E1. }
      rewrite Ec. cbn [snd]. apply IH; [|exact (Forall_inv_tail HP)].
      destruct v as [ |s|nn src|i kvs lo|l|b| | | ], h as [n|k]; cbn in Ec; try discriminate.
      * destruct (alookup k kvs) as [[id x]|] eqn:El; [|discriminate]. injection Ec as ->.
        apply no_nil_obj in N. rewrite Forall_forall in N. exact (N _ (alookup_In _ _ _ El)).
      * apply no_nil_arr in N. rewrite Forall_forall in N. apply N. exact (nth_error_In _ _ Ec).
    + apply find1_nopanic in E1; [contradiction|]. now destruct v.
    + exfalso. exact (find_child_nofuel E W false v p E1).
Qed.

(** ** The place an edit acts on *)
Definition loc' E W v (ps : list param) : res (list hop) :=
  match ps with [] => Ok [] | q :: qs => loc E W v q qs end.

Lemma loc'_leads E W v ps hs : maps_ok v -> Forall plain ps -> forall d, (loc' E W v ps = Ok hs /\ sub_at v hs = Some d) <-> leads v ps hs d.
Proof.
  intros M HP d. destruct ps as [|q qs].
  - cbn [loc']. split.
    + intros (H1 & H2). injection H1 as <-. cbn in H2. injection H2 as <-. constructor.
    + intros H. inversion H; subst. auto.
  - cbn [loc']. split.
    + intros (H1 & H2). destruct (loc_sound E W qs v q hs HP H1) as (c & Hl & Hs). rewrite Hs in H2. injection H2 as <-. exact Hl.
    + intros H. split; [exact (loc_complete E W qs v q hs d M H)|exact (leads_sub _ _ _ _ H M)].
Qed.

Lemma put_changed (R : V -> V -> Prop) : forall hs v d d', maps_ok v -> sub_at v hs = Some d -> R d d' ->
  changed R hs v (put_at v hs d').
Proof.
  induction hs as [|h hs IH]; intros v d d' M Hs HR.
  - cbn in *. injection Hs as ->. now constructor.
  - cbn [sub_at put_at] in *. destruct (child_at v h) as [x|] eqn:Ex; [|discriminate].
    destruct v as [ |s|nn src|i kvs lo|l|b| | | ], h as [n|k]; cbn in Ex; try discriminate.
    + destruct (alookup k kvs) as [[id y]|] eqn:El; [|discriminate]. injection Ex as ->.
      destruct (alookup_split _ _ _ El) as (a & b & Ek & Hk & Hset). cbn [put_child]. rewrite El, Hset, Ek.
      constructor. apply (IH x d d'); [|exact Hs|exact HR].
      apply maps_ok_obj in M as (_ & MF). rewrite Forall_forall in MF. exact (MF _ (alookup_In _ _ _ El)).
    + destruct (nth_error_split' _ _ _ Ex) as (a & b & -> & <-). cbn [put_child]. rewrite set_nth_app.
      constructor. apply (IH x d d'); [|exact Hs|exact HR]. apply maps_ok_arr, Forall_app in M as (_ & M). exact (Forall_inv M).
Qed.

Lemma changed_put (R : V -> V -> Prop) : forall hs v v', changed R hs v v' -> maps_ok v ->
  exists d d', R d d' /\ sub_at v hs = Some d /\ v' = put_at v hs d'.
Proof.
  induction 1 as [v v' HR|i a k id x x' b lo hs Hc IH|a x x' b hs Hc IH]; intros M.
  - exists v, v'. auto.
  - apply maps_ok_obj in M as (ND & MF).
    assert (Hin : In (k, (id, x)) (a ++ (k, (id, x)) :: b)) by (apply in_or_app; right; now left).
    pose proof (alookup_NoDup_In _ _ _ ND Hin) as El. rewrite Forall_forall in MF.
    destruct (IH (MF _ Hin)) as (d & d' & HR & Hs & ->). exists d, d'. split; [exact HR|].
    cbn [sub_at put_at child_at]. rewrite El. split; [exact Hs|]. cbn [put_child]. rewrite El.
    destruct (alookup_split _ _ _ El) as (a1 & b1 & Ek & Hk & Hset). rewrite Hset. f_equal.
    (* the split is unique, names being distinct *)
    assert (U : a1 = a /\ b1 = b).
    { assert (Ha : ~ In k (map fst a)).
      { rewrite map_app in ND. cbn in ND. apply NoDup_remove_2 in ND. intros C. apply ND. apply in_or_app. now left. }
      clear - Ek Hk Ha. revert a1 Ek Hk. induction a as [|[k0 e0] a IHa]; intros [|[k1 e1] a1]; cbn; intros Ek Hk.
      - injection Ek as <-. auto.
      - injection Ek as <- _ _. exfalso. apply Hk. now left.
      - injection Ek as -> _ _. exfalso. apply Ha. now left.
      - injection Ek as -> -> Ek. destruct (IHa (fun C => Ha (or_intror C)) a1 Ek (fun C => Hk (or_intror C))) as (-> & ->). auto. }
    destruct U as (-> & ->). reflexivity.
  - apply maps_ok_arr, Forall_app in M as (_ & M).
    destruct (IH (Forall_inv M)) as (d & d' & HR & Hs & ->). exists d, d'. split; [exact HR|].
    cbn [sub_at put_at child_at]. rewrite nth_error_app_here. split; [exact Hs|]. cbn [put_child]. now rewrite set_nth_app.
Qed.

(** What an edit that locates a child and then acts on it does. *)
Lemma acts_iff {A} E W (f : V -> V * res A) (R : V -> V -> Prop) (ok : A) v ps v' x :
  maps_ok v -> Forall plain ps -> (forall d d' y, maps_ok d -> (f d = (d', Ok y) <-> y = ok /\ R d d')) ->
  (match loc' E W v ps with
   | Ok hs => match sub_at v hs with
              | Some d => let '(d', r) := f d in (put_at v hs d', r)
              | None => (v, Panic)
              end
   | Err e => (v, Err e) | Panic => (v, Panic) | Fuel => (v, Fuel)
   end = (v', Ok x)) <->
  (x = ok /\ exists hs d, leads v ps hs d /\ changed (fun a a' => a = d /\ R a a') hs v v').
Proof.
  intros M HP Hf. split.
  - intros H. destruct (loc' E W v ps) as [hs|e| |] eqn:El; try discriminate.
    destruct (sub_at v hs) as [d|] eqn:Es; [|discriminate].
    pose proof (proj1 (loc'_leads E W v ps hs M HP d) (conj El Es)) as Hl.
    destruct (f d) as [d' r] eqn:Ef. injection H as <- ->.
    apply (Hf d d' x (leads_maps _ _ _ _ Hl M)) in Ef as (-> & HR). split; [reflexivity|].
    exists hs, d. split; [exact Hl|]. apply (put_changed _ hs v d d' M Es). auto.
  - intros (-> & hs & d & Hl & Hc). destruct (proj2 (loc'_leads E W v ps hs M HP d) Hl) as (El & Es).
    rewrite El, Es. destruct (changed_put _ _ _ _ Hc M) as (d0 & d' & (-> & HR) & _ & ->).
    assert (Ef : f d = (d', Ok ok)) by (apply (Hf d d' ok (leads_maps _ _ _ _ Hl M)); auto).
    now rewrite Ef.
Qed.

(** ** Insert *)
Lemma pos_insert_before_read n i : pos_insert_before n i = pos_read n i.
Proof.
  unfold pos_insert_before, pos_read. destruct (Z.eqb_spec (Z.of_nat n) 0); [reflexivity|].
  destruct (Z.eqb_spec i 0) as [->|N]; [|reflexivity].
  cbn [Z.ltb Z.compare]. destruct (Z.leb_spec (Z.of_nat n) 0); [lia|reflexivity].
Qed.
Lemma pos_insert_after_read n i : pos_insert_after n i = option_map S (pos_read n i).
Proof.
  unfold pos_insert_after, pos_read. destruct (Z.eqb_spec (Z.of_nat n) 0); [reflexivity|].
  destruct (Z.eqb_spec i (-1)) as [->|N].
  - change (-1 <? 0) with true. cbn iota. destruct (Z.ltb_spec (-1 + Z.of_nat n) 0); [lia|]. cbn [option_map]. f_equal. lia.
  - destruct (Z.ltb_spec i 0).
    + destruct (Z.ltb_spec (i + Z.of_nat n) 0); [reflexivity|]. cbn [option_map]. f_equal. lia.
    + destruct (Z.leb_spec (Z.of_nat n) i); [reflexivity|]. cbn [option_map]. f_equal. lia.
Qed.

Lemma insert_to_after {A} (a : list A) e b c : insert_to_arr (a ++ e :: b) (S (List.length a)) c = a ++ e :: c :: b.
Proof. unfold insert_to_arr. induction a as [|y a IH]; [reflexivity|]. cbn [List.length app]. cbn [firstn skipn app] in *. now rewrite IH. Qed.
Lemma insert_to_before {A} (a : list A) e b c : insert_to_arr (a ++ e :: b) (List.length a) c = a ++ c :: e :: b.
Proof. unfold insert_to_arr. induction a as [|y a IH]; [reflexivity|]. cbn [List.length app]. cbn [firstn skipn app] in *. now rewrite IH. Qed.
Lemma delete_at_place {A} (a : list A) e b : delete_in_arr (a ++ e :: b) (List.length a) = a ++ b.
Proof. unfold delete_in_arr. induction a as [|y a IH]; [reflexivity|]. cbn [List.length app]. cbn [firstn skipn app] in *. now rewrite IH. Qed.


Lemma insert_last_iff af c p d d' x : 
  insert_last af d c p = (d', Ok x) <-> x = c /\ exists i, index_value p = Some i /\ added af c i d d'.
Proof.
  intros. split.
  - unfold insert_last. destruct d as [ |s|nn src|i kvs lo|l|b| | | ]; try discriminate.
    destruct (any_to_int p) as [i|e| |] eqn:Ei; try discriminate.
    pose proof (any_to_int_fits _ _ Ei) as Hi.
    rewrite pos_insert_after_read, pos_insert_before_read.
    destruct (pos_read (List.length l) i) as [n|] eqn:Er.
    + destruct (pos_read_some _ _ _ Er) as (a & e & b & -> & <- & Rf).
      destruct af; cbn [option_map]; intros [= <- <-]; (split; [reflexivity|]); exists i; (split; [exact Hi|]);
        exists a, e, b; (split; [reflexivity|]); (split; [exact Rf|]); f_equal; [apply insert_to_after|apply insert_to_before].
    + destruct af; discriminate.
  - intros (-> & i & Hi & HA).
    assert (HA' : exists a e b, d = VArr (a ++ e :: b) /\ refers i a b /\ d' = if af then VArr (a ++ e :: c :: b) else VArr (a ++ c :: e :: b)).
    { destruct af; destruct HA as (a & e & b & H1 & H2 & H3); eauto 6. }
    destruct HA' as (a & e & b & -> & Rf & ->). cbn [insert_last]. rewrite (fits_any_to_int _ _ Hi).
    rewrite pos_insert_after_read, pos_insert_before_read, (pos_read_refers _ _ _ _ Rf).
    destruct af; cbn [option_map]; f_equal; f_equal; [apply insert_to_after|apply insert_to_before].
Qed.

(** The path of an Insert or Delete: all parameters but the last lead to the
    container, the last addresses in it. *)

Lemma insert_shape E W af v c ps p first others :
  Forall plain (first :: others) -> first :: others = ps ++ [p] -> is_nil v = false -> not_exist v = false ->
  insert_f E W (S (psum (first :: others))) af v c first others =
  match loc' E W v ps with
  | Ok hs => match sub_at v hs with
             | Some d =>
               match ps with
               | [] => insert_last af d c p
               | _ :: _ =>
                 match d with
                 | VArr l => let '(d', r) := insert_last af (VArr l) c p in (put_at v hs d', r)
                 | VNil => (v, Panic)
                 | _ => (v, Err ErrTypeNotMatch)
                 end
               end
             | None => (v, Panic)
             end
  | Err e => (v, Err e) | Panic => (v, Panic) | Fuel => (v, Fuel)
  end.
Proof.
  intros HP Hsp Nv Xv. destruct ps as [|q qs].
  - cbn in Hsp. injection Hsp as -> ->. cbn [insert_f]. rewrite (peel_plain _ _ (Forall_inv HP)), Nv, Xv. reflexivity.
  - cbn in Hsp. injection Hsp as <- Ho. cbn [insert_f]. rewrite (peel_plain _ _ (Forall_inv HP)), Nv, Xv.
    assert (Pp : plain p).
    { rewrite Ho in HP. apply (proj1 (Forall_forall _ _) HP). right. apply in_or_app. right. now left. }
    rewrite Ho. destruct (qs ++ [p]) as [|z zs] eqn:Ez; [destruct qs; discriminate|]. rewrite <- Ez.
    rewrite removelast_last, last_last, locate_pair. cbn [loc'].
    destruct (loc E W v first qs) as [hs|e| |] eqn:El; try reflexivity.
    destruct (sub_at v hs) as [d|]; [|reflexivity].
    destruct d as [ |s|nn src|i kvs lo|l|b| | | ]; try reflexivity.
    assert (Eq : forall n, insert_f E W (S n) af (VArr l) c p [] = insert_last af (VArr l) c p).
    { intros n. cbn [insert_f]. now rewrite (peel_plain _ _ Pp). }
    assert (Ps : exists n, psum (first :: qs ++ [p]) = S n).
    { cbn [psum]. pose proof (psize_pos first). destruct (psize first); [lia|]. cbn. eauto. }
    destruct Ps as (n & Ps). rewrite Ps, Eq. reflexivity.
Qed.

Theorem insert_iff E W (af : bool) v c ps p first others v' x : maps_ok v ->
  Forall plain (first :: others) -> first :: others = ps ++ [p] ->
  (if af then insert_after E W v (arg_v c) first others else insert_before E W v (arg_v c) first others) = (v', Ok x) <->
  x = c /\ exists hs d i, leads v ps hs d /\ index_value p = Some i /\
    changed (fun a a' => a = d /\ added af c i a a') hs v v'.
Proof.
  intros M HP Hsp.
  assert (HPs : Forall plain ps).
  { rewrite Hsp in HP. apply Forall_app in HP as (HP1 & _). exact HP1. }
  assert (E0 : (if af then insert_after E W v (arg_v c) first others else insert_before E W v (arg_v c) first others)
               = insert_f E W (S (psum (first :: others))) af v c first others) by (destruct af; reflexivity).
  rewrite E0.
  assert (Alt : (x = c /\ exists hs d i, leads v ps hs d /\ index_value p = Some i /\
                   changed (fun a a' => a = d /\ added af c i a a') hs v v') <->
                (x = c /\ exists hs d, leads v ps hs d /\
                   changed (fun a a' => a = d /\ exists i, index_value p = Some i /\ added af c i a a') hs v v')).
  { apply and_iff_compat_l. split.
    - intros (hs & d & i & Hl & Hi & Hc). exists hs, d. split; [exact Hl|].
      revert Hc. clear - Hi. induction 1 as [u u' (He & Ha)| |]; constructor; eauto.
    - intros (hs & d & Hl & Hc). destruct (changed_put _ _ _ _ Hc M) as (d0 & d' & (-> & i & Hi & Ha) & Es & ->).
      exists hs, d, i. split; [exact Hl|]. split; [exact Hi|]. apply (put_changed _ hs v d d' M Es). auto. }
  rewrite Alt.
  destruct (is_nil v || not_exist v) eqn:Eu.
  - assert (Hleft : insert_f E W (S (psum (first :: others))) af v c first others <> (v', Ok x)).
    { cbn [insert_f]. rewrite (peel_plain _ _ (Forall_inv HP)). destruct (is_nil v); [destruct af; discriminate|].
      cbn [orb] in Eu. rewrite Eu. discriminate. }
    split; [intros H; now apply Hleft in H|]. intros (_ & hs & d & Hl & Hc). exfalso.
    inversion Hl; subst; try discriminate. inversion Hc as [u u' (_ & i & _ & Ha)| |]; subst.
    destruct af; destruct Ha as (a & e & b & -> & _); discriminate.
  - apply orb_false_elim in Eu as (Nv & Xv).
    rewrite (insert_shape E W af v c ps p first others HP Hsp Nv Xv).
    rewrite <- (acts_iff E W (fun d => insert_last af d c p) _ c v ps v' x M HPs
               (fun d d' y _ => insert_last_iff af c p d d' y)).
    destruct (loc' E W v ps) as [hs|e| |] eqn:El; try reflexivity.
    destruct (sub_at v hs) as [d|] eqn:Es; [|reflexivity].
    destruct ps as [|q qs].
    + cbn [loc'] in El. injection El as <-. cbn in Es. injection Es as <-. cbn [put_at].
      destruct (insert_last af v c p); reflexivity.
    + destruct d as [ |s|nn src|i kvs lo|l|b| | | ]; cbn [insert_last]; try reflexivity; split; discriminate.
Qed.

(** ** Delete *)
Lemma delete_here_iff E W p d d' x : maps_ok d -> 
  delete_here E W false d p = (d', Ok x) ->
  x = tt /\ removed p d d'.
Proof.
  intros M H. split; [now destruct x|].
  unfold delete_here in H. destruct d as [ |s|nn src|i kvs lo|l|b| | | ]; try discriminate.
  - destruct p as [j|u|k|l| |]; cbn [any_to_string] in H; try discriminate. unfold del_from_object in H.
    destruct (alookup k kvs) as [[id y]|] eqn:El; [|discriminate]. injection H as <- <-.
    destruct (alookup_split _ _ _ El) as (a & b & -> & Hk & _). apply maps_ok_obj in M as (ND & _).
    rewrite map_app in ND. cbn in ND.
    assert (Hn : ~ In k (map fst (a ++ b))) by (rewrite map_app; exact (NoDup_remove_2 _ _ _ ND)).
    assert (Er : aremove k (a ++ (k, (id, y)) :: b) = a ++ b).
    { clear - Hn. induction a as [|[k0 e0] a IH]; cbn [app aremove].
      - destruct (beqb_spec k k) as [_|N]; [|now destruct N].
        clear - Hn. cbn [app] in Hn. induction b as [|[k1 e1] b IH]; [reflexivity|]. cbn. destruct (beqb_spec k k1) as [->|N1]; [exfalso; apply Hn; now left|].
        try reflexivity. f_equal. apply IH. intros C. apply Hn. now right.
      - destruct (beqb_spec k k0) as [->|N0]; [exfalso; apply Hn; now left|]. f_equal. apply IH. intros C. apply Hn. now right. }
    rewrite Er. constructor. exact Hn.
  - destruct (any_to_int p) as [i|e| |] eqn:Ei; try discriminate.
    destruct (pos_read (List.length l) i) as [n|] eqn:Er; [|discriminate]. injection H as <- <-.
    destruct (pos_read_some _ _ _ Er) as (a & e & b & -> & <- & Rf). rewrite delete_at_place.
    eapply removed_elem; [exact (any_to_int_fits _ _ Ei)|exact Rf].
Qed.

Lemma delete_shape E W v ps p first others :
  Forall plain (first :: others) -> first :: others = ps ++ [p] ->
  delete_at E W false v first others =
  match loc' E W v ps with
  | Ok hs => match sub_at v hs with
             | Some d => let '(d', r) := delete_here E W false d p in (put_at v hs d', r)
             | None => (v, Panic)
             end
  | Err e => (v, Err e) | Panic => (v, Panic) | Fuel => (v, Fuel)
  end.
Proof.
  intros HP Hsp. unfold delete_at. destruct ps as [|q qs].
  - cbn in Hsp. injection Hsp as -> ->. cbn [delete_f]. rewrite (peel_plain _ _ (Forall_inv HP)). cbn [loc' sub_at put_at].
    destruct (delete_here E W false v p); reflexivity.
  - cbn in Hsp. injection Hsp as <- Ho. cbn [delete_f]. rewrite (peel_plain _ _ (Forall_inv HP)).
    assert (Pp : plain p).
    { rewrite Ho in HP. apply (proj1 (Forall_forall _ _) HP). right. apply in_or_app. right. now left. }
    rewrite Ho. destruct (qs ++ [p]) as [|z zs] eqn:Ez; [destruct qs; discriminate|]. rewrite <- Ez.
    rewrite removelast_last, last_last, locate_pair. cbn [loc'].
    destruct (loc E W v first qs) as [hs|e| |] eqn:El; try reflexivity.
    destruct (sub_at v hs) as [d|]; [|reflexivity].
    assert (Eq : forall n, delete_f E W (S n) false d p [] = delete_here E W false d p).
    { intros n. cbn [delete_f]. now rewrite (peel_plain _ _ Pp). }
    assert (Ps : exists n, psum (first :: qs ++ [p]) = S n).
    { cbn [psum]. pose proof (psize_pos first). destruct (psize first); [lia|]. cbn. eauto. }
    destruct Ps as (n & Ps). rewrite Ps, Eq. reflexivity.
Qed.

Lemma leads_snoc_inv : forall ps v p hs c, leads v (ps ++ [p]) hs c ->
  exists hs1 d h, hs = hs1 ++ [h] /\ leads v ps hs1 d /\ leads d [p] [h] c.
Proof.
  induction ps as [|q qs IH]; intros v p hs c H; cbn [app] in H.
  - exists [], v. assert (exists h, hs = [h]) as (h & ->).
    { inversion H as [|i kvs lo k id x ps hs' c' Hin Hl|a x b p' i ps hs' c' Hp Rf Hl]; subst; inversion Hl; subst; eauto. }
    exists h. split; [reflexivity|]. split; [constructor|exact H].
  - inversion H as [|i kvs lo k id x ps hs' c' Hin Hl|a x b p' i ps hs' c' Hp Rf Hl]; subst;
      destruct (IH _ _ _ _ Hl) as (hs1 & d & h & -> & H1 & H2).
    + exists (HKey k :: hs1), d, h. split; [reflexivity|]. split; [|exact H2]. eapply leads_key; eassumption.
    + exists (HIdx (List.length a) :: hs1), d, h. split; [reflexivity|]. split; [|exact H2]. eapply leads_elem; eassumption.
Qed.

Theorem delete_ok E W v ps p first others v' : maps_ok v ->
  Forall plain (first :: others) -> first :: others = ps ++ [p] ->
  delete_at E W false v first others = (v', Ok tt) ->
  exists hs d, leads v ps hs d /\ changed (fun a a' => a = d /\ removed p a a') hs v v'.
Proof.
  intros M HP Hsp.
  assert (HPs : Forall plain ps).
  { rewrite Hsp in HP. apply Forall_app in HP as (HP1 & _). exact HP1. }
  rewrite (delete_shape E W v ps p first others HP Hsp).
  intros H. destruct (loc' E W v ps) as [hs|e| |] eqn:El; try discriminate.
  destruct (sub_at v hs) as [d|] eqn:Es; [|discriminate].
  pose proof (proj1 (loc'_leads E W v ps hs M HPs d) (conj El Es)) as Hl.
  destruct (delete_here E W false d p) as [d' r] eqn:Ef. injection H as <- ->.
  destruct (delete_here_iff E W p d d' tt (leads_maps _ _ _ _ Hl M) Ef) as (_ & HR).
  exists hs, d. split; [exact Hl|]. apply (put_changed _ hs v d d' M Es). auto.
Qed.

Theorem delete_succeeds E W v first others : maps_ok v ->
  Forall plain (first :: others) -> (exists v', delete_at E W false v first others = (v', Ok tt)) <-> (exists hs c, leads v (first :: others) hs c).
Proof.
  intros M HP. destruct (exists_last (l := first :: others) ltac:(discriminate)) as (ps & p & Hsp).
  assert (HPs : Forall plain ps).
  { rewrite Hsp in HP. apply Forall_app in HP as (HP1 & _). exact HP1. }
  split.
  - intros (v' & H). destruct (delete_ok E W v ps p first others v' M HP Hsp H) as (hs & d & Hl & Hc).
    destruct (changed_put _ _ _ _ Hc M) as (d0 & d' & (-> & HR) & _ & _). rewrite Hsp.
    destruct HR as [i a k [id e] b lo lo' Hk|a e b p i Hi Rf].
    + exists (hs ++ [HKey k]), e. apply (leads_app _ _ _ _ _ _ _ Hl). eapply leads_key; [|constructor]. apply in_or_app. right. now left.
    + exists (hs ++ [HIdx (List.length a)]), e. apply (leads_app _ _ _ _ _ _ _ Hl). eapply leads_elem; [exact Hi|exact Rf|constructor].
  - intros (hs & c & Hl). rewrite Hsp in Hl. destruct (leads_snoc_inv _ _ _ _ _ Hl) as (hs1 & d & h & -> & H1 & H2).
    rewrite (delete_shape E W v ps p first others HP Hsp).
    destruct (proj2 (loc'_leads E W v ps hs1 M HPs d) H1) as (El & Es). rewrite El, Es.
    pose proof (leads_maps _ _ _ _ H1 M) as Md.
    assert (Hd : exists d', delete_here E W false d p = (d', Ok tt)).
    { inversion H2 as [|i kvs lo k id x ps0 hs' c' Hin Hl2|a x b p' i ps0 hs' c' Hp Rf Hl2]; subst.
      - cbn [delete_here any_to_string]. unfold del_from_object. apply maps_ok_obj in Md as (ND & _).
        rewrite (alookup_NoDup_In _ _ _ ND Hin). eauto.
      - cbn [delete_here]. rewrite (fits_any_to_int _ _ Hp), (pos_read_refers _ _ _ _ Rf). eauto. }
    destruct Hd as (d' & ->). eauto.
Qed.

(** ** Append *)
Lemma joint_plain ps : Forall plain ps -> joint_params ps = Some ps.
Proof.
  intros H. destruct ps as [|p [|q r]]; [reflexivity| |].
  - pose proof (Forall_inv H). destruct p; cbn in *; try contradiction; reflexivity.
  - pose proof (Forall_inv H). destruct p; cbn in *; try contradiction; reflexivity.
Qed.


Lemma loc_missing E W : forall ps v p, Forall plain (p :: ps) -> maps_ok v ->
  loc E W v p ps = Err ErrNotFound <-> missing_member v (p :: ps).
Proof.
  induction ps as [|q r IH]; intros v p HP M.
  - rewrite (loc_one _ _ _ _ (Forall_inv HP)). split.
    + unfold find1. destruct v as [ |s|nn src|i kvs lo|l|b| | | ]; cbn [find_child snd]; try discriminate.
      * destruct p as [j|u|k|l| |]; cbn; try discriminate. unfold find_key.
        destruct (alookup k kvs) eqn:El; [discriminate|]. intros _. apply alookup_None in El.
        exists [], k, [], [], i, kvs, lo. split; [reflexivity|]. split; [constructor|exact El].
      * destruct (any_to_int p) eqn:Ei; try discriminate; cbn [rbind].
        -- destruct pos_read; discriminate.
        -- destruct p; cbn in Ei; try discriminate; injection Ei as <-; discriminate.
    + intros (ps1 & k & ps2 & hs & i & kvs & lo & Hsp & Hl & Hn). destruct ps1 as [|z zs]; [|destruct zs; discriminate].
      injection Hsp as -> _. inversion Hl; subst. now rewrite find1_missing.
  - rewrite (loc_more _ _ _ _ _ _ (Forall_inv HP)). split.
    + intros H. destruct (find1 E W v p) as [h|e| |] eqn:E1; try discriminate.
      * cbn [rbind] in H. destruct (child_at v h) as [c|] eqn:Ec; [|discriminate].
        destruct (loc E W c q r) as [t|e| |] eqn:El; try discriminate. cbn in H. injection H as ->.
        destruct (find1_ok E W v p h E1) as [(i & kvs & lo & k & id & x & -> & -> & -> & Ek)|(a & x & b & i & -> & Hi & -> & Rf)].
        -- cbn in Ec. rewrite Ek in Ec. injection Ec as ->. apply maps_ok_obj in M as (_ & MF). rewrite Forall_forall in MF.
           apply alookup_In in Ek.
           apply (IH c q (Forall_inv_tail HP) (MF _ Ek)) in El as (ps1 & k' & ps2 & hs & i' & kvs' & lo' & Hsp & Hl & Hn).
           exists (PStr k :: ps1), k', ps2, (HKey k :: hs), i', kvs', lo'. split; [cbn; now rewrite Hsp|]. split; [|exact Hn].
           eapply leads_key; eassumption.
        -- cbn in Ec. rewrite nth_error_app_here in Ec. injection Ec as ->. apply maps_ok_arr, Forall_app in M as (_ & M).
           apply (IH c q (Forall_inv_tail HP) (Forall_inv M)) in El as (ps1 & k' & ps2 & hs & i' & kvs' & lo' & Hsp & Hl & Hn).
           exists (p :: ps1), k', ps2, (HIdx (List.length a) :: hs), i', kvs', lo'. split; [cbn; now rewrite Hsp|]. split; [|exact Hn].
           eapply leads_elem; eassumption.
      * cbn in H. injection H as ->. clear IH. unfold find1 in E1.
        destruct v as [ |s|nn src|i kvs lo|l|b| | | ]; cbn [find_child snd] in E1; try discriminate.
        -- destruct p as [j|u|k|l| |]; cbn in E1; try discriminate. unfold find_key in E1.
           destruct (alookup k kvs) eqn:El; [discriminate|]. apply alookup_None in El.
           exists [], k, (q :: r), [], i, kvs, lo. split; [reflexivity|]. split; [constructor|exact El].
        -- destruct (any_to_int p) eqn:Ei; try discriminate; cbn [rbind] in E1.
           ++ destruct pos_read; discriminate.
           ++ destruct p; cbn in Ei; try discriminate; injection Ei as <-; discriminate.
    + intros (ps1 & k & ps2 & hs & i & kvs & lo & Hsp & Hl & Hn). destruct ps1 as [|z zs].
      * injection Hsp as -> _. inversion Hl; subst. now rewrite find1_missing.
      * cbn in Hsp. injection Hsp as <- Hsp.
        inversion Hl as [|i1 kvs1 lo1 k1 id1 x1 ps3 hs1 c1 Hin1 Hl1|a1 x1 b1 p1 i1 ps3 hs1 c1 Hp1 Rf1 Hl1]; subst.
        -- apply maps_ok_obj in M as (ND & MF). rewrite Forall_forall in MF.
           pose proof (alookup_NoDup_In _ _ _ ND Hin1) as El.
           rewrite (find1_key E W _ _ _ _ _ _ El). cbn [rbind child_at]. rewrite El.
           assert (Hm : missing_member x1 (q :: r)) by (exists zs, k, ps2, hs1, i, kvs, lo; auto).
           apply (IH x1 q (Forall_inv_tail HP) (MF _ Hin1)) in Hm. rewrite Hm. reflexivity.
        -- apply maps_ok_arr, Forall_app in M as (_ & M).
           rewrite (find1_elem E W _ _ _ _ _ Hp1 Rf1). cbn [rbind child_at]. rewrite nth_error_app_here.
           assert (Hm : missing_member x1 (q :: r)) by (exists zs, k, ps2, hs1, i, kvs, lo; auto).
           apply (IH x1 q (Forall_inv_tail HP) (Forall_inv M)) in Hm. rewrite Hm. reflexivity.
Qed.

Lemma leads_not_missing : forall ps v hs c, leads v ps hs c -> maps_ok v -> ~ missing_member v ps.
Proof.
  intros ps v hs c Hl. induction Hl as [v|i kvs lo k id x ps hs c Hin Hl IH|a x b p i ps hs c Hp Rf Hl IH]; intros M (ps1 & k' & ps2 & hs' & i' & kvs' & lo' & Hsp & Hl' & Hn).
  - destruct ps1; discriminate.
  - apply maps_ok_obj in M as (ND & MF). rewrite Forall_forall in MF. destruct ps1 as [|z zs].
    + injection Hsp as <- _. inversion Hl'; subst. apply Hn. change k with (fst (k, (id, x))). now apply in_map.
    + cbn in Hsp. injection Hsp as <- ->.
      inversion Hl' as [|i1 kvs1 lo1 k1 id1 x1 ps3 hs1 c1 Hin1 Hl1|a1 x1 b1 p1 i1 ps3 hs1 c1 Hp1 Rf1 Hl1]; subst.
      pose proof (alookup_NoDup_In _ _ _ ND Hin) as L1. pose proof (alookup_NoDup_In _ _ _ ND Hin1) as L2.
      rewrite L1 in L2. injection L2 as <- <-. apply (IH (MF _ Hin)). exists zs, k', ps2, hs1, i', kvs', lo'. auto.
  - destruct ps1 as [|z zs].
    + injection Hsp as -> _. discriminate.
    + cbn in Hsp. injection Hsp as <- ->.
      inversion Hl' as [|i1 kvs1 lo1 k1 id1 x1 ps3 hs1 c1 Hin1 Hl1|a1 x1 b1 p1 i1 ps3 hs1 c1 Hp1 Rf1 Hl1 E1]; subst.
      rewrite Hp in Hp1. injection Hp1 as <-.
      assert (Ln : List.length a1 = List.length a).
      { pose proof (pos_read_refers _ _ x _ Rf) as P1. pose proof (pos_read_refers _ _ x1 _ Rf1) as P2. rewrite E1 in P2. congruence. }
      assert (x1 = x).
      { assert (N1 : nth_error (a1 ++ x1 :: b1) (List.length a1) = Some x1) by apply nth_error_app_here.
        rewrite E1, Ln, nth_error_app_here in N1. congruence. }
      subst x1. apply maps_ok_arr, Forall_app in M as (_ & M). apply (IH (Forall_inv M)). exists zs, k', ps2, hs1, i', kvs', lo'. auto.
Qed.

Theorem append_iff E W fr v c ps v' x : maps_ok v -> Forall plain ps -> append_at E W fr v (arg_v c) ps = (v', Ok x) <->
  x = c /\
  ((exists hs l, leads v ps hs (VArr l) /\
      changed (fun a a' => a = VArr l /\ a' = VArr (end_added fr c l)) hs v v') \/
   (exists p r y, ps = p :: r /\ missing_member v ps /\ set_at E v (arg_v (VArr [c])) p r = (v', Ok y))).
Proof.
  intros M HP. unfold append_at. rewrite (joint_plain _ HP). cbn [fst arg_v].
  destruct (is_nil v || not_exist v) eqn:Eu.
  - split.
    + destruct (is_nil v); [destruct fr; discriminate|]. cbn [orb] in Eu. rewrite Eu. discriminate.
    + intros (-> & [(hs & l & Hl & _)|(p & r & y & -> & (ps1 & k & ps2 & hs & i & kvs & lo & _ & Hl & _) & _)]);
        destruct v; try discriminate; inversion Hl.
  - apply orb_false_elim in Eu as (-> & ->). destruct ps as [|p r].
    + split.
      * destruct v as [ |s|nn src|i kvs lo|l|b| | | ]; try discriminate. intros [= <- <-]. split; [reflexivity|]. left.
        exists [], l. split; [constructor|]. constructor. auto.
      * intros (-> & [(hs & l & Hl & Hc)|(p & r & y & H & _)]); [|discriminate].
        inversion Hl; subst. inversion Hc as [u u' (_ & ->)| |]; subst. reflexivity.
    + rewrite locate_pair. split.
      * destruct (loc E W v p r) as [hs|e| |] eqn:El; try discriminate.
        -- destruct (sub_at v hs) as [d|] eqn:Es; [|discriminate].
           pose proof (proj1 (loc'_leads E W v (p :: r) hs M HP d) (conj El Es)) as Hl.
           destruct d as [ |s|nn src|i kvs lo|l|b| | | ]; try discriminate. intros [= <- <-]. split; [reflexivity|]. left.
           exists hs, l. split; [exact Hl|]. apply (put_changed _ hs v (VArr l)); [exact M|exact Es|]. auto.
        -- destruct e; try discriminate. destruct (set_at E v (arg_v (VArr [c])) p r) as [v2 [y|e| |]] eqn:Es; try discriminate.
           intros [= <- <-]. split; [reflexivity|]. right. exists p, r, y. split; [reflexivity|]. split; [|exact Es].
           now apply (loc_missing E W r v p HP M).
      * intros (-> & [(hs & l & Hl & Hc)|(p' & r' & y & H & Hm & Hs)]).
        -- destruct (proj2 (loc'_leads E W v (p :: r) hs M HP (VArr l)) Hl) as (El & Es). cbn [loc'] in El. rewrite El, Es.
           destruct (changed_put _ _ _ _ Hc M) as (d0 & d' & (-> & ->) & _ & ->). reflexivity.
        -- injection H as <- <-. apply (loc_missing E W r v p HP M) in Hm. rewrite Hm, Hs. reflexivity.
Qed.

(** ** A slice as the path *)
Lemma insert_f_fuel E W af c : forall n m v p o,
  (psum (p :: o) < n)%nat -> (psum (p :: o) < m)%nat -> insert_f E W n af v c p o = insert_f E W m af v c p o.
Proof.
  induction n as [|n IH]; intros m v p o Hn Hm; [lia|]. destruct m as [|m]; [lia|].
  cbn [insert_f]. destruct (peel p o) as [[q r]|] eqn:Ep; [|reflexivity].
  destruct (peel_spec _ _ _ _ _ (Nat.le_refl _) Ep) as (_ & S).
  destruct (is_nil v); [reflexivity|]. destruct (not_exist v); [reflexivity|].
  destruct r as [|q' r']; [reflexivity|].
  destruct (locate E W false v q (removelast (q' :: r'))) as [v' [hs|e| |]]; try reflexivity.
  destruct (sub_at v' hs) as [d|]; [|reflexivity]. destruct d; try reflexivity.
  assert (Hlast : (psum [last (q' :: r') PNil] <= psum (q' :: r'))%nat).
  { clear. generalize q'. induction r' as [|z zs IHz]; intros y; [cbn; lia|].
    specialize (IHz z). change (last (y :: z :: zs) PNil) with (last (z :: zs) PNil). cbn [psum] in *. lia. }
  pose proof (psize_pos q). cbn [psum] in S, Hlast, Hn, Hm.
  rewrite (IH m) by (cbn [psum]; lia). reflexivity.
Qed.
Lemma delete_f_fuel E W cl : forall n m v p o,
  (psum (p :: o) < n)%nat -> (psum (p :: o) < m)%nat -> delete_f E W n cl v p o = delete_f E W m cl v p o.
Proof.
  induction n as [|n IH]; intros m v p o Hn Hm; [lia|]. destruct m as [|m]; [lia|].
  cbn [delete_f]. destruct (peel p o) as [[q r]|] eqn:Ep; [|reflexivity].
  destruct (peel_spec _ _ _ _ _ (Nat.le_refl _) Ep) as (_ & S).
  destruct r as [|q' r']; [reflexivity|].
  destruct (locate E W cl v q (removelast (q' :: r'))) as [v' [hs|e| |]]; try reflexivity.
  destruct (sub_at v' hs) as [d|]; [|reflexivity].
  assert (Hlast : (psum [last (q' :: r') PNil] <= psum (q' :: r'))%nat).
  { clear. generalize q'. induction r' as [|z zs IHz]; intros y; [cbn; lia|].
    specialize (IHz z). change (last (y :: z :: zs) PNil) with (last (z :: zs) PNil). cbn [psum] in *. lia. }
  pose proof (psize_pos q). cbn [psum] in S, Hlast, Hn, Hm.
  rewrite (IH m) by (cbn [psum]; lia). reflexivity.
Qed.

Lemma psum_le_slice p ps : (psum (p :: ps) <= psum [PSlice (p :: ps)])%nat.
Proof. cbn [psum]. rewrite psum_slice. cbn [psum]. lia. Qed.

Lemma locate_slice E W cl v p ps : locate E W cl v (PSlice (p :: ps)) [] = locate E W cl v p ps.
Proof.
  assert (Ep : peel (PSlice (p :: ps)) [] = peel p ps) by reflexivity.
  destruct (peel p ps) as [[q r]|] eqn:E1.
  - now rewrite (locate_peel _ _ _ _ _ _ _ _ Ep), (locate_peel _ _ _ _ _ _ _ _ E1).
  - now rewrite (locate_multi _ _ _ _ _ _ Ep), (locate_multi _ _ _ _ _ _ E1).
Qed.
Lemma get_slice E W cl v p ps : get E W cl v (PSlice (p :: ps)) [] = get E W cl v p ps.
Proof. unfold get. now rewrite locate_slice. Qed.
Lemma get_slice_more E W cl v l q r : get E W cl v (PSlice l) (q :: r) = (v, Err ErrMultipleParam).
Proof. unfold get. now rewrite locate_multi. Qed.

Lemma set_slice E v x p ps : set_at E v x (PSlice (p :: ps)) [] = set_at E v x p ps.
Proof.
  unfold set_at. destruct (snd x); [reflexivity|].
  change (set_f E (S (psum [PSlice (p :: ps)])) v (fst x) (PSlice (p :: ps)) []) with (set_c E v (fst x) (PSlice (p :: ps)) []).
  fold (set_c E v (fst x) p ps).
  assert (Ep : peel (PSlice (p :: ps)) [] = peel p ps) by reflexivity.
  destruct (peel p ps) as [[q r]|] eqn:E1.
  - now rewrite (set_c_peel _ _ _ _ _ _ _ Ep), (set_c_peel _ _ _ _ _ _ _ E1).
  - now rewrite (set_c_multi _ _ _ _ _ Ep), (set_c_multi _ _ _ _ _ E1).
Qed.
Lemma set_slice_more E v x l q r : fst (set_at E v x (PSlice l) (q :: r)) = v /\ failed (snd (set_at E v x (PSlice l) (q :: r))).
Proof. unfold set_at. destruct (snd x); cbn [fst snd]; (split; [reflexivity|]); intros a H; discriminate. Qed.

Lemma insert_f_slice E W af v c p ps :
  insert_f E W (S (psum [PSlice (p :: ps)])) af v c (PSlice (p :: ps)) [] = insert_f E W (S (psum (p :: ps))) af v c p ps.
Proof.
  pose proof (psum_le_slice p ps) as Hle.
  rewrite <- (insert_f_fuel E W af c (S (psum [PSlice (p :: ps)])) (S (psum (p :: ps))) v p ps) by lia.
  reflexivity.
Qed.
Lemma insert_before_slice E W v x p ps : insert_before E W v x (PSlice (p :: ps)) [] = insert_before E W v x p ps.
Proof. unfold insert_before. destruct (snd x); [reflexivity|]. apply insert_f_slice. Qed.
Lemma insert_after_slice E W v x p ps : insert_after E W v x (PSlice (p :: ps)) [] = insert_after E W v x p ps.
Proof. unfold insert_after. destruct (snd x); [reflexivity|]. apply insert_f_slice. Qed.
Lemma insert_before_more E W v x l q r :
  fst (insert_before E W v x (PSlice l) (q :: r)) = v /\ failed (snd (insert_before E W v x (PSlice l) (q :: r))).
Proof. unfold insert_before. destruct (snd x); cbn [fst snd]; (split; [reflexivity|]); intros a H; discriminate. Qed.
Lemma insert_after_more E W v x l q r :
  fst (insert_after E W v x (PSlice l) (q :: r)) = v /\ failed (snd (insert_after E W v x (PSlice l) (q :: r))).
Proof. unfold insert_after. destruct (snd x); cbn [fst snd]; (split; [reflexivity|]); intros a H; discriminate. Qed.

Lemma delete_slice E W cl v p ps : delete_at E W cl v (PSlice (p :: ps)) [] = delete_at E W cl v p ps.
Proof.
  unfold delete_at. pose proof (psum_le_slice p ps) as Hle.
  rewrite <- (delete_f_fuel E W cl (S (psum [PSlice (p :: ps)])) (S (psum (p :: ps))) v p ps) by lia.
  reflexivity.
Qed.
Lemma delete_more E W cl v l q r : delete_at E W cl v (PSlice l) (q :: r) = (v, Err ErrMultipleParam).
Proof. reflexivity. Qed.

Lemma joint_slice l : joint_params [PSlice l] = joint_params l.
Proof. destruct l as [|p [|q r]]; [reflexivity|reflexivity|]. destruct p; reflexivity. Qed.
Lemma append_slice E W fr v x l : append_at E W fr v x [PSlice l] = append_at E W fr v x l.
Proof. unfold append_at. now rewrite joint_slice. Qed.
Lemma append_more E W fr v x l q r :
  fst (append_at E W fr v x (PSlice l :: q :: r)) = v /\ failed (snd (append_at E W fr v x (PSlice l :: q :: r))).
Proof.
  unfold append_at. cbn [joint_params].
  destruct (is_nil v); [split; [reflexivity|]; intros a H; destruct fr; discriminate|].
  destruct (not_exist v); (split; [reflexivity|]; intros a H; discriminate).
Qed.

(** ** Caseless access changes at most the index *)
Lemma forget_obj i kvs lo i' kvs' lo' : forget (VObj i kvs lo) = forget (VObj i' kvs' lo') <->
  i = i' /\ map (fun e : bytes * (Z * V) => (fst e, (fst (snd e), forget (snd (snd e))))) kvs =
            map (fun e => (fst e, (fst (snd e), forget (snd (snd e))))) kvs'.
Proof. cbn [forget]. split; [intros [= -> ->]; auto|intros (-> & ->); reflexivity]. Qed.

Lemma find_child_forget E W cl v p : forget (fst (find_child E W cl v p)) = forget v.
Proof.
  destruct v as [ |s|nn src|i kvs lo|l|b| | | ]; cbn [find_child]; try reflexivity.
  destruct (any_to_string p); try reflexivity. destruct (find_key E W cl a kvs lo). reflexivity.
Qed.

Lemma put_child_forget v h x c : child_at v h = Some x -> forget c = forget x -> forget (put_child v h c) = forget v.
Proof.
  intros Hx Hc. destruct v as [ |s|nn src|i kvs lo|l|b| | | ], h as [n|k]; cbn in Hx; try discriminate.
  - destruct (alookup k kvs) as [[id y]|] eqn:El; [|discriminate]. injection Hx as ->.
    cbn [put_child]. rewrite El. apply forget_obj. split; [reflexivity|].
    destruct (alookup_split _ _ _ El) as (a & b & Ek & _ & Hset). rewrite Hset, Ek, !map_app. cbn. now rewrite Hc.
  - destruct (nth_error_split' _ _ _ Hx) as (a & b & -> & <-). cbn [put_child]. rewrite set_nth_app. cbn [forget]. now rewrite !map_app; cbn; rewrite Hc.
Qed.

Lemma locate_f_forget E W cl : forall n v p o, forget (fst (locate_f E W n cl v p o)) = forget v.
Proof.
  induction n as [|n IH]; intros v p o; [reflexivity|]. cbn [locate_f].
  destruct (peel p o) as [[q r]|]; [|reflexivity].
  pose proof (find_child_forget E W cl v q) as F. pose proof (find_child_h E W cl v q) as Fh.
  destruct (find_child E W cl v q) as [v' [h|e| |]]; cbn [fst] in F; try exact F.
  destruct r as [|q' r']; [exact F|]. destruct (Fh _ _ eq_refl) as (c & Ec). rewrite Ec.
  pose proof (IH c q' r') as Ic. destruct (locate_f E W n cl c q' r') as [c' t]. cbn [fst] in *.
  rewrite (put_child_forget _ _ _ _ Ec Ic). exact F.
Qed.
Lemma get_forget E W cl v p o : forget (fst (get E W cl v p o)) = forget v.
Proof.
  unfold get, locate. pose proof (locate_f_forget E W cl (S (psum (p :: o))) v p o) as H.
  destruct (locate_f E W (S (psum (p :: o))) cl v p o). exact H.
Qed.

Lemma put_at_forget : forall hs v x c, sub_at v hs = Some x -> forget c = forget x -> forget (put_at v hs c) = forget v.
Proof.
  induction hs as [|h hs IH]; intros v x c Hs Hc; cbn [sub_at put_at] in *; [injection Hs as ->; exact Hc|].
  destruct (child_at v h) as [y|] eqn:Ey; [|discriminate].
  apply (put_child_forget _ _ _ _ Ey). exact (IH _ _ _ Hs Hc).
Qed.

Lemma delete_here_forget E W cl v p : failed (snd (delete_here E W cl v p)) -> forget (fst (delete_here E W cl v p)) = forget v.
Proof.
  unfold delete_here. destruct v as [ |s|nn src|i kvs lo|l|b| | | ]; try reflexivity.
  - destruct (any_to_string p) as [k|e| |]; try reflexivity. unfold del_from_object.
    destruct (alookup k kvs); [intros H; now apply failed_ok in H|].
    destruct cl; [|reflexivity]. destruct (first_existing _ _); [intros H; now apply failed_ok in H|reflexivity].
  - destruct (any_to_int p) as [i|e| |]; try reflexivity. destruct (pos_read _ _); [intros H; now apply failed_ok in H|reflexivity].
Qed.

Lemma delete_f_forget E W cl : forall n v p o, failed (snd (delete_f E W n cl v p o)) -> forget (fst (delete_f E W n cl v p o)) = forget v.
Proof.
  induction n as [|n IH]; intros v p o; [reflexivity|]. cbn [delete_f].
  destruct (peel p o) as [[q [|q' r']]|]; [apply delete_here_forget| |reflexivity].
  unfold locate. pose proof (locate_f_forget E W cl (S (psum (q :: removelast (q' :: r')))) v q (removelast (q' :: r'))) as F.
  destruct (locate_f E W (S (psum (q :: removelast (q' :: r')))) cl v q (removelast (q' :: r'))) as [v' [hs|e| |]];
    cbn [fst] in F; try (intros _; exact F).
  destruct (sub_at v' hs) as [d|] eqn:Es; [|intros _; exact F].
  pose proof (IH d (last (q' :: r') PNil) []) as Id.
  destruct (delete_f E W n cl d (last (q' :: r') PNil) []) as [d' r]. cbn [fst snd] in *.
  intros Hf. rewrite (put_at_forget _ _ _ _ Es (Id Hf)). exact F.
Qed.
Lemma delete_at_forget E W cl v p o : failed (snd (delete_at E W cl v p o)) -> forget (fst (delete_at E W cl v p o)) = forget v.
Proof. apply delete_f_forget. Qed.

(** ** No panic without nil pointers inside *)
Lemma child_no_nil v h c : no_nil v -> child_at v h = Some c -> no_nil c.
Proof.
  intros N Ec. destruct v as [ |s|nn src|i kvs lo|l|b| | | ], h as [n|k]; cbn in Ec; try discriminate.
  - destruct (alookup k kvs) as [[id x]|] eqn:El; [|discriminate]. injection Ec as ->.
    apply no_nil_obj in N. rewrite Forall_forall in N. exact (N _ (alookup_In _ _ _ El)).
  - apply no_nil_arr in N. rewrite Forall_forall in N. apply N. exact (nth_error_In _ _ Ec).
Qed.
Lemma sub_no_nil : forall hs v c, no_nil v -> sub_at v hs = Some c -> no_nil c.
Proof.
  induction hs as [|h hs IH]; intros v c N H; cbn in H; [injection H as <-; exact N|].
  destruct (child_at v h) as [x|] eqn:Ex; [|discriminate]. exact (IH _ _ (child_no_nil _ _ _ N Ex) H).
Qed.
Lemma find_child_ends E W cl v p : no_nil v -> ends (snd (find_child E W cl v p)) /\ no_nil (fst (find_child E W cl v p)).
Proof.
  intros N. destruct v as [ |s|nn src|i kvs lo|l|b| | | ]; cbn [find_child]; try (split; [exact I|exact N]).
  - destruct p; cbn; try (split; [exact I|exact N]). destruct (find_key E W cl s kvs lo) as [lo' [k|]]; split; try exact I; exact N.
  - split; [|exact N]. cbn [snd]. destruct p; cbn; try exact I; destruct pos_read; exact I.
  - destruct N.
Qed.
Lemma put_child_no_nil v h c : no_nil v -> no_nil c -> no_nil (put_child v h c).
Proof.
  intros N Nc. destruct v as [ |s|nn src|i kvs lo|l|b| | | ], h as [n|k]; try exact N.
  - cbn [put_child]. destruct (alookup k kvs) as [[id x]|] eqn:El; [|exact N].
    apply no_nil_obj in N. apply no_nil_obj. destruct (alookup_split _ _ _ El) as (a & b & -> & _ & ->).
    apply Forall_app in N as (Na & Nb). apply Forall_app. split; [exact Na|]. constructor; [exact Nc|exact (Forall_inv_tail Nb)].
  - cbn [put_child]. apply no_nil_arr in N. apply no_nil_arr. revert n. induction N as [|x l Hx N IH]; intros [|n]; cbn; constructor; auto.
Qed.
Lemma locate_f_ends E W cl : forall n v p o, (psum (p :: o) < n)%nat -> no_nil v ->
  ends (snd (locate_f E W n cl v p o)) /\ no_nil (fst (locate_f E W n cl v p o)) /\
  (forall hs, snd (locate_f E W n cl v p o) = Ok hs -> exists c, sub_at (fst (locate_f E W n cl v p o)) hs = Some c).
Proof.
  induction n as [|n IH]; intros v p o Hn N; [lia|]. cbn [locate_f].
  destruct (peel p o) as [[q r]|] eqn:Ep; [|split; [exact I|]; split; [exact N|]; intros hs H; discriminate].
  destruct (peel_spec _ _ _ _ _ (Nat.le_refl _) Ep) as (_ & S).
  destruct (find_child_ends E W cl v q N) as (F1 & F2). pose proof (find_child_h E W cl v q) as Fh.
  destruct (find_child E W cl v q) as [v' [h|e| |]]; cbn [fst snd] in *; try contradiction.
  - destruct (Fh _ _ eq_refl) as (c & Ec). destruct r as [|q' r'].
    + split; [exact I|]. split; [exact F2|]. intros hs [= <-]. cbn. rewrite Ec. eauto.
    + rewrite Ec. pose proof (psize_pos q). cbn [psum] in S, Hn.
      destruct (IH c q' r' ltac:(cbn [psum]; lia) (child_no_nil _ _ _ F2 Ec)) as (I1 & I2 & I3).
      destruct (locate_f E W n cl c q' r') as [c' t]. cbn [fst snd] in *.
      split; [destruct t; exact I1|]. split; [exact (put_child_no_nil _ _ _ F2 I2)|].
      intros hs H'. destruct t as [t|e| |]; try discriminate. cbn in H'. injection H' as <-.
      destruct (I3 _ eq_refl) as (d & Hd). exists d. cbn [sub_at].
      assert (Hc : child_at (put_child v' h c') h = Some c').
      { destruct v' as [ |s|nn src|i kvs lo|l|b| | | ], h as [m|k]; cbn in Ec |- *; try discriminate.
        - destruct (alookup k kvs) as [[id x]|] eqn:El; [|discriminate]. cbn. now rewrite alookup_aset_same.
        - destruct (nth_error_split' _ _ _ Ec) as (a & b & -> & <-). now rewrite set_nth_app, nth_error_app_here. }
      now rewrite Hc.
  - split; [exact I|]. split; [exact F2|]. intros hs H'. discriminate.
Qed.
Lemma locate_ends E W cl v p o : no_nil v ->
  ends (snd (locate E W cl v p o)) /\ no_nil (fst (locate E W cl v p o)) /\
  (forall hs, snd (locate E W cl v p o) = Ok hs -> exists c, sub_at (fst (locate E W cl v p o)) hs = Some c).
Proof. apply locate_f_ends. lia. Qed.
Lemma get_all_ends E W cl v p o : no_nil v -> ends (snd (get E W cl v p o)).
Proof.
  intros N. destruct (locate_ends E W cl v p o N) as (H1 & _ & H3). unfold get.
  destruct (locate E W cl v p o) as [v' [hs|e| |]]; cbn [fst snd] in *; try contradiction; [|exact I].
  cbn [rbind]. destruct (H3 _ eq_refl) as (c & ->). exact I.
Qed.

Lemma insert_last_ends af v c p : ends (snd (insert_last af v c p)).
Proof.
  unfold insert_last. destruct v; try exact I. destruct (any_to_int p) eqn:Ei; [destruct af; [destruct pos_insert_after|destruct pos_insert_before]; exact I|exact I|destruct p; discriminate..].
Qed.
Lemma insert_f_ends E W af c : forall n v p o, (psum (p :: o) < n)%nat -> no_nil v -> ends (snd (insert_f E W n af v c p o)).
Proof.
  induction n as [|n IH]; intros v p o Hn N; [lia|]. cbn [insert_f].
  destruct (peel p o) as [[q r]|] eqn:Ep; [|exact I].
  destruct (peel_spec _ _ _ _ _ (Nat.le_refl _) Ep) as (_ & S).
  destruct (is_nil v) eqn:Ev; [destruct v; try discriminate; contradiction|].
  destruct (not_exist v); [exact I|]. destruct r as [|q' r']; [apply insert_last_ends|].
  destruct (locate_ends E W false v q (removelast (q' :: r')) N) as (L1 & L2 & L3).
  destruct (locate E W false v q (removelast (q' :: r'))) as [v' [hs|e| |]]; cbn [fst snd] in *; try contradiction; [|exact I].
  destruct (L3 _ eq_refl) as (d & Hd). rewrite Hd. pose proof (sub_no_nil _ _ _ L2 Hd) as Nd.
  destruct d; try exact I; [|contradiction].
  assert (Hlast : (psum [last (q' :: r') PNil] <= psum (q' :: r'))%nat).
  { clear. generalize q'. induction r' as [|z zs IHz]; intros y; [cbn; lia|].
    specialize (IHz z). change (last (y :: z :: zs) PNil) with (last (z :: zs) PNil). cbn [psum] in *. lia. }
  pose proof (psize_pos q). cbn [psum] in S, Hlast, Hn.
  pose proof (IH (VArr l) (last (q' :: r') PNil) [] ltac:(cbn [psum]; lia) Nd) as I1.
  destruct (insert_f E W n af (VArr l) c (last (q' :: r') PNil) []). exact I1.
Qed.
Lemma insert_before_ends E W v x p o : no_nil v -> ends (snd (insert_before E W v x p o)).
Proof. intros N. unfold insert_before. destruct (snd x); [exact I|]. apply insert_f_ends; [lia|exact N]. Qed.
Lemma insert_after_ends E W v x p o : no_nil v -> ends (snd (insert_after E W v x p o)).
Proof. intros N. unfold insert_after. destruct (snd x); [exact I|]. apply insert_f_ends; [lia|exact N]. Qed.

Lemma delete_here_ends E W cl v p : no_nil v -> ends (snd (delete_here E W cl v p)).
Proof.
  intros N. unfold delete_here. destruct v; try exact I; try contradiction.
  - destruct p; cbn; try exact I. destruct (del_from_object E W cl s incr kvs lower) as [v' [|]]; exact I.
  - destruct p; cbn; try exact I; destruct pos_read; exact I.
Qed.
Lemma delete_f_ends E W cl : forall n v p o, (psum (p :: o) < n)%nat -> no_nil v -> ends (snd (delete_f E W n cl v p o)).
Proof.
  induction n as [|n IH]; intros v p o Hn N; [lia|]. cbn [delete_f].
  destruct (peel p o) as [[q r]|] eqn:Ep; [|exact I].
  destruct (peel_spec _ _ _ _ _ (Nat.le_refl _) Ep) as (_ & S).
  destruct r as [|q' r']; [apply delete_here_ends; exact N|].
  destruct (locate_ends E W cl v q (removelast (q' :: r')) N) as (L1 & L2 & L3).
  destruct (locate E W cl v q (removelast (q' :: r'))) as [v' [hs|e| |]]; cbn [fst snd] in *; try contradiction; [|exact I].
  destruct (L3 _ eq_refl) as (d & Hd). rewrite Hd. pose proof (sub_no_nil _ _ _ L2 Hd) as Nd.
  assert (Hlast : (psum [last (q' :: r') PNil] <= psum (q' :: r'))%nat).
  { clear. generalize q'. induction r' as [|z zs IHz]; intros y; [cbn; lia|].
    specialize (IHz z). change (last (y :: z :: zs) PNil) with (last (z :: zs) PNil). cbn [psum] in *. lia. }
  pose proof (psize_pos q). cbn [psum] in S, Hlast, Hn.
  pose proof (IH d (last (q' :: r') PNil) [] ltac:(cbn [psum]; lia) Nd) as I1.
  destruct (delete_f E W n cl d (last (q' :: r') PNil) []). exact I1.
Qed.
Lemma delete_ends E W cl v p o : no_nil v -> ends (snd (delete_at E W cl v p o)).
Proof. intros N. apply delete_f_ends; [lia|exact N]. Qed.

Lemma append_ends E W fr v x ps : no_nil v -> ends (snd (append_at E W fr v x ps)).
Proof.
  intros N. unfold append_at. destruct (is_nil v) eqn:Ev; [destruct v; try discriminate; contradiction|].
  destruct (not_exist v); [exact I|]. destruct (joint_params ps) as [[|p r]|]; [destruct v; exact I| |exact I].
  destruct (locate_ends E W false v p r N) as (L1 & L2 & L3).
  destruct (locate E W false v p r) as [v' [hs|e| |]]; cbn [fst snd] in *; try contradiction.
  - destruct (L3 _ eq_refl) as (d & Hd). rewrite Hd. pose proof (sub_no_nil _ _ _ L2 Hd) as Nd.
    destruct d; try exact I; contradiction.
  - destruct e; try exact I. pose proof (set_at_ends E v' (arg_v (VArr [fst x])) p r) as Hs.
    destruct (set_at E v' (arg_v (VArr [fst x])) p r) as [v2 [y|e| |]]; cbn [snd] in *; try contradiction; exact I.
Qed.

Lemma ends_failed {A} (r : res A) : ends r -> failed r -> exists e, r = Err e.
Proof. destruct r; intros H F; try contradiction; [now apply failed_ok in F|eauto]. Qed.
Lemma pair_failed {A} (v : V) (r : V * res A) : ends (snd r) -> (failed (snd r) -> fst r = v) -> failed (snd r) ->
  exists e, r = (v, Err e).
Proof. intros H1 H2 H3. destruct (ends_failed _ H1 H3) as (e & He). exists e. destruct r as [u s]. cbn in *. now rewrite He, (H2 H3). Qed.

(** ** When Set fails *)
Lemma settable_at : forall ps1 v hs d p ps2, leads v ps1 hs d -> maps_ok v -> settable v (ps1 ++ p :: ps2) -> settable d (p :: ps2).
Proof.
  induction ps1 as [|z zs IH]; intros v hs d p ps2 Hl M Hs.
  - inversion Hl; subst. exact Hs.
  - assert (Ne : exists q r, zs ++ p :: ps2 = q :: r) by (destruct zs; cbn; eauto).
    destruct Ne as (q & r & Eq). cbn [app] in Hs. rewrite Eq in Hs.
    inversion Hl as [|i kvs lo k id x ps hs' c' Hin Hl'|a x b p' i ps hs' c' Hp Rf Hl']; subst.
    + apply maps_ok_obj in M as (ND & MF). rewrite Forall_forall in MF.
      inversion Hs as [ | |i1 kvs1 lo1 k1 id1 x1 q1 r1 Hin1 Hs1| |i1 kvs1 lo1 k1 q1 r1 HN HK|]; subst.
      * pose proof (alookup_NoDup_In _ _ _ ND Hin) as L1. pose proof (alookup_NoDup_In _ _ _ ND Hin1) as L2.
        rewrite L1 in L2. injection L2 as <- <-. rewrite <- Eq in Hs1. exact (IH _ _ _ _ _ Hl' (MF _ Hin) Hs1).
      * exfalso. exact (HN _ _ Hin).
    + apply maps_ok_arr, Forall_app in M as (_ & M).
      inversion Hs as [ | | |a1 x1 b1 p1 i1 q1 r1 Hi1 Rf1 Hs1 E1| |l1 p1 i1 q1 r1 Hi1 HB HK]; subst.
      * rewrite Hp in Hi1. injection Hi1 as <-.
        assert (Ln : List.length a1 = List.length a).
        { pose proof (pos_read_refers _ _ x _ Rf) as P1. pose proof (pos_read_refers _ _ x1 _ Rf1) as P2. rewrite E1 in P2. congruence. }
        assert (x1 = x).
        { assert (N1 : nth_error (a1 ++ x1 :: b1) (List.length a1) = Some x1) by apply nth_error_app_here.
          rewrite E1, Ln, nth_error_app_here in N1. congruence. }
        subst x1. rewrite <- Eq in Hs1. exact (IH _ _ _ _ _ Hl' (Forall_inv M) Hs1).
      * exfalso. apply HB. rewrite Hp in Hi1. injection Hi1 as <-. unfold refers in Rf. rewrite app_length. cbn [List.length]. lia.
Qed.

Lemma set_fails E v c p ps : maps_ok v -> Forall plain (p :: ps) -> ~ settable v (p :: ps) -> exists e, set_at E v (arg_v c) p ps = (v, Err e).
Proof.
  intros M HP HN. apply pair_failed; [apply set_at_ends|apply set_at_failed|]. intros y Hy. apply HN.
  destruct (set_at E v (arg_v c) p ps) as [v' r] eqn:Es. cbn [snd] in Hy. subst r. rewrite set_at_set_c in Es.
  destruct (uninitialized c) eqn:Ec.
  - exfalso. destruct ps as [|q r]; [rewrite (set_c_one _ _ _ _ (Forall_inv HP)) in Es|rewrite (set_c_more _ _ _ _ _ _ (Forall_inv HP)) in Es];
      rewrite Ec in Es; destruct (uninitialized v); discriminate.
  - apply (set_c_settable E c Ec ps v p M HP). exists v'.
    destruct (set_c_outcome E c ps v p v' y M HP Es) as (-> & _). exact Es.
Qed.

(** ** Statements for the interface *)
Definition ex_obj : V :=
  VObj 2 [(bs "a", (1, VArr [VStr (bs "x"); VStr (bs "y"); VStr (bs "z")])); (bs "b", (2, VObj 1 [(bs "c", (1, VBool true))] None))] None.

Lemma set_get_refuted : exists v c p q v', maps_ok v /\ plain p /\ plain q /\
  (forall E, set_at E v (arg_v c) p [q] = (v', Ok c)) /\
  (forall E W, get E W false v' p [q] = (v', Err ErrOutOfRange)).
Proof.
  exists (VArr []), VNull, (PInt 100), (PStr (bs "k")), (VArr [VObj 1 [(bs "k", (1, VNull))] None]).
  split; [exact I|]. split; [exact I|]. split; [exact I|]. split; reflexivity.
Qed.

Lemma set_frame_refuted : exists v c p v' q a, set_at ExampleWorld.env0 v (arg_v c) p [] = (v', Ok c) /\
  (forall W, get ExampleWorld.env0 W false v q [] = (v, Ok a)) /\
  (forall W, get ExampleWorld.env0 W false v' q [] = (v', Ok c)) /\
  leads v [q] [HIdx 0] a /\ leads v' [p] [HIdx 1] c /\ a <> c.
Proof.
  exists (VArr [VNull]), (VBool true), (PInt 1), (VArr [VNull; VBool true]), (PInt (-1)), VNull.
  split; [reflexivity|]. split; [reflexivity|]. split; [reflexivity|]. split; [|split; [|discriminate]].
  - change [VNull] with ([] ++ VNull :: []). eapply leads_elem; [reflexivity|now right|constructor].
  - change [VNull; VBool true] with ([VNull] ++ VBool true :: []). eapply (leads_elem [VNull]); [reflexivity|now left|constructor].
Qed.

Lemma get_index_refuted : exists l u x, 0 <= u < two64 /\ Z.of_nat (List.length l) <= u /\
  forall E W, get E W false (VArr l) (PUint u) [] = (VArr l, Ok x).
Proof.
  exists [VNull], (two64 - 1), VNull. split; [unfold two64; lia|]. split; [cbn; unfold two64; lia|]. reflexivity.
Qed.

Lemma append_refuted : exists v c p, maps_ok v /\ (forall E W fr, append_at E W fr v (arg_v c) [p] = (v, Err ErrOutOfRange)) /\
  (forall E, exists v', set_at E v (arg_v (VArr [c])) p [] = (v', Ok (VArr [c]))).
Proof.
  exists (VArr []), VNull, (PInt 0). split; [exact I|]. split; [intros E W []; reflexivity|]. intros E. eexists. reflexivity.
Qed.

Theorem get_steps E W :
  (forall i, index_value (PInt i) = Some i) /\ (forall u, 0 <= u < two63 -> index_value (PUint u) = Some u) /\
  (forall a x b p i, index_value p = Some i ->
     i = Z.of_nat (List.length a) \/ i = Z.of_nat (List.length a) - Z.of_nat (List.length (a ++ x :: b)) ->
     get E W false (VArr (a ++ x :: b)) p [] = (VArr (a ++ x :: b), Ok x)) /\
  (forall l p i ps, index_value p = Some i ->
     i < - Z.of_nat (List.length l) \/ Z.of_nat (List.length l) <= i ->
     get E W false (VArr l) p ps = (VArr l, Err ErrOutOfRange)) /\
  (forall i kvs lo k id x, NoDup (map fst kvs) -> In (k, (id, x)) kvs ->
     get E W false (VObj i kvs lo) (PStr k) [] = (VObj i kvs lo, Ok x)) /\
  (forall i kvs lo k ps, ~ In k (map fst kvs) ->
     get E W false (VObj i kvs lo) (PStr k) ps = (VObj i kvs lo, Err ErrNotFound)) /\
  (forall v p q r, plain p ->
     get E W false v p (q :: r) =
     match get E W false v p [] with
     | (_, Ok c) => (v, snd (get E W false c q r))
     | (_, e) => (v, e)
     end).
Proof.
  split; [reflexivity|]. split.
  { intros u Hu. cbn. f_equal. unfold wrap_i64. unfold two63, two64 in *. rewrite Z.mod_small by lia. lia. }
  split; [|split; [|split; [|split]]].
  - intros a x b p i Hi H. apply (get_elem E W a x b p i Hi). unfold refers. rewrite app_length in H. cbn [List.length] in H. lia.
  - intros l p i ps Hi H. apply (get_out_of_range E W l p i ps Hi). lia.
  - intros. eapply get_member; eassumption.
  - intros. now apply get_missing.
  - intros. now apply get_chain.
Qed.

(** Unsigned indexes, all of them. *)
Theorem get_unsigned E W l u : 0 <= u < two64 -> Z.of_nat (List.length l) < two63 ->
  (forall a x b, l = a ++ x :: b -> u = Z.of_nat (List.length a) \/ u = two64 - Z.of_nat (S (List.length b)) ->
     get E W false (VArr l) (PUint u) [] = (VArr l, Ok x)) /\
  (Z.of_nat (List.length l) <= u < two64 - Z.of_nat (List.length l) ->
     get E W false (VArr l) (PUint u) [] = (VArr l, Err ErrOutOfRange)).
Proof.
  intros Hu Hl. unfold two63, two64 in *.
  assert (HW : wrap_i64 u = if u <? 9223372036854775808 then u else u - 18446744073709551616).
  { unfold wrap_i64, two63, two64. destruct (Z.ltb_spec u 9223372036854775808); lia. }
  split.
  - intros a x b -> H. apply (get_elem E W a x b (PUint u) (wrap_i64 u) eq_refl). rewrite HW. unfold refers.
    rewrite app_length in Hl. cbn [List.length] in Hl. destruct (Z.ltb_spec u 9223372036854775808); lia.
  - intros H. apply (get_out_of_range E W l (PUint u) (wrap_i64 u) [] eq_refl). rewrite HW.
    destruct (Z.ltb_spec u 9223372036854775808); lia.
Qed.

Theorem set_creates E v c p ps v' x : maps_ok v -> Forall plain (p :: ps) -> set_at E v (arg_v c) p ps = (v', Ok x) -> x = c /\ set_outcome v (p :: ps) c v'.
Proof. intros M HP H. exact (set_c_outcome E c ps v p v' x M HP H). Qed.

Theorem set_when E v c p ps : maps_ok v -> Forall plain (p :: ps) -> c <> VNil -> c <> VNotExist ->
  ((exists v', set_at E v (arg_v c) p ps = (v', Ok c)) <-> settable v (p :: ps)) /\
  (~ settable v (p :: ps) -> exists e, set_at E v (arg_v c) p ps = (v, Err e)).
Proof.
  intros M HP N1 N2. split; [|apply set_fails; assumption].
  apply (set_c_settable E c); try assumption. destruct c; try reflexivity; congruence.
Qed.

(** The two failures named in C16. *)
Theorem set_fails_when E v c ps1 p ps2 hs d first others : maps_ok v ->
  Forall plain (first :: others) -> first :: others = ps1 ++ p :: ps2 ->
  leads v ps1 hs d ->
  ( (* a value on the way is no object where a name follows, no array where an index follows *)
    (forall i kvs lo k, ~ (d = VObj i kvs lo /\ p = PStr k)) /\ (forall l i, ~ (d = VArr l /\ index_value p = Some i))
  \/ (* a container is missing and one of the arrays to create would not start at 0 *)
    (forall hs' c', ~ leads d [p] hs' c') /\ (exists q i, In q ps2 /\ index_value q = Some i /\ i <> 0)) ->
  exists e, set_at E v (arg_v c) first others = (v, Err e).
Proof.
  intros M HP Hsp Hl H. apply set_fails; try assumption. rewrite Hsp. intros Hs.
  apply (settable_at _ _ _ _ _ _ Hl M) in Hs. destruct H as [(H1 & H2)|(H1 & q & i & Hq & Hi & Hn)].
  - inversion Hs; subst; try (eapply H1; split; reflexivity); (eapply H2; split; [reflexivity|eassumption]).
  - assert (HK : Forall creatable ps2 -> False).
    { intros HK. rewrite Forall_forall in HK. destruct (HK _ Hq) as [(k & ->)|H0]; [discriminate|congruence]. }
    inversion Hs as [ | |i1 kvs1 lo1 k1 id1 x1 q1 r1 Hin1 Hs1|a1 x1 b1 p1 i1 q1 r1 Hi1 Rf1 Hs1| | ]; subst; try (now apply HK); try contradiction.
    + eapply H1. eapply leads_key; [exact Hin1|constructor].
    + eapply H1. eapply leads_elem; [exact Hi1|exact Rf1|constructor].
Qed.

Theorem failing_unchanged E W v x first others params :
  (failed (snd (set_at E v x first others)) -> fst (set_at E v x first others) = v) /\
  (failed (snd (insert_before E W v x first others)) -> fst (insert_before E W v x first others) = v) /\
  (failed (snd (insert_after E W v x first others)) -> fst (insert_after E W v x first others) = v) /\
  (failed (snd (append_beginning E W v x params)) -> fst (append_beginning E W v x params) = v) /\
  (failed (snd (append_end E W v x params)) -> fst (append_end E W v x params) = v) /\
  (failed (snd (delete_at E W false v first others)) -> fst (delete_at E W false v first others) = v).
Proof.
  split; [apply set_at_failed|]. split; [apply insert_before_failed|]. split; [apply insert_after_failed|].
  split; [apply append_failed|]. split; [apply append_failed|apply delete_failed].
Qed.

Theorem caseless_failing_unchanged E W v first others :
  failed (snd (caseless_delete E W v first others)) ->
  forget (fst (caseless_delete E W v first others)) = forget v /\
  (forall W' o, o_less o = None -> marshal_opt E W' o (fst (caseless_delete E W v first others)) = marshal_opt E W' o v).
Proof.
  intros H. assert (F : forget (fst (caseless_delete E W v first others)) = forget v).
  { unfold caseless_delete in *. destruct v; try (apply delete_at_forget; exact H); reflexivity. }
  split; [exact F|]. intros W' o Hl. rewrite <- (ForgetProof.marshal_forget E W' o _ Hl), F. now apply ForgetProof.marshal_forget.
Qed.

Theorem insert_fails E W (af : bool) v c ps p first others : maps_ok v -> no_nil v ->
  Forall plain (first :: others) -> first :: others = ps ++ [p] ->
  ~ (exists hs a e b i, leads v ps hs (VArr (a ++ e :: b)) /\ index_value p = Some i /\ refers i a b) ->
  exists e, (if af then insert_after E W v (arg_v c) first others else insert_before E W v (arg_v c) first others) = (v, Err e).
Proof.
  intros M N HP Hsp Hn. apply pair_failed.
  - destruct af; [apply insert_after_ends|apply insert_before_ends]; exact N.
  - destruct af; [apply insert_after_failed|apply insert_before_failed].
  - intros y Hy. apply Hn.
    destruct (if af then insert_after E W v (arg_v c) first others else insert_before E W v (arg_v c) first others) as [v' r] eqn:Es.
    cbn [snd] in Hy. subst r. apply (insert_iff E W af v c ps p first others v' y M HP Hsp) in Es as (_ & hs & d & i & Hl & Hi & Hc).
    destruct (changed_put _ _ _ _ Hc M) as (d0 & d' & (-> & HA) & _ & _).
    destruct af; destruct HA as (a & e & b & -> & Rf & _); exists hs, a, e, b, i; auto.
Qed.

Theorem insert_succeeds E W (af : bool) v c ps p first others hs a e b i : maps_ok v ->
  Forall plain (first :: others) -> first :: others = ps ++ [p] ->
  leads v ps hs (VArr (a ++ e :: b)) -> index_value p = Some i -> refers i a b ->
  exists v', (if af then insert_after E W v (arg_v c) first others else insert_before E W v (arg_v c) first others) = (v', Ok c) /\
    changed (fun x x' => x = VArr (a ++ e :: b) /\ x' = VArr (if af then a ++ e :: c :: b else a ++ c :: e :: b)) hs v v' /\
    leads v' ps hs (VArr (if af then a ++ e :: c :: b else a ++ c :: e :: b)).
Proof.
  intros M HP Hsp Hl Hi Rf.
  set (d' := VArr (if af then a ++ e :: c :: b else a ++ c :: e :: b)).
  assert (Es : sub_at v hs = Some (VArr (a ++ e :: b))) by exact (leads_sub _ _ _ _ Hl M).
  assert (Hc : changed (fun x x' => x = VArr (a ++ e :: b) /\ x' = d') hs v (put_at v hs d')).
  { apply (put_changed _ hs v (VArr (a ++ e :: b)) d' M Es). auto. }
  exists (put_at v hs d'). split; [|split; [exact Hc|]].
  - apply (insert_iff E W af v c ps p first others _ c M HP Hsp). split; [reflexivity|].
    exists hs, (VArr (a ++ e :: b)), i. split; [exact Hl|]. split; [exact Hi|].
    apply (put_changed _ hs v (VArr (a ++ e :: b)) d' M Es). split; [reflexivity|].
    unfold d', added. destruct af; exists a, e, b; auto.
  - destruct (changed_leads (fun _ x' => x' = d') ps _ hs v Hl M _ Hc) as (d1 & -> & Hl' & _). exact Hl'.
Qed.

Theorem delete_effect E W v ps p first others : maps_ok v ->
  Forall plain (first :: others) -> first :: others = ps ++ [p] ->
  ((exists v', delete_at E W false v first others = (v', Ok tt)) <-> exists hs c, leads v (first :: others) hs c) /\
  (forall v', delete_at E W false v first others = (v', Ok tt) ->
     exists hs d d', leads v ps hs d /\ changed (fun a a' => a = d /\ a' = d') hs v v' /\ leads v' ps hs d' /\
       removed p d d' /\ (exists n, api_len d = Ok (S n) /\ api_len d' = Ok n) /\
       (forall k, p = PStr k -> exists e, get E W false v' first others = (v', Err e) /\ e = ErrNotFound)).
Proof.
  intros M HP Hsp. split; [apply delete_succeeds; assumption|]. intros v' H.
  destruct (delete_ok E W v ps p first others v' M HP Hsp H) as (hs & d & Hl & Hc).
  destruct (changed_leads (removed p) ps d hs v Hl M v' Hc) as (d' & HR & Hl' & Hc').
  exists hs, d, d'. split; [exact Hl|]. split; [exact Hc'|]. split; [exact Hl'|]. split; [exact HR|]. split.
  - destruct HR; [exists (List.length (a ++ b))|exists (List.length (a ++ b))]; (split; [|reflexivity]); unfold api_len; cbn [on_value]; f_equal; rewrite !app_length; cbn [List.length]; apply Nat.add_succ_r.
  - intros k ->. eexists. split; [|reflexivity].
    assert (M' : maps_ok v').
    { refine (changed_maps _ _ _ _ _ Hc M). intros x x' (_ & Hx) Mx. destruct Hx as [i a0 k0 e0 b0 lo lo' Hk|a0 e0 b0 p0 i Hi Rf].
      - apply maps_ok_obj in Mx as (ND & MF). apply maps_ok_obj. rewrite map_app in *. cbn in ND. split; [exact (NoDup_remove_1 _ _ _ ND)|].
        apply Forall_app in MF as (M1 & M2). apply Forall_app. split; [exact M1|exact (Forall_inv_tail M2)].
      - apply maps_ok_arr in Mx. apply maps_ok_arr. apply Forall_app in Mx as (M1 & M2). apply Forall_app. split; [exact M1|exact (Forall_inv_tail M2)]. }
    assert (Hm : missing_member v' (first :: others)).
    { rewrite Hsp. inversion HR as [i a0 k0 e0 b0 lo lo' Hk E1 E2 E3|a0 e0 b0 p0 i Hi Rf]; subst; [|discriminate].
      exists ps, k, [], hs, i, (a0 ++ b0), lo'. auto. }
    apply (loc_missing E W others v' first HP M') in Hm. rewrite get_pair, Hm. reflexivity.
Qed.

Theorem slice_is_path E W v x p ps :
  (forall cl, get E W cl v (PSlice (p :: ps)) [] = get E W cl v p ps) /\
  set_at E v x (PSlice (p :: ps)) [] = set_at E v x p ps /\
  insert_before E W v x (PSlice (p :: ps)) [] = insert_before E W v x p ps /\
  insert_after E W v x (PSlice (p :: ps)) [] = insert_after E W v x p ps /\
  (forall front l, append_at E W front v x [PSlice l] = append_at E W front v x l) /\
  (forall cl, delete_at E W cl v (PSlice (p :: ps)) [] = delete_at E W cl v p ps).
Proof.
  split; [intros; apply get_slice|]. split; [apply set_slice|]. split; [apply insert_before_slice|]. split; [apply insert_after_slice|].
  split; [intros; apply append_slice|intros; apply delete_slice].
Qed.

Theorem slice_alone E W v x l q r :
  (forall cl, get E W cl v (PSlice l) (q :: r) = (v, Err ErrMultipleParam)) /\
  (forall cl, delete_at E W cl v (PSlice l) (q :: r) = (v, Err ErrMultipleParam)) /\
  (forall op, op = set_at E v x \/ op = insert_before E W v x \/ op = insert_after E W v x ->
     fst (op (PSlice l) (q :: r)) = v /\ failed (snd (op (PSlice l) (q :: r)))) /\
  (forall front, fst (append_at E W front v x (PSlice l :: q :: r)) = v /\
     failed (snd (append_at E W front v x (PSlice l :: q :: r)))).
Proof.
  split; [intros; apply get_slice_more|]. split; [intros; apply delete_more|]. split; [|intros; apply append_more].
  intros op [->|[->| ->]]; [apply set_slice_more|apply insert_before_more|apply insert_after_more].
Qed.

Theorem slice_empty E W v x :
  (forall cl, fst (get E W cl v (PSlice []) []) = v /\ failed (snd (get E W cl v (PSlice []) []))) /\
  (forall cl, fst (delete_at E W cl v (PSlice []) []) = v /\ failed (snd (delete_at E W cl v (PSlice []) []))) /\
  (forall op, op = set_at E v x \/ op = insert_before E W v x \/ op = insert_after E W v x ->
     fst (op (PSlice []) []) = v /\ failed (snd (op (PSlice []) []))).
Proof.
  split; [|split].
  - intros cl. unfold get, locate, failed. destruct v; cbn; (split; [reflexivity|intros a H; discriminate]).
  - intros cl. unfold delete_at, failed. destruct v; cbn; (split; [reflexivity|intros a H; discriminate]).
  - unfold failed. intros op [->|[->| ->]]; unfold set_at, insert_before, insert_after; destruct (snd x);
      try (split; [reflexivity|intros a H; discriminate]);
      destruct v; cbn; try (split; [reflexivity|intros a H; discriminate]);
      destruct (uninitialized (fst x)); cbn; (split; [reflexivity|intros a H; discriminate]).
Qed.

Theorem must_same E W v x first others params :
  (fst (must_set_at E v x first others) = fst (set_at E v x first others) /\
   fst (at_set E v first others x) = fst (set_at E v x first others) /\
   fst (must_insert_before E W v x first others) = fst (insert_before E W v x first others) /\
   fst (must_insert_after E W v x first others) = fst (insert_after E W v x first others) /\
   fst (must_append_beginning E W v x params) = fst (append_beginning E W v x params) /\
   fst (must_append_end E W v x params) = fst (append_end E W v x params) /\
   (forall cl, fst (must_delete E W cl v first others) = fst (delete_at E W cl v first others)) /\
   (forall cl, fst (must_get E W cl v first others) = fst (get E W cl v first others))) /\
  ((failed (snd (set_at E v x first others)) -> fst (must_set_at E v x first others) = v /\ fst (at_set E v first others x) = v) /\
   (failed (snd (insert_before E W v x first others)) -> fst (must_insert_before E W v x first others) = v) /\
   (failed (snd (insert_after E W v x first others)) -> fst (must_insert_after E W v x first others) = v) /\
   (failed (snd (append_beginning E W v x params)) -> fst (must_append_beginning E W v x params) = v) /\
   (failed (snd (append_end E W v x params)) -> fst (must_append_end E W v x params) = v) /\
   (failed (snd (delete_at E W false v first others)) -> fst (must_delete E W false v first others) = v) /\
   (forall c, snd (get E W false v first others) = Ok c -> must_get E W false v first others = (v, Ok c)) /\
   (forall e, snd (get E W false v first others) = Err e -> must_get E W false v first others = (v, Ok VNotExist))).
Proof.
  split.
  - repeat split; try reflexivity. intros cl. unfold must_get. destruct (get E W cl v first others). reflexivity.
  - destruct (failing_unchanged E W v x first others params) as (H1 & H2 & H3 & H4 & H5 & H6).
    split; [intros H; split; exact (H1 H)|]. split; [exact H2|]. split; [exact H3|]. split; [exact H4|]. split; [exact H5|]. split; [exact H6|].
    pose proof (get_same E W v first others) as Hs. unfold must_get. destruct (get E W false v first others) as [v' r]. cbn [fst snd] in *. subst v'.
    split; intros z ->; reflexivity.
Qed.

Theorem edits_end E W v x first others params : no_nil v ->
  (forall cl, ends (snd (get E W cl v first others))) /\
  ends (snd (set_at E v x first others)) /\
  ends (snd (insert_before E W v x first others)) /\ ends (snd (insert_after E W v x first others)) /\
  (forall front, ends (snd (append_at E W front v x params))) /\
  (forall cl, ends (snd (delete_at E W cl v first others))).
Proof.
  intros N. split; [intros; now apply get_all_ends|]. split; [apply set_at_ends|].
  split; [now apply insert_before_ends|]. split; [now apply insert_after_ends|].
  split; [intros; now apply append_ends|intros; now apply delete_ends].
Qed.
