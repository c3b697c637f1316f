(** Laws of Set, Insert, Append and Delete in sequence. *)
From Verif Require Import Base Utf8 Float64 Value Opt Marshal ListLemmas ValueLemmas Access Path Edit
  SpecPath SpecReach PathProof EditProof SetProof SetClaims SetExact EditClaims SpecLaws.

(** ** Documents that hold the same *)
Inductive orel (R : V -> V -> Prop) : option V -> option V -> Prop :=
| orel_none : orel R None None
| orel_some x y : R x y -> orel R (Some x) (Some y).

Lemma same_refl v : same_doc v v.
Proof.
  induction v as [ |s|nn src|i kvs lo IH|l IH|b| | | ] using V_ind'; try (constructor; exact I).
  - rewrite Forall_forall in IH. apply same_members.
    + intros k id x Hin. exists id, x. split; [exact Hin|exact (IH _ Hin)].
    + intros k id x Hin. exists id, x. split; [exact Hin|exact (IH _ Hin)].
  - apply same_elems. induction IH; constructor; auto.
Qed.

Lemma same_obj_inv i kvs lo v' : same_doc (VObj i kvs lo) v' -> exists i' kvs' lo', v' = VObj i' kvs' lo' /\
  (forall k id x, In (k, (id, x)) kvs -> exists id' y, In (k, (id', y)) kvs' /\ same_doc x y) /\
  (forall k id' y, In (k, (id', y)) kvs' -> exists id x, In (k, (id, x)) kvs /\ same_doc x y).
Proof. intros H. inversion H; subst; [contradiction|]. eauto 8. Qed.

Lemma same_arr_inv l v' : same_doc (VArr l) v' -> exists l', v' = VArr l' /\ Forall2 same_doc l l'.
Proof. intros H. inversion H; subst; [contradiction|]. eauto. Qed.

Lemma same_sym v : forall v', same_doc v v' -> same_doc v' v.
Proof.
  induction v as [ |s|nn src|i kvs lo IH|l IH|b| | | ] using V_ind'; intros v' H; try (inversion H; subst; constructor; exact I).
  - apply same_obj_inv in H as (i' & kvs' & lo' & -> & A & B). rewrite Forall_forall in IH. apply same_members.
    + intros k id y Hin. destruct (B _ _ _ Hin) as (id0 & x & Hx & Hs). exists id0, x. split; [exact Hx|exact (IH _ Hx _ Hs)].
    + intros k id x Hin. destruct (A _ _ _ Hin) as (id0 & y & Hy & Hs). exists id0, y. split; [exact Hy|exact (IH _ Hin _ Hs)].
  - apply same_arr_inv in H as (l' & -> & A). apply same_elems.
    induction A as [|x y l l' Hs A IHA]; constructor; [exact (Forall_inv IH _ Hs)|exact (IHA (Forall_inv_tail IH))].
Qed.

Lemma same_trans v : forall v' w, same_doc v v' -> same_doc v' w -> same_doc v w.
Proof.
  induction v as [ |s|nn src|i kvs lo IH|l IH|b| | | ] using V_ind'; intros v' w H H'; try (inversion H; subst; exact H').
  - apply same_obj_inv in H as (i' & kvs' & lo' & -> & A1 & A2). apply same_obj_inv in H' as (i2 & kvs2 & lo2 & -> & B1 & B2).
    rewrite Forall_forall in IH. apply same_members.
    + intros k id x Hin. destruct (A1 _ _ _ Hin) as (id1 & y & Hy & S1). destruct (B1 _ _ _ Hy) as (id2 & z & Hz & S2).
      exists id2, z. split; [exact Hz|exact (IH _ Hin _ _ S1 S2)].
    + intros k id z Hin. destruct (B2 _ _ _ Hin) as (id1 & y & Hy & S2). destruct (A2 _ _ _ Hy) as (id2 & x & Hx & S1).
      exists id2, x. split; [exact Hx|exact (IH _ Hx _ _ S1 S2)].
  - apply same_arr_inv in H as (l1 & -> & A1). apply same_arr_inv in H' as (l2 & -> & A2). apply same_elems.
    revert l1 l2 A1 A2. induction IH as [|x l Hx IHl IHF]; intros l1 l2 A1 A2.
    + inversion A1; subst. inversion A2; subst. constructor.
    + inversion A1; subst. inversion A2; subst. constructor; [eapply Hx; eassumption|eapply IHF; eassumption].
Qed.

(** ** Containers and their children *)
Definition kind_of (v : V) : option bool :=
  match v with VObj _ _ _ => Some true | VArr _ => Some false | _ => None end.

Lemma Forall2_nth (R : V -> V -> Prop) l l' : Forall2 R l l' <-> forall n, orel R (nth_error l n) (nth_error l' n).
Proof.
  split.
  - induction 1 as [|x y l l' H F IH]; intros [|n]; cbn; try constructor; auto.
  - revert l'. induction l as [|x l IH]; intros [|y l'] H.
    + constructor.
    + specialize (H 0%nat). inversion H.
    + specialize (H 0%nat). inversion H.
    + constructor; [specialize (H 0%nat); now inversion H|]. apply IH. intros n. exact (H (S n)).
Qed.

Definition is_cont (v : V) : Prop := kind_of v <> None.

Lemma same_kids v v' : maps_ok v -> maps_ok v' -> same_doc v v' -> kind_of v = kind_of v' /\ forall h, orel same_doc (child_at v h) (child_at v' h).
Proof.
  intros M M' H. inversion H as [w Hw|l l' F|i kvs lo i' kvs' lo' A B]; subst.
  - split; [reflexivity|]. intros h. destruct v', h; try contradiction Hw; constructor.
  - split; [reflexivity|]. intros [n|k]; [|constructor]. cbn. now apply Forall2_nth.
  - split; [reflexivity|]. intros [n|k]; [constructor|]. cbn.
    apply maps_ok_obj in M as (ND & _). apply maps_ok_obj in M' as (ND' & _).
    destruct (alookup k kvs) as [[id x]|] eqn:E1.
    + destruct (A _ _ _ (alookup_In _ _ _ E1)) as (id' & y & Hy & Hs).
      rewrite (alookup_NoDup_In _ _ _ ND' Hy). now constructor.
    + destruct (alookup k kvs') as [[id' y]|] eqn:E2; [|constructor].
      destruct (B _ _ _ (alookup_In _ _ _ E2)) as (id & x & Hx & Hs).
      rewrite (alookup_NoDup_In _ _ _ ND Hx) in E1. discriminate.
Qed.

Lemma kids_same v v' : is_cont v -> maps_ok v -> maps_ok v' -> kind_of v = kind_of v' ->
  (forall h, orel same_doc (child_at v h) (child_at v' h)) -> same_doc v v'.
Proof.
  intros C M M' K H. destruct v as [ |s|nn src|i kvs lo|l|b| | | ]; try (now contradict C);
    destruct v' as [ |s'|nn' src'|i' kvs' lo'|l'|b'| | | ]; try discriminate K.
  - apply maps_ok_obj in M as (ND & _). apply maps_ok_obj in M' as (ND' & _). apply same_members.
    + intros k id x Hx. specialize (H (HKey k)). cbn in H. rewrite (alookup_NoDup_In _ _ _ ND Hx) in H.
      destruct (alookup k kvs') as [[id' y]|] eqn:E2; inversion H; subst. exists id', y. split; [exact (alookup_In _ _ _ E2)|assumption].
    + intros k id y Hy. specialize (H (HKey k)). cbn in H. rewrite (alookup_NoDup_In _ _ _ ND' Hy) in H.
      destruct (alookup k kvs) as [[id' x]|] eqn:E2; inversion H; subst. exists id', x. split; [exact (alookup_In _ _ _ E2)|assumption].
  - apply same_elems. apply Forall2_nth. intros n. exact (H (HIdx n)).
Qed.

Definition fits (v : V) (h : hop) : Prop :=
  match v, h with
  | VObj _ _ _, HKey _ => True
  | VArr l, HIdx n => (n <= List.length l)%nat
  | _, _ => False
  end.

(** Writing a child where there is one or next after the last. *)
Definition put_nth (n : nat) (w : V) (l : list V) : list V := firstn n l ++ w :: skipn (S n) l.
Definition place (v : V) (h : hop) (w : V) : V :=
  match v, h with
  | VObj i kvs lo, HKey k => VObj i (aset k (0, w) kvs) lo
  | VArr l, HIdx n => VArr (put_nth n w l)
  | _, _ => v
  end.

Lemma nth_put_nth n w : forall l m, (n <= List.length l)%nat ->
  nth_error (put_nth n w l) m = if Nat.eqb m n then Some w else nth_error l m.
Proof.
  unfold put_nth. induction n as [|n IH]; intros l m H.
  - cbn. destruct m as [|m]; [reflexivity|]. cbn. destruct l; [now destruct m|reflexivity].
  - destruct l as [|x l]; [cbn in H; lia|]. cbn [firstn skipn app]. destruct m as [|m]; [reflexivity|].
    cbn [nth_error]. rewrite IH by (cbn in H; lia). reflexivity.
Qed.

Definition hop_dec (h h' : hop) : {h = h'} + {h <> h'}.
Proof. decide equality; [apply Nat.eq_dec|apply (list_eq_dec Z.eq_dec)]. Defined.

Lemma child_place v h w h' : fits v h -> child_at (place v h w) h' = if hop_dec h' h then Some w else child_at v h'.
Proof.
  intros F. destruct v as [ |s|nn src|i kvs lo|l|b| | | ], h as [n|k]; try contradiction F; cbn [place].
  - destruct (hop_dec h' (HKey k)) as [->|N].
    + cbn. now rewrite alookup_aset_same.
    + destruct h' as [m|k']; [reflexivity|]. cbn. rewrite alookup_aset_other by congruence. reflexivity.
  - cbn in F. destruct h' as [m|k']; [|destruct (hop_dec (HKey k') (HIdx n)); [discriminate|reflexivity]].
    cbn [child_at]. rewrite nth_put_nth by exact F. destruct (hop_dec (HIdx m) (HIdx n)) as [E|N].
    + injection E as ->. now rewrite Nat.eqb_refl.
    + destruct (Nat.eqb_spec m n) as [->|]; [congruence|reflexivity].
Qed.

Lemma place_kind v h w : kind_of (place v h w) = kind_of v.
Proof. destruct v, h; reflexivity. Qed.

Lemma fits_cont v h : fits v h -> is_cont v.
Proof. destruct v, h; cbn; try contradiction; intros _ H; discriminate H. Qed.

Lemma Forall_firstn' {A} (P : A -> Prop) n : forall l, Forall P l -> Forall P (firstn n l).
Proof. induction n; intros l H; [constructor|]. destruct H; cbn; [constructor|]. constructor; auto. Qed.
Lemma Forall_skipn' {A} (P : A -> Prop) n : forall l, Forall P l -> Forall P (skipn n l).
Proof. induction n; intros l H; [exact H|]. destruct H; cbn; [constructor|]. auto. Qed.

Lemma place_maps v h w : maps_ok v -> maps_ok w -> maps_ok (place v h w).
Proof.
  intros M Mw. destruct v as [ |s|nn src|i kvs lo|l|b| | | ], h as [n|k]; try exact M.
  - cbn [place]. apply maps_ok_obj in M as (ND & MF). apply maps_ok_obj. split; [now apply (NoDup_aset k)|].
    apply Forall_aset; [exact MF|intros k0 _; exact Mw].
  - cbn [place]. apply maps_ok_arr in M. apply maps_ok_arr. unfold put_nth. apply Forall_app. split; [now apply Forall_firstn'|].
    constructor; [exact Mw|]. now apply Forall_skipn'.
Qed.

Lemma child_maps v h x : maps_ok v -> child_at v h = Some x -> maps_ok x.
Proof.
  intros M H. destruct v as [ |s|nn src|i kvs lo|l|b| | | ], h as [n|k]; try discriminate H; cbn in H.
  - destruct (alookup k kvs) as [[id y]|] eqn:E1; [|discriminate]. injection H as ->.
    apply maps_ok_obj in M as (_ & MF). rewrite Forall_forall in MF. exact (MF _ (alookup_In _ _ _ E1)).
  - apply maps_ok_arr in M. rewrite Forall_forall in M. exact (M _ (nth_error_In _ _ H)).
Qed.

Lemma some_maps {x} : maps_ok x -> forall v, Some x = Some v -> maps_ok v.
Proof. intros M v E. now injection E as <-. Qed.

Lemma place_length l n w : (n <= List.length l)%nat -> List.length (put_nth n w l) = Nat.max (List.length l) (S n).
Proof. intros H. unfold put_nth. rewrite app_length. cbn [List.length]. rewrite firstn_length, skipn_length. lia. Qed.

(** ** Set as writing a child that has been written *)
(** The child a parameter names; an index may name the place after the last
    element, -1 that of an empty array if parameters follow. *)
Definition resolve (v : V) (p : param) (last : bool) : option hop :=
  match v with
  | VObj _ _ _ => match p with PStr k => Some (HKey k) | _ => None end
  | VArr l =>
    match index_value p with
    | Some i =>
      match pos_read (List.length l) i with
      | Some n => Some (HIdx n)
      | None => if i =? Z.of_nat (List.length l) then Some (HIdx (List.length l))
                else if negb last && (i =? -1) && (Nat.eqb (List.length l) 0) then Some (HIdx 0) else None
      end
    | None => None
    end
  | _ => None
  end.

Definition fresh (p : param) : option V :=
  match p with
  | PStr _ => Some new_object
  | _ => match index_value p with Some i => if i =? 0 then Some new_array else None | None => None end
  end.

Definition no_more (r : list param) : bool := match r with [] => true | _ => false end.

Fixpoint put (o : option V) (ps : list param) (c : V) : option V :=
  match ps with
  | [] => Some c
  | p :: r =>
    match match o with Some v => Some v | None => fresh p end with
    | Some v => match resolve v p (no_more r) with
                | Some h => option_map (place v h) (put (child_at v h) r c)
                | None => None
                end
    | None => None
    end
  end.

Lemma pos_read_lt n i m : pos_read n i = Some m -> (m < n)%nat.
Proof.
  unfold pos_read. destruct (Z.eqb_spec (Z.of_nat n) 0); [discriminate|]. destruct (Z.ltb_spec i 0).
  - destruct (Z.ltb_spec (i + Z.of_nat n) 0); [discriminate|]. intros E. injection E as <-. lia.
  - destruct (Z.leb_spec (Z.of_nat n) i); [discriminate|]. intros E. injection E as <-. lia.
Qed.

Lemma resolve_fits v p b h : resolve v p b = Some h -> fits v h.
Proof.
  destruct v as [ |s|nn src|i kvs lo|l|bb| | | ]; cbn; try discriminate.
  - destruct p; try discriminate. intros E. injection E as <-. exact I.
  - destruct (index_value p) as [i|]; [|discriminate].
    destruct (pos_read (List.length l) i) as [n|] eqn:En.
    + intros E. injection E as <-. apply pos_read_lt in En. lia.
    + destruct (i =? _); [intros E; injection E as <-; lia|].
      destruct (negb b && (i =? -1) && Nat.eqb (List.length l) 0); [|discriminate]. intros E. injection E as <-. lia.
Qed.

Lemma resolve_again v p b h w : resolve v p b = Some h -> resolve (place v h w) p b = Some h.
Proof.
  intros H. pose proof (resolve_fits _ _ _ _ H) as F. destruct v as [ |s|nn src|i kvs lo|l|bb| | | ]; cbn in H; try discriminate.
  - destruct p; try discriminate. injection H as <-. reflexivity.
  - destruct (index_value p) as [i|] eqn:Ei; [|discriminate].
    destruct h as [n|k]; [|contradiction F]. cbn in F. cbn [place resolve]. rewrite Ei, (place_length l n w F).
    destruct (pos_read (List.length l) i) as [m|] eqn:En.
    + injection H as ->. pose proof (pos_read_lt _ _ _ En). replace (Nat.max (List.length l) (S n)) with (List.length l) by lia. now rewrite En.
    + apply pos_read_none in En. destruct (Z.eqb_spec i (Z.of_nat (List.length l))) as [->|N].
      * injection H as <-. unfold pos_read.
        destruct (Z.eqb_spec (Z.of_nat (Nat.max (List.length l) (S (List.length l)))) 0); [lia|].
        destruct (Z.ltb_spec (Z.of_nat (List.length l)) 0); [lia|].
        destruct (Z.leb_spec (Z.of_nat (Nat.max (List.length l) (S (List.length l)))) (Z.of_nat (List.length l))); [lia|].
        now rewrite Nat2Z.id.
      * destruct b; [discriminate|]. cbn [negb andb] in H. destruct (Z.eqb_spec i (-1)) as [->|]; [|discriminate].
        destruct (Nat.eqb_spec (List.length l) 0) as [E0|]; [|discriminate]. injection H as <-. rewrite E0. reflexivity.
Qed.

Lemma fresh_maps p v : fresh p = Some v -> maps_ok v.
Proof.
  unfold fresh. destruct p; cbn; try discriminate; repeat (destruct (_ =? _); try discriminate); intros E; injection E as <-; cbn; auto.
  split; [constructor|exact I].
Qed.

Lemma put_maps ps : forall o c w, (forall v, o = Some v -> maps_ok v) -> maps_ok c -> put o ps c = Some w -> maps_ok w.
Proof.
  induction ps as [|p r IH]; intros o c w Mo Mc H; cbn [put] in H.
  - injection H as <-. exact Mc.
  - destruct (match o with Some v => Some v | None => fresh p end) as [v|] eqn:Ev; [|discriminate].
    assert (Mv : maps_ok v) by (destruct o; [apply Mo; congruence|exact (fresh_maps _ _ Ev)]).
    destruct (resolve v p (no_more r)) as [h|]; [|discriminate].
    destruct (put (child_at v h) r c) as [x|] eqn:Ex; [|discriminate]. injection H as <-.
    apply place_maps; [exact Mv|]. apply (IH _ _ _ (fun y E => child_maps v h y Mv E) Mc Ex).
Qed.

Lemma place_same v v' h w w' : fits v h -> fits v' h -> maps_ok v -> maps_ok v' -> maps_ok w -> maps_ok w' ->
  kind_of v = kind_of v' -> (forall h', h' <> h -> orel same_doc (child_at v h') (child_at v' h')) -> same_doc w w' ->
  same_doc (place v h w) (place v' h w').
Proof.
  intros F F' M M' Mw Mw' K HO Hs. apply kids_same.
  - unfold is_cont. rewrite place_kind. exact (fits_cont _ _ F).
  - now apply place_maps.
  - now apply place_maps.
  - now rewrite !place_kind.
  - intros h'. rewrite !child_place by assumption. destruct (hop_dec h' h); [now constructor|auto].
Qed.

Lemma orel_refl o : orel same_doc o o.
Proof. destruct o; constructor. apply same_refl. Qed.

(** *** Writing twice *)
Lemma put_put ps : forall o c d a, (forall v, o = Some v -> maps_ok v) -> maps_ok c -> maps_ok d ->
  put o ps c = Some a -> orel same_doc (put (Some a) ps d) (put o ps d).
Proof.
  induction ps as [|p r IH]; intros o c d a Mo Mc Md H; cbn [put] in H |- *.
  - constructor. apply same_refl.
  - destruct (match o with Some v => Some v | None => fresh p end) as [v|] eqn:Ev; [|discriminate].
    assert (Mv : maps_ok v) by (destruct o; [apply Mo; congruence|exact (fresh_maps _ _ Ev)]).
    destruct (resolve v p (no_more r)) as [h|] eqn:Eh; [|discriminate].
    destruct (put (child_at v h) r c) as [x|] eqn:Ex; [|discriminate]. injection H as <-.
    rewrite (resolve_again _ _ _ _ x Eh). pose proof (resolve_fits _ _ _ _ Eh) as F.
    rewrite (child_place v h x h F). destruct (hop_dec h h) as [_|C]; [|congruence].
    pose proof (fun y E => child_maps v h y Mv E) as Mch.
    pose proof (IH _ _ _ _ Mch Mc Md Ex) as R.
    pose proof (put_maps r _ _ _ Mch Mc Ex) as Mx.
    destruct (put (Some x) r d) as [y1|] eqn:E1, (put (child_at v h) r d) as [y2|] eqn:E2; inversion R; subst; [|constructor].
    cbn [option_map]. constructor. pose proof (resolve_fits _ _ _ _ (resolve_again _ _ _ _ x Eh)) as F'.
    apply place_same; auto.
    + now apply place_maps.
    + exact (put_maps r _ _ _ (some_maps Mx) Md E1).
    + exact (put_maps r _ _ _ Mch Md E2).
    + now rewrite place_kind.
    + intros h' N. rewrite (child_place v h x h' F). destruct (hop_dec h' h); [congruence|apply orel_refl].
Qed.

Lemma same_len l l' : Forall2 same_doc l l' -> List.length l = List.length l'.
Proof. induction 1; cbn; congruence. Qed.

Lemma resolve_same v v' p b : same_doc v v' -> resolve v p b = resolve v' p b.
Proof. intros H. inversion H; subst; [reflexivity| |reflexivity]. cbn. now rewrite (same_len _ _ H0). Qed.

Lemma put_same ps : forall o o' c, (forall v, o = Some v -> maps_ok v) -> (forall v, o' = Some v -> maps_ok v) -> maps_ok c ->
  orel same_doc o o' -> orel same_doc (put o ps c) (put o' ps c).
Proof.
  induction ps as [|p r IH]; intros o o' c Mo Mo' Mc H; cbn [put].
  - constructor. apply same_refl.
  - assert (Hd : orel same_doc (match o with Some v => Some v | None => fresh p end) (match o' with Some v => Some v | None => fresh p end)).
    { inversion H; subst; [apply orel_refl|now constructor]. }
    assert (M1 : forall v, match o with Some v => Some v | None => fresh p end = Some v -> maps_ok v).
    { intros v E. destruct o; [apply Mo; congruence|exact (fresh_maps _ _ E)]. }
    assert (M2 : forall v, match o' with Some v => Some v | None => fresh p end = Some v -> maps_ok v).
    { intros v E. destruct o'; [apply Mo'; congruence|exact (fresh_maps _ _ E)]. }
    destruct (match o with Some v => Some v | None => fresh p end) as [v|];
      destruct (match o' with Some v => Some v | None => fresh p end) as [v'|]; inversion Hd; subst; [|constructor].
    specialize (M1 _ eq_refl). specialize (M2 _ eq_refl).
    match goal with S0 : same_doc v v' |- _ => rename S0 into HS end.
    rewrite <- (resolve_same v v' p (no_more r) HS).
    destruct (resolve v p (no_more r)) as [h|] eqn:Eh; [|constructor].
    destruct (same_kids _ _ M1 M2 HS) as (K & Kids).
    pose proof (IH _ _ c (fun y E => child_maps v h y M1 E) (fun y E => child_maps v' h y M2 E) Mc (Kids h)) as R.
    destruct (put (child_at v h) r c) as [y1|] eqn:E1, (put (child_at v' h) r c) as [y2|] eqn:E2; inversion R; subst; [|constructor].
    cbn. constructor. apply place_same; auto.
    + exact (resolve_fits _ _ _ _ Eh).
    + rewrite (resolve_same v v' p (no_more r) HS) in Eh. exact (resolve_fits _ _ _ _ Eh).
    + exact (put_maps r _ _ _ (fun y E => child_maps v h y M1 E) Mc E1).
    + exact (put_maps r _ _ _ (fun y E => child_maps v' h y M2 E) Mc E2).
Qed.

(** *** Writing what is there *)
Lemma leads_child v p ps hs c : maps_ok v -> leads v (p :: ps) hs c ->
  exists h hs' x, hs = h :: hs' /\ child_at v h = Some x /\ leads x ps hs' c /\ forall b, resolve v p b = Some h.
Proof.
  intros M H. inversion H as [|i kvs lo k id x ps0 hs0 c0 Hin Hl|a x b p0 i ps0 hs0 c0 Hi Hr Hl]; subst.
  - apply maps_ok_obj in M as (ND & _). exists (HKey k), hs0, x. cbn. rewrite (alookup_NoDup_In _ _ _ ND Hin). auto.
  - exists (HIdx (List.length a)), hs0, x. cbn. rewrite Hi, (pos_read_refers i a x b Hr), nth_error_app_here. auto.
Qed.

Lemma put_there ps : forall v hs c, maps_ok v -> leads v ps hs c -> exists w, put (Some v) ps c = Some w /\ same_doc w v.
Proof.
  induction ps as [|p r IH]; intros v hs c M H.
  - inversion H; subst. exists c. split; [reflexivity|apply same_refl].
  - destruct (leads_child _ _ _ _ _ M H) as (h & hs' & x & -> & Hx & Hl & Hr). cbn [put]. rewrite Hr, Hx.
    pose proof (child_maps _ _ _ M Hx) as Mx. destruct (IH _ _ _ Mx Hl) as (w & Ew & Sw). rewrite Ew. cbn.
    eexists. split; [reflexivity|]. pose proof (resolve_fits _ _ _ _ (Hr true)) as F.
    apply kids_same.
    + unfold is_cont. rewrite place_kind. exact (fits_cont _ _ F).
    + apply place_maps; [exact M|]. apply (put_maps r (Some x) c w); [intros ? E; injection E as <-; exact Mx| |exact Ew].
      exact (leads_maps _ _ _ _ Hl Mx).
    + exact M.
    + apply place_kind.
    + intros h'. rewrite child_place by exact F. destruct (hop_dec h' h) as [->|]; [rewrite Hx; now constructor|apply orel_refl].
Qed.

(** *** Writing at two places *)
Lemma resolve_hop v p b h : from_start p -> resolve v p b = Some h -> h = hop_of p.
Proof.
  intros FS. destruct v as [ |s|nn src|i kvs lo|l|bb| | | ]; cbn; try discriminate.
  - destruct p; try discriminate. intros E; injection E as <-; reflexivity.
  - unfold from_start in FS. destruct (index_value p) as [i|] eqn:Ei; [|discriminate].
    assert (Hp : hop_of p = HIdx (Z.to_nat i)) by (destruct p; cbn in Ei |- *; try discriminate; injection Ei as <-; reflexivity).
    rewrite Hp. unfold pos_read. destruct (Z.ltb_spec i 0); [lia|].
    destruct (Z.eqb_spec (Z.of_nat (List.length l)) 0) as [E0|N0].
    + destruct (Z.eqb_spec i (Z.of_nat (List.length l))) as [->|]; [intros E; injection E as <-; f_equal; lia|].
      replace (i =? -1) with false by (symmetry; apply Z.eqb_neq; lia). now rewrite andb_false_r.
    + destruct (Z.leb_spec (Z.of_nat (List.length l)) i); [|congruence].
      destruct (Z.eqb_spec i (Z.of_nat (List.length l))) as [->|]; [intros E; injection E as <-; f_equal; lia|].
      replace (i =? -1) with false by (symmetry; apply Z.eqb_neq; lia). now rewrite andb_false_r.
Qed.

Lemma resolve_bound l p b h i : from_start p -> index_value p = Some i -> resolve (VArr l) p b = Some h -> 0 <= i <= Z.of_nat (List.length l).
Proof.
  intros FS Ei H. unfold from_start in FS. rewrite Ei in FS. pose proof (resolve_fits _ _ _ _ H) as F.
  rewrite (resolve_hop _ _ _ _ ltac:(unfold from_start; now rewrite Ei) H) in F.
  assert (Hp : hop_of p = HIdx (Z.to_nat i)) by (destruct p; cbn in Ei |- *; try discriminate; injection Ei as <-; reflexivity).
  rewrite Hp in F. cbn in F. lia.
Qed.

Lemma resolve_in l p b i : index_value p = Some i -> 0 <= i <= Z.of_nat (List.length l) -> resolve (VArr l) p b = Some (HIdx (Z.to_nat i)).
Proof.
  intros Ei B. cbn. rewrite Ei. destruct (pos_read (List.length l) i) as [n|] eqn:En.
  - unfold pos_read in En. destruct (Z.eqb_spec (Z.of_nat (List.length l)) 0); [discriminate|]. destruct (Z.ltb_spec i 0); [lia|].
    destruct (Z.leb_spec (Z.of_nat (List.length l)) i); [discriminate|congruence].
  - apply pos_read_none in En. replace i with (Z.of_nat (List.length l)) by lia. rewrite Z.eqb_refl. now rewrite Nat2Z.id.
Qed.

Lemma resolve_other v p b h h' w : from_start p -> resolve v p b = Some h -> fits v h' -> resolve (place v h' w) p b = Some h.
Proof.
  intros FS H F. pose proof (resolve_hop _ _ _ _ FS H) as ->. destruct v as [ |s|nn src|i kvs lo|l|bb| | | ], h' as [n|k]; try contradiction F.
  - cbn in H. destruct p; try discriminate. reflexivity.
  - cbn in F. cbn [place]. destruct (index_value p) as [i|] eqn:Ei; [|cbn in H; rewrite Ei in H; discriminate].
    pose proof (resolve_bound _ _ _ _ _ FS Ei H) as B. rewrite (resolve_in _ p b i Ei).
    + destruct p; cbn in Ei |- *; try discriminate; now injection Ei as <-.
    + rewrite place_length by exact F. lia.
Qed.

Lemma fits_place v h h' w : fits v h -> fits v h' -> fits (place v h' w) h.
Proof.
  destruct v as [ |s|nn src|i kvs lo|l|bb| | | ], h as [n|k], h' as [m|k']; cbn; try contradiction; auto.
  intros H H'. rewrite place_length by exact H'. lia.
Qed.

Lemma resolve_kind v p b h : resolve v p b = Some h -> kind_of v = Some (match p with PStr _ => true | _ => false end).
Proof. destruct v, p; cbn; try discriminate; reflexivity. Qed.

Lemma fresh_kind p v : fresh p = Some v -> kind_of v = Some (match p with PStr _ => true | _ => false end) /\
  (v = new_object \/ v = new_array).
Proof. unfold fresh. destruct p; cbn; try discriminate; repeat (destruct (_ =? _); try discriminate); intros E; injection E as <-; cbn; auto. Qed.

Lemma unrelated_cons a b ps qs : unrelated (a :: ps) (b :: qs) -> a = b -> unrelated ps qs.
Proof. intros (H1 & H2) ->. split; intros C; [apply H1|apply H2]; cbn; auto. Qed.

Lemma unrelated_left ps : ~ unrelated [] ps.
Proof. intros (H & _). apply H. exact I. Qed.
Lemma unrelated_right ps : ~ unrelated ps [].
Proof. intros (_ & H). apply H. exact I. Qed.

Lemma put_comm ps : forall qs o c d a b, (forall v, o = Some v -> maps_ok v) -> maps_ok c -> maps_ok d ->
  Forall from_start ps -> Forall from_start qs -> unrelated (place_of ps) (place_of qs) ->
  put o ps c = Some a -> put o qs d = Some b -> orel same_doc (put (Some a) qs d) (put (Some b) ps c).
Proof.
  induction ps as [|p r IH]; intros [|q s] o c d a b Mo Mc Md FP FQ U Ha Hb;
    try (exfalso; exact (unrelated_left _ U)); try (exfalso; exact (unrelated_right _ U)).
  cbn [put] in Ha, Hb.
  destruct (match o with Some v => Some v | None => fresh p end) as [v|] eqn:Ev; [|discriminate].
  assert (Mv : maps_ok v) by (destruct o; [apply Mo; congruence|exact (fresh_maps _ _ Ev)]).
  destruct (resolve v p (no_more r)) as [h|] eqn:Eh; [|discriminate].
  destruct (put (child_at v h) r c) as [x|] eqn:Ex; [|discriminate]. injection Ha as <-.
  destruct (match o with Some v => Some v | None => fresh q end) as [v'|] eqn:Ev'; [|discriminate].
  assert (Mv' : maps_ok v') by (destruct o; [apply Mo; congruence|exact (fresh_maps _ _ Ev')]).
  destruct (resolve v' q (no_more s)) as [h'|] eqn:Eh'; [|discriminate].
  destruct (put (child_at v' h') s d) as [y|] eqn:Ey; [|discriminate]. injection Hb as <-.
  pose proof (fun y E => child_maps v h y Mv E) as Mch. pose proof (fun y E => child_maps v' h' y Mv' E) as Mch'.
  pose proof (put_maps r _ _ _ Mch Mc Ex) as Mx. pose proof (put_maps s _ _ _ Mch' Md Ey) as My.
  pose proof (resolve_fits _ _ _ _ Eh) as F. pose proof (resolve_fits _ _ _ _ Eh') as F'.
  pose proof (resolve_kind _ _ _ _ Eh) as K. pose proof (resolve_kind _ _ _ _ Eh') as K'.
  assert (D : v = v' \/ kind_of v <> kind_of v').
  { destruct o as [v0|]; [left; congruence|].
    apply fresh_kind in Ev as (_ & [-> | ->]); apply fresh_kind in Ev' as (_ & [-> | ->]); auto; right; discriminate. }
  destruct D as [<-|D].
  2:{ cbn [put].
      destruct (resolve (place v h x) q (no_more s)) as [g|] eqn:Eg.
      { exfalso. pose proof (resolve_kind _ _ _ _ Eg) as Kg. rewrite place_kind in Kg. congruence. }
      destruct (resolve (place v' h' y) p (no_more r)) as [g'|] eqn:Eg'; [|constructor].
      exfalso. pose proof (resolve_kind _ _ _ _ Eg') as Kg. rewrite place_kind in Kg. congruence. }
  cbn [put].
  rewrite (resolve_other v q _ h' h x (Forall_inv FQ) Eh' F), (resolve_other v p _ h h' y (Forall_inv FP) Eh F').
  rewrite !child_place by assumption.
  destruct (hop_dec h' h) as [->|N].
  - destruct (hop_dec h h) as [_|C]; [|congruence].
    pose proof (resolve_hop _ _ _ _ (Forall_inv FP) Eh) as Hp. pose proof (resolve_hop _ _ _ _ (Forall_inv FQ) Eh') as Hq.
    assert (Ur : unrelated (place_of r) (place_of s)) by (apply (unrelated_cons _ _ _ _ U); congruence).
    pose proof (IH s _ _ _ _ _ Mch Mc Md (Forall_inv_tail FP) (Forall_inv_tail FQ) Ur Ex Ey) as R.
    destruct (put (Some x) s d) as [x1|] eqn:E1, (put (Some y) r c) as [y1|] eqn:E2; inversion R; subst; [|constructor].
    cbn. constructor. apply place_same; try assumption; try (now apply fits_place); try (now apply place_maps).
    + exact (put_maps s (Some x) d x1 (some_maps Mx) Md E1).
    + exact (put_maps r (Some y) c y1 (some_maps My) Mc E2).
    + now rewrite !place_kind.
    + intros g Ng. rewrite !child_place by assumption. match goal with |- context [hop_dec g ?u] => destruct (hop_dec g u); [congruence|apply orel_refl] end.
  - destruct (hop_dec h h') as [C|_]; [congruence|]. rewrite Ex, Ey. cbn. constructor. apply kids_same.
    + unfold is_cont. rewrite !place_kind. exact (fits_cont _ _ F).
    + apply place_maps; [now apply place_maps|exact My].
    + apply place_maps; [now apply place_maps|exact Mx].
    + now rewrite !place_kind.
    + intros g. rewrite !child_place by (try assumption; now apply fits_place).
      destruct (hop_dec g h') as [->|N1]; [destruct (hop_dec h' h); [congruence|apply orel_refl]|].
      destruct (hop_dec g h); apply orel_refl.
Qed.

(** ** Set is [put] where the indexes are within bounds *)
Lemma put_nth_set n w : forall l, (n < List.length l)%nat -> put_nth n w l = set_nth n w l.
Proof.
  unfold put_nth. induction n as [|n IH]; intros [|x l] H; cbn in H; try lia; [reflexivity|]. cbn [firstn skipn set_nth app].
  f_equal. apply IH. lia.
Qed.
Lemma put_nth_end w l : put_nth (List.length l) w l = l ++ [w].
Proof. unfold put_nth. rewrite firstn_all, skipn_all2 by lia. reflexivity. Qed.

Lemma nth_error_nth' (l : list V) n : (n < List.length l)%nat -> nth_error l n = Some (nth n l VNil).
Proof. revert n. induction l as [|x l IH]; intros [|n] H; cbn in *; try lia; [reflexivity|]. apply IH. lia. Qed.

Lemma fresh_container q : fresh q = match new_container q with Ok w => Some w | _ => None end.
Proof. unfold fresh, new_container. destruct q; cbn; try reflexivity; destruct (_ =? 0); reflexivity. Qed.

Lemma put_cons v p r c : put (Some v) (p :: r) c =
  match resolve v p (no_more r) with Some h => option_map (place v h) (put (child_at v h) r c) | None => None end.
Proof. reflexivity. Qed.
Lemma put_fresh p r c : put None (p :: r) c = match fresh p with Some v => put (Some v) (p :: r) c | None => None end.
Proof. reflexivity. Qed.
Lemma put_none q r c w0 : fresh q = Some w0 -> put None (q :: r) c = put (Some w0) (q :: r) c.
Proof. intros H. cbn [put]. now rewrite H. Qed.

Lemma set_maps E v c p ps v' x : maps_ok v -> maps_ok c -> Forall plain (p :: ps) -> set_c E v c p ps = (v', Ok x) -> maps_ok v'.
Proof.
  intros M Mc HP H. rewrite <- set_at_set_c in H. destruct (set_creates _ _ _ _ _ _ _ M HP H) as (_ & O).
  exact (set_outcome_maps _ _ _ _ O M Mc).
Qed.

Lemma new_container_maps q w : new_container q = Ok w -> maps_ok w.
Proof. intros H. apply (fresh_maps q). now rewrite fresh_container, H. Qed.

Lemma member_same i i' j j' k (kvs : list (bytes * (Z * V))) lo lo' x y : NoDup (map fst kvs) -> Forall (fun e => maps_ok (snd (snd e))) kvs ->
  maps_ok x -> maps_ok y -> same_doc x y -> same_doc (VObj i (aset k (j, x) kvs) lo) (VObj i' (aset k (j', y) kvs) lo').
Proof.
  intros ND MF Mx My HS. apply kids_same.
  - discriminate.
  - apply maps_ok_obj. split; [now apply (NoDup_aset k)|]. apply Forall_aset; [exact MF|intros; exact Mx].
  - apply maps_ok_obj. split; [now apply (NoDup_aset k)|]. apply Forall_aset; [exact MF|intros; exact My].
  - reflexivity.
  - intros [n|k']; [constructor|]. cbn. destruct (bytes_dec k' k) as [->|N].
    + rewrite !alookup_aset_same. now constructor.
    + rewrite !alookup_aset_other by exact N. apply orel_refl.
Qed.

Lemma Forall2_refl_same l : Forall2 same_doc l l.
Proof. induction l; constructor; auto. apply same_refl. Qed.

Lemma set_nth_same n x y : same_doc x y -> forall l, same_doc (VArr (set_nth n x l)) (VArr (set_nth n y l)).
Proof.
  intros H l. apply same_elems. revert l. induction n as [|n IH]; intros [|z l]; cbn; try constructor; auto using same_refl, Forall2_refl_same.
Qed.

Lemma put_set E c : uninitialized c = false -> maps_ok c -> forall ps p v w, Forall plain (p :: ps) -> maps_ok v ->
  put (Some v) (p :: ps) c = Some w -> exists v', set_c E v c p ps = (v', Ok c) /\ same_doc v' w.
Proof.
  intros Hc Mc. induction ps as [|q r IH]; intros p v w HP M H; rewrite put_cons in H.
  - rewrite set_c_one by exact (Forall_inv HP). rewrite Hc.
    destruct (resolve v p (no_more [])) as [h|] eqn:Eh; [|discriminate]. cbn in H. injection H as <-.
    destruct v as [ |s|nn src|i kvs lo|l|b| | | ]; try discriminate Eh; change (uninitialized _) with false; cbn iota.
    + cbn in Eh. destruct p; try discriminate. injection Eh as <-. cbn. eexists. split; [reflexivity|].
      apply maps_ok_obj in M as (ND & MF). apply member_same; auto. apply same_refl.
    + cbn in Eh. destruct (index_value p) as [i|] eqn:Ei; [|discriminate]. cbn [at_last_param].
      rewrite (fits_any_to_int p i Ei). unfold set_at_index.
      destruct (pos_read (List.length l) i) as [n|] eqn:En.
      * injection Eh as <-. destruct (Z.eqb_spec i (Z.of_nat (List.length l))) as [->|N].
        { assert (N : pos_read (List.length l) (Z.of_nat (List.length l)) = None) by (apply pos_read_none; lia). congruence. }
        eexists. split; [reflexivity|]. cbn [place]. rewrite put_nth_set by exact (pos_read_lt _ _ _ En). apply same_refl.
      * destruct (i =? Z.of_nat (List.length l)); [|discriminate]. injection Eh as <-.
        eexists. split; [reflexivity|]. cbn [place]. rewrite put_nth_end. apply same_refl.
  - rewrite set_c_more by exact (Forall_inv HP). rewrite Hc.
    destruct (resolve v p (no_more (q :: r))) as [h|] eqn:Eh; [|discriminate].
    destruct (put (child_at v h) (q :: r) c) as [x|] eqn:Ex; [|discriminate]. injection H as <-.
    pose proof (put_maps (q :: r) _ _ _ (fun y E => child_maps v h y M E) Mc Ex) as Mx.
    destruct v as [ |s|nn src|i kvs lo|l|b| | | ]; try discriminate Eh; change (uninitialized _) with false; cbn iota.
    + cbn in Eh. destruct p as [j|u|k|sl| |]; try discriminate. injection Eh as <-. cbn [any_to_string]. cbn [child_at] in Ex.
      apply maps_ok_obj in M as (ND & MF).
      destruct (alookup k kvs) as [[id y]|] eqn:El.
      * assert (My : maps_ok y) by (rewrite Forall_forall in MF; exact (MF _ (alookup_In _ _ _ El))).
        destruct (IH q y x (Forall_inv_tail HP) My Ex) as (y' & Ey & Sy). rewrite Ey.
        eexists. split; [reflexivity|]. cbn [place]. apply member_same; auto. exact (set_maps _ _ _ _ _ _ _ My Mc (Forall_inv_tail HP) Ey).
      * assert (Ef : exists w0, fresh q = Some w0 /\ new_container q = Ok w0).
        { rewrite put_fresh in Ex; rewrite fresh_container in Ex |- *. destruct (new_container q) as [w0|e| |]; try discriminate Ex. eauto. }
        destruct Ef as (w0 & Ef & En). rewrite En. rewrite (put_none _ _ _ _ Ef) in Ex.
        destruct (IH q w0 x (Forall_inv_tail HP) (new_container_maps _ _ En) Ex) as (y' & Ey & Sy). rewrite Ey. cbn.
        eexists. split; [reflexivity|]. apply member_same; auto. exact (set_maps _ _ _ _ _ _ _ (new_container_maps _ _ En) Mc (Forall_inv_tail HP) Ey).
    + cbn [resolve] in Eh. destruct (index_value p) as [i|] eqn:Ei; [|discriminate]. rewrite (fits_any_to_int p i Ei).
      destruct (pos_read (List.length l) i) as [n|] eqn:En.
      * injection Eh as <-. pose proof (pos_read_lt _ _ _ En) as Hn. cbn [child_at] in Ex. rewrite (nth_error_nth' l n Hn) in Ex.
        assert (My : maps_ok (nth n l VNil)).
        { apply maps_ok_arr in M. rewrite Forall_forall in M. apply M, nth_In, Hn. }
        destruct (IH q _ x (Forall_inv_tail HP) My Ex) as (y' & Ey & Sy). rewrite Ey.
        eexists. split; [reflexivity|]. cbn [place]. rewrite put_nth_set by exact Hn. now apply set_nth_same.
      * assert (Hh : h = HIdx (List.length l)).
        { destruct (i =? Z.of_nat (List.length l)); [now injection Eh as <-|].
          destruct (negb (no_more (q :: r)) && (i =? -1)); [|discriminate]. cbn [andb] in Eh.
          destruct (Nat.eqb_spec (List.length l) 0) as [E0|]; [|discriminate]. injection Eh as <-. now rewrite E0. }
        subst h. cbn [child_at] in Ex. rewrite (proj2 (nth_error_None l (List.length l)) (Nat.le_refl _)) in Ex.
        assert (Ef : exists w0, fresh q = Some w0 /\ new_container q = Ok w0).
        { rewrite put_fresh in Ex; rewrite fresh_container in Ex |- *. destruct (new_container q) as [w0|e| |]; try discriminate Ex. eauto. }
        destruct Ef as (w0 & Ef & En0). rewrite En0. rewrite (put_none _ _ _ _ Ef) in Ex.
        destruct (IH q w0 x (Forall_inv_tail HP) (new_container_maps _ _ En0) Ex) as (y' & Ey & Sy). rewrite Ey. cbn.
        eexists. split; [reflexivity|]. rewrite put_nth_end. apply same_elems.
        apply Forall2_app; [apply Forall2_refl_same|constructor; [exact Sy|constructor]].
Qed.

(** The indexes on the way are kept. *)
Fixpoint reach (o : option V) (ps : list param) : Prop :=
  match ps with
  | [] => True
  | p :: r =>
    match o with
    | None => True
    | Some v => (forall l i, v = VArr l -> index_value p = Some i -> index_kept l i) /\
                (forall h b, resolve v p b = Some h -> reach (child_at v h) r)
    end
  end.

Lemma leads_step v p b h x ps hs c : resolve v p b = Some h -> child_at v h = Some x -> leads x ps hs c -> leads v (p :: ps) (h :: hs) c.
Proof.
  intros Hr Hx Hl. destruct v as [ |s|nn src|i kvs lo|l|bb| | | ]; try discriminate Hr; cbn [resolve] in Hr.
  - destruct p as [j|u|k|sl| |]; try discriminate. injection Hr as <-. cbn in Hx. destruct (alookup k kvs) as [[id y]|] eqn:El; [|discriminate].
    injection Hx as ->. exact (leads_key _ _ _ _ _ _ _ _ _ (alookup_In _ _ _ El) Hl).
  - destruct (index_value p) as [i|] eqn:Ei; [|discriminate].
    destruct (pos_read (List.length l) i) as [n|] eqn:En.
    + injection Hr as <-. destruct (pos_read_some _ _ _ En) as (a & y & b0 & -> & <- & Rf). cbn in Hx.
      rewrite nth_error_app_here in Hx. injection Hx as ->. exact (leads_elem _ _ _ _ _ _ _ _ Ei Rf Hl).
    + exfalso. destruct (i =? Z.of_nat (List.length l)).
      * injection Hr as <-. cbn in Hx. rewrite (proj2 (nth_error_None l (List.length l)) (Nat.le_refl _)) in Hx. discriminate.
      * destruct (negb b && (i =? -1)); [|discriminate]. cbn [andb] in Hr.
        destruct (Nat.eqb_spec (List.length l) 0) as [E0|]; [|discriminate].
        destruct l; [|discriminate E0]. injection Hr as <-. discriminate Hx.
Qed.

Lemma reach_of ps : forall v, reach_ok v ps -> reach (Some v) ps.
Proof.
  induction ps as [|p r IH]; intros v H; [exact I|]. split.
  - intros l i -> Hi. exact (H [] p r [] l i eq_refl (leads_here _) Hi).
  - intros h b Hr. destruct (child_at v h) as [x|] eqn:Ex; [|destruct r; exact I]. apply IH.
    intros ps1 q ps2 hs l i -> Hl Hi. apply (H (p :: ps1) q ps2 (h :: hs) l i eq_refl); [|exact Hi].
    exact (leads_step _ _ _ _ _ _ _ _ Hr Ex Hl).
Qed.

Lemma fresh_reach E q r w0 c y' z : Forall plain (q :: r) -> uninitialized c = false -> new_container q = Ok w0 ->
  set_c E w0 c q r = (y', Ok z) -> reach (Some w0) (q :: r).
Proof.
  intros HP Hc Hn Hs. split.
  - intros l i -> Hi. destruct (new_container_cases q _ Hn) as [(k & -> & Hk)|(H0 & Hk)]; [discriminate|].
    injection Hk as ->. rewrite Hi in H0. injection H0 as ->. left. cbn. lia.
  - intros h b _. destruct (new_container_cases q _ Hn) as [(k & _ & ->)|(_ & ->)]; destruct h as [[|n]|k']; cbn; destruct r; exact I.
Qed.

Lemma set_put E c : uninitialized c = false -> forall ps p v v' x, Forall plain (p :: ps) ->
  set_c E v c p ps = (v', Ok x) -> reach (Some v) (p :: ps) -> exists w, put (Some v) (p :: ps) c = Some w.
Proof.
  intros Hc. induction ps as [|q r IH]; intros p v v' x HP H R; rewrite put_cons.
  - rewrite set_c_one in H by exact (Forall_inv HP). rewrite Hc in H. destruct (uninitialized v); [discriminate|].
    destruct v as [ |s|nn src|i kvs lo|l|b| | | ]; try discriminate H; cbn [at_last_param] in H.
    + destruct p as [j|u|k|sl| |]; try discriminate H. cbn. eauto.
    + destruct (any_to_int p) as [i|e| |] eqn:Ei; try discriminate. cbn [resolve]. rewrite (any_to_int_fits _ _ Ei).
      unfold set_at_index in H. destruct (pos_read (List.length l) i) as [n|]; [cbn; eauto|].
      destruct (i =? Z.of_nat (List.length l)); [cbn; eauto|discriminate].
  - rewrite set_c_more in H by exact (Forall_inv HP). rewrite Hc in H. destruct (uninitialized v); [discriminate|].
    destruct R as (R1 & R2).
    destruct v as [ |s|nn src|i kvs lo|l|b| | | ]; try discriminate H.
    + destruct p as [j|u|k|sl| |]; try discriminate H. cbn [any_to_string] in H. cbn [resolve].
      specialize (R2 (HKey k) true eq_refl). cbn [child_at] in R2 |- *.
      destruct (alookup k kvs) as [[id y]|] eqn:El.
      * destruct (set_c E y c q r) as [y' [z|e| |]] eqn:Es; try discriminate.
        destruct (IH q y y' z (Forall_inv_tail HP) Es R2) as (w & Ew). rewrite Ew. cbn. eauto.
      * destruct (new_container q) as [w0|e| |] eqn:En; try discriminate.
        destruct (set_c E w0 c q r) as [y' [z|e| |]] eqn:Es; try discriminate.
        assert (Ef : fresh q = Some w0) by (rewrite fresh_container, En; reflexivity).
        rewrite (put_none _ _ _ _ Ef).
        destruct (IH q w0 y' z (Forall_inv_tail HP) Es) as (w & Ew); [|rewrite Ew; cbn; eauto].
        exact (fresh_reach _ _ _ _ _ _ _ (Forall_inv_tail HP) Hc En Es).
    + destruct (any_to_int p) as [i|e| |] eqn:Ei; try discriminate. apply any_to_int_fits in Ei.
      specialize (R1 l i eq_refl Ei).
      destruct (pos_read (List.length l) i) as [n|] eqn:En.
      * destruct (set_c E (nth n l VNil) c q r) as [y' [z|e| |]] eqn:Es; try discriminate.
        assert (Er : forall b, resolve (VArr l) p b = Some (HIdx n)) by (intros b; cbn; now rewrite Ei, En).
        specialize (R2 _ true (Er true)). rewrite Er. cbn [child_at] in R2 |- *.
        rewrite (nth_error_nth' l n (pos_read_lt _ _ _ En)) in R2 |- *.
        destruct (IH q _ y' z (Forall_inv_tail HP) Es R2) as (w & Ew). rewrite Ew. cbn. eauto.
      * destruct (new_container q) as [w0|e| |] eqn:En0; try discriminate.
        destruct (set_c E w0 c q r) as [y' [z|e| |]] eqn:Es; try discriminate.
        assert (Er : resolve (VArr l) p false = Some (HIdx (List.length l))).
        { cbn. rewrite Ei, En. apply pos_read_none in En. destruct R1 as [B|(-> & ->)]; [|reflexivity].
          replace i with (Z.of_nat (List.length l)) by lia. now rewrite Z.eqb_refl. }
        cbn [no_more]. rewrite Er. cbn [child_at]. rewrite (proj2 (nth_error_None l (List.length l)) (Nat.le_refl _)).
        assert (Ef : fresh q = Some w0) by (rewrite fresh_container, En0; reflexivity).
        rewrite (put_none _ _ _ _ Ef).
        destruct (IH q w0 y' z (Forall_inv_tail HP) Es) as (w & Ew); [|rewrite Ew; cbn; eauto].
        exact (fresh_reach _ _ _ _ _ _ _ (Forall_inv_tail HP) Hc En0 Es).
Qed.
