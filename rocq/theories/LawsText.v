(** Documents that hold the same have the same text, given an order of the names. *)
From Verif Require Import Base Utf8 Float64 Value Opt Marshal ListLemmas SpecJson SpecValue SpecText SpecOrder
  ValueLemmas SortProof EscapeProof MarshalProof OrderProof SpecPath PathProof SpecLaws LawsProof CanonProof SpecNum Compare CompareProof CompareClaims.

Notation ent := (bytes * (Z * V))%type.

Lemma keys_same i kvs lo i' kvs' lo' : same_doc (VObj i kvs lo) (VObj i' kvs' lo') -> NoDup (akeys kvs) -> NoDup (akeys kvs') ->
  Permutation (akeys kvs) (akeys kvs').
Proof.
  intros H ND ND'. apply same_obj_inv in H as (i2 & kvs2 & lo2 & E & A & B). injection E as <- <- <-.
  apply NoDup_Permutation; [exact ND|exact ND'|]. intros k. unfold akeys. split; intros Hk; apply in_map_iff in Hk as ((k0, (id, x)) & <- & Hin).
  - destruct (A _ _ _ Hin) as (id' & y & Hy & _). exact (in_map fst _ _ Hy).
  - destruct (B _ _ _ Hin) as (id' & y & Hy & _). exact (in_map fst _ _ Hy).
Qed.

Lemma entries_same i kvs lo i' kvs' lo' : same_doc (VObj i kvs lo) (VObj i' kvs' lo') -> NoDup (akeys kvs') ->
  forall l1 l2 : list ent, (forall x, In x l1 -> In x kvs) -> (forall x, In x l2 -> In x kvs') -> akeys l1 = akeys l2 ->
  Forall2 (fun x y : ent => fst x = fst y /\ same_doc (snd (snd x)) (snd (snd y))) l1 l2.
Proof.
  intros H ND'. apply same_obj_inv in H as (i2 & kvs2 & lo2 & E & A & _). injection E as <- <- <-.
  induction l1 as [|(k, (id, x)) l1 IH]; intros [|(k', (id', y)) l2] H1 H2 EK; try discriminate EK; constructor.
  - cbn in EK. injection EK as -> _. split; [reflexivity|]. cbn.
    destruct (A _ _ _ (H1 _ (or_introl eq_refl))) as (id2 & y2 & Hy2 & HS).
    pose proof (alookup_NoDup_In _ _ _ ND' Hy2). pose proof (alookup_NoDup_In _ _ _ ND' (H2 _ (or_introl eq_refl))). congruence.
  - cbn in EK. injection EK as _ EK. apply IH; [intros z Hz; apply H1; now right|intros z Hz; apply H2; now right|exact EK].
Qed.

Section Text.
Variable E : Env.
Variables W W' : World.
Variable o : opt.
Variable lt : bytes -> bytes -> Prop.
Hypothesis asym : forall a b, lt a b -> lt b a -> False.
Hypothesis ord : forall X kvs, NoDup (akeys kvs) -> in_order E X o (by_key lt) kvs.

Lemma members_same pi pi' path cnt : forall (l1 l2 : list ent) first,
  Forall2 (fun x y : ent => fst x = fst y /\ same_doc (snd (snd x)) (snd (snd y)) /\
    forall pi pi' path cnt, marshal_to E W o (snd (snd x)) pi path cnt = marshal_to E W' o (snd (snd y)) pi' path cnt) l1 l2 ->
  write_members o pi path cnt first (map (mk_entry E W o) l1) = write_members o pi' path cnt first (map (mk_entry E W' o) l2).
Proof.
  induction l1 as [|(k, (id, x)) l1 IH]; intros l2 first F; inversion F as [|? (k', (id', y)) ? l2' (HK & HS & HM) HF]; subst; [reflexivity|].
  cbn [fst snd] in HK, HS, HM. subst k'.
  assert (HB : forall f1 f2 p c, (let* (b, _) := marshal_to E W o x f1 p c in
     let* rest := write_members o pi path cnt false (map (mk_entry E W o) l1) in
     Ok ((if first then [] else [44]) ++ nl_indent o cnt ++ quoted (o_esc o) k ++ (if o_indent o then [58; 32] else [58]) ++ b ++ rest)) =
     (let* (b, _) := marshal_to E W' o y f2 p c in
     let* rest := write_members o pi' path cnt false (map (mk_entry E W' o) l2') in
     Ok ((if first then [] else [44]) ++ nl_indent o cnt ++ quoted (o_esc o) k ++ (if o_indent o then [58; 32] else [58]) ++ b ++ rest))).
  { intros f1 f2 p c. rewrite (HM f1 f2 p c), (IH l2' false HF). reflexivity. }
  cbn [map mk_entry write_members e_val e_key e_run fst snd].
  inversion HS as [z Hz E1 E2|l l' HF2 E1 E2|i0 k0 o0 i1 k1 o1 A B E1 E2]; subst; [|apply HB|apply HB].
  destruct y; try contradiction Hz; try apply HB; try reflexivity.
  destruct (o_omit_null o); [exact (IH l2' true HF)|apply HB].
Qed.

Lemma elems_same v v' pi pi' path cnt : forall l1 l2 i,
  Forall2 (fun x y => forall pi pi' path cnt, marshal_to E W o x pi path cnt = marshal_to E W' o y pi' path cnt) l1 l2 ->
  write_elems o v pi path cnt i (map (marshal_to E W o) l1) = write_elems o v' pi' path cnt i (map (marshal_to E W' o) l2).
Proof.
  induction l1 as [|x l1 IH]; intros l2 i F; inversion F as [|? y ? l2' HM HF]; subst; [reflexivity|].
  cbn [map write_elems]. rewrite (IH l2' (i + 1) HF).
  rewrite (HM _ (match o_less o with Some _ => Some (new_parent_info v' pi' (int_key i)) | None => None end)). reflexivity.
Qed.

Lemma marshal_same v : forall v', maps_ok v -> maps_ok v' -> same_doc v v' ->
  forall pi pi' path cnt, marshal_to E W o v pi path cnt = marshal_to E W' o v' pi' path cnt.
Proof.
  induction v as [ |s|nn src|i kvs lo IH|l IH|b| | | ] using V_ind'; intros v' M M' HS pi pi' path cnt;
    try (inversion HS; subst; reflexivity).
  - pose proof HS as HS0. apply same_obj_inv in HS0 as (i' & kvs' & lo' & -> & A & B).
    apply maps_ok_obj in M as (ND & MF). apply maps_ok_obj in M' as (ND' & MF').
    destruct kvs as [|e0 r0] eqn:Ek; [destruct kvs' as [|(k, (id, y)) r]; [reflexivity|exfalso; destruct (B k id y (or_introl eq_refl)) as (? & ? & [] & _)]|].
    destruct kvs' as [|e0' r0'] eqn:Ek'; [exfalso; destruct e0 as (k, (id, x)); destruct (A k id x (or_introl eq_refl)) as (? & ? & [] & _)|].
    cbn [marshal_to].
    change (map (fun x => Entry (fst x) (fst (snd x)) (snd (snd x)) (marshal_to E W o (snd (snd x)))) (e0 :: r0)) with (map (mk_entry E W o) (e0 :: r0)).
    change (map (fun x => Entry (fst x) (fst (snd x)) (snd (snd x)) (marshal_to E W' o (snd (snd x)))) (e0' :: r0')) with (map (mk_entry E W' o) (e0' :: r0')).
    assert (HE : write_members o pi path (S cnt) true (order_entries W o pi path (map (mk_entry E W o) (e0 :: r0))) =
                 write_members o pi' path (S cnt) true (order_entries W' o pi' path (map (mk_entry E W' o) (e0' :: r0')))).
    { rewrite <- Ek, <- Ek' in *. clear Ek Ek' e0 r0 e0' r0'.
      pose proof (order_entries_perm W o pi path (map (mk_entry E W o) kvs)) as P1.
      apply Permutation_map_inv in P1 as (l1 & E1 & P1).
      pose proof (order_entries_perm W' o pi' path (map (mk_entry E W' o) kvs')) as P2.
      apply Permutation_map_inv in P2 as (l2 & E2 & P2). rewrite E1, E2.
      pose proof (ord W kvs ND pi path l1 E1 P1) as O1. pose proof (ord W' kvs' ND' pi' path l2 E2 P2) as O2.
      assert (EK : akeys l1 = akeys l2).
      { apply (sorted_unique lt).
        - intros x y _ _ H1 H2. destruct (asym _ _ H1 H2).
        - transitivity (akeys kvs); [symmetry; exact (Permutation_map fst P1)|].
          transitivity (akeys kvs'); [exact (keys_same _ _ _ _ _ _ HS ND ND')|exact (Permutation_map fst P2)].
        - apply ForallOrdPairs_map. exact O1.
        - apply ForallOrdPairs_map. exact O2. }
      assert (I1 : forall x, In x l1 -> In x kvs) by (intros x; apply Permutation_in; now symmetry).
      assert (I2 : forall x, In x l2 -> In x kvs') by (intros x; apply Permutation_in; now symmetry).
      pose proof (entries_same _ _ _ _ _ _ HS ND' l1 l2 I1 I2 EK) as F.
      apply members_same. rewrite Forall_forall in IH, MF, MF'. clear - F IH MF MF' I1 I2.
      induction F as [|x y l1 l2 (HK & HS) F IHF]; constructor.
      - split; [exact HK|]. split; [exact HS|].
        apply (IH x (I1 x (or_introl eq_refl)) _ (MF x (I1 x (or_introl eq_refl))) (MF' y (I2 y (or_introl eq_refl))) HS).
      - apply IHF; [intros z Hz; apply I1; now right|intros z Hz; apply I2; now right]. }
    cbn [map] in HE |- *. rewrite HE. reflexivity.
  - apply same_arr_inv in HS as (l' & -> & HF). apply maps_ok_arr in M. apply maps_ok_arr in M'.
    destruct l as [|x0 r0] eqn:El; [inversion HF; subst; reflexivity|]. destruct l' as [|x0' r0'] eqn:El'; [inversion HF|].
    cbn [marshal_to]. rewrite <- El, <- El' in *. clear El El' x0 r0 x0' r0'.
    rewrite (elems_same (VArr l) (VArr l') pi pi' path (S cnt) l l' 0); [reflexivity|].
    induction HF as [|x y l l' HS HF IHF]; constructor.
    + exact (Forall_inv IH y (Forall_inv M) (Forall_inv M') HS).
    + exact (IHF (Forall_inv_tail IH) (Forall_inv_tail M) (Forall_inv_tail M')).
Qed.
End Text.

Theorem same_text E W W' o v v' : maps_ok v -> maps_ok v' -> same_doc v v' ->
  o_less o = Some default_string_sequence \/ (o_less o = None /\ o_keyseq o <> []) ->
  marshal_opt E W o v = marshal_opt E W' o v'.
Proof.
  intros M M' HS Ho.
  assert (HM : forall pi pi' path cnt, marshal_to E W o v pi path cnt = marshal_to E W' o v' pi' path cnt).
  { destruct Ho as [Ho|(Ho & Hk)].
    - apply (marshal_same E W W' o blt blt_asym); try assumption. intros X kvs ND. now apply in_order_default.
    - apply (marshal_same E W W' o (seq_before (o_keyseq o)) (seq_asym _)); try assumption. intros X kvs ND. now apply in_order_keyseq. }
  unfold marshal_opt. rewrite (HM None None [] 0%nat). inversion HS; subst; reflexivity.
Qed.

Lemma same_same (N : bytes -> bytes -> Prop) : (forall s, N s s) -> forall v v', json_typed v -> json_typed v' -> same_doc v v' -> same_value N v v'.
Proof.
  intros HN. induction v as [ |s|nn src|i kvs lo IH|l IH|b| | | ] using V_ind'; intros v' T T' HS; try contradiction T;
    try (inversion HS; subst; constructor; auto; fail).
  - apply same_obj_inv in HS as (i' & kvs' & lo' & -> & A & B). apply json_typed_obj in T as (ND & TF). apply json_typed_obj in T' as (ND' & TF').
    rewrite Forall_forall in *. constructor.
    + intros k. split; intros Hk; apply in_map_iff in Hk as ((k0, (id, x)) & <- & Hin).
      * destruct (A _ _ _ Hin) as (id' & y & Hy & _). exact (in_map fst _ _ Hy).
      * destruct (B _ _ _ Hin) as (id' & y & Hy & _). exact (in_map fst _ _ Hy).
    + intros k id x id' y Hx Hy. destruct (A _ _ _ Hx) as (id2 & y2 & Hy2 & HS).
      assert (E2 : Some (id2, y2) = Some (id', y)) by (rewrite <- (alookup_NoDup_In _ _ _ ND' Hy2); now apply alookup_NoDup_In).
      injection E2 as -> ->. apply (IH _ Hx _ (TF _ Hx) (TF' _ Hy) HS).
  - apply same_arr_inv in HS as (l' & -> & HF). apply json_typed_arr in T. apply json_typed_arr in T'. constructor.
    induction HF as [|x y l l' HS HF IHF]; constructor.
    + exact (Forall_inv IH y (Forall_inv T) (Forall_inv T') HS).
    + exact (IHF (Forall_inv_tail IH) (Forall_inv_tail T) (Forall_inv_tail T')).
Qed.

Theorem same_equal W path v v' : json_typed v -> json_typed v' -> same_doc v v' -> equal W path v v' = true.
Proof.
  intros T T' HS. apply equal_iff; try assumption. apply same_same; try assumption.
  intros s. unfold number_equal. now rewrite beqb_refl.
Qed.
