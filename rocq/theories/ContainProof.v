(** beta.Contains decides containment. *)
From Verif Require Import Base Float64 Value Opt Marshal Access Path Iter Compare Contain SpecValue SpecPath SpecNum SpecText SpecContain
  ListLemmas ValueLemmas SortProof PathProof EditClaims CompareProof CompareClaims.

Lemma typed_maps v : json_typed v -> maps_ok v.
Proof.
  induction v as [ |s|n src|i kvs lo IH|l IH|b| | | ] using V_ind'; intros H; try exact I; try contradiction.
  - apply json_typed_obj in H as (Hn & H). apply maps_ok_obj. split; [exact Hn|]. rewrite Forall_forall in *. auto.
  - apply json_typed_arr in H. apply maps_ok_arr. rewrite Forall_forall in *. auto.
Qed.

Section C.
Variables (E : Env) (W : World).

Definition EQ (x y : V) : Prop := forall W path, equal W path x y = true.
Lemma equal_EQ path x y : json_typed x -> json_typed y -> equal W path x y = true <-> EQ x y.
Proof.
  intros Hx Hy. split; [|intros H; apply H]. intros H W' path'. rewrite <- H.
  rewrite (equal_sym W' W path' path x y Hx Hy). now rewrite (equal_sym W W path path y x Hy Hx).
Qed.
Lemma EQ_sym x y : json_typed x -> json_typed y -> EQ x y -> EQ y x.
Proof. intros Hx Hy H W' path'. rewrite (equal_sym W' W' path' path' y x Hy Hx). apply H. Qed.

(** *** Arrays *)
Fixpoint pref (path : list key) (xs ys : list V) {struct ys} : bool :=
  match ys with
  | [] => true
  | y :: ys' => match xs with
                | [] => false
                | x :: xs' => if equal W path x y then pref path xs' ys' else false
                end
  end.

Lemma must_get_elem l n : snd (must_get E W false (VArr l) (PInt (Z.of_nat n)) []) =
  match nth_error l n with Some x => Ok x | None => Ok VNotExist end.
Proof.
  unfold must_get, get, locate. cbn [psum psize Nat.add locate_f peel find_child any_to_int rbind].
  unfold pos_read. destruct (Z.of_nat (List.length l) =? 0) eqn:E0.
  { apply Z.eqb_eq in E0. destruct l; [|cbn in E0; lia]. destruct n; reflexivity. }
  destruct (Z.ltb_spec (Z.of_nat n) 0); [lia|]. destruct (Z.leb_spec (Z.of_nat (List.length l)) (Z.of_nat n)) as [H1|H1].
  - assert (En : nth_error l n = None) by (apply nth_error_None; lia). now rewrite En.
  - rewrite Nat2Z.id. cbn [rbind sub_at child_at]. destruct (nth_error l n) as [x|] eqn:En; [reflexivity|]. apply nth_error_None in En. lia.
Qed.

Lemma window path l l' : forall (a i : nat), json_typed (VArr l') ->
  res_forallb (fun e : Z * V => let* vv := snd (must_get E W false (VArr l) (PInt (Z.of_nat a + fst e)) []) in Ok (equal W path vv (snd e)))
    (indexed (Z.of_nat i) l') = Ok (pref path (skipn (a + i) l) l').
Proof.
  induction l' as [|y l' IH]; intros a i Ht; [reflexivity|]. cbn [indexed res_forallb fst snd pref].
  rewrite <- Nat2Z.inj_add, must_get_elem. apply json_typed_arr in Ht. inversion Ht as [|? ? Hy Hl]; subst.
  destruct (skipn (a + i) l) as [|x xs] eqn:Es.
  - assert (Hl' : nth_error l (a + i) = None).
    { apply nth_error_None. pose proof (skipn_length (a + i) l) as HL. rewrite Es in HL. cbn in HL. lia. }
    rewrite Hl'. cbn [rbind]. destruct y; try contradiction; reflexivity.
  - assert (Hx : nth_error l (a + i) = Some x).
    { rewrite <- (firstn_skipn (a + i) l), Es. rewrite nth_error_app2; rewrite firstn_length; [|lia].
      assert (a + i < List.length l)%nat by (pose proof (skipn_length (a + i) l) as HL; rewrite Es in HL; cbn in HL; lia).
      replace (a + i - Nat.min (a + i) (List.length l))%nat with 0%nat by lia. reflexivity. }
    rewrite Hx. cbn [rbind]. destruct (equal W path x y); [|reflexivity].
    replace (Z.of_nat i + 1) with (Z.of_nat (S i)) by lia. rewrite IH by now apply json_typed_arr.
    replace (a + S i)%nat with (S (a + i)) by lia.
    assert (Hs : skipn (S (a + i)) l = xs) by (change (S (a + i)) with (1 + (a + i))%nat; rewrite <- skipn_skipn, Es; reflexivity).
    now rewrite Hs.
Qed.

Lemma any_window_spec f g : forall n a, (forall k, (a <= k < a + n)%nat -> f (Z.of_nat k) = Ok (g k)) ->
  exists b, any_window f n (Z.of_nat a) = Ok b /\ (b = true <-> exists k, (a <= k < a + n)%nat /\ g k = true).
Proof.
  induction n as [|n IH]; intros a H; cbn [any_window].
  - exists false. split; [reflexivity|]. split; [discriminate|]. intros (k & Hk & _). lia.
  - rewrite H by lia. cbn [rbind]. destruct (g a) eqn:Eg.
    + exists true. split; [reflexivity|]. split; [|reflexivity]. intros _. exists a. split; [lia|exact Eg].
    + destruct (IH (S a)) as (b & Hb & Hi); [intros k Hk; apply H; lia|]. rewrite Nat2Z.inj_succ in Hb. unfold Z.succ in Hb.
      exists b. split; [exact Hb|]. rewrite Hi. split; intros (k & Hk & Hg); exists k; (split; [|exact Hg]); [lia|].
      destruct (Nat.eq_dec k a) as [->|]; [congruence|lia].
Qed.

Lemma pref_spec path ys : forall xs, Forall json_typed xs -> Forall json_typed ys ->
  pref path xs ys = true <-> exists c d, xs = c ++ d /\ Forall2 EQ c ys.
Proof.
  induction ys as [|y ys IH]; intros xs Hx Hy; cbn [pref].
  - split; [|reflexivity]. intros _. exists [], xs. split; [reflexivity|constructor].
  - destruct xs as [|x xs].
    + split; [discriminate|]. intros (c & d & He & HF). inversion HF; subst. discriminate.
    + inversion Hx; subst. inversion Hy; subst. destruct (equal W path x y) eqn:Ee.
      * rewrite IH by assumption. split; intros (c & d & He & HF).
        -- exists (x :: c), d. split; [cbn; now rewrite He|]. constructor; [now apply (equal_EQ path)|exact HF].
        -- inversion HF as [|x' ? c' ? H1' H2']; subst. injection He as -> He. exists c', d. auto.
      * split; [discriminate|]. intros (c & d & He & HF). inversion HF as [|x' ? c' ? H1' H2']; subst. injection He as -> He.
        rewrite (H1' W path) in Ee. discriminate.
Qed.

Lemma EQ_arr l l' : json_typed (VArr l) -> json_typed (VArr l') -> EQ (VArr l) (VArr l') <-> Forall2 EQ l l'.
Proof.
  intros Hl Hl'. rewrite <- (equal_EQ [] _ _ Hl Hl'), (equal_iff W _ _ [] Hl Hl').
  apply json_typed_arr in Hl, Hl'. split.
  - intros H. inversion H as [| | | |? ? HF|]; subst. revert Hl Hl'. clear -HF W. induction HF as [|x y l l' Hxy _ IH]; constructor.
    + inversion Hl; inversion Hl'; subst. apply (equal_EQ []); try assumption. now apply equal_iff.
    + apply IH; [now inversion Hl|now inversion Hl'].
  - intros HF. constructor. revert Hl Hl'. induction HF as [|x y l l' Hxy _ IH]; constructor.
    + inversion Hl; inversion Hl'; subst. now apply (equal_iff W _ _ []); try apply Hxy.
    + apply IH; [now inversion Hl|now inversion Hl'].
Qed.

Lemma array_spec path l l' : json_typed (VArr l) -> json_typed (VArr l') ->
  exists b, array_has_subset E W path (VArr l) (VArr l') = Ok b /\ (b = true <-> contained EQ (VArr l) (VArr l')).
Proof.
  intros Hl Hl'.
  assert (HC : contained EQ (VArr l) (VArr l') <-> exists a c b, l = a ++ c ++ b /\ Forall2 EQ c l').
  { split; [|intros (a & c & b & -> & HF); now constructor]. intros H. inversion H as [? ? Hs|?|a c b ? HF]; subst; [contradiction|eauto 6]. }
  setoid_rewrite HC. clear HC. unfold array_has_subset. cbn [api_len on_value rbind array_of].
  destruct (Z.eqb_spec (Z.of_nat (List.length l')) 0) as [E0|E0].
  { exists true. split; [reflexivity|]. split; [|reflexivity]. intros _. destruct l'; [|cbn in E0; lia]. exists l, [], []. rewrite app_nil_r. split; [reflexivity|constructor]. }
  destruct (Z.eqb_spec (Z.of_nat (List.length l)) (Z.of_nat (List.length l'))) as [E1|E1].
  { exists (equal W path (VArr l') (VArr l)). split; [reflexivity|]. rewrite (equal_EQ path _ _ Hl' Hl). split.
    - intros H. exists [], l, []. rewrite app_nil_r. split; [reflexivity|]. apply EQ_arr; try assumption. now apply EQ_sym.
    - intros (a & c & b & He & HF). assert (HL : List.length c = List.length l') by (clear -HF; induction HF; cbn; congruence).
      assert (a = [] /\ b = []) as (-> & ->) by (subst l; rewrite !app_length in E1; destruct a; [|cbn in E1; lia]; destruct b; [auto|cbn in E1; lia]).
      rewrite app_nil_r in He. cbn in He. subst c. apply EQ_sym; try assumption. now apply EQ_arr. }
  destruct (Z.ltb_spec (Z.of_nat (List.length l)) (Z.of_nat (List.length l'))) as [E2|E2].
  { exists false. split; [reflexivity|]. split; [discriminate|]. intros (a & c & b & -> & HF).
    assert (HL : List.length c = List.length l') by (clear -HF; induction HF; cbn; congruence). rewrite !app_length in E2. lia. }
  set (n := Z.to_nat (Z.of_nat (List.length l) - Z.of_nat (List.length l') + 1)).
  destruct (any_window_spec (sub_equal E W path (VArr l) (Z.of_nat (List.length l)) (Z.of_nat (List.length l')) l') (fun k => pref path (skipn k l) l') n 0) as (b & Hb & Hi).
  { intros k Hk. unfold sub_equal. destruct (Z.ltb_spec (Z.of_nat (List.length l) - Z.of_nat k) (Z.of_nat (List.length l'))); [lia|].
    change 0 with (Z.of_nat 0). rewrite (window path l l' k 0 Hl'). now rewrite Nat.add_0_r. }
  exists b. split; [exact Hb|]. rewrite Hi. apply json_typed_arr in Hl, Hl'. split.
  - intros (k & Hk & Hp). apply pref_spec in Hp as (c & d & Hs & HF); [|clear -Hl; rewrite Forall_forall in *; intros x Hx; apply Hl; rewrite <- (firstn_skipn k l); apply in_or_app; now right|exact Hl'].
    exists (firstn k l), c, d. split; [|exact HF]. rewrite <- Hs. now rewrite firstn_skipn.
  - intros (a & c & d & -> & HF). assert (HL : List.length c = List.length l') by (clear -HF; induction HF; cbn; congruence).
    exists (List.length a). split; [unfold n; rewrite !app_length in *; lia|]. rewrite skipn_app, skipn_all, Nat.sub_diag. cbn [skipn app].
    apply Forall_app in Hl as (_ & Hl). apply pref_spec; [exact Hl|exact Hl'|]. exists c, d. auto.
Qed.

(** *** Objects *)
Lemma res_forallb_spec {A} (f : A -> res bool) (P : A -> Prop) l :
  Forall (fun x => exists b, f x = Ok b /\ (b = true <-> P x)) l -> exists b, res_forallb f l = Ok b /\ (b = true <-> Forall P l).
Proof.
  induction 1 as [|x l (b & Hb & Hi) _ (c & Hc & Hj)]; cbn [res_forallb].
  - exists true. split; [reflexivity|]. split; [constructor|reflexivity].
  - rewrite Hb. cbn [rbind]. destruct b.
    + exists c. split; [exact Hc|]. rewrite Hj. split; [intros H; constructor; [now apply Hi|exact H]|now inversion 1].
    + exists false. split; [reflexivity|]. split; [discriminate|]. inversion 1; subst. now apply Hi.
Qed.

Lemma get_member i kvs lo k : snd (get E W false (VObj i kvs lo) (PStr k) []) =
  match alookup k kvs with Some (_, x) => Ok x | None => Err ErrNotFound end.
Proof.
  unfold get, locate. cbn [psum psize Nat.add locate_f peel find_child any_to_string]. unfold find_key.
  destruct (alookup k kvs) as [[id x]|] eqn:El; cbn [rbind snd sub_at child_at]; now rewrite ?El.
Qed.

Theorem contains_here_spec : forall sub path v, json_typed v -> json_typed sub ->
  exists b, contains_here E W path v sub = Ok b /\ (b = true <-> contained EQ v sub).
Proof.
  intros sub. induction sub as [ |s|n src|i' kvs' lo' IH|l' IH|b| | | ] using V_ind'; intros path v Hv Hs; try contradiction.
  1,2,5,6: (destruct v; try contradiction; cbn [contains_here value_type on_value rbind vtype_of vtype_eqb negb];
    first [exists false; split; [reflexivity|]; split; [discriminate|intros H; inversion H as [? ? _ _ Hq|?|?]; subst; specialize (Hq W path); discriminate]
          |eexists; split; [reflexivity|]; rewrite (equal_EQ path _ _ Hv Hs); split; [intros Hq; now constructor|intros H; now inversion H]]).
  - destruct v as [ |s|n src|i kvs lo|l|b| | | ]; try contradiction;
      try (exists false; split; [reflexivity|]; split; [discriminate|intros H; now inversion H]).
    cbn [contains_here value_type on_value rbind vtype_of vtype_eqb negb].
    pose proof Hv as Hv'. apply json_typed_obj in Hv' as (Hn & Hv').
    apply json_typed_obj in Hs as (Hn' & Hs). rewrite go_range_map.
    set (f := fun e : bytes * (V -> res bool) => _). set (h := fun e : kv => _).
    assert (HL : forall (l : list kv), res_forallb f (map h l) = res_forallb (fun e => f (h e)) l).
    { induction l as [|x l IHl]; [reflexivity|]. cbn [map res_forallb]. now rewrite IHl. }
    rewrite HL. clear HL.
    destruct (res_forallb_spec (fun e => f (h e)) (fun e : kv => exists id' x, In (fst e, (id', x)) kvs /\ contained EQ x (snd (snd e))) (go_range W path kvs')) as (b & Hb & Hi).
    { rewrite Forall_forall. intros [k [id y]] Hin. pose proof (Permutation_in _ (go_range_perm W path kvs') Hin) as Hin'.
      unfold f, h. cbn [fst snd]. rewrite get_member. destruct (alookup k kvs) as [[id' x]|] eqn:El.
      - apply alookup_In in El as Hx. rewrite Forall_forall in IH, Hs, Hv'.
        destruct (IH _ Hin' (path ++ [string_key k]) x (Hv' _ Hx) (Hs _ Hin')) as (b & Hb & Hi). exists b. split; [exact Hb|].
        rewrite Hi. cbn [fst snd]. split; [eauto|]. intros (id2 & x2 & Hx2 & Hc). pose proof (alookup_NoDup_In _ _ _ Hn Hx2) as E2. rewrite El in E2. now injection E2 as -> ->.
      - exists false. split; [reflexivity|]. split; [discriminate|]. intros (id2 & x2 & Hx2 & Hc). pose proof (alookup_NoDup_In _ _ _ Hn Hx2) as E2. congruence. }
    exists b. split; [exact Hb|]. rewrite Hi. rewrite Forall_forall. split.
    + intros H. apply contained_obj. intros k id y Hy. apply (H (k, (id, y))). apply (Permutation_in _ (Permutation_sym (go_range_perm W path kvs'))). exact Hy.
    + intros H [k [id y]] Hy. inversion H as [? ? Hsc|? ? ? ? ? ? HF|?]; subst; [contradiction|]. cbn [fst snd]. eapply HF.
      eapply (Permutation_in _ (go_range_perm W path kvs')). exact Hy.
  - destruct v as [ |s|n src|i kvs lo|l|b| | | ]; try contradiction;
      try (exists false; split; [reflexivity|]; split; [discriminate|intros H; now inversion H]).
    cbn [contains_here value_type on_value rbind vtype_of vtype_eqb negb]. now apply array_spec.
Qed.
End C.

Lemma typed_leads v ps hs w : leads v ps hs w -> json_typed v -> json_typed w.
Proof.
  induction 1 as [v|i kvs lo k id x ps hs c Hi _ IH|a x b p i ps hs c _ _ _ IH]; intros H; [exact H| |].
  - apply json_typed_obj in H as (_ & H). rewrite Forall_forall in H. apply IH. apply (H _ Hi).
  - apply json_typed_arr in H. rewrite Forall_forall in H. apply IH. apply H. apply in_or_app. right. now left.
Qed.

Lemma typed_no_nil v : json_typed v -> no_nil v.
Proof.
  induction v as [ |s|n src|i kvs lo IH|l IH|b| | | ] using V_ind'; intros H; try exact I; try contradiction.
  - apply json_typed_obj in H as (_ & H). apply no_nil_obj. rewrite Forall_forall in *. auto.
  - apply json_typed_arr in H. apply no_nil_arr. rewrite Forall_forall in *. auto.
Qed.

Theorem contains_spec E W v sub ps : json_typed v -> json_typed sub -> Forall plain ps ->
  exists b, contains E W v sub ps = Ok b /\
  (b = true <-> exists hs w, leads v ps hs w /\ contained EQ w sub).
Proof.
  intros Hv Hs Hp. unfold contains. destruct ps as [|p ps].
  - destruct (contains_here_spec E W sub [] v Hv Hs) as (b & Hb & Hi). exists b. split; [destruct v; try contradiction; exact Hb|].
    rewrite Hi. split; [intros H; exists [], v; split; [constructor|exact H]|]. intros (hs & w & Hl & Hc). inversion Hl; subst. exact Hc.
  - pose proof (get_same E W v p ps) as Hf. pose proof (fun c => get_leads E W v p ps c (typed_maps _ Hv) Hp) as HG.
    destruct (get E W false v p ps) as [v' r] eqn:Eg. cbn [fst snd] in *. subst v'.
    assert (HN : (forall c, r <> Ok c) -> forall hs w, ~ leads v (p :: ps) hs w).
    { intros Hr hs w Hl. apply (Hr w). assert (Hx : (v, r) = (v, Ok w)) by (apply HG; eauto). congruence. }
    destruct r as [w|e| |] eqn:Er.
    + destruct (proj1 (HG w) eq_refl) as (hs & Hl). pose proof (typed_leads _ _ _ _ Hl Hv) as Hw.
      destruct (contains_here_spec E W sub [] w Hw Hs) as (b & Hb & Hi). exists b.
      split; [destruct v; try contradiction; destruct w; try contradiction; exact Hb|]. rewrite Hi. split; [eauto|].
      intros (hs' & w' & Hl' & Hc). assert (Hx : (v, Ok w) = (v, Ok w')) by (apply HG; eauto). congruence.
    + exists false. split; [destruct v; try contradiction; reflexivity|]. split; [discriminate|]. intros (hs & w & Hl & _). exfalso. eapply HN; [discriminate|exact Hl].
    + pose proof (get_ends E W ps v p (typed_no_nil v Hv) Hp) as Ht. rewrite Eg in Ht. destruct Ht.
    + pose proof (get_ends E W ps v p (typed_no_nil v Hv) Hp) as Ht. rewrite Eg in Ht. destruct Ht.
Qed.

(** With the content instead of Equal, for numbers with small exponents. *)
Definition fine (v : V) : Prop := json_typed v /\ all_text (fun _ => True) (fun _ s => exact_number s) v.
Lemma fine_arr l : fine (VArr l) <-> Forall fine l.
Proof.
  unfold fine. rewrite json_typed_arr, MarshalProof.all_text_arr. rewrite !Forall_forall. split; [intros (H1 & H2) x Hx; auto|]. intros H. split; intros x Hx; now apply H.
Qed.
Lemma fine_obj i kvs lo : fine (VObj i kvs lo) -> Forall (fun e => fine (snd (snd e))) kvs.
Proof.
  unfold fine. rewrite json_typed_obj, MarshalProof.all_text_obj. rewrite !Forall_forall. intros ((H0 & H1) & H2) x Hx. split; [auto|]. now apply H2.
Qed.

Lemma contained_impl (Q1 Q2 : V -> V -> Prop) : (forall x y, fine x -> fine y -> Q1 x y -> Q2 x y) ->
  forall w v, fine v -> fine w -> contained Q1 v w -> contained Q2 v w.
Proof.
  intros HQ w. induction w as [ |s|n src|i' kvs' lo' IH|l' IH|b| | | ] using V_ind'; intros v Hv Hw Hc;
    inversion Hc as [? ? S1 S2 HE|i kvs lo ? ? ? HF|a l b' ? HF]; subst; try contradiction.
  1,2,5,6: now (apply contained_scalar; auto).
  - apply contained_obj. intros k id y Hy. destruct (HF k id y Hy) as (id' & x & Hx & Hxy). exists id', x. split; [exact Hx|].
    apply fine_obj in Hv, Hw. rewrite Forall_forall in *. apply (IH _ Hy); [apply (Hv _ Hx)|apply (Hw _ Hy)|exact Hxy].
  - apply contained_arr. apply fine_arr in Hv, Hw. apply Forall_app in Hv as (_ & Hv). apply Forall_app in Hv as (Hv & _). clear -HF Hv Hw HQ.
    induction HF; constructor; [apply HQ; [now inversion Hv|now inversion Hw|assumption]|apply IHHF; [now inversion Hv|now inversion Hw]].
Qed.

Lemma fine_leads v ps hs w : leads v ps hs w -> fine v -> fine w.
Proof.
  induction 1 as [v|i kvs lo k id x ps hs c Hi _ IH|a x b p i ps hs c _ _ _ IH]; intros H; [exact H| |].
  - apply fine_obj in H. rewrite Forall_forall in H. apply IH. apply (H _ Hi).
  - apply fine_arr in H. rewrite Forall_forall in H. apply IH. apply H. apply in_or_app. right. now left.
Qed.

Theorem contains_content E W v sub ps : json_typed v -> json_typed sub -> Forall plain ps ->
  all_text (fun _ => True) (fun _ s => exact_number s) v -> all_text (fun _ => True) (fun _ s => exact_number s) sub ->
  exists b, contains E W v sub ps = Ok b /\
  (b = true <-> exists hs w, leads v ps hs w /\ contained (same_value same_number) w sub).
Proof.
  intros Hv Hs Hp Tv Ts. destruct (contains_spec E W v sub ps Hv Hs Hp) as (b & Hb & Hi). exists b. split; [exact Hb|]. rewrite Hi.
  split; intros (hs & w & Hl & Hc); exists hs, w; (split; [exact Hl|]); pose proof (fine_leads _ _ _ _ Hl (conj Hv Tv)) as Fw;
    (eapply contained_impl; [|exact Fw|exact (conj Hs Ts)|exact Hc]); intros x y (X1 & X2) (Y1 & Y2) Hxy.
  - apply (equal_content W [] x y X1 Y1 X2 Y2). apply Hxy.
  - intros W' path'. now apply (equal_content W' path' x y X1 Y1 X2 Y2).
Qed.

(** nil contains nothing, at the root and as a member. *)
Lemma go_range_one {A} (W : World) path (x : A) : go_range W path [x] = [x].
Proof. apply Permutation_length_1_inv, Permutation_sym, go_range_perm. Qed.

Theorem contains_nil E W sub ps : contains E W VNil sub ps = Ok false.
Proof. reflexivity. Qed.
Theorem contains_nil_member E W i kvs lo id k i' lo' id' x : alookup k kvs = Some (id, VNil) ->
  contains E W (VObj i kvs lo) (VObj i' [(k, (id', x))] lo') [] = Ok false.
Proof.
  intros H. cbn [contains contains_here value_type on_value rbind vtype_of vtype_eqb negb map].
  rewrite go_range_one. cbn [res_forallb fst snd]. rewrite get_member, H. destruct x; reflexivity.
Qed.
