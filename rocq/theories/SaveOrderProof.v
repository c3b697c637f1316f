(** Saves that write in the order of setting (C93). *)
From Verif Require Import Base Utf8 Float64 Value Scan Unmarshal Pure Opt Marshal Access Path Edit Iter Compare SpecJson SpecValue SpecLax SpecText SpecOpts SpecOrder SpecPath SpecSafe
  SpecHistory SpecPieces SpecSplice SpecSetSplice SpecTwin SpecBulk SpecSave ListLemmas ValueLemmas SpecFacts ParseComplete LaxFacts LaxParse LaxSame LaxNum RoundTrip MarshalFacts
  MarshalProof MarshalClaims CompareProof CanonProof OrderProof HistoryProof OrderHistory PiecesProof SpliceProof SetSpliceProof ApartProof ContainProof ExportImport PathProof SetProof SetClaims EditClaims SaveProof BulkProof TwinProof AbreastProof.

(** *** Documents abreast have the same text *)
Lemma numbered_arr n l : numbered n (VArr l) <-> Forall (numbered n) l.
Proof. cbn. induction l as [|x l IH]; cbn; [split; [constructor|exact (fun _ => I)]|]. rewrite IH. split; [intros [A B]; now constructor|intros H; now inversion H]. Qed.
Lemma numbered_obj n i kvs lo : numbered n (VObj i kvs lo) <->
  NoDup (map (fun e : kvt => fst (snd e)) kvs) /\ bound n i kvs /\ Forall (fun e : kvt => numbered n (snd (snd e))) kvs.
Proof.
  unfold bound. cbn.
  assert (G : (fix go (l : list (bytes * (Z * V))) : Prop := match l with [] => True | (_, (_, x)) :: r => numbered n x /\ go r end) kvs <-> Forall (fun e : kvt => numbered n (snd (snd e))) kvs).
  { induction kvs as [|[k [id x]] l IH]; [split; [constructor|exact (fun _ => I)]|]. rewrite IH. split; [intros [A B]; now constructor|intros H; now inversion H]. }
  rewrite G. tauto.
Qed.

Lemma ids_differ (kvs : list kvt) : NoDup (map (fun e : kvt => fst (snd e)) kvs) -> forall k1 k2 a x b y, k1 <> k2 ->
  In (k1, (a, x)) kvs -> In (k2, (b, y)) kvs -> a <> b.
Proof.
  induction kvs as [|e l IH]; intros N k1 k2 a x b y Hk H1 H2; [destruct H1|]. cbn in N. inversion N as [|? ? N1 N2]; subst.
  destruct H1 as [->|H1], H2 as [H2|H2].
  - congruence.
  - intros ->. apply N1. apply (in_map (fun e : kvt => fst (snd e))) in H2. exact H2.
  - subst e. intros ->. apply N1. apply (in_map (fun e : kvt => fst (snd e))) in H1. exact H1.
  - eauto.
Qed.
Lemma ids_nodup (kvs : list kvt) : NoDup (akeys kvs) ->
  (forall k1 k2 a x b y, k1 <> k2 -> In (k1, (a, x)) kvs -> In (k2, (b, y)) kvs -> a <> b) -> NoDup (map (fun e : kvt => fst (snd e)) kvs).
Proof.
  induction kvs as [|[k [a x]] l IH]; intros N H; [constructor|]. cbn in N. inversion N as [|? ? N1 N2]; subst. cbn. constructor.
  - intros Hi. apply in_map_iff in Hi as ([k' [a' x']] & Ei & Hi). cbn in Ei. subst a'.
    apply (H k k' a x a x'); [|now left|now right|reflexivity]. intros ->. apply N1. apply (in_map fst) in Hi. exact Hi.
  - apply IH; [exact N2|]. intros k1 k2 a1 x1 a2 x2 Hk H1 H2. apply (H k1 k2 a1 x1 a2 x2 Hk); now right.
Qed.
Lemma br_self n v : json_typed v -> clean_text v -> numbered n v -> abreast n v v.
Proof.
  induction v as [|s|a src|i kvs lo IH|l IH|b| | |] using V_ind'; intros Ht Hc Hv; try contradiction; try constructor.
  - destruct (lax_num_cons src Hc) as (c & t & ->). discriminate.
  - apply json_typed_obj in Ht as [N Ht]. exact N.
  - apply json_typed_obj in Ht as [N Ht]. exact N.
  - apply json_typed_obj in Ht as [N Ht]. apply numbered_obj in Hv as (_ & _ & Hv). apply all_text_obj in Hc. rewrite Forall_forall in *.
    intros k id x L. apply alookup_In in L as L'. exists id, x. split; [exact L|]. apply (IH _ L'); [exact (Ht _ L')|exact (proj2 (Hc _ L'))|exact (Hv _ L')].
  - auto.
  - apply numbered_obj in Hv as (D & _). intros k1 k2 a x b y a' x' b' y' Hk E1 E2 E3 E4. rewrite E1 in E3. rewrite E2 in E4. injection E3 as <- <-. injection E4 as <- <-.
    apply alookup_In in E1. apply alookup_In in E2. pose proof (ids_differ kvs D _ _ _ _ _ _ Hk E1 E2). lia.
  - now apply numbered_obj in Hv.
  - now apply numbered_obj in Hv.
  - apply json_typed_arr in Ht. apply numbered_arr in Hv. apply all_text_arr in Hc. rewrite Forall_forall in *. clear -IH Ht Hc Hv. induction l as [|x l IHl]; constructor.
    + apply IH; [now left|apply Ht; now left|apply Hc; now left|apply Hv; now left].
    + apply IHl; intros y Hy; [intros; apply IH; [now right|assumption..]|apply Ht; now right|apply Hc; now right|apply Hv; now right].
Qed.

Lemma look_in (kvs : list kvt) k e : NoDup (akeys kvs) -> alookup k kvs = Some e <-> In (k, e) kvs.
Proof. intros N. split; [apply alookup_In|now apply alookup_NoDup_In]. Qed.
Lemma obr_left n a x r : obr n (Some (a, x)) r -> exists b y, r = Some (b, y) /\ abreast n x y.
Proof. intros H. inversion H; subst. eauto. Qed.
Lemma obr_right n b y r : obr n r (Some (b, y)) -> exists a x, r = Some (a, x) /\ abreast n x y.
Proof. intros H. inversion H; subst. eauto. Qed.
Lemma mbr_ids n i kvs i' kvs' : mbr n i kvs i' kvs' -> NoDup (map (fun e : kvt => fst (snd e)) kvs) /\ NoDup (map (fun e : kvt => fst (snd e)) kvs').
Proof.
  intros (N & N' & K & O & _). split; apply ids_nodup; try assumption; intros k1 k2 a x b y Hk H1 H2; apply look_in in H1, H2; try assumption.
  - pose proof (K k1) as K1. pose proof (K k2) as K2. rewrite H1 in K1. rewrite H2 in K2. apply obr_left in K1 as (? & ? & L1 & _). apply obr_left in K2 as (? & ? & L2 & _).
    pose proof (O _ _ _ _ _ _ _ _ _ _ Hk H1 H2 L1 L2). lia.
  - pose proof (K k1) as K1. pose proof (K k2) as K2. rewrite H1 in K1. rewrite H2 in K2. apply obr_right in K1 as (? & ? & L1 & _). apply obr_right in K2 as (? & ? & L2 & _).
    pose proof (O _ _ _ _ _ _ _ _ _ _ Hk L1 L2 H1 H2). lia.
Qed.
Lemma br_kept n v : 0 <= n -> forall w, abreast n v w -> kept_doc (Z.to_nat n) v /\ kept_doc (Z.to_nat n) w.
Proof.
  intros Hn. induction v as [|s|a src|i kvs lo IH|l IH|b| | |] using V_ind'; intros w H; try (inversion H; subst; split; (split; exact I)).
  - apply br_obj in H as (i' & kvs' & lo' & -> & M). pose proof (mbr_ids _ _ _ _ _ M) as [D D']. destruct M as (N & N' & K & O & (B1 & B2 & _) & (B1' & B2' & _)).
    rewrite Forall_forall in IH.
    assert (A : forall k id x, In (k, (id, x)) kvs -> kept_doc (Z.to_nat n) x).
    { intros k id x Hx. apply look_in in Hx as L; [|exact N]. specialize (K k). rewrite L in K. apply obr_left in K as (? & y & _ & Ha). exact (proj1 (IH _ Hx y Ha)). }
    assert (A' : forall k id y, In (k, (id, y)) kvs' -> kept_doc (Z.to_nat n) y).
    { intros k id y Hy. apply look_in in Hy as L; [|exact N']. specialize (K k). rewrite L in K. apply obr_right in K as (id0 & x & L0 & Ha). apply look_in in L0; [|exact N].
      exact (proj2 (IH _ L0 y Ha)). }
    split; (split; [apply json_typed_obj; split; [assumption|]; apply Forall_forall; intros [k [id x]] Hx; cbn; first [apply (A _ _ _ Hx)|apply (A' _ _ _ Hx)]|
      apply all_obj_obj; split; [split; [assumption|]; intros _; split; [assumption|]; split; [assumption|]; rewrite Z2Nat.id by lia; assumption|];
      apply Forall_forall; intros [k [id x]] Hx; cbn; first [apply (A _ _ _ Hx)|apply (A' _ _ _ Hx)]]).
  - inversion H as [| | | |? l' F|]; subst. rewrite !kept_arr. clear H. induction F as [|x y l l' Hx F IHl]; [split; constructor|].
    inversion IH as [|? ? I1 I2]; subst. destruct (I1 _ Hx). destruct (IHl I2). split; constructor; assumption.
Qed.

Lemma sorted_pairs (P : V -> V -> Prop) (s : list kvt) : forall s', NoDup (akeys s) -> NoDup (akeys s') -> by_id s -> by_id s' ->
  (forall k a x, In (k, (a, x)) s -> exists b y, In (k, (b, y)) s' /\ P x y) ->
  (forall k b y, In (k, (b, y)) s' -> exists a x, In (k, (a, x)) s) ->
  (forall k1 k2 a x b y a' x' b' y', k1 <> k2 -> In (k1, (a, x)) s -> In (k2, (b, y)) s -> In (k1, (a', x')) s' -> In (k2, (b', y')) s' ->
     a < b /\ a' < b' \/ b < a /\ b' < a') ->
  Forall2 (fun e f : kvt => fst e = fst f /\ P (snd (snd e)) (snd (snd f))) s s'.
Proof.
  induction s as [|[k [a x]] s IH]; intros s' N N' S S' F G O.
  - destruct s' as [|[k' [b y]] s']; [constructor|]. destruct (G k' b y) as (? & ? & []). now left.
  - destruct s' as [|[k' [b y]] s']; [destruct (F k a x) as (? & ? & [] & _); now left|].
    cbn in N, N'. inversion N as [|? ? N1 N2]; inversion N' as [|? ? N1' N2']; inversion S as [|? ? S1 S2]; inversion S' as [|? ? S1' S2']; subst.
    assert (Hkey : forall (k0 : bytes) (e : Z * V) (l : list kvt), In (k0, e) l -> In k0 (akeys l)) by (intros k0 e l Hi; apply (in_map fst) in Hi; exact Hi).
    destruct (F k a x) as (b1 & y1 & Hi & Hp); [now left|].
    assert (Ek : k' = k).
    { destruct (list_eq_dec Z.eq_dec k' k) as [Ek|Ek]; [exact Ek|exfalso].
      destruct (G k' b y) as (a2 & x2 & [E2|Hi2]); [now left|congruence|].
      destruct Hi as [E1|Hi]; [congruence|]. rewrite Forall_forall in S1, S1'. apply S1 in Hi2 as Q1. apply S1' in Hi as Q2. cbn in Q1, Q2.
      assert (Q := O k k' a x a2 x2 b1 y1 b y ltac:(congruence) ltac:(now left) ltac:(now right) ltac:(now right) ltac:(now left)). lia. }
    subst k'. assert (Ey : b1 = b /\ y1 = y) by (destruct Hi as [E1|Hi]; [split; congruence|elim N1'; exact (Hkey _ _ _ Hi)]). destruct Ey as [-> ->].
    constructor; [split; [reflexivity|exact Hp]|]. apply IH; try assumption.
    + intros k0 a0 x0 H0. destruct (F k0 a0 x0) as (b0 & y0 & [E0|Hi0] & Hp0); [now right| |exists b0, y0; auto].
      injection E0 as -> -> ->. elim N1. exact (Hkey _ _ _ H0).
    + intros k0 b0 y0 H0. destruct (G k0 b0 y0) as (a0 & x0 & [E0|Hi0]); [now right| |exists a0, x0; exact Hi0].
      injection E0 as -> -> ->. elim N1'. exact (Hkey _ _ _ H0).
    + intros k1 k2 a1 x1 a2 x2 b3 y3 b4 y4 Hk H1 H2 H3 H4. apply (O k1 k2 a1 x1 a2 x2 b3 y3 b4 y4 Hk); now right.
Qed.

Lemma br_text E W W' n v : 0 <= n < two32 -> forall o w, by_setting o -> o_omit_null o = false -> abreast n v w -> marshal_opt E W o v = marshal_opt E W' o w.
Proof.
  intros [Hn0 Hn]. assert (Hnn : Z.of_nat (Z.to_nat n) < two32) by (rewrite Z2Nat.id; lia).
  induction v as [|s|a src|i kvs lo IH|l IH|b| | |] using V_ind'; intros o w Ho Hom H; try (inversion H; subst; reflexivity);
    [inversion H as [| | |? c t Hs| |]; subst; destruct src; [contradiction|reflexivity]| |].
  - destruct (br_kept n _ Hn0 _ H) as [Kv Kw]. apply br_obj in H as (i' & kvs' & lo' & -> & N & N' & K & O & _).
    destruct (object_set E W o Ho Hom (Z.to_nat n) i kvs lo Hnn Kv) as (s & P & B & ->).
    destruct (object_set E W' o Ho Hom (Z.to_nat n) i' kvs' lo' Hnn Kw) as (s' & P' & B' & ->). f_equal. f_equal.
    assert (Ns : NoDup (akeys s)) by (eapply Permutation_NoDup; [apply Permutation_map; exact P|exact N]).
    assert (Ns' : NoDup (akeys s')) by (eapply Permutation_NoDup; [apply Permutation_map; exact P'|exact N']).
    assert (L : forall k e, In (k, e) s -> alookup k kvs = Some e) by (intros k e Hi; apply look_in; [exact N|]; apply (Permutation_in _ (Permutation_sym P) Hi)).
    assert (L' : forall k e, In (k, e) s' -> alookup k kvs' = Some e) by (intros k e Hi; apply look_in; [exact N'|]; apply (Permutation_in _ (Permutation_sym P') Hi)).
    assert (F : Forall2 (fun e f : kvt => fst e = fst f /\ marshal_opt E W (deeper o) (snd (snd e)) = marshal_opt E W' (deeper o) (snd (snd f))) s s').
    { apply (sorted_pairs (fun x y => marshal_opt E W (deeper o) x = marshal_opt E W' (deeper o) y)); try assumption.
      - intros k a x Hi. apply L in Hi. specialize (K k). rewrite Hi in K. apply obr_left in K as (b & y & E2 & Ha).
        exists b, y. split; [apply (Permutation_in _ P'); now apply look_in|]. rewrite Forall_forall in IH. apply look_in in Hi; [|exact N].
        apply (IH _ Hi); [exact (setting_deep 1 o Ho)|exact Hom|exact Ha].
      - intros k b y Hi. apply L' in Hi. specialize (K k). rewrite Hi in K. apply obr_right in K as (a & x & E1 & Ha).
        exists a, x. apply (Permutation_in _ P). now apply look_in.
      - intros k1 k2 a x b y a' x' b' y' Hk H1 H2 H3 H4. apply (O k1 k2 a x b y a' x' b' y' Hk); auto. }
    clear -F. induction F as [|e f s s' [E1 E2] _ IHf]; [reflexivity|]. cbn [map]. rewrite IHf. f_equal. unfold mpart. now rewrite E1, E2.
  - destruct (br_kept n _ Hn0 _ H) as [Kv Kw]. inversion H as [| | | |? l' F|]; subst.
    rewrite (array_set E W o Ho (Z.to_nat n) l Hnn Kv), (array_set E W' o Ho (Z.to_nat n) l' Hnn Kw). f_equal. f_equal. clear H Kv Kw.
    induction F as [|x y l l' Hx F IHl]; [reflexivity|]. inversion IH as [|? ? I1 I2]; subst. cbn [map]. rewrite (IHl I2).
    now rewrite (I1 (deeper o) y (setting_deep 1 o Ho) Hom Hx).
Qed.

(** *** A save keeps the order *)
Lemma put_all_numbered E l : forall i kvs lo, 0 <= i -> i + Z.of_nat (List.length l) < two32 -> NoDup (akeys kvs ++ map fst l) ->
  exists new lo', put_all E l (VObj i kvs lo) = VObj (i + Z.of_nat (List.length l)) (kvs ++ new) lo' /\
    Forall2 (fun m x => fst x = fst m /\ snd (snd x) = to_V E (snd m)) l new /\ by_id new /\
    Forall (fun x : kvt => i < fst (snd x) <= i + Z.of_nat (List.length l)) new.
Proof.
  induction l as [|[k x] l IH]; intros i kvs lo Hi Hl Hn.
  - exists [], lo. rewrite app_nil_r. cbn [List.length]. rewrite Z.add_0_r. repeat split; constructor.
  - cbn [map fst] in Hn. cbn [put_all fold_left]. unfold oput at 2. cbn [set_to_object fst snd]. cbn [List.length] in *.
    assert (Ew : wrap_u32 (i + 1) = i + 1) by (unfold wrap_u32; apply Z.mod_small; lia). rewrite Ew.
    assert (Hk : ~ In k (akeys kvs)).
    { apply NoDup_remove_2 in Hn. intros H. apply Hn. apply in_or_app. now left. }
    assert (Ha : forall a, aset k a kvs = kvs ++ [(k, a)]).
    { intros a. clear -Hk. induction kvs as [|[k' a'] r IHr]; [reflexivity|]. cbn [aset].
      destruct (beqb_spec k k') as [->|Nk]; [exfalso; apply Hk; now left|].
      cbn [app]. f_equal. apply IHr. intros H. apply Hk. now right. }
    rewrite Ha. destruct (IH (i + 1) (kvs ++ [(k, (i + 1, to_V E x))]) (add_caseless_key E k lo)) as (new & lo' & Hp & Hf & Hb & Hr); [lia|lia| |].
    { unfold akeys in *. rewrite map_app. cbn [map fst]. rewrite <- app_assoc. exact Hn. }
    exists ((k, (i + 1, to_V E x)) :: new), lo'. split; [|split; [|split]].
    + etransitivity; [exact Hp|]. rewrite <- app_assoc. f_equal. lia.
    + constructor; [split; reflexivity|exact Hf].
    + constructor; [|exact Hb]. revert Hr. apply Forall_impl. intros e [G _]. exact G.
    + constructor; [cbn; lia|]. revert Hr. apply Forall_impl. intros e. lia.
Qed.
Lemma pair_order (s : list kvt) : forall s' : list kvt, Forall2 (fun x y : kvt => fst x = fst y) s s' -> by_id s -> by_id s' -> NoDup (akeys s) -> inorder s s'.
Proof.
  intros s' F. induction F as [|[k [a x]] [k' [b y]] s s' Ek F IH]; intros S S' N; [discriminate|]. cbn in Ek. subst k'.
  cbn in N. inversion N as [|? ? N1 N2]; inversion S as [|? ? S1 S2]; inversion S' as [|? ? S1' S2']; subst. rewrite Forall_forall in S1, S1'.
  intros k1 k2 a1 x1 a2 x2 b1 y1 b2 y2 Hk. cbn [alookup]. destruct (beqb_spec k1 k) as [->|H1]; destruct (beqb_spec k2 k) as [->|H2]; try contradiction; intros E1 E2 E3 E4.
  - injection E1 as -> ->. injection E3 as -> ->. apply alookup_In in E2, E4. apply S1 in E2. apply S1' in E4. cbn in *. left. lia.
  - injection E2 as -> ->. injection E4 as -> ->. apply alookup_In in E1, E3. apply S1 in E1. apply S1' in E3. cbn in *. right. lia.
  - exact (IH S2 S2' N2 _ _ _ _ _ _ _ _ _ _ Hk E1 E2 E3 E4).
Qed.

Lemma back_br E n v : 0 <= n < two32 -> forall j w, clean_text v -> abreast n v w ->
  shows (fun n src j => j = JNum src /\ lax_num src) false by_id v j -> abreast n (to_V E j) w.
Proof.
  intros Hn. induction v as [| s | a src | i kvs lo IH | l IH | b | | | ] using V_ind'; intros j w Ha Hw Hs;
    inversion Hs as [|b' Eb Ej|n0 src0 j0 HN En Ej|s0 s' Hf Es Ej|l0 l' Hl El Ej|i0 kvs0 lo0 kvs' ms Hp Hor Hm Ek Ej]; subst; try (inversion Hw; fail).
  - cbn in Ha. now rewrite <- (wf_fixed _ _ Ha Hf).
  - destruct HN as (-> & Hx). cbn [to_V]. destruct (lax_number E src Hx) as (n' & ->). inversion Hw; subst. now constructor.
  - apply br_obj in Hw as (i' & kw & lo' & -> & M). pose proof M as (N & N' & K & O & (B1 & B2 & B3) & B'). apply all_text_obj in Ha. cbn [kept] in Hm.
    assert (Nk : NoDup (map fst kvs')) by (eapply Permutation_NoDup; [apply Permutation_map; exact Hp|exact N]).
    assert (L : forall k e, In (k, e) kvs' -> alookup k kvs = Some e) by (intros k e Hi; apply look_in; [exact N|]; apply (Permutation_in _ (Permutation_sym Hp) Hi)).
    rewrite Forall_forall in IH, Ha.
    assert (Hk : Forall2 (fun (x : kvt) m => fst x = fst m /\ forall b y, alookup (fst x) kw = Some (b, y) -> abreast n (to_V E (snd m)) y) kvs' ms).
    { assert (Hin : forall x, In x kvs' -> In x kvs) by (intros x; apply Permutation_in; now symmetry).
      clear Hp Hs Hor Nk. induction Hm as [|x m kvs2 ms [Hf Hsh] Hm IHm]; constructor.
      - assert (Hx : In x kvs) by (apply Hin; now left). destruct (Ha x Hx) as [W1 W2]. split; [exact (wf_fixed _ _ W1 Hf)|].
        intros b y Hy. apply (IH x Hx); [exact W2| |exact Hsh]. specialize (K (fst x)). rewrite Hy in K. apply obr_right in K as (a0 & x0 & E0 & Hab).
        destruct x as [k [a1 x1]]. cbn [fst snd] in *. rewrite (L k (a1, x1)) in E0 by now left. injection E0 as <- <-. exact Hab.
      - apply IHm; [intros k e Hi; apply L; now right|]. intros z Hz. apply Hin. now right. }
    assert (Em : map fst kvs' = map fst ms) by (clear -Hk; induction Hk as [|x m k2 m2 [H _] _ IHk]; cbn; congruence).
    assert (El : List.length ms = List.length kvs) by (rewrite <- (map_length fst ms), <- Em, map_length; symmetry; now apply Permutation_length).
    cbn [to_V]. change (fold_left _ ms new_object) with (put_all E ms (VObj 0 [] None)).
    destruct (put_all_numbered E ms 0 [] None) as (new & lo2 & -> & Hnew & Hb & Hr); [lia|rewrite El; lia|cbn; now rewrite <- Em|]. cbn [app]. rewrite Z.add_0_l in *.
    assert (Hkn : Forall2 (fun x y : kvt => fst x = fst y) kvs' new).
    { clear -Hk Hnew. revert new Hnew. induction Hk as [|x m k2 m2 (H1 & _) _ IHk]; intros new Hnew; inversion Hnew as [|? y ? n2 [E1 E2] Hn2]; subst; constructor; [congruence|auto]. }
    assert (En : map fst kvs' = map fst new) by (clear -Hkn; induction Hkn as [|x m k2 m2 H _ IHk]; cbn; congruence).
    assert (Nn : NoDup (akeys new)) by (unfold akeys; rewrite <- En; exact Nk).
    assert (P : forall k c z b y, In (k, (c, z)) new -> alookup k kw = Some (b, y) -> abreast n z y).
    { clear -Hk Hnew. revert new Hnew. induction Hk as [|x m k2 m2 (H1 & H2) _ IHk]; intros new Hnew; inversion Hnew as [|? y ? n2 [E1 E2] Hn2]; subst; [intros k c z b y []|].
      intros k c z b y0 [->|Hi] Hl; [|exact (IHk _ Hn2 _ _ _ _ _ Hi Hl)]. cbn in E1, E2. subst z. apply (H2 b y0). congruence. }
    assert (Q : forall k, In k (map fst new) <-> exists a x, alookup k kvs = Some (a, x)).
    { intros k. rewrite <- En. rewrite (in_map_iff fst). split.
      - intros ([k0 [a x]] & E0 & Hi). cbn in E0. subst k0. exists a, x. now apply L.
      - intros (a & x & E0). exists (k, (a, x)). split; [reflexivity|]. apply (Permutation_in _ Hp). now apply look_in. }
    assert (Back : forall k c z, alookup k new = Some (c, z) -> exists a x, alookup k kvs = Some (a, x)).
    { intros k c z H. apply Q. apply alookup_In in H. apply (in_map fst) in H. exact H. }
    apply br_mk. split; [exact Nn|]. split; [exact N'|]. split; [|split; [|split; [|exact B']]].
    + intros k. destruct (alookup k new) as [[c z]|] eqn:Ek.
      * destruct (Back _ _ _ Ek) as (a & x & E0). specialize (K k). rewrite E0 in K. apply obr_left in K as (b & y & E1 & _). rewrite E1. constructor.
        eapply P; [apply alookup_In; exact Ek|exact E1].
      * specialize (K k). destruct (alookup k kvs) as [[a x]|] eqn:E0; [|inversion K; constructor].
        assert (Hi : In k (map fst new)) by (apply Q; eauto). apply alookup_None in Ek. contradiction.
    + intros k1 k2 a1 x1 a2 x2 b1 y1 b2 y2 Hk12 E1 E2 E3 E4.
      destruct (Back _ _ _ E1) as (c1 & z1 & F1). destruct (Back _ _ _ E2) as (c2 & z2 & F2).
      pose proof (O _ _ _ _ _ _ _ _ _ _ Hk12 F1 F2 E3 E4) as O1.
      assert (G1 : alookup k1 kvs' = Some (c1, z1)) by (apply look_in; [exact Nk|]; apply (Permutation_in _ Hp); now apply look_in).
      assert (G2 : alookup k2 kvs' = Some (c2, z2)) by (apply look_in; [exact Nk|]; apply (Permutation_in _ Hp); now apply look_in).
      pose proof (pair_order kvs' new Hkn Hor Hb Nk _ _ _ _ _ _ _ _ _ _ Hk12 G1 G2 E1 E2) as O2. lia.
    + split; [revert Hr; apply Forall_impl; intros e; lia|]. split; [rewrite El; lia|].
      rewrite <- (map_length fst new), <- En, Em, map_length, El. exact B3.
  - apply all_text_arr in Ha. inversion Hw as [| | | |? lw F|]; subst. cbn [to_V]. constructor. clear Hs Hw. revert lw F IH Ha.
    induction Hl as [|x j l l' Hx Hl IHl]; intros lw F IH Ha; inversion F; subst; cbn [map]; constructor; inversion IH; inversion Ha; subst; auto.
  - exact Hw.
  - exact Hw.
Qed.

Lemma saved_br E W o n v w : 0 <= n < two32 -> opt_ws o -> o_omit_null o = false -> by_setting o -> clean v -> abreast n v w -> abreast n (saved E W o v) w.
Proof.
  intros Hn [Hp Hi] Hom (H1 & H2 & H3) [Ht Ha] Hw.
  destruct (marshal_lax E W o (fun n src j => j = JNum src /\ lax_num src) by_id Hp Hi v Ht) as [_ H].
  { eapply all_text_impl; [|intros n0 src Hs|exact (wf_text_bytes v Ha)]; [auto|]. destruct (lax_num_cons src Hs) as (c & t & Es).
    exists src, (JNum src). split; [rewrite Es; reflexivity|]. split; [constructor; eauto|auto]. }
  { destruct (br_kept n v (proj1 Hn) w Hw) as [[_ Kd] _]. clear -Kd Ht Hn H1 H2 H3.
    induction v as [|s|a src|i kvs lo IH|l IH|b| | |] using V_ind'; try exact I.
    - apply json_typed_obj in Ht as [Hnd Ht]. apply all_obj_obj in Kd as ((_ & Hd) & Kd). apply all_objs_obj. rewrite Forall_forall in *. split; [|auto].
      destruct Hd as (Hd & _); [rewrite Z2Nat.id; lia|]. now apply in_order_setseq.
    - apply json_typed_arr in Ht. apply all_obj_arr in Kd. apply all_objs_arr. rewrite Forall_forall in *. auto. }
  destruct (H None [] 0%nat) as (b & j & Hr & Hj & Hs). rewrite Hom in Hs.
  assert (Hd : lax_doc b j) by (exists [], b, []; rewrite app_nil_r; repeat split; try constructor; assumption).
  assert (Hm : marshal_opt E W o v = Ok b) by now apply marshal_opt_run.
  unfold saved. rewrite Hm, (unmarshal_of_lax E b j Hd). now apply (back_br E n v Hn j w Ha Hw).
Qed.

(** *** Calls and saves *)
Lemma numbered_le n m v : n <= m -> numbered n v -> numbered m v.
Proof.
  intros Hm. induction v as [|s|a src|i kvs lo IH|l IH|b| | |] using V_ind'; try exact (fun H => H).
  - rewrite !numbered_obj, !Forall_forall. rewrite Forall_forall in IH. intros (A & B & C). split; [exact A|]. split; [now apply (bound_le n)|]. auto.
  - rewrite !numbered_arr, !Forall_forall. rewrite Forall_forall in IH. auto.
Qed.
Lemma both_br {A} n (a b : V * res A) : abreast n (fst a) (fst b) -> abreast n (fst (both_of a)) (fst (both_of b)).
Proof. exact (fun H => H). Qed.
Lemma br_alike n v : forall w, abreast n v w -> alike v w.
Proof.
  induction v as [|s|a src|i kvs lo IH|l IH|b| | |] using V_ind'; intros w H; inversion H as [| | |? ? ? Hs|? l' F|? ? ? i' kvs' lo' N N' K K0 O B B']; subst; try constructor; try assumption.
  - apply number_equal_self.
  - intros k id x L. destruct (K _ _ _ L) as (id' & y & A1 & A2). exists id', y. split; [exact A1|]. rewrite Forall_forall in IH.
    apply (IH _ (alookup_In _ _ _ L)). exact A2.
  - clear H. induction F; constructor; inversion IH; subst; auto.
Qed.
Lemma go_sort_br W n f l l' : (forall x x' y y', twins x x' -> twins y y' -> f x y = f x' y') -> Forall2 (abreast n) l l' ->
  Forall2 (abreast n) (go_sort W f l) (go_sort W f l').
Proof.
  intros H F. assert (T : forall x y, abreast n x y -> twins x y) by (intros x y K; apply twins_alike; now apply (br_alike n)). unfold go_sort.
  replace (map (fun x => map (f x) l') l') with (map (fun x => map (f x) l) l).
  - rewrite <- (Forall2_len _ _ _ F). now apply arrange_rel.
  - apply (Forall2_map_rel (abreast n)); [|exact F]. intros x y Hxy. apply (Forall2_map_rel (abreast n)); [|exact F]. intros x' y' H'. apply H; now apply T.
Qed.
Lemma into_br E W d n v w p o : abreast n v w -> abreast n (fst (perform E W d v (AInto false p o))) (fst (perform E W d w (AInto false p o))).
Proof.
  intros H. cbn [perform]. unfold get, locate. destruct (locate_br E n W W (S (psum (p :: o))) v w p o H) as [A B].
  destruct (locate_f E W _ false v p o) as [v1 r], (locate_f E W _ false w p o) as [w1 r']. cbn [fst snd] in A, B. subst r'.
  destruct r as [hs|e| |]; cbn [rbind fst]; try exact A.
  pose proof (sub_br n hs v1 w1 A) as K. destruct (sub_at v1 hs), (sub_at w1 hs); cbn in K; try contradiction; [exact K|exact A].
Qed.
Lemma perform_br E W d n v w a : 0 <= n -> n + 1 < two32 -> abreast n v w -> clean_call a -> Forall (numbered n) (new_values a) ->
  abreast (n + 1) (fst (perform E W d v a)) (fst (perform E W d w a)).
Proof.
  intros Hn0 Hn Hv Ha Hnew. assert (Up : forall x y, abreast n x y -> abreast (n + 1) x y) by (intros x y; apply br_le; lia).
  assert (C : forall c, clean c -> Forall (numbered n) [c] -> abreast n c c) by (intros c [Hc1 Hc2] Hc3; inversion Hc3; subst; now apply br_self).
  destruct Ha as [p o|p o|p o|c p o Hc Hp|c p o Hc Hp|c p o Hc Hp|front c ps Hc Hp|p o Hp|f Hf| |]; cbn [perform new_values] in *; try (apply Up; exact Hv); try apply both_br.
  - apply Up. apply (get_br E n W W v w p o Hv).
  - apply Up. exact (into_br E W d n v w p o Hv).
  - apply Up. unfold must_get. destruct (get_br E n W W v w p o Hv) as [A _]. destruct (get E W false v p o) as [v1 r], (get E W false w p o) as [w1 s]. exact A.
  - apply (set_at_br E n Hn0 Hn v w c c p o Hv (C c Hc Hnew)).
  - unfold insert_before, arg_v. cbn [fst snd]. apply Up. apply (insert_br E n W W false _ v w c c p o Hv (C c Hc Hnew)).
  - unfold insert_after, arg_v. cbn [fst snd]. apply Up. apply (insert_br E n W W true _ v w c c p o Hv (C c Hc Hnew)).
  - apply (append_br E n Hn0 Hn W W front v w c c ps Hv (C c Hc Hnew)).
  - apply Up. unfold delete_at. apply (delete_br E n W W _ v w p o Hv).
  - apply Up. unfold sort_array, api_is_array, on_value. inversion Hv as [| | | |l l' F|]; subst; cbn [rbind vtype_of vtype_eqb negb fst]; try exact Hv.
    constructor. now apply go_sort_br.
Qed.
Lemma in_turn_le n m a : n <= m -> in_turn n a -> in_turn m a.
Proof. intros Hm. destruct a as [s|W o]; cbn; [|auto]. apply Forall_impl. intros c. now apply numbered_le. Qed.

Lemma saves_br E l : forall n v w, 0 <= n -> n + Z.of_nat (List.length l) < two32 -> clean v -> abreast n v w -> Forall clean_action l -> Forall (in_turn n) l ->
  abreast (n + Z.of_nat (List.length l)) (fst (with_saves E v l)) (fst (series E w (calls l))).
Proof.
  induction l as [|[[[W d] a]|W o] l IH]; intros n v w Hn Hl Hv Hw Hc Ht; [cbn; now rewrite Z.add_0_r| |]; inversion Hc as [|? ? Ha Hr]; inversion Ht as [|? ? Hta Htr]; subst; cbn [List.length] in *.
  - cbn [with_saves calls flat_map app series]. fold (calls l). cbn in Ha, Hta.
    pose proof (perform_br E W d n v w a Hn ltac:(lia) Hw Ha Hta) as P. pose proof (perform_clean E W d v a Hv Ha) as P3.
    destruct (perform E W d v a) as [v1 x1]. destruct (perform E W d w a) as [w1 y1]. cbn [fst snd] in *.
    assert (G : abreast (n + 1 + Z.of_nat (List.length l)) (fst (with_saves E v1 l)) (fst (series E w1 (calls l)))).
    { apply IH; try assumption; try lia. revert Htr. apply Forall_impl. intros b. apply in_turn_le. lia. }
    replace (n + Z.of_nat (S (List.length l))) with (n + 1 + Z.of_nat (List.length l)) by lia.
    destruct (with_saves E v1 l) as [v2 xs]. destruct (series E w1 (calls l)) as [w2 ys]. exact G.
  - cbn [with_saves calls flat_map app]. fold (calls l). destruct Ha as [Ho Hom].
    assert (G : abreast (n + Z.of_nat (List.length l)) (fst (with_saves E (saved E W o v) l)) (fst (series E w (calls l)))).
    { apply IH; try assumption; try lia; [now apply saved_clean|]. apply saved_br; try assumption. lia. }
    revert G. apply br_le. lia.
Qed.

Theorem saves_keep_order (E : Env) n v l : 0 <= n -> n + Z.of_nat (List.length l) < two32 ->
  clean v -> numbered n v -> Forall clean_action l -> Forall (in_turn n) l ->
  forall W W' o, by_setting o -> o_omit_null o = false ->
  marshal_opt E W o (fst (with_saves E v l)) = marshal_opt E W' o (fst (series E v (calls l))).
Proof.
  intros Hn Hl Hv Hnu Hc Ht W W' o Ho Hom. apply (br_text E W W' (n + Z.of_nat (List.length l))); try assumption; [lia|].
  apply saves_br; try assumption. destruct Hv as [Hv1 Hv2]. now apply br_self.
Qed.

Lemma sum_length {A} (f : A -> nat) (l : list A) : (forall x, 1 <= f x)%nat -> (List.length l <= list_sum (map f l))%nat.
Proof. intros H. induction l as [|x l IH]; cbn; [lia|]. specialize (H x). unfold list_sum in *. lia. Qed.
Lemma sum_in {A} (f : A -> nat) (l : list A) x : In x l -> (f x <= list_sum (map f l))%nat.
Proof. induction l as [|y l IH]; [intros []|]. intros [->|H]; cbn; [lia|]. specialize (IH H). unfold list_sum in *. lia. Qed.
Lemma dated_numbered n v : Z.of_nat n < two32 -> all_obj (dated n) v -> (values v <= n)%nat -> numbered (Z.of_nat n) v.
Proof.
  intros Hn. unfold values. induction v as [|s|a src|i kvs lo IH|l IH|b| | |] using V_ind'; intros Hd Hv; try exact I.
  - apply all_obj_obj in Hd as ((_ & Hd) & Hk). destruct (Hd Hn) as (D1 & D2 & D3). apply numbered_obj. cbn [weight] in Hv.
    assert (G : (List.length kvs <= list_sum (map (fun e : kv => let '(k, (_, x)) := e in 0 * List.length k + weight 1 0 x)%nat kvs))%nat).
    { apply sum_length. intros [k [id x]]. destruct x; cbn; lia. }
    split; [exact D1|]. split; [split; [exact D2|]; split; [exact D3|lia]|]. rewrite Forall_forall in *. intros [k [id x]] Hx. apply (IH _ Hx); [exact (Hk _ Hx)|].
    apply (sum_in (fun e : kv => let '(k, (_, x)) := e in 0 * List.length k + weight 1 0 x)%nat) in Hx. cbn in *. lia.
  - apply all_obj_arr in Hd. apply numbered_arr. cbn [weight] in Hv. rewrite Forall_forall in *. intros x Hx. apply (IH _ Hx); [exact (Hd _ Hx)|].
    apply (sum_in (weight 1 0)) in Hx. lia.
Qed.
Theorem parsed_numbered (E : Env) b v : Forall is_byte b -> Z.of_nat (List.length b) < two32 -> unmarshal E b = Ok (v, None) -> numbered (Z.of_nat (List.length b)) v.
Proof.
  intros Hb Hl Hu. apply dated_numbered; [exact Hl|apply (history_dated E); now apply h_parsed|].
  pose proof (parsed_values E b v Hb Hu). lia.
Qed.
