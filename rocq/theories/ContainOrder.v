(** Laws of beta.Contains (C91). *)
From Verif Require Import Base Float64 Value Opt Marshal Access Path Edit Iter Compare Contain SpecValue SpecPath SpecNum SpecText SpecContain SpecNamePath
  ListLemmas ValueLemmas SortProof PathProof SetProof SetClaims EditClaims SetExact CompareProof CompareClaims ContainProof SpliceProof SetSpliceProof ExampleWorld.

Lemma EQ_refl v : json_typed v -> EQ v v.
Proof. intros H W path. now apply equal_refl. Qed.
Lemma EQ_trans u v w : json_typed u -> json_typed v -> json_typed w -> EQ u v -> EQ v w -> EQ u w.
Proof. intros Hu Hv Hw H1 H2 W path. apply (equal_trans W path u v w); auto. Qed.

Lemma contained_refl v : json_typed v -> contained EQ v v.
Proof.
  induction v as [ |s|n src|i kvs lo IH|l IH|b| | | ] using V_ind'; intros H; try contradiction;
    try (constructor; [exact I|exact I|now apply EQ_refl]).
  - apply json_typed_obj in H as [_ H]. apply contained_obj. intros k id y Hy. exists id, y. split; [exact Hy|].
    rewrite Forall_forall in *. apply (IH _ Hy), (H _ Hy).
  - rewrite <- (app_nil_r l) at 1. apply (contained_arr EQ [] l []). apply json_typed_arr in H. clear IH. induction H; constructor; [now apply EQ_refl|assumption].
Qed.
Lemma EQ_list_trans l : forall m r, Forall json_typed l -> Forall json_typed m -> Forall json_typed r -> Forall2 EQ l m -> Forall2 EQ m r -> Forall2 EQ l r.
Proof.
  induction l as [|x l IH]; intros m r Hl Hm Hr H1 H2; inversion H1; subst; inversion H2; subst; constructor.
  - inversion Hl; inversion Hm; inversion Hr; subst. eapply EQ_trans; [| | |eassumption|eassumption]; assumption.
  - inversion Hl; inversion Hm; inversion Hr; subst. eapply IH; [| | |eassumption|eassumption]; assumption.
Qed.
Lemma contained_trans w : forall u v, json_typed u -> json_typed v -> json_typed w -> contained EQ u v -> contained EQ v w -> contained EQ u w.
Proof.
  induction w as [ |s|n src|i kvs lo IH|l IH|b| | | ] using V_ind'; intros u v Hu Hv Hw H1 H2; try contradiction;
    try (inversion H2 as [v0 w0 Sv Sw E2| |]; subst; inversion H1 as [u0 v0 Su _ E1| |]; subst; try contradiction;
         apply contained_scalar; [assumption|exact I|eapply EQ_trans; [| | |exact E1|exact E2]; assumption]).
  - inversion H2 as [? ? _ Sw| i1 kvs1 lo1 i2 kvs2 lo2 F2|]; subst; [contradiction|]. inversion H1 as [? ? _ Sv|i0 kvs0 lo0 i3 kvs3 lo3 F1|]; subst; [contradiction|].
    apply json_typed_obj in Hu as [_ Hu], Hv as [_ Hv], Hw as [_ Hw]. rewrite Forall_forall in IH, Hu, Hv, Hw.
    apply contained_obj. intros k id y Hy. destruct (F2 _ _ _ Hy) as (id1 & x1 & Hx1 & C2). destruct (F1 _ _ _ Hx1) as (id0 & x0 & Hx0 & C1).
    exists id0, x0. split; [exact Hx0|]. apply (IH _ Hy x0 x1); [exact (Hu _ Hx0)|exact (Hv _ Hx1)|exact (Hw _ Hy)|exact C1|exact C2].
  - inversion H2 as [? ? _ Sw| |a1 l1 b1 l2 F2]; subst; [contradiction|]. inversion H1 as [? ? _ Sv| |a0 l0 b0 l3 F1]; subst; [contradiction|].
    apply Forall2_app_inv_r in F1 as (p & q & Fp & Fq & ->). apply Forall2_app_inv_r in Fq as (q1 & q2 & Fq1 & Fq2 & ->).
    replace (a0 ++ (p ++ q1 ++ q2) ++ b0) with ((a0 ++ p) ++ q1 ++ (q2 ++ b0)) by now rewrite <- !app_assoc.
    apply contained_arr. apply json_typed_arr in Hu, Hv, Hw. rewrite !Forall_app in Hu, Hv.
    eapply EQ_list_trans; [| | |exact Fq1|exact F2]; [|apply Hv|exact Hw].
    destruct Hu as (_ & Hu & _). apply Forall_app in Hu as [_ Hu]. now apply Forall_app in Hu.
Qed.
Lemma contained_antisym w : forall v, json_typed v -> json_typed w -> contained EQ v w -> contained EQ w v -> EQ v w.
Proof.
  induction w as [ |s|n src|i kvs lo IH|l IH|b| | | ] using V_ind'; intros v Hv Hw H1 H2; try contradiction;
    try (inversion H1; subst; try contradiction; assumption).
  - inversion H1 as [? ? _ Sw| i1 kvs1 lo1 i2 kvs2 lo2 F1|]; subst; [contradiction|]. inversion H2 as [? ? Sw _|? ? ? ? ? ? F2|]; subst; [contradiction|].
    apply (equal_EQ world1 [] _ _ Hv Hw). apply (equal_iff world1 _ _ [] Hv Hw).
    apply json_typed_obj in Hv as [Nv Hv], Hw as [Nw Hw]. rewrite Forall_forall in IH, Hv, Hw. constructor.
    + intros k. split; intros Hk; apply in_map_iff in Hk as ([k0 [id x]] & <- & Hx); cbn [fst].
      * destruct (F2 _ _ _ Hx) as (id' & y & Hy & _). apply in_map_iff. exists (k0, (id', y)). auto.
      * destruct (F1 _ _ _ Hx) as (id' & y & Hy & _). apply in_map_iff. exists (k0, (id', y)). auto.
    + intros k id x id' y Hx Hy. apply (equal_iff world1 _ _ []); [exact (Hv _ Hx)|exact (Hw _ Hy)|].
      destruct (F1 _ _ _ Hy) as (id1 & x1 & Hx1 & C1). destruct (F2 _ _ _ Hx) as (id2 & y2 & Hy2 & C2).
      apply (alookup_NoDup_In _ _ _ Nv) in Hx as Lx, Hx1 as Lx1. apply (alookup_NoDup_In _ _ _ Nw) in Hy as Ly, Hy2 as Ly2.
      assert (x1 = x) by congruence. assert (y2 = y) by congruence. subst x1 y2.
      apply (IH _ Hy x (Hv _ Hx) (Hw _ Hy) C1 C2).
  - inversion H1 as [? ? _ Sw| |a1 l1 b1 l2 F1]; subst; [contradiction|]. inversion H2 as [? ? Sw _| |a2 l3 b2 l4 F2 E2]; subst; [contradiction|].
    assert (L1 : List.length l1 = List.length (a2 ++ l3 ++ b2)) by (clear -F1; induction F1; cbn; congruence).
    assert (L2 : List.length l3 = List.length (a1 ++ l1 ++ b1)) by (clear -F2; induction F2; cbn; congruence).
    rewrite !app_length in L1, L2. assert (Ha : a1 = []) by (destruct a1; [reflexivity|cbn in L2; lia]). assert (Hb : b1 = []) by (destruct b1; [reflexivity|cbn in L2; lia]).
    subst a1 b1. cbn [app]. rewrite app_nil_r in *. apply (EQ_arr world1); [exact Hv|exact Hw|exact F1].
Qed.

(** *** The calls *)
Lemma contains_true E W v sub ps : json_typed v -> json_typed sub -> Forall plain ps ->
  contains E W v sub ps = Ok true <-> exists hs w, leads v ps hs w /\ contained EQ w sub.
Proof.
  intros Hv Hs Hp. destruct (contains_spec E W v sub ps Hv Hs Hp) as (b & Hb & Hi). rewrite Hb, <- Hi. split; congruence.
Qed.
Lemma contains_whole E W v sub : json_typed v -> json_typed sub -> contains E W v sub [] = Ok true <-> contained EQ v sub.
Proof.
  intros Hv Hs. rewrite (contains_true E W v sub [] Hv Hs (Forall_nil _)). split; [|intros H; exists [], v; split; [constructor|exact H]].
  intros (hs & w & L & H). inversion L; subst. exact H.
Qed.
Theorem contains_refl E W v : json_typed v -> contains E W v v [] = Ok true.
Proof. intros H. apply contains_whole; [exact H|exact H|]. now apply contained_refl. Qed.
Theorem contains_trans E W u v w : json_typed u -> json_typed v -> json_typed w ->
  contains E W u v [] = Ok true -> contains E W v w [] = Ok true -> contains E W u w [] = Ok true.
Proof. intros Hu Hv Hw. rewrite !contains_whole by assumption. now apply contained_trans. Qed.
Theorem contains_antisym E W v w : json_typed v -> json_typed w ->
  contains E W v w [] = Ok true -> contains E W w v [] = Ok true -> forall W' path, equal W' path v w = true.
Proof. intros Hv Hw. rewrite !contains_whole by assumption. intros H1 H2. exact (contained_antisym w v Hv Hw H1 H2). Qed.
Theorem contains_path E W v sub ps qs hs x : json_typed v -> json_typed sub -> Forall plain (ps ++ qs) -> leads v ps hs x ->
  contains E W v sub (ps ++ qs) = contains E W x sub qs.
Proof.
  intros Hv Hs Hp L. assert (Hq : Forall plain qs) by now apply Forall_app in Hp. assert (Hx := typed_leads _ _ _ _ L Hv).
  destruct (contains_spec E W v sub (ps ++ qs) Hv Hs Hp) as (b & -> & Hb). destruct (contains_spec E W x sub qs Hx Hs Hq) as (b' & -> & Hb').
  assert (G : b = true <-> b' = true).
  { rewrite Hb, Hb'. split.
    - intros (hs0 & w & L0 & C). destruct (leads_split v ps qs _ _ L0) as (h1 & h2 & d & -> & L1 & L2).
      destruct (leads_det _ _ _ _ L _ _ (typed_maps v Hv) L1) as (<- & <-). eauto.
    - intros (hs0 & w & L0 & C). exists (hs ++ hs0), w. split; [now apply (leads_app _ _ _ _ _ _ _ L)|exact C]. }
  destruct b, b'; try reflexivity; [destruct G as [G _]|destruct G as [_ G]]; discriminate (G eq_refl).
Qed.

(** Paths of names. *)
Lemma names_plain ps : names ps -> Forall plain ps.
Proof. apply Forall_impl. intros p (k & ->). exact I. Qed.
Theorem contains_mono E W u v sub ps : json_typed u -> json_typed v -> json_typed sub -> names ps ->
  contains E W u v [] = Ok true -> contains E W v sub ps = Ok true -> contains E W u sub ps = Ok true.
Proof.
  intros Hu Hv Hs Hn. assert (Hp := names_plain ps Hn). rewrite contains_whole, !contains_true by assumption. intros C (hs & w & L & Cw).
  revert u Hu Hv Hn C. clear Hp. induction L as [v|i kvs lo k id x ps hs c Hi L IH|a x b p i ps hs c Hi _ _ _]; intros u Hu Hv Hn C.
  - exists [], u. split; [constructor|]. now apply (contained_trans sub u v).
  - inversion C as [? ? _ Sv|i0 kvs0 lo0 i3 kvs3 lo3 F|]; subst; [contradiction|]. destruct (F _ _ _ Hi) as (id0 & x0 & Hx0 & C0).
    apply json_typed_obj in Hu as [_ Hu], Hv as [_ Hv]. rewrite Forall_forall in Hu, Hv. inversion Hn; subst.
    destruct (IH Cw x0 (Hu _ Hx0) (Hv _ Hi)) as (hs0 & w0 & L0 & W0); [assumption|exact C0|]. exists (HKey k :: hs0), w0. split; [|exact W0].
    eapply leads_key; eassumption.
  - inversion Hn as [|? ? (k & ->) _]; subst. discriminate.
Qed.

Lemma changed_more (R : V -> V -> Prop) hs v v' : changed R hs v v' -> (forall d d', R d d' -> json_typed d -> contained EQ d' d) ->
  Forall (fun h => exists k, h = HKey k) hs -> json_typed v -> contained EQ v' v.
Proof.
  intros H HR. induction H as [v v' H|i a k id x x' b lo hs H IH|a x x' b hs H IH]; intros Hh Hv; [auto| |].
  - inversion Hh; subst. apply json_typed_obj in Hv as [_ Hv]. rewrite Forall_forall in Hv. apply contained_obj. intros k0 id0 y Hy.
    apply in_app_or in Hy as [Hy|[[= <- <- <-]|Hy]].
    + exists id0, y. split; [apply in_or_app; now left|]. apply contained_refl, (Hv (k0, (id0, y))). apply in_or_app. now left.
    + exists id, x'. split; [apply in_elt|]. apply IH; [assumption|]. apply (Hv (k, (id, x))), in_elt.
    + exists id0, y. split; [apply in_or_app; right; now right|]. apply contained_refl, (Hv (k0, (id0, y))). apply in_or_app. right. now right.
  - inversion Hh as [|? ? (k & Hk) _]. discriminate.
Qed.
Lemma changed_less (R : V -> V -> Prop) hs v v' : changed R hs v v' -> (forall d d', R d d' -> json_typed d -> contained EQ d d') ->
  Forall (fun h => exists k, h = HKey k) hs -> json_typed v -> contained EQ v v'.
Proof.
  intros H HR. induction H as [v v' H|i a k id x x' b lo hs H IH|a x x' b hs H IH]; intros Hh Hv; [auto| |].
  - inversion Hh; subst. apply json_typed_obj in Hv as [_ Hv]. rewrite Forall_forall in Hv. apply contained_obj. intros k0 id0 y Hy.
    apply in_app_or in Hy as [Hy|[[= <- <- <-]|Hy]].
    + exists id0, y. split; [apply in_or_app; now left|]. apply contained_refl, (Hv (k0, (id0, y))). apply in_or_app. now left.
    + exists id, x. split; [apply in_elt|]. apply IH; [assumption|]. apply (Hv (k, (id, x))), in_elt.
    + exists id0, y. split; [apply in_or_app; right; now right|]. apply contained_refl, (Hv (k0, (id0, y))). apply in_or_app. right. now right.
  - inversion Hh as [|? ? (k & Hk) _]. discriminate.
Qed.
Lemma names_hops v ps hs x : leads v ps hs x -> names ps -> Forall (fun h => exists k, h = HKey k) hs.
Proof.
  induction 1 as [v|i kvs lo k id x ps hs c Hi _ IH|a x b p i ps hs c Hi _ _ IH]; intros Hn; [constructor| |].
  - inversion Hn; subst. constructor; [eauto|auto].
  - inversion Hn as [|? ? (k & ->) _]; subst. discriminate.
Qed.

(** Set of a new member, containers built on the way included. *)
Theorem set_contains E W v c p ps v' y ps1 k ps2 hs i kvs lo : json_typed v -> json_typed c -> Forall plain (p :: ps) ->
  p :: ps = ps1 ++ PStr k :: ps2 -> names ps1 -> leads v ps1 hs (VObj i kvs lo) -> ~ In k (map fst kvs) ->
  set_at E v (arg_v c) p ps = (v', Ok y) -> contains E W v' v [] = Ok true.
Proof.
  intros Hv Hc Hp Ep Hn L Hk Hset. assert (M := typed_maps v Hv).
  destruct (set_creates E v c p ps v' y M Hp Hset) as (-> & qs1 & q & qs2 & hs0 & d & Eq & L0 & Hch). rewrite Ep in Eq.
  destruct (same_place v ps1 k ps2 hs i kvs lo c qs1 q qs2 hs0 d v' M L Hk Eq L0 Hch) as (-> & -> & -> & -> & ->).
  assert (Hv' : json_typed v').
  { eapply changed_typed; [|exact Hch|exact Hv]. intros x x' [-> Hw] Hd. eapply writes_typed; eassumption. }
  apply contains_whole; [exact Hv'|exact Hv|]. eapply changed_more; [exact Hch| |exact (names_hops _ _ _ _ L Hn)|exact Hv].
  intros x x' [-> Hw] Hd.
  assert (HM : exists w, member_set k w (VObj i kvs lo) x').
  { inversion Hw as [k0 c0 d0 d0' H|p0 i0 c0 d0 d0' Hi _|p0 c0 l d0' Hi H|k0 q0 r c0 w d0 d0' _ Hb H|p0 i0 q0 r c0 w d0 d0' Hi _ Hb H]; subst; try discriminate; eauto. }
  destruct HM as (w & i0 & kvs0 & lo0 & i' & kvs' & lo' & E0 & -> & _ & _ & _ & Hoth). injection E0 as <- <- <-.
  apply json_typed_obj in Hd as [_ Hd]. rewrite Forall_forall in Hd.
  apply contained_obj. intros k0 id0 z Hz. exists id0, z. split; [|exact (contained_refl z (Hd _ Hz))].
  apply Hoth; [|exact Hz]. intros ->. apply Hk. apply in_map_iff. exists (k, (id0, z)). auto.
Qed.
Lemma run_refl l : Forall json_typed l -> Forall2 EQ l l.
Proof. intros H. induction H; constructor; [now apply EQ_refl|assumption]. Qed.
Theorem append_contains E W W' front v c ps v' y hs l : json_typed v -> json_typed c -> names ps -> leads v ps hs (VArr l) ->
  append_at E W front v (arg_v c) ps = (v', Ok y) -> contains E W' v' v [] = Ok true.
Proof.
  intros Hv Hc Hn L Ha. assert (M := typed_maps v Hv).
  apply (append_iff E W front v c ps v' y M (names_plain _ Hn)) in Ha as (-> & [(hs0 & l0 & L0 & Hch)|(q & r & z & _ & Hm & _)]); [|elim (leads_not_missing ps v hs _ L M Hm)].
  destruct (leads_det _ _ _ _ L _ _ M L0) as (<- & E0). injection E0 as <-.
  assert (Hv' : json_typed v').
  { eapply changed_typed; [|exact Hch|exact Hv]. intros x x' [-> ->] Hd. apply json_typed_arr in Hd. apply json_typed_arr.
    destruct front; cbn [end_added]; [now constructor|]. apply Forall_app. split; [exact Hd|]. now constructor. }
  apply contains_whole; [exact Hv'|exact Hv|]. eapply changed_more; [exact Hch| |exact (names_hops _ _ _ _ L Hn)|exact Hv].
  intros x x' [-> ->] Hd. apply json_typed_arr in Hd. destruct front; cbn [end_added].
  - rewrite <- (app_nil_r l) at 1. apply (contained_arr EQ [c] l []). now apply run_refl.
  - apply (contained_arr EQ [] l [c]). now apply run_refl.
Qed.
(** Delete of a member, or of the first or last element. *)
Theorem delete_contains E W W' v ps p first others v' : json_typed v -> first :: others = ps ++ [p] -> names ps ->
  (exists k, p = PStr k) \/ p = PInt 0 \/ p = PInt (-1) ->
  delete_at E W false v first others = (v', Ok tt) -> contains E W' v v' [] = Ok true.
Proof.
  intros Hv Ep Hn Hpk Hdel. assert (M := typed_maps v Hv).
  assert (Hp : Forall plain (first :: others)).
  { rewrite Ep. apply Forall_app. split; [now apply names_plain|]. constructor; [|constructor]. destruct Hpk as [(k & ->)|[-> | ->]]; exact I. }
  destruct (proj2 (delete_effect E W v ps p first others M Hp Ep) v' Hdel) as (hs & d & d' & L & Hch & _ & Hrem & _).
  assert (Hv' : json_typed v').
  { eapply changed_typed; [|exact Hch|exact Hv]. intros x x' [-> ->] Hd. inversion Hrem as [i a k e b lo lo' Hk|a e b p0 i Hi Hr]; subst.
    - apply json_typed_obj in Hd as [Hnd Hd]. apply Forall_app in Hd as [H1 H2]. inversion H2; subst. apply json_typed_obj. unfold akeys in *. rewrite map_app in *. cbn in Hnd.
      split; [now apply NoDup_remove_1 in Hnd|]. now apply Forall_app.
    - apply json_typed_arr in Hd. apply Forall_app in Hd as [H1 H2]. inversion H2; subst. apply json_typed_arr. now apply Forall_app. }
  apply contains_whole; [exact Hv|exact Hv'|]. eapply changed_less; [exact Hch| |exact (names_hops _ _ _ _ L Hn)|exact Hv].
  intros x x' [-> ->] Hd. inversion Hrem as [i a k e b lo lo' Hk|a e b p0 i Hi Hr]; subst.
  - apply json_typed_obj in Hd as [_ Hd]. rewrite Forall_forall in Hd. apply contained_obj. intros k0 id0 z Hz. exists id0, z.
    assert (Hz' : In (k0, (id0, z)) (a ++ (k, e) :: b)) by (apply in_app_or in Hz as [Hz|Hz]; apply in_or_app; [now left|right; now right]).
    split; [exact Hz'|exact (contained_refl z (Hd _ Hz'))].
  - apply json_typed_arr in Hd. apply Forall_app in Hd as [H1 H2]. inversion H2; subst.
    destruct Hpk as [(k & ->)|[-> | ->]]; [discriminate| |]; cbn in Hi; injection Hi as <-.
    + assert (a = []) by (destruct Hr as [Hr|Hr]; destruct a; cbn [List.length] in *; (reflexivity || lia)). subst a. cbn [app].
      replace (e :: b) with ([e] ++ b ++ []) by now rewrite app_nil_r. apply contained_arr. now apply run_refl.
    + assert (b = []) by (destruct Hr as [Hr|Hr]; destruct b; cbn [List.length] in *; (reflexivity || lia)). subst b. rewrite app_nil_r.
      apply (contained_arr EQ [] a [e]). now apply run_refl.
Qed.
