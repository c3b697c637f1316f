(** A document that is written to text and read back between calls (C93). *)
From Verif Require Import Base Utf8 Float64 Value Scan Unmarshal Pure Opt Marshal Access Path Edit Iter Compare SpecJson SpecValue SpecLax SpecText SpecOpts SpecOrder SpecPath SpecSafe
  SpecTwin SpecSave ListLemmas ValueLemmas SpecFacts ParseComplete LaxFacts LaxParse LaxSame LaxNum RoundTrip MarshalFacts MarshalProof MarshalClaims CompareProof CanonProof
  ApartProof ContainProof ExportImport PathProof SetProof SetClaims EditClaims SetExact SpliceProof TwinProof.

Notation clean_text := (all_text well_formed (fun _ src => lax_num src)).

(** *** Writing and reading back *)
Lemma number_equal_self s : number_equal s s = true.
Proof.
  assert (H : equal ExampleWorld.world1 [] (VNum (Num false false 0 0 (SpecFloat.S754_zero false)) s) (VNum (Num false false 0 0 (SpecFloat.S754_zero false)) s) = true) by (apply equal_refl; exact I).
  exact H.
Qed.

Lemma back_alike E v : forall j, json_typed v -> clean_text v ->
  shows (fun n src j => j = JNum src /\ lax_num src) false any_order v j ->
  alike v (to_V E j) /\ clean_text (to_V E j).
Proof.
  induction v as [| s | n src | i kvs lo IH | l IH | b | | | ] using V_ind'; intros j Ht Ha Hs;
    inversion Hs as [|b' Eb Ej|n0 src0 j0 HN En Ej|s0 s' Hf Es Ej|l0 l' Hl El Ej|i0 kvs0 lo0 kvs' ms Hp Hor Hm Ek Ej]; subst; try contradiction.
  - cbn in Ha. rewrite <- (wf_fixed _ _ Ha Hf). cbn. split; [constructor|exact Ha].
  - destruct HN as (-> & Hx). cbn [to_V]. destruct (lax_number E src Hx) as (n' & ->). split; [constructor; apply number_equal_self|exact Hx].
  - apply json_typed_obj in Ht as [Hnd Ht]. apply all_text_obj in Ha. cbn [kept] in Hm.
    assert (Hnd' : NoDup (map fst kvs')) by (eapply Permutation_NoDup; [apply Permutation_map; exact Hp|exact Hnd]).
    rewrite Forall_forall in IH, Ht, Ha.
    assert (Hk : Forall2 (fun (x : bytes * (Z * V)) m => fst x = fst m /\ alike (snd (snd x)) (to_V E (snd m)) /\ clean_text (to_V E (snd m))) kvs' ms).
    { assert (Hin : forall x, In x kvs' -> In x kvs) by (intros x; apply Permutation_in; now symmetry).
      clear Hp Hs Hor Hnd'. induction Hm as [|x m kvs2 ms [Hf Hsh] Hm IHm]; constructor.
      - assert (Hx : In x kvs) by (apply Hin; now left). destruct (Ha x Hx) as [W1 W2]. split; [exact (wf_fixed _ _ W1 Hf)|].
        apply (IH x Hx); auto.
      - apply IHm. intros z Hz. apply Hin. now right. }
    assert (Em : map fst kvs' = map fst ms) by (clear -Hk; induction Hk as [|x m k2 m2 [H _] _ IHk]; cbn; congruence).
    assert (Hms : NoDup (map fst ms)) by now rewrite <- Em.
    assert (Hw : Forall (fun m => well_formed (fst m) /\ clean_text (to_V E (snd m))) ms).
    { assert (Hf : Forall (fun x : bytes * (Z * V) => well_formed (fst x)) kvs').
      { apply Forall_forall. intros x Hx. apply Ha. apply (Permutation_in x (Permutation_sym Hp) Hx). }
      clear -Hk Hf. induction Hk as [|x m k2 m2 (H1 & _ & H2) _ IHk]; constructor; inversion Hf; subst; [split; [congruence|exact H2]|auto]. }
    cbn [to_V]. change (fold_left _ ms new_object) with (put_all E ms (VObj 0 [] None)).
    split; [|apply all_text_put_all; [exact Hw|exact I]].
    destruct (put_all_nodup E ms 0 [] None) as (i' & new & lo' & -> & Hnew); [exact Hms|]. cbn [app].
    assert (Hkn : Forall2 (fun x y : bytes * (Z * V) => fst x = fst y /\ alike (snd (snd x)) (snd (snd y))) kvs' new).
    { clear -Hk Hnew. revert new Hnew. induction Hk as [|x m k2 m2 (H1 & H2 & _) _ IHk]; intros new Hnew; inversion Hnew as [|? y ? n2 [E1 E2] Hn2]; subst; constructor; [|auto].
      rewrite E1, E2. split; [congruence|exact H2]. }
    assert (En : map fst kvs' = map fst new) by (clear -Hkn; induction Hkn as [|x m k2 m2 [H _] _ IHk]; cbn; congruence).
    assert (Hnn : NoDup (akeys new)) by (unfold akeys; rewrite <- En; exact Hnd').
    constructor; [exact Hnd|exact Hnn| |].
    + intros k id x Hl. apply alookup_In in Hl. apply (Permutation_in _ Hp) in Hl.
      assert (G : exists y, In y new /\ fst y = k /\ alike x (snd (snd y))).
      { clear -Hkn Hl. induction Hkn as [|z y k2 n2 [H1 H2] _ IHk]; [destruct Hl|]. destruct Hl as [->|Hl].
        - exists y. split; [now left|]. split; [now symmetry|exact H2].
        - destruct (IHk Hl) as (y' & A & B). exists y'. split; [now right|exact B]. }
      destruct G as ([k' [id' y]] & G1 & G2 & G3). cbn in G2, G3. subst k'. exists id', y. split; [|exact G3].
      now apply (alookup_NoDup_In _ _ _ Hnn).
    + intros k Hl. apply alookup_None in Hl. apply alookup_None. unfold akeys in *. rewrite <- En. intros Hi. apply Hl.
      apply (Permutation_in _ (Permutation_map fst (Permutation_sym Hp))). exact Hi.
  - apply json_typed_arr in Ht. apply all_text_arr in Ha. cbn [to_V].
    assert (G : Forall2 alike l (map (to_V E) l') /\ Forall clean_text (map (to_V E) l')).
    { clear Hs. revert IH Ht Ha. induction Hl as [|x j l l' Hx Hl IHl]; intros IH Ht Ha; cbn [map]; [split; constructor|].
      inversion IH as [|? ? I1 I2]; inversion Ht; inversion Ha; subst. destruct (I1 j) as [A B]; try assumption. destruct IHl as [C D]; try assumption.
      split; constructor; assumption. }
    destruct G as [G1 G2]. split; [now constructor|now apply all_text_arr].
  - cbn. split; [constructor|exact I].
  - cbn. split; [constructor|exact I].
Qed.

Lemma saved_clean E W o v : opt_ws o -> o_omit_null o = false -> clean v -> alike v (saved E W o v) /\ clean (saved E W o v).
Proof.
  intros Ho Hom [Ht Ha]. destruct (marshal_accepted E W o (fun _ src => lax_num src) v Ho Ht ltac:(auto) (wf_text_bytes v Ha)) as (b & j & Hm & Hj & Hs).
  rewrite Hom in Hs. destruct (back_alike E v j Ht Ha Hs) as [A B]. unfold saved. rewrite Hm, (unmarshal_of_lax E b j Hj).
  split; [exact A|]. split; [|exact B]. apply alike_twins in A. apply A.
Qed.

(** *** What calls make of it *)
Lemma changed_clean (R : V -> V -> Prop) : (forall d d', R d d' -> clean_text d -> clean_text d') ->
  forall hs v v', changed R hs v v' -> clean_text v -> clean_text v'.
Proof.
  intros HR hs v v' H. induction H as [v v' H|i a k id x x' b lo hs H IH|a x x' b hs H IH]; intros Ht; [eauto| |].
  - apply all_text_obj in Ht. apply all_text_obj.
    apply Forall_app in Ht as [H1 H2]. inversion H2 as [|? ? [N1 N2]]; subst. apply Forall_app. split; [exact H1|]. constructor; [split; [exact N1|now apply IH]|assumption].
  - apply all_text_arr in Ht. apply all_text_arr. apply Forall_app in Ht as [H1 H2]. inversion H2; subst. apply Forall_app. split; [exact H1|].
    constructor; [now apply IH|assumption].
Qed.
Lemma built_clean ps c w : built ps c w -> Forall clean_param ps -> clean_text c -> clean_text w.
Proof.
  induction 1 as [c|k ps c w H IH|p ps c w Hi H IH]; intros Hp Hc; [exact Hc| |]; inversion Hp as [|? ? [_ Hk] Hr]; subst.
  - apply all_text_obj. constructor; [|constructor]. split; [now apply Hk|now apply IH].
  - apply all_text_arr. constructor; [now apply IH|constructor].
Qed.
Lemma member_set_clean k c d d' : member_set k c d d' -> well_formed k -> clean_text c -> clean_text d -> clean_text d'.
Proof.
  intros (i & kvs & lo & i' & kvs' & lo' & -> & -> & _ & Hn & Hi & Hs) Hk Hc Hd.
  apply all_text_obj in Hd. apply all_text_obj. apply Forall_forall. intros [k' e] He.
  destruct (list_eq_dec Z.eq_dec k' k) as [->|Hne].
  - apply (alookup_NoDup_In _ _ _ Hn) in He. apply (alookup_NoDup_In _ _ _ Hn) in Hi. assert (e = (i', c)) by congruence. subst e. split; [exact Hk|exact Hc].
  - apply Hs in He; [|exact Hne]. rewrite Forall_forall in Hd. exact (Hd _ He).
Qed.
Lemma appended_clean c d d' : elem_appended c d d' -> clean_text c -> clean_text d -> clean_text d'.
Proof. intros (l & -> & ->) Hc Hd. apply all_text_arr in Hd. apply all_text_arr, Forall_app. split; [exact Hd|]. now constructor. Qed.
Lemma writes_clean p ps c d d' : writes p ps c d d' -> Forall clean_param (p :: ps) -> clean_text c -> clean_text d -> clean_text d'.
Proof.
  intros H Hp Hc Hd. destruct H as [k c d d' H|p i c d d' Hi (a & x & b & -> & -> & _)|p c l d' Hi H|k q ps c w d d' _ Hb H|p i q ps c w d d' Hi _ Hb H];
    inversion Hp as [|? ? [_ Hk] Hr]; subst.
  - eapply member_set_clean; eauto.
  - apply all_text_arr in Hd. apply Forall_app in Hd as [H1 H2]. inversion H2; subst. apply all_text_arr, Forall_app. split; [exact H1|]. now constructor.
  - eapply appended_clean; eassumption.
  - eapply member_set_clean; eauto using built_clean.
  - eapply appended_clean; eauto using built_clean.
Qed.

Lemma clean_plain ps : Forall clean_param ps -> Forall plain ps.
Proof. apply Forall_impl. intros p [H _]. exact H. Qed.

Lemma set_clean E v c p ps v' y : clean v -> clean c -> Forall clean_param (p :: ps) -> set_at E v (arg_v c) p ps = (v', Ok y) -> clean v'.
Proof.
  intros [Ht Ha] [Hct Hca] Hp Hs. destruct (set_creates E v c p ps v' y (typed_maps v Ht) (clean_plain _ Hp) Hs) as (-> & ps1 & q & ps2 & hs & d & Ep & L & Hch).
  rewrite Ep in Hp. apply Forall_app in Hp as [_ Hp]. split.
  - eapply changed_typed; [|exact Hch|exact Ht]. intros x x' [-> Hw] Hd. eapply writes_typed; eassumption.
  - eapply changed_clean; [|exact Hch|exact Ha]. intros x x' [-> Hw] Hd. eapply writes_clean; eassumption.
Qed.
Lemma arr_more a b c : clean_text (VArr (a ++ b)) -> clean_text c -> clean_text (VArr (a ++ c :: b)).
Proof. rewrite !all_text_arr, !Forall_app. intros [H1 H2] Hc. auto. Qed.
Lemma arr_more_typed a b c : json_typed (VArr (a ++ b)) -> json_typed c -> json_typed (VArr (a ++ c :: b)).
Proof. rewrite !json_typed_arr, !Forall_app. intros [H1 H2] Hc. auto. Qed.
Lemma append_clean E W front v c ps v' y : clean v -> clean c -> Forall clean_param ps -> append_at E W front v (arg_v c) ps = (v', Ok y) -> clean v'.
Proof.
  intros [Ht Ha] [Hct Hca] Hp Hs. apply (append_iff E W front v c ps v' y (typed_maps v Ht) (clean_plain _ Hp)) in Hs as (-> & [(hs & l & L & Hch)|(q & r & z & -> & _ & Hs)]).
  - split.
    + eapply changed_typed; [|exact Hch|exact Ht]. intros x x' [-> ->] Hd. destruct front; cbn [end_added]; [apply (arr_more_typed [] l c); assumption|].
      apply arr_more_typed; [|assumption]. now rewrite app_nil_r.
    + eapply changed_clean; [|exact Hch|exact Ha]. intros x x' [-> ->] Hd. destruct front; cbn [end_added]; [apply (arr_more [] l c); assumption|].
      apply arr_more; [|assumption]. now rewrite app_nil_r.
  - eapply (set_clean E v (VArr [c]) q r v' z); [now split| |exact Hp|exact Hs].
    split; [apply json_typed_arr|apply all_text_arr]; now repeat constructor.
Qed.
Lemma insert_clean E W (af : bool) v c p ps v' y : clean v -> clean c -> Forall clean_param (p :: ps) ->
  (if af then insert_after E W v (arg_v c) p ps else insert_before E W v (arg_v c) p ps) = (v', Ok y) -> clean v'.
Proof.
  intros [Ht Ha] [Hct Hca] Hp Hs.
  assert (Hq : exists qs q, p :: ps = qs ++ [q]) by (destruct (@exists_last _ (p :: ps)) as (qs & q & Eq); [discriminate|eauto]). destruct Hq as (qs & q & Eq).
  destruct (proj1 (insert_iff E W af v c qs q p ps v' y (typed_maps v Ht) (clean_plain _ Hp) Eq) Hs) as (-> & hs & d & i & L & Hi & Hch).
  assert (G : forall x x', x = d /\ added af c i x x' -> exists a b, x = VArr (a ++ b) /\ x' = VArr (a ++ c :: b)).
  { intros x x' [_ H]. destruct af; destruct H as (a & e & b & -> & _ & ->).
    - exists (a ++ [e]), b. rewrite <- !app_assoc. auto.
    - exists a, (e :: b). auto. }
  split.
  - eapply changed_typed; [|exact Hch|exact Ht]. intros x x' H Hd. destruct (G _ _ H) as (a & b & -> & ->). now apply arr_more_typed.
  - eapply changed_clean; [|exact Hch|exact Ha]. intros x x' H Hd. destruct (G _ _ H) as (a & b & -> & ->). now apply arr_more.
Qed.
Lemma delete_clean E W v p ps v' : clean v -> Forall clean_param (p :: ps) -> delete_at E W false v p ps = (v', Ok tt) -> clean v'.
Proof.
  intros [Ht Ha] Hp Hs. assert (Hq : exists qs q, p :: ps = qs ++ [q]) by (destruct (@exists_last _ (p :: ps)) as (qs & q & Eq); [discriminate|eauto]). destruct Hq as (qs & q & Eq).
  destruct (proj2 (delete_effect E W v qs q p ps (typed_maps v Ht) (clean_plain _ Hp) Eq) v' Hs) as (hs & d & d' & L & Hch & _ & Hrem & _). split.
  - eapply changed_typed; [|exact Hch|exact Ht]. intros x x' [-> ->] Hd. inversion Hrem as [i a k e b lo lo' Hk|a e b p0 i Hi Hr]; subst.
    + apply json_typed_obj in Hd as [Hnd Hd]. apply Forall_app in Hd as [H1 H2]. inversion H2; subst. apply json_typed_obj. unfold akeys in *. rewrite map_app in *. cbn in Hnd.
      split; [now apply NoDup_remove_1 in Hnd|]. now apply Forall_app.
    + apply json_typed_arr in Hd. apply Forall_app in Hd as [H1 H2]. inversion H2; subst. apply json_typed_arr. now apply Forall_app.
  - eapply changed_clean; [|exact Hch|exact Ha]. intros x x' [-> ->] Hd. inversion Hrem as [i a k e b lo lo' Hk|a e b p0 i Hi Hr]; subst.
    + apply all_text_obj in Hd. apply Forall_app in Hd as [H1 H2]. inversion H2; subst. apply all_text_obj. now apply Forall_app.
    + apply all_text_arr in Hd. apply Forall_app in Hd as [H1 H2]. inversion H2; subst. apply all_text_arr. now apply Forall_app.
Qed.

Lemma child_clean v h c : child_at v h = Some c -> clean v -> clean c.
Proof.
  intros H [Ht Ha]. destruct v as [| | |i kvs lo|l| | | |], h as [j|k]; try discriminate; cbn in H.
  - destruct (alookup k kvs) as [[id x]|] eqn:L; [|discriminate]. injection H as <-. apply alookup_In in L.
    apply json_typed_obj in Ht as [_ Ht]. apply all_text_obj in Ha. rewrite Forall_forall in Ht, Ha. split; [exact (Ht _ L)|apply (Ha _ L)].
  - apply nth_error_In in H. apply json_typed_arr in Ht. apply all_text_arr in Ha. rewrite Forall_forall in Ht, Ha. split; auto.
Qed.
Lemma sub_clean hs : forall v c, sub_at v hs = Some c -> clean v -> clean c.
Proof.
  induction hs as [|h hs IH]; cbn; intros v c H Hv; [congruence|]. destruct (child_at v h) as [x|] eqn:L; [|discriminate].
  apply (IH x c H). now apply (child_clean v h).
Qed.
Lemma found_clean E W v p o v' c : clean v -> get E W false v p o = (v', Ok c) -> clean c.
Proof.
  intros Hv H. pose proof (get_same E W v p o) as Hs. rewrite H in Hs. cbn in Hs. subst v'. unfold get in H.
  destruct (locate E W false v p o) as [v1 r]. injection H as -> H. destruct r as [hs|e| |]; cbn [rbind] in H; try discriminate.
  destruct (sub_at v hs) as [x|] eqn:L; [|discriminate]. injection H as <-. now apply (sub_clean hs v).
Qed.
Lemma sort_clean W f v v' : clean v -> sort_array W v (Some f) = Ok v' -> clean v'.
Proof.
  intros Hv H. destruct v as [| | | |l| | | |]; cbn in H; try discriminate; try (injection H as <-; exact Hv).
  injection H as <-. destruct Hv as [Ht Ha]. apply json_typed_arr in Ht. apply all_text_arr in Ha.
  assert (F : Forall2 (fun x y => json_typed x /\ clean_text x) l l) by (induction l; constructor; inversion Ht; inversion Ha; subst; auto).
  assert (G : Forall2 (fun x y => json_typed x /\ clean_text x) (go_sort W f l) (go_sort W f l)) by (unfold go_sort; now apply arrange_rel).
  assert (K : forall s t : list V, Forall2 (fun x y => json_typed x /\ clean_text x) s t -> Forall json_typed s /\ Forall clean_text s)
    by (intros s t K; induction K as [|x y s t [K1 K2] _ [K3 K4]]; split; constructor; assumption).
  destruct (K _ _ G). split; [now apply json_typed_arr|now apply all_text_arr].
Qed.

Lemma end_case {A} (r : V * res A) (v : V) : clean v -> (failed (snd r) -> fst r = v) -> (forall v' y, r = (v', Ok y) -> clean v') -> clean (fst (both_of r)).
Proof.
  intros Hv Hf Ho. destruct r as [v' x]. cbn. destruct x as [y|e| |]; [now apply (Ho v' y)| | |]; cbn in Hf; rewrite Hf; auto; intros a; discriminate.
Qed.
Lemma perform_clean E W d v a : clean v -> clean_call a -> clean (fst (perform E W d v a)).
Proof.
  intros Hv Ha. destruct Ha as [p o|p o|p o|c p o Hc Hp|c p o Hc Hp|c p o Hc Hp|front c ps Hc Hp|p o Hp|f Hf| |]; cbn [perform]; try exact Hv.
  - unfold both_of. cbn [fst]. now rewrite get_same.
  - pose proof (get_same E W v p o) as Hs. destruct (get E W false v p o) as [v1 r] eqn:Eg. cbn in Hs. subst v1.
    destruct r as [c|e| |]; cbn [fst]; try exact Hv. now apply (found_clean E W v p o v).
  - unfold both_of, must_get. pose proof (get_same E W v p o) as Hs. destruct (get E W false v p o) as [v1 r]. cbn in *. now subst v1.
  - destruct (failing_unchanged E W v (arg_v c) p o []) as (F & _). apply (end_case _ v Hv F). intros v' y. now apply set_clean.
  - destruct (failing_unchanged E W v (arg_v c) p o []) as (_ & F & _). apply (end_case _ v Hv F). intros v' y. now apply (insert_clean E W false).
  - destruct (failing_unchanged E W v (arg_v c) p o []) as (_ & _ & F & _). apply (end_case _ v Hv F). intros v' y. now apply (insert_clean E W true).
  - destruct (failing_unchanged E W v (arg_v c) (PInt 0) [] ps) as (_ & _ & _ & F1 & F2 & _).
    assert (F : failed (snd (append_at E W front v (arg_v c) ps)) -> fst (append_at E W front v (arg_v c) ps) = v) by (destruct front; [exact F1|exact F2]).
    apply (end_case _ v Hv F). intros v' y. now apply append_clean.
  - destruct (failing_unchanged E W v (arg_v VNull) p o []) as (_ & _ & _ & _ & _ & F). apply (end_case _ v Hv F). intros v' []. now apply delete_clean.
  - destruct (sort_array W v (Some f)) as [v1|e| |] eqn:Es; cbn [fst]; try exact Hv. now apply (sort_clean W f v).
Qed.
Lemma clean_same a : clean_call a -> same_call a a.
Proof.
  assert (G : forall c, clean c -> twins c c) by (intros c [H _]; split; [exact H|]; split; [exact H|]; intros W path; now apply equal_refl).
  intros H; destruct H; constructor; auto.
Qed.

Theorem saves_invisible E l : forall v w, clean v -> twins v w -> Forall clean_action l ->
  snd (with_saves E v l) = snd (series E w (calls l)) /\ twins (fst (with_saves E v l)) (fst (series E w (calls l))) /\ clean (fst (with_saves E v l)).
Proof.
  induction l as [|[[[W d] a]|W o] l IH]; intros v w Hv Hw Hl; [cbn; auto| |]; inversion Hl as [|? ? Ha Hr]; subst.
  - cbn [with_saves calls flat_map app series]. fold (calls l). cbn in Ha.
    pose proof (perform_alike E W d d v w a a (proj1 (twins_alike v w) Hw) (clean_same a Ha)) as [P1 P2].
    pose proof (perform_clean E W d v a Hv Ha) as P3.
    destruct (perform E W d v a) as [v1 x1]. destruct (perform E W d w a) as [w1 y1]. cbn [fst snd] in *.
    destruct (IH v1 w1 P3 (proj2 (twins_alike v1 w1) P1) Hr) as (A & B & C).
    destruct (with_saves E v1 l) as [v2 xs]. destruct (series E w1 (calls l)) as [w2 ys]. cbn [fst snd] in *. split; [congruence|auto].
  - cbn [with_saves calls flat_map app]. fold (calls l). destruct Ha as [Ho Hom]. destruct (saved_clean E W o v Ho Hom Hv) as [S1 S2].
    apply IH; [exact S2| |exact Hr]. apply twins_alike. eapply alike_trans; [apply alike_sym; exact S1|now apply twins_alike].
Qed.

Theorem saves_unseen (E : Env) v l : clean v -> Forall clean_action l ->
  snd (with_saves E v l) = snd (series E v (calls l)) /\
  forall W path, equal W path (fst (with_saves E v l)) (fst (series E v (calls l))) = true.
Proof.
  intros Hv Hl. assert (Ht : twins v v) by (destruct Hv as [H _]; split; [exact H|]; split; [exact H|]; intros W path; now apply equal_refl).
  destruct (saves_invisible E l v v Hv Ht Hl) as (A & B & _). split; [exact A|]. apply B.
Qed.
Theorem save_reads_back (E : Env) (W : World) (o : opt) v : opt_ws o -> o_omit_null o = false -> clean v ->
  exists b w, marshal_opt E W o v = Ok b /\ unmarshal E b = Ok (w, None) /\ clean w /\ forall W' path, equal W' path v w = true.
Proof.
  intros Ho Hom Hv. destruct (saved_clean E W o v Ho Hom Hv) as [A B]. destruct Hv as [Ht Ha].
  destruct (marshal_accepted E W o (fun _ src => lax_num src) v Ho Ht ltac:(auto) (wf_text_bytes v Ha)) as (b & j & Hm & Hj & _).
  unfold saved in *. rewrite Hm, (unmarshal_of_lax E b j Hj) in *. exists b, (to_V E j). split; [reflexivity|]. split; [now apply unmarshal_of_lax|].
  split; [exact B|]. apply twins_alike in A. apply A.
Qed.
Theorem calls_keep_clean (E : Env) v l : clean v -> Forall clean_action l -> clean (fst (with_saves E v l)).
Proof.
  intros Hv Hl. assert (Ht : twins v v) by (destruct Hv as [H _]; split; [exact H|]; split; [exact H|]; intros W path; now apply equal_refl).
  now destruct (saves_invisible E l v v Hv Ht Hl) as (_ & _ & C).
Qed.
Theorem json_clean (E : Env) b j v : Forall is_byte b -> json_doc b j -> unmarshal E b = Ok (v, None) -> clean v.
Proof.
  intros Hb Hj Hu. destruct (ApartProof.json_parsed_wf E b j v Hb Hj Hu) as (T & A & _). split; [exact T|].
  revert A. apply all_text_impl; [auto|]. intros n src Q. now apply q_number_lax in Q.
Qed.
