(** Saves under OptOmitNull of documents without null members (C93). *)
From Verif Require Import Base Utf8 Float64 Value Scan Unmarshal Pure Opt Marshal Access Path Edit Iter Compare SpecJson SpecValue SpecLax SpecText SpecOpts SpecOrder SpecPath SpecSafe
  SpecTwin SpecOmit SpecSetSplice SpecSave ListLemmas ValueLemmas SpecFacts MarshalFacts MarshalProof CompareProof PathProof ContainProof SetProof SetClaims EditClaims SetExact OmitCanonProof TwinProof SaveProof SaveOrderProof.

Notation nf := no_null_members.
Lemma nf_arr l : nf (VArr l) <-> Forall nf l.
Proof. apply all_objs_arr. Qed.
Lemma nf_obj i kvs lo : nf (VObj i kvs lo) <-> Forall (fun e : bytes * (Z * V) => snd (snd e) <> VNull) kvs /\ Forall (fun e : bytes * (Z * V) => nf (snd (snd e))) kvs.
Proof. apply all_objs_obj. Qed.

Lemma alike_null v w : alike v w -> w = VNull -> v = VNull.
Proof. intros H ->. now inversion H. Qed.
Lemma alike_nf v : forall w, alike v w -> nf v -> nf w.
Proof.
  induction v as [|s|a src|i kvs lo IH|l IH|b| | |] using V_ind'; intros w H Hv; inversion H as [| | | |? l' F|? ? ? i' kvs' lo' N N' K K0]; subst; try exact I.
  - apply nf_obj in Hv as [H1 H2]. rewrite Forall_forall in IH, H1, H2.
    assert (G : forall k id y, In (k, (id, y)) kvs' -> exists id0 x, In (k, (id0, x)) kvs /\ alike x y).
    { intros k id y Hy. apply (alookup_NoDup_In _ _ _ N') in Hy. destruct (alookup k kvs) as [[id0 x]|] eqn:L; [|rewrite (K0 _ L) in Hy; discriminate].
      destruct (K _ _ _ L) as (id' & y' & A & B). exists id0, x. split; [now apply alookup_In|]. congruence. }
    apply nf_obj. split; apply Forall_forall; intros [k [id y]] Hy; destruct (G _ _ _ Hy) as (id0 & x & A & B); cbn [snd].
    + intros ->. apply (H1 _ A). cbn. now apply (alike_null x VNull).
    + apply (IH _ A y B). exact (H2 _ A).
  - apply nf_arr in Hv. apply nf_arr. clear H. induction F; constructor; inversion IH; inversion Hv; subst; auto.
Qed.

(** *** Calls *)
Lemma changed_nf (R : V -> V -> Prop) : (forall d d', R d d' -> nf d -> nf d' /\ d' <> VNull) ->
  forall hs v v', changed R hs v v' -> nf v -> nf v' /\ v' <> VNull.
Proof.
  intros HR hs v v' H. induction H as [v v' H|i a k id x x' b lo hs H IH|a x x' b hs H IH]; intros Ht; [eauto| |]; (split; [|discriminate]).
  - apply nf_obj in Ht as [T1 T2]. apply Forall_app in T1 as [A1 A2]. apply Forall_app in T2 as [B1 B2]. inversion A2; inversion B2; subst. destruct IH as [I1 I2]; [assumption|].
    apply nf_obj. split; apply Forall_app; (split; [assumption|]); constructor; assumption.
  - apply nf_arr in Ht. apply Forall_app in Ht as [A1 A2]. inversion A2; subst. apply nf_arr, Forall_app. split; [assumption|]. constructor; [now apply IH|assumption].
Qed.
Lemma built_nf ps c w : built ps c w -> nf c -> c <> VNull -> nf w /\ w <> VNull.
Proof.
  induction 1 as [c|k ps c w H IH|p ps c w Hi H IH]; intros Hc Hn; [auto| |]; destruct (IH Hc Hn) as [A B]; (split; [|discriminate]).
  - apply nf_obj. split; repeat constructor; assumption.
  - apply nf_arr. now repeat constructor.
Qed.
Lemma member_nf k c d d' : member_set k c d d' -> nf c -> c <> VNull -> nf d -> nf d' /\ d' <> VNull.
Proof.
  intros (i & kvs & lo & i' & kvs' & lo' & -> & -> & _ & Hn & Hi & Hs) Hc Hne Hd. split; [|discriminate].
  apply nf_obj in Hd as [H1 H2]. rewrite Forall_forall in H1, H2.
  assert (G : forall k' e, In (k', e) kvs' -> e = (i', c) \/ In (k', e) kvs).
  { intros k' e He. destruct (list_eq_dec Z.eq_dec k' k) as [->|Hk]; [|right; now apply Hs]. left.
    apply (alookup_NoDup_In _ _ _ Hn) in He. apply (alookup_NoDup_In _ _ _ Hn) in Hi. congruence. }
  apply nf_obj. split; apply Forall_forall; intros [k' e] He; destruct (G _ _ He) as [->|Ho]; try assumption; [exact (H1 _ Ho)|exact (H2 _ Ho)].
Qed.
Lemma appended_nf c d d' : elem_appended c d d' -> nf c -> nf d -> nf d' /\ d' <> VNull.
Proof. intros (l & -> & ->) Hc Hd. split; [|discriminate]. apply nf_arr in Hd. apply nf_arr, Forall_app. split; [exact Hd|]. now constructor. Qed.
Lemma writes_nf p ps c d d' : writes p ps c d d' -> nf c -> c <> VNull -> nf d -> nf d' /\ d' <> VNull.
Proof.
  intros H Hc Hne Hd. destruct H as [k c d d' H|p i c d d' Hi (a & x & b & -> & -> & _)|p c l d' Hi H|k q ps c w d d' _ Hb H|p i q ps c w d d' Hi _ Hb H].
  - eapply member_nf; eassumption.
  - split; [|discriminate]. apply nf_arr in Hd. apply Forall_app in Hd as [H1 H2]. inversion H2; subst. apply nf_arr, Forall_app. split; [exact H1|]. now constructor.
  - eapply appended_nf; eassumption.
  - destruct (built_nf _ _ _ Hb Hc Hne). eapply member_nf; eassumption.
  - destruct (built_nf _ _ _ Hb Hc Hne). eapply appended_nf; eassumption.
Qed.
Lemma set_nf E v c p ps v' y : clean v -> Forall clean_param (p :: ps) -> nf v -> nf c -> c <> VNull -> set_at E v (arg_v c) p ps = (v', Ok y) -> nf v'.
Proof.
  intros [Ht _] Hp Hv Hc Hne Hs. destruct (set_creates E v c p ps v' y (typed_maps v Ht) (clean_plain _ Hp) Hs) as (-> & ps1 & q & ps2 & hs & d & Ep & L & Hch).
  eapply changed_nf; [|exact Hch|exact Hv]. intros x x' [-> Hw] Hd. eapply writes_nf; eassumption.
Qed.
Lemma more_nf a b c : nf (VArr (a ++ b)) -> nf c -> nf (VArr (a ++ c :: b)) /\ VArr (a ++ c :: b) <> VNull.
Proof. rewrite !nf_arr, !Forall_app. intros [H1 H2] Hc. split; [auto|discriminate]. Qed.
Lemma append_nf E W front v c ps v' y : clean v -> Forall clean_param ps -> nf v -> nf c -> append_at E W front v (arg_v c) ps = (v', Ok y) -> nf v'.
Proof.
  intros Hcl Hp Hv Hc Hs. apply (append_iff E W front v c ps v' y (typed_maps v (proj1 Hcl)) (clean_plain _ Hp)) in Hs as (-> & [(hs & l & L & Hch)|(q & r & z & -> & _ & Hs)]).
  - eapply changed_nf; [|exact Hch|exact Hv]. intros x x' [-> ->] Hd. destruct front; cbn [end_added]; [apply (more_nf [] l c); assumption|].
    apply more_nf; [|assumption]. now rewrite app_nil_r.
  - eapply (set_nf E v (VArr [c]) q r v' z); try eassumption; [apply nf_arr; now repeat constructor|discriminate].
Qed.
Lemma insert_nf E W (af : bool) v c p ps v' y : clean v -> Forall clean_param (p :: ps) -> nf v -> nf c ->
  (if af then insert_after E W v (arg_v c) p ps else insert_before E W v (arg_v c) p ps) = (v', Ok y) -> nf v'.
Proof.
  intros [Ht _] Hp Hv Hc Hs.
  assert (Hq : exists qs q, p :: ps = qs ++ [q]) by (destruct (@exists_last _ (p :: ps)) as (qs & q & Eq); [discriminate|eauto]). destruct Hq as (qs & q & Eq).
  destruct (proj1 (insert_iff E W af v c qs q p ps v' y (typed_maps v Ht) (clean_plain _ Hp) Eq) Hs) as (-> & hs & d & i & L & Hi & Hch).
  eapply changed_nf; [|exact Hch|exact Hv]. intros x x' [_ H] Hd.
  assert (G : exists a b, x = VArr (a ++ b) /\ x' = VArr (a ++ c :: b)).
  { destruct af; destruct H as (a & e & b & -> & _ & ->).
    - exists (a ++ [e]), b. rewrite <- !app_assoc. auto.
    - exists a, (e :: b). auto. }
  destruct G as (a & b & -> & ->). now apply more_nf.
Qed.
Lemma delete_nf E W v p ps v' : clean v -> Forall clean_param (p :: ps) -> nf v -> delete_at E W false v p ps = (v', Ok tt) -> nf v'.
Proof.
  intros [Ht _] Hp Hv Hs. assert (Hq : exists qs q, p :: ps = qs ++ [q]) by (destruct (@exists_last _ (p :: ps)) as (qs & q & Eq); [discriminate|eauto]). destruct Hq as (qs & q & Eq).
  destruct (proj2 (delete_effect E W v qs q p ps (typed_maps v Ht) (clean_plain _ Hp) Eq) v' Hs) as (hs & d & d' & L & Hch & _ & Hrem & _).
  eapply changed_nf; [|exact Hch|exact Hv]. intros x x' [-> ->] Hd. inversion Hrem as [i a k e b lo lo' Hk|a e b p0 i Hi Hr]; subst; (split; [|discriminate]).
  - apply nf_obj in Hd as [D1 D2]. apply Forall_app in D1 as [A1 A2]. apply Forall_app in D2 as [B1 B2]. inversion A2; inversion B2; subst.
    apply nf_obj. split; now apply Forall_app.
  - apply nf_arr in Hd. apply Forall_app in Hd as [A1 A2]. inversion A2; subst. apply nf_arr. now apply Forall_app.
Qed.
Lemma sub_nf hs : forall v c, sub_at v hs = Some c -> nf v -> nf c.
Proof.
  induction hs as [|h hs IH]; cbn; intros v c H Hv; [congruence|]. destruct (child_at v h) as [x|] eqn:L; [|discriminate].
  apply (IH x c H). destruct v as [| | |i kvs lo|l| | | |], h as [j|k]; try discriminate; cbn in L;
    [destruct (alookup k kvs) as [[id y]|] eqn:Lk; [|discriminate]; injection L as <-; apply alookup_In in Lk; apply nf_obj in Hv as [_ Hv]; rewrite Forall_forall in Hv; exact (Hv _ Lk)
    |apply nth_error_In in L; apply nf_arr in Hv; rewrite Forall_forall in Hv; auto].
Qed.
Lemma found_nf E W v p o v' c : nf v -> get E W false v p o = (v', Ok c) -> nf c.
Proof.
  intros Hv H. pose proof (get_same E W v p o) as Hs. rewrite H in Hs. cbn in Hs. subst v'. unfold get in H.
  destruct (locate E W false v p o) as [v1 r]. injection H as -> H. destruct r as [hs|e| |]; cbn [rbind] in H; try discriminate.
  destruct (sub_at v hs) as [x|] eqn:L; [|discriminate]. injection H as <-. now apply (sub_nf hs v).
Qed.
Lemma sort_nf W f v v' : nf v -> sort_array W v (Some f) = Ok v' -> nf v'.
Proof.
  intros Hv H. destruct v as [| | | |l| | | |]; cbn in H; try discriminate; try (injection H as <-; exact Hv).
  injection H as <-. apply nf_arr in Hv. apply nf_arr.
  assert (F : Forall2 (fun x y : V => nf x) l l) by (induction l; constructor; inversion Hv; subst; auto).
  assert (G : Forall2 (fun x y : V => nf x) (go_sort W f l) (go_sort W f l)) by (unfold go_sort; now apply arrange_rel).
  assert (K : forall s t : list V, Forall2 (fun x y : V => nf x) s t -> Forall nf s) by (intros s t K; induction K; constructor; assumption).
  exact (K _ _ G).
Qed.
Lemma end_nf {A} (r : V * res A) (v : V) : nf v -> (failed (snd r) -> fst r = v) -> (forall v' y, r = (v', Ok y) -> nf v') -> nf (fst (both_of r)).
Proof.
  intros Hv Hf Ho. destruct r as [v' x]. cbn. destruct x as [y|e| |]; [now apply (Ho v' y)| | |]; cbn in Hf; rewrite Hf; auto; intros a; discriminate.
Qed.
Lemma perform_nf E W d v a : clean v -> nf v -> clean_call a -> brings_no_null a -> nf (fst (perform E W d v a)).
Proof.
  intros Hcl Hv Ha [Hb Hs]. destruct Ha as [p o|p o|p o|c p o Hc Hp|c p o Hc Hp|c p o Hc Hp|front c ps Hc Hp|p o Hp|f Hf| |]; cbn [perform new_values arg_v fst] in *; try exact Hv;
    try (apply Forall_inv in Hb).
  - unfold both_of. cbn [fst]. now rewrite get_same.
  - pose proof (get_same E W v p o) as Hg. destruct (get E W false v p o) as [v1 r] eqn:Eg. cbn in Hg. subst v1.
    destruct r as [c|e| |]; cbn [fst]; try exact Hv. now apply (found_nf E W v p o v).
  - unfold both_of, must_get. pose proof (get_same E W v p o) as Hg. destruct (get E W false v p o) as [v1 r]. cbn in *. now subst v1.
  - destruct (failing_unchanged E W v (arg_v c) p o []) as (F & _). apply (end_nf _ v Hv F). intros v' y. now apply set_nf.
  - destruct (failing_unchanged E W v (arg_v c) p o []) as (_ & F & _). apply (end_nf _ v Hv F). intros v' y. now apply (insert_nf E W false).
  - destruct (failing_unchanged E W v (arg_v c) p o []) as (_ & _ & F & _). apply (end_nf _ v Hv F). intros v' y. now apply (insert_nf E W true).
  - destruct (failing_unchanged E W v (arg_v c) (PInt 0) [] ps) as (_ & _ & _ & F1 & F2 & _).
    assert (F : failed (snd (append_at E W front v (arg_v c) ps)) -> fst (append_at E W front v (arg_v c) ps) = v) by (destruct front; [exact F1|exact F2]).
    apply (end_nf _ v Hv F). intros v' y. now apply append_nf.
  - destruct (failing_unchanged E W v (arg_v VNull) p o []) as (_ & _ & _ & _ & _ & F). apply (end_nf _ v Hv F). intros v' []. now apply delete_nf.
  - destruct (sort_array W v (Some f)) as [v1|e| |] eqn:Es; cbn [fst]; try exact Hv. now apply (sort_nf W f v).
Qed.

(** *** Saves *)
Definition nulls_on (a : action) : action := match a with Call s => Call s | Save W o => Save W (with_nulls o) end.
Lemma saved_on E W o v : nf v -> saved E W o v = saved E W (with_nulls o) v.
Proof. intros H. unfold saved. now rewrite (marshal_opt_same E W o v H). Qed.
Lemma with_saves_on E l : forall v, clean v -> nf v -> Forall null_safe l -> with_saves E v l = with_saves E v (map nulls_on l).
Proof.
  induction l as [|[[[W d] a]|W o] l IH]; intros v Hc Hn Hl; [reflexivity| |]; inversion Hl as [|? ? Ha Hr]; subst; cbn [map nulls_on with_saves].
  - destruct Ha as [Ha Hb]. cbn [snd] in Ha, Hb. pose proof (perform_clean E W d v a Hc Ha) as P1. pose proof (perform_nf E W d v a Hc Hn Ha Hb) as P2.
    destruct (perform E W d v a) as [v1 x]. cbn [fst] in *. now rewrite (IH v1 P1 P2 Hr).
  - rewrite (saved_on E W o v Hn). destruct (saved_clean E W (with_nulls o) v Ha eq_refl Hc) as [S1 S2]. apply IH; [exact S2| |exact Hr]. now apply (alike_nf v).
Qed.
Lemma calls_on l : calls (map nulls_on l) = calls l.
Proof. induction l as [|[s|W o] l IH]; cbn; [reflexivity| |]; unfold calls in *; now rewrite IH. Qed.
Lemma clean_on l : Forall null_safe l -> Forall clean_action (map nulls_on l).
Proof. induction 1 as [|[s|W o] l Ha _ IH]; cbn [map nulls_on]; constructor; auto; cbn in *; [apply Ha|split; [exact Ha|reflexivity]]. Qed.

Theorem omitting_saves_unseen (E : Env) v l : clean v -> no_null_members v -> Forall null_safe l ->
  snd (with_saves E v l) = snd (series E v (calls l)) /\
  forall W path, equal W path (fst (with_saves E v l)) (fst (series E v (calls l))) = true.
Proof. intros Hc Hn Hl. rewrite (with_saves_on E l v Hc Hn Hl), <- (calls_on l). apply saves_unseen; [exact Hc|now apply clean_on]. Qed.

Lemma with_saves_nf E l : forall v, clean v -> nf v -> Forall null_safe l -> nf (fst (with_saves E v l)).
Proof.
  induction l as [|[[[W d] a]|W o] l IH]; intros v Hc Hn Hl; [exact Hn| |]; inversion Hl as [|? ? Ha Hr]; subst; cbn [with_saves].
  - destruct Ha as [Ha Hb]. cbn [snd] in Ha, Hb. pose proof (perform_clean E W d v a Hc Ha) as P1. pose proof (perform_nf E W d v a Hc Hn Ha Hb) as P2.
    destruct (perform E W d v a) as [v1 x]. cbn [fst] in *. specialize (IH v1 P1 P2 Hr). destruct (with_saves E v1 l). exact IH.
  - rewrite (saved_on E W o v Hn). destruct (saved_clean E W (with_nulls o) v Ha eq_refl Hc) as [S1 S2]. apply IH; [exact S2| |exact Hr]. now apply (alike_nf v).
Qed.
Lemma in_turn_on n l : Forall (in_turn n) l -> Forall (in_turn n) (map nulls_on l).
Proof. induction 1 as [|[s|W o] l Ha _ IH]; cbn [map nulls_on]; constructor; auto. Qed.

Theorem omitting_saves_keep_order (E : Env) n v l : 0 <= n -> n + Z.of_nat (List.length l) < two32 ->
  clean v -> numbered n v -> no_null_members v -> Forall null_safe l -> Forall (in_turn n) l ->
  forall W W' o, by_setting o ->
  marshal_opt E W o (fst (with_saves E v l)) = marshal_opt E W' o (fst (series E v (calls l))).
Proof.
  intros Hn Hl Hc Hnu Hf Hs Ht W W' o Ho. pose proof (with_saves_nf E l v Hc Hf Hs) as A.
  assert (T : twins v v) by (destruct Hc as [H _]; split; [exact H|]; split; [exact H|]; intros W0 path; now apply equal_refl).
  destruct (saves_invisible E (map nulls_on l) v v Hc T (clean_on l Hs)) as (_ & B & _). rewrite <- (with_saves_on E l v Hc Hf Hs), calls_on in B.
  apply twins_alike in B. pose proof (alike_nf _ _ B A) as C.
  rewrite (marshal_opt_same E W o _ A), (marshal_opt_same E W' o _ C), (with_saves_on E l v Hc Hf Hs), <- (calls_on l).
  apply (saves_keep_order E n); try assumption; try reflexivity; [now rewrite map_length|now apply clean_on|now apply in_turn_on].
Qed.
