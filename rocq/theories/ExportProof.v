(** Proofs about Export. *)
From Verif Require Import Base Float64 Value Scan Unmarshal Opt Marshal ListLemmas GoValue Import SpecJson SpecValue SpecFacts SpecLax SpecText SpecOpts
  SpecSpell SpecImport SpecExport Export ValueLemmas ParseComplete MarshalProof JsonLax RoundTrip RoundExact OutClaims ImportProof.

(** *** JSON trees *)

Lemma nesting_shows v : forall j, shows_text v j -> nesting j = levels v.
Proof.
  induction v as [| s | n src | i kvs lo IH | l IH | b | | | ] using V_ind'; intros j H;
    inversion H as [| |? ? ? N| |? l' F|? ? ? kvs' ms P _ F]; subst; try reflexivity.
  - unfold num_text in N. now subst.
  - cbn [nesting levels]. f_equal. unfold kept in F.
    transitivity (fold_right Z.max 0 (map (fun x : bytes * (Z * V) => levels (snd (snd x))) kvs')).
    + apply (Permutation_Forall P) in IH. clear P H.
      induction F as [|x m kvs' ms (F1 & F2) _ IHF]; [reflexivity|]. inversion IH; subst. cbn [map fold_right].
      rewrite IHF by assumption. f_equal. auto.
    + symmetry. clear -P. induction P; cbn [map fold_right]; lia.
  - cbn [nesting levels]. do 2 f_equal. clear H. induction F as [|x m l l' F1 _ IHF]; [reflexivity|].
    inversion IH; subst. cbn [map]. f_equal; auto.
Qed.

Lemma lits_shows P v : forall j, json_typed v -> shows_text v j -> all_lits P j <-> all_text (fun _ => True) (fun _ src => P src) v.
Proof.
  induction v as [| s | n src | i kvs lo IH | l IH | b | | | ] using V_ind'; intros j T H;
    inversion H as [| |? ? ? N| |? l' F|? ? ? kvs' ms Q _ F]; subst; try reflexivity.
  - unfold num_text in N. now subst.
  - rewrite all_lits_obj, all_text_obj. unfold kept in F. apply json_typed_obj in T as [_ T].
    transitivity (Forall (fun x : bytes * (Z * V) => True /\ all_text (fun _ => True) (fun _ src => P src) (snd (snd x))) kvs').
    + apply (Permutation_Forall Q) in IH. apply (Permutation_Forall Q) in T. clear Q H.
      induction F as [|x m kvs' ms (F1 & F2) _ IHF]; [split; constructor|]. inversion IH as [|? ? I1 I2]; subst. inversion T as [|? ? T1 T2]; subst.
      rewrite !Forall_cons_iff, IHF, (I1 _ T1 F2) by assumption. tauto.
    + split; intros A; (eapply Permutation_Forall; [|exact A]); [symmetry|]; exact Q.
  - rewrite all_lits_arr, all_text_arr. apply json_typed_arr in T. clear H.
    induction F as [|x m l l' F1 _ IHF]; [split; constructor|]. inversion IH as [|? ? I1 I2]; subst. inversion T as [|? ? T1 T2]; subst.
    rewrite !Forall_cons_iff, IHF, (I1 _ T1 F1) by assumption. tauto.
Qed.

(** The last members exist. *)
Fixpoint lasts (ms : list (bytes * jv)) : list (bytes * jv) :=
  match ms with
  | [] => []
  | m :: r => if existsb (beqb (fst m)) (map fst r) then lasts r else m :: lasts r
  end.

Lemma existsb_In k l : existsb (beqb k) l = true <-> In k l.
Proof.
  rewrite existsb_exists. split.
  - intros (x & Hx & E). apply beqb_eq in E. now subst.
  - intros H. exists k. split; [exact H|]. now apply beqb_eq.
Qed.

Lemma lasts_incl ms m : In m (lasts ms) -> In m ms.
Proof.
  induction ms as [|x ms IH]; [easy|]. cbn [lasts]. destruct (existsb _ _); cbn [In]; tauto.
Qed.

Lemma lasts_ok ms : last_members ms (lasts ms).
Proof.
  induction ms as [|x ms [N IH]].
  - split; [constructor|]. intros m. split; [easy|]. intros (a & b & E & _). destruct a; discriminate.
  - cbn [lasts]. destruct (existsb (beqb (fst x)) (map fst ms)) eqn:E.
    + apply existsb_In in E. split; [exact N|]. intros m. rewrite IH. split.
      * intros (a & b & -> & H). exists (x :: a), b. split; [reflexivity|exact H].
      * intros ([|y a] & b & H1 & H2); [injection H1 as -> ->; contradiction|].
        injection H1 as -> ->. exists a, b. split; [reflexivity|exact H2].
    + assert (E' : ~ In (fst x) (map fst ms)) by (rewrite <- existsb_In, E; discriminate). split.
      * cbn [map]. constructor; [|exact N]. intros H. apply in_map_iff in H as (y & H1 & H2). apply E'. rewrite <- H1. now apply in_map, lasts_incl.
      * intros m. cbn [In]. rewrite IH. split.
        -- intros [<-|(a & b & -> & H)]; [exists [], ms; now split|]. exists (x :: a), b. split; [reflexivity|exact H].
        -- intros ([|y a] & b & H1 & H2); [injection H1 as -> ->; now left|]. injection H1 as -> ->. right. exists a, b. now split.
Qed.

Lemma any_data_ex j : all_lits rfc_lit j -> exists g, any_data j g.
Proof.
  induction j as [| b | lit | s | l IH | ms IH] using jv_ind'; intros H.
  - exists GInvalid. constructor.
  - exists (GBool b). constructor.
  - destruct H as (neg & ip & fd & e & i & H). eexists. econstructor. exact H.
  - exists (GStr s). constructor.
  - apply all_lits_arr in H. assert (exists gs, Forall2 any_data l gs) as [gs G].
    { induction l as [|x l IHl]; [exists []; constructor|]. inversion IH; subst. inversion H; subst.
      destruct IHl as [gs G]; try assumption. destruct H2 as [g Hg]; [assumption|]. exists (g :: gs). now constructor. }
    exists (slice_of gs). now constructor.
  - apply all_lits_obj in H. pose proof (lasts_ok ms) as K.
    assert (exists es, Forall2 (fun m e => fst e = fst m /\ any_data (snd m) (snd e)) (lasts ms) es) as [es G].
    { assert (A : forall m, In m (lasts ms) -> exists g, any_data (snd m) g).
      { intros m Hm. apply lasts_incl in Hm. rewrite Forall_forall in *. apply IH; auto. }
      clear K. induction (lasts ms) as [|m r IHr]; [exists []; constructor|]. destruct IHr as [es G]; [intros; apply A; now right|].
      destruct (A m) as [g Hg]; [now left|]. exists ((fst m, g) :: es). constructor; [split; [reflexivity|exact Hg]|exact G]. }
    exists (map_of es). econstructor; eassumption.
Qed.

(** *** From the tree to the value *)

Lemma Forall2_in_l {A B} (R : A -> B -> Prop) l l' x : Forall2 R l l' -> In x l -> exists y, In y l' /\ R x y.
Proof.
  induction 1 as [|a b l l' H _ IH]; [easy|]. intros [<-|Hx]; [exists b; split; [now left|exact H]|].
  destruct (IH Hx) as (y & Hy & Hr). exists y. split; [now right|exact Hr].
Qed.
Lemma Forall2_in_r {A B} (R : A -> B -> Prop) l l' y : Forall2 R l l' -> In y l' -> exists x, In x l /\ R x y.
Proof.
  induction 1 as [|a b l l' H _ IH]; [easy|]. intros [<-|Hx]; [exists a; split; [now left|exact H]|].
  destruct (IH Hx) as (x & Hy & Hr). exists x. split; [now right|exact Hr].
Qed.
Lemma Forall2_pick {A B} (R : A -> B -> Prop) l l' : (forall y, In y l' -> exists x, In x l /\ R x y) ->
  exists l1, (forall x, In x l1 -> In x l) /\ Forall2 R l1 l'.
Proof.
  induction l' as [|y l' IH]; intros H; [exists []; split; [easy|constructor]|].
  destruct IH as (l1 & H1 & H2); [intros; apply H; now right|]. destruct (H y) as (x & X1 & X2); [now left|].
  exists (x :: l1). split; [intros z [<-|Hz]; auto|]. now constructor.
Qed.

Lemma any_last (ms : list (bytes * jv)) k : In k (map fst ms) -> exists a m b, ms = a ++ m :: b /\ fst m = k /\ ~ In k (map fst b).
Proof.
  induction ms as [|x ms IH]; [easy|]. intros H.
  destruct (in_dec (list_eq_dec Z.eq_dec) k (map fst ms)) as [I|I].
  - destruct (IH I) as (a & m & b & -> & H1 & H2). exists (x :: a), m, b. auto.
  - destruct H as [H|H]; [|contradiction]. exists [], x, ms. auto.
Qed.

Lemma data_exported v : forall j g, json_typed v -> shows_text v j -> any_data j g -> exported v g.
Proof.
  induction v as [| s | n src | i kvs lo IH | l IH | b | | | ] using V_ind'; intros j g T H G;
    inversion H as [| |? ? ? N|? s' Hf|? l' F|? ? ? kvs' ms Q _ F]; subst; try (inversion G; subst; now constructor).
  - unfold num_text in N. subst. inversion G; subst. econstructor. eassumption.
  - inversion G as [| | | | |? ms' es [N L] A]; subst. unfold kept in F. apply json_typed_obj in T as [_ T].
    rewrite Forall_forall in IH, T.
    assert (K : map fst es = map fst ms').
    { clear -A. induction A as [|m e ms' es [A1 _] _ IHA]; [reflexivity|]. cbn [map]. now rewrite A1, IHA. }
    destruct (Forall2_pick (fun x e => fixed (fst x) (fst e) /\ exported (snd (snd x)) (snd e)) kvs es) as (kvs1 & H1 & H2).
    { intros e He. destruct (Forall2_in_r _ _ _ _ A He) as (m & Hm & M1 & M2). apply L in Hm as (a & b & -> & _).
      destruct (Forall2_in_r _ _ _ m F) as (x & Hx & X1 & X2); [apply in_or_app; right; now left|].
      apply (Permutation_in _ (Permutation_sym Q)) in Hx. exists x. split; [exact Hx|]. rewrite M1. split; [exact X1|]. eapply IH; eauto. }
    apply EX_obj with (kvs' := kvs1); [exact H1| | |exact H2].
    + intros x Hx. apply (Permutation_in _ Q) in Hx. destruct (Forall2_in_l _ _ _ _ F Hx) as (m & Hm & M1 & _).
      destruct (any_last ms (fst m)) as (a & m' & b & E1 & E2 & E3); [now apply in_map|].
      assert (I : In m' ms') by (apply L; exists a, b; rewrite E2; now split).
      destruct (Forall2_in_l _ _ _ _ A I) as (e & He & E4 & _). exists e. split; [exact He|]. now rewrite E4, E2.
    + now rewrite K.
  - inversion G as [| | | |? gs A|]; subst. apply json_typed_arr in T. constructor. clear H G. revert gs A.
    induction F as [|x m l l' F1 _ IHF]; intros gs A; inversion A; subst; constructor.
    + inversion IH; subst. inversion T; subst. eauto.
    + inversion IH; subst. inversion T; subst. auto.
Qed.

(** *** Export *)

Lemma all_text_conj PS PS' PN PN' v : all_text (fun s => PS s /\ PS' s) (fun n s => PN n s /\ PN' n s) v <-> all_text PS PN v /\ all_text PS' PN' v.
Proof.
  induction v as [| s | n src | i kvs lo IH | l IH | b | | | ] using V_ind'; try (cbn; tauto).
  - rewrite !all_text_obj. induction kvs as [|x kvs IHk]; [split; [intros; split; constructor|constructor]|].
    inversion IH; subst. rewrite !Forall_cons_iff, IHk by assumption. tauto.
  - rewrite !all_text_arr. induction l as [|x l IHl]; [split; [intros; split; constructor|constructor]|].
    inversion IH; subst. rewrite !Forall_cons_iff, IHl by assumption. tauto.
Qed.

Lemma exportable_split v : exportable v <->
  all_text (fun s => ~ In 11 s) (fun _ src => rfc_lit src) v /\ levels v <= 10000 /\ all_text (fun _ => True) (fun _ src => finite_lit src) v.
Proof.
  unfold exportable. split.
  - intros [H L]. split; [|split; [exact L|]]; revert H; apply all_text_impl; tauto.
  - intros (H1 & L & H2). split; [|exact L].
    assert (K := proj2 (all_text_conj _ _ _ _ v) (conj H1 H2)). revert K. apply all_text_impl; tauto.
Qed.

Section Export.
Variables (E : Env) (W : World) (d : opt) (v : V).
Hypothesis HO : o_omit_null (combine_options d []) = false.
Hypothesis HW : opt_ws (combine_options d []).
Hypothesis HT : json_typed v.
Hypothesis HB : all_text (Forall is_byte) num_bytes v.

Theorem export_exactly :
  (exportable v -> exists g, export_any E W d v (Some g)) /\
  (~ exportable v -> export_any E W d v None) /\
  (forall g, export_any E W d v (Some g) -> exportable v /\ exported v g).
Proof using HO HW HT HB.
  destruct (json_exactly E W _ v HO HW HT HB) as (b & Hb & Hj & Hs).
  unfold export_any, marshal. rewrite Hb. unfold json_unmarshal_any, std_text.
  assert (K : forall j, json_doc b j -> nesting j <= 10000 -> all_lits finite_lit j -> exportable v).
  { intros j D N L. apply exportable_split. specialize (Hs _ D). split; [apply Hj; eauto|].
    rewrite <- (nesting_shows _ _ Hs). split; [exact N|]. now apply (lits_shows _ _ _ HT Hs). }
  split; [|split].
  - rewrite exportable_split. intros (H1 & H2 & H3). destruct (proj2 Hj H1) as [j D]. specialize (Hs _ D).
    assert (H4 : all_lits rfc_lit j) by (apply (lits_shows _ _ _ HT Hs); revert H1; apply all_text_impl; auto).
    destruct (any_data_ex _ H4) as [g G]. exists g, j. rewrite (nesting_shows _ _ Hs). split; [now split|]. split; [|exact G].
    now apply (lits_shows _ _ _ HT Hs).
  - intros H (j & [D N] & L). eauto.
  - intros g (j & [D N] & L & G). split; [eauto|]. eapply data_exported; eauto.
Qed.
End Export.

Theorem export_v_exactly E W d v dst :
  o_omit_null (combine_options d []) = false -> opt_ws (combine_options d []) ->
  json_typed v -> all_text (Forall is_byte) (fun _ src => lax_num src) v -> dst <> VNil ->
  (all_text (fun s => ~ In 11 s) (fun _ src => rfc_lit src) v /\ levels v <= 10000 ->
   exists w, export_v E W d v dst (Some w)) /\
  (~ (all_text (fun s => ~ In 11 s) (fun _ src => rfc_lit src) v /\ levels v <= 10000) -> export_v E W d v dst None) /\
  (forall w, export_v E W d v dst (Some w) ->
     (all_text (fun s => ~ In 11 s) (fun _ src => rfc_lit src) v /\ levels v <= 10000) /\
     (same_json (fun _ src n' => lax_value src n') false v w <-> all_objs names_distinct v)).
Proof.
  intros HO HW HT HB HD.
  assert (HB' : all_text (Forall is_byte) num_bytes v).
  { revert HB. apply all_text_impl; [auto|]. intros n src H. split; [|now apply lax_num_bytes]. destruct (lax_num_cons _ H) as (c & r & ->). discriminate. }
  destruct (json_exactly E W _ v HO HW HT HB') as (b & Hb & Hj & Hs).
  destruct (round_trip_text_exact E W _ v HW HT HB) as (b' & w & Hb' & Hu & HS).
  rewrite Hb in Hb'. injection Hb' as <-. rewrite HO in HS.
  assert (NW : w <> VNil).
  { intros ->. destruct (unmarshal_total E b) as (w0 & e & Eu & Hw). rewrite Hu in Eu. injection Eu as <- <-. exact Hw. }
  unfold export_v, marshal. rewrite Hb. unfold json_unmarshal_v, std_text, unmarshal_json. rewrite Hu.
  assert (K : forall j, json_doc b j -> nesting j <= 10000 -> all_text (fun s => ~ In 11 s) (fun _ src => rfc_lit src) v /\ levels v <= 10000).
  { intros j D N. specialize (Hs _ D). split; [apply Hj; eauto|]. now rewrite <- (nesting_shows _ _ Hs). }
  assert (X : (match dst, w with VNil, _ | _, VNil => (dst, Panic) | _, _ => (w, Ok tt) end) = (w, Ok tt)) by (destruct dst, w; congruence).
  rewrite X. split; [|split].
  - intros [H1 H2]. destruct (proj2 Hj H1) as [j D]. exists w. split; [|reflexivity]. exists j. split; [exact D|].
    now rewrite (nesting_shows _ _ (Hs _ D)).
  - intros H. left. intros (j & D & N). eauto.
  - intros w' [(j & D & N) Hw]. injection Hw as <-. split; [eauto|exact HS].
Qed.

(** Values that Marshal refuses. *)
Theorem export_refused E W d v : o_nan (combine_options d []) = 0 -> o_inf (combine_options d []) = 0 ->
  v = VNotExist \/ (exists n, v = VNum n []) ->
  (forall r, export_any E W d v r <-> r = None) /\ (forall dst r, export_v E W d v dst r <-> r = None).
Proof.
  intros HN HI Hv. assert (exists e, marshal E W d [] v = Err e) as (e & He).
  { destruct Hv as [->|(n & ->)]; [now eexists|]. unfold marshal, marshal_opt. cbn [marshal_to]. unfold marshal_number, marshal_infp, marshal_infn, marshal_nan.
    rewrite HN, HI. cbn. destruct (is_infp _); [now eexists|]. destruct (is_infn _); now eexists. }
  unfold export_any, export_v. rewrite He. split; intros; reflexivity.
Qed.
