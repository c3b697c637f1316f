(** Import and then Export, for all data made of interface{}: proofs. *)
From Verif Require Import Base Float64 Value Scan Unmarshal Opt Marshal ListLemmas GoValue Import SpecJson SpecValue SpecFacts SpecLax SpecText SpecOpts
  SpecRound SpecFloatText SpecSpell SpecImport SpecExport Export ValueLemmas ParseComplete EscapeProof MarshalProof RoundTrip RoundExact RoundClaims OutClaims ImportProof
  MarshalClaims LaxFacts FloatTextProof ExportProof ExportImport CanonProof.

Section Exact.
Variables (E : Env).
Hypothesis HC : format_contract E.

Lemma imported_text (Q : bytes -> Prop) g : any_shape plain_float (Forall is_byte) g -> forall v, imported E g v ->
  json_typed v /\ all_text (Forall is_byte) num_bytes v /\ levels v = go_levels g /\
  (all_text Q (fun _ src => rfc_lit src /\ finite_lit src) v <-> any_shape plain_float Q g).
Proof using HC.
  intros H. induction H as [|b|f Hf|s Hs|gs HG IH|es N HS IH] using any_shape_ind'; intros v M.
  - inversion M; subst. cbn. repeat split; intros; constructor.
  - inversion M; subst. cbn. repeat split; intros; constructor.
  - inversion M as [| |n src T| | |]; subst. destruct (float_text_exportable E HC _ _ Hf T) as (A & B). cbn.
    split; [exact I|]. split; [apply A|]. split; [reflexivity|]. split; [intros _; now constructor|intros _; exact B].
  - inversion M; subst. cbn. repeat split; auto; [intros; now constructor|intros X; now inversion X].
  - apply slice_imported in M as (l & -> & G). rewrite json_typed_arr, !all_text_arr. cbn [levels go_levels slice_of].
    rewrite map_map. cbn [go_levels].
    enough (A : Forall json_typed l /\ Forall (all_text (Forall is_byte) num_bytes) l /\ map levels l = map go_levels gs /\
      (Forall (all_text Q (fun _ src => rfc_lit src /\ finite_lit src)) l <-> Forall (any_shape plain_float Q) gs)).
    { destruct A as (A1 & A2 & A3 & A4). rewrite A3, A4. split; [exact A1|]. split; [exact A2|]. split; [reflexivity|].
      split; [intros X; now constructor|]. intros X. remember (slice_of gs) as g eqn:Eg. destruct X; try discriminate Eg.
      apply slice_inj in Eg. now subst. }
    clear HG. induction G as [|g x gs l G1 _ IHG]; [repeat split; constructor|]. inversion IH as [|? ? I1 I2]; subst.
    destruct (IHG I2) as (A1 & A2 & A3 & A4). destruct (I1 _ G1) as (B1 & B2 & B3 & B4). cbn [map].
    split; [now constructor|]. split; [now constructor|]. split; [now rewrite A3, B3|]. rewrite !Forall_cons_iff. now rewrite A4, B4.
  - apply map_imported in M as (es1 & i & kvs & lo & -> & P & NK & G). rewrite json_typed_obj, !all_text_obj. cbn [levels go_levels map_of].
    rewrite map_map. cbn [go_levels snd].
    apply (Permutation_Forall P) in IH. apply (Permutation_Forall P) in HS.
    assert (L : fold_right Z.max 0 (map (fun x => go_levels (snd x)) es) = fold_right Z.max 0 (map (fun x => go_levels (snd x)) es1)).
    { clear -P. induction P; cbn [map fold_right]; lia. }
    rewrite L. clear L.
    enough (A : Forall (fun x => json_typed (snd (snd x))) kvs /\
      Forall (fun x => Forall is_byte (fst x) /\ all_text (Forall is_byte) num_bytes (snd (snd x))) kvs /\
      map (fun x => levels (snd (snd x))) kvs = map (fun x => go_levels (snd x)) es1 /\
      (Forall (fun x => Q (fst x) /\ all_text Q (fun _ src => rfc_lit src /\ finite_lit src) (snd (snd x))) kvs <->
       Forall (fun e => Q (fst e) /\ any_shape plain_float Q (snd e)) es1)).
    { destruct A as (A1 & A2 & A3 & A4). rewrite A3, A4. unfold akeys. split; [auto|]. split; [exact A2|]. split; [reflexivity|]. split.
      - intros X. constructor; [exact N|]. exact (Permutation_Forall (Permutation_sym P) X).
      - intros X. apply (Permutation_Forall P). remember (map_of es) as g eqn:Eg. destruct X as [| | | | |es0 N0 X]; try discriminate Eg.
        apply map_inj in Eg. now subst. }
    clear NK P N. induction G as [|g x gs l [G0 G1] _ IHG]; [repeat split; constructor|].
    inversion IH as [|? ? I1 I2]; subst. inversion HS as [|? ? [S1 S3] S4]; subst.
    destruct (IHG S4 I2) as (A1 & A2 & A3 & A4). destruct (I1 _ G1) as (B1 & B2 & B3 & B4). cbn [map]. rewrite <- G0 in *.
    split; [now constructor|]. split; [now constructor|]. split; [now rewrite A3, B3|]. rewrite !Forall_cons_iff. rewrite <- G0. now rewrite A4, B4.
Qed.

Lemma exported_repaired v : all_text (Forall is_byte) (fun _ _ => True) v -> forall g, exported v g -> any_shape (fun _ => True) well_formed g.
Proof using.
  induction v as [| s | n src | i kvs lo IH | l IH | b | | | ] using V_ind'; intros B g H; inversion H as [| |? ? ? ? ? ? ? N|? s' F|? gs F|? ? ? kvs' es P K N F]; subst;
    try (now constructor).
  - constructor. eapply fixed_wf; [exact B|exact F].
  - constructor; [exact N|]. apply all_text_obj in B. rewrite Forall_forall in *. intros e He.
    destruct (Forall2_in_r _ _ _ _ F He) as (x & Hx & F1 & X). apply P in Hx. destruct (B _ Hx) as [B1 B2]. split; [now apply (fixed_wf (fst x))|eapply IH; eauto].
  - constructor. apply all_text_arr in B. clear H. induction F as [|x g l gs F1 _ IHF]; constructor; inversion IH; subst; inversion B; subst; auto.
Qed.

Lemma same_shape PF PF' PS PS' g : any_shape PF PS g -> forall g', same_data g g' -> any_shape PF' PS' g' -> any_shape PF PS' g.
Proof using.
  intros H. induction H as [|b|f Hf|s Hs|gs HG IH|es N HS IH] using any_shape_ind'; intros g' S H'.
  - constructor.
  - constructor.
  - now constructor.
  - inversion S; subst. inversion H'; subst. now constructor.
  - remember (slice_of gs) as g eqn:Eg. destruct S as [| | | |gs0 gs' F|]; try discriminate Eg. apply slice_inj in Eg. subst gs0.
    constructor. remember (slice_of gs') as g' eqn:Eg. destruct H' as [| | | |gs1 H'|]; try discriminate Eg. apply slice_inj in Eg. subst gs1.
    clear HG. induction F as [|x y l l' Hxy _ IHF]; [constructor|]. inversion IH; subst. inversion H'; subst. constructor; eauto.
  - remember (map_of es) as g eqn:Eg. destruct S as [| | | | |es0 es1 es' P F]; try discriminate Eg. apply map_inj in Eg. subst es0.
    constructor; [exact N|]. apply (Permutation_Forall (Permutation_sym P)). apply (Permutation_Forall P) in IH.
    remember (map_of es') as g' eqn:Eg. destruct H' as [| | | | |es2 N2 H']; try discriminate Eg. apply map_inj in Eg. subst es2.
    clear HS N N2 P. induction F as [|x y l l' [Hxy1 Hxy2] _ IHF]; [constructor|]. inversion IH; subst. inversion H' as [|? ? [A1 A2] A3]; subst.
    constructor; [split; [now rewrite Hxy1|eauto]|auto].
Qed.

Lemma shape_meet PF PS PS' g : any_shape PF PS g -> any_shape PF PS' g -> any_shape PF (fun s => PS s /\ PS' s) g.
Proof using.
  intros H. induction H as [|b|f Hf|s Hs|gs HG IH|es N HS IH] using any_shape_ind'; intros H'.
  - constructor.
  - constructor.
  - now constructor.
  - inversion H'; subst. now constructor.
  - remember (slice_of gs) as g eqn:Eg. destruct H' as [| | | |gs1 H'|]; try discriminate Eg. apply slice_inj in Eg. subst gs1.
    constructor. rewrite Forall_forall in *. auto.
  - remember (map_of es) as g' eqn:Eg. destruct H' as [| | | | |es2 N2 H']; try discriminate Eg. apply map_inj in Eg. subst es2.
    constructor; [exact N|]. rewrite Forall_forall in *. intros e He. destruct (HS e He), (H' e He). auto.
Qed.

(** C57 *)
Theorem import_export_exactly W d opts g :
  (forall f fmt bits, fmt_float E f fmt (-1) bits <> []) ->
  o_omit_null (combine_options d []) = false -> opt_ws (combine_options d []) ->
  any_shape plain_float (Forall is_byte) g ->
  exists v, import E W d opts g = Ok (v, None) /\
    ((exists g', export_any E W d v (Some g')) <-> any_shape plain_float (fun s => ~ In 11 s) g /\ go_levels g <= 10000) /\
    (forall g', export_any E W d v (Some g') -> same_data g g' <-> any_shape plain_float well_formed g).
Proof using HC.
  intros HE HO HW HP.
  destruct (shape_import E W d HE (fun _ => True) opts g) as (v & V1 & V2).
  { revert HP. apply shape_impl; [exact plain_finite|auto]. }
  destruct (imported_text (fun s => ~ In 11 s) g HP v V2) as (A1 & A2 & A3 & A4).
  destruct (export_exactly E W d v HO HW A1 A2) as (X1 & _ & X2).
  exists v. split; [exact V1|]. split.
  - rewrite <- A4, <- A3. split; [intros (g' & Hg); exact (proj1 (X2 _ Hg))|exact X1].
  - intros g' Hg. destruct (X2 _ Hg) as [Y1 Y2]. split.
    + intros S. eapply same_shape; [exact HP|exact S|]. eapply exported_repaired; [|exact Y2]. revert A2. now apply all_text_impl.
    + intros WF. apply (imported_back E HC g) with v; [|exact V2|exact Y2].
      pose proof (shape_meet _ _ _ _ WF (proj1 A4 (proj1 Y1))) as M. exact M.
Qed.
End Exact.

Lemma ex_invalid : any_shape plain_float (Forall is_byte) (slice_of [GStr [255]]) /\
  any_shape plain_float (fun s => ~ In 11 s) (slice_of [GStr [255]]) /\ ~ any_shape plain_float well_formed (slice_of [GStr [255]]).
Proof.
  split; [|split].
  - constructor. repeat constructor; unfold is_byte; lia.
  - constructor. constructor; [|constructor]. constructor. cbn. lia.
  - intros X. remember (slice_of [GStr [255]]) as g eqn:Eg. destruct X as [| | | |gs F|]; try discriminate Eg. apply slice_inj in Eg. subst gs.
    inversion F as [|? ? F1]; subst. inversion F1 as [| | |? W| |]; subst. apply fixed_well_formed in W.
    apply fixed_fix in W; [discriminate W|repeat constructor; unfold is_byte; lia].
Qed.
