(** Export and then Import; Import and then Export. *)
From Verif Require Import Base Float64 Value Scan Unmarshal Opt Marshal ListLemmas GoValue Import SpecJson SpecValue SpecFacts SpecLax SpecText SpecOpts
  SpecRound SpecFloatText SpecSpell SpecImport SpecExport Export ValueLemmas ParseComplete EscapeProof MarshalProof RoundTrip RoundExact RoundClaims OutClaims ImportProof
  MarshalClaims LaxFacts FloatTextProof ExportProof.

Section Shape.
Variables (PF : spec_float -> Prop) (PS : bytes -> Prop).
Lemma any_shape_ind' (P : gov -> Prop) :
  P GInvalid -> (forall b, P (GBool b)) -> (forall f, PF f -> P (GFloat64 f)) -> (forall s, PS s -> P (GStr s)) ->
  (forall gs, Forall (any_shape PF PS) gs -> Forall P gs -> P (slice_of gs)) ->
  (forall es, NoDup (map fst es) -> Forall (fun e => PS (fst e) /\ any_shape PF PS (snd e)) es ->
     Forall (fun e => P (snd e)) es -> P (map_of es)) ->
  forall g, any_shape PF PS g -> P g.
Proof.
  intros H1 H2 H3 H4 H5 H6. fix IH 2. intros g [|b|f Hf|s Hs|gs Hg|es He Hs].
  - exact H1.
  - apply H2.
  - now apply H3.
  - now apply H4.
  - apply H5; [exact Hg|]. induction Hg as [|x l Hx _ IHl]; constructor; [apply IH, Hx|exact IHl].
  - apply H6; [exact He|exact Hs|]. clear He. induction Hs as [|x l [_ Hx] _ IHl]; constructor; [apply IH, Hx|exact IHl].
Qed.
End Shape.

(** What Import makes of such data. *)
Inductive imported (E : Env) : gov -> V -> Prop :=
| IM_nil : imported E GInvalid VNull
| IM_bool b : imported E (GBool b) (VBool b)
| IM_float n src : float_text E (n_f64 n) 64 src -> imported E (GFloat64 (n_f64 n)) (VNum n src)
| IM_str s : imported E (GStr s) (VStr s)
| IM_slice gs l : Forall2 (imported E) gs l -> imported E (slice_of gs) (VArr l)
| IM_map es es1 i kvs lo : Permutation es es1 -> NoDup (map fst kvs) ->
    Forall2 (fun e x => fst x = fst e /\ imported E (snd e) (snd (snd x))) es1 kvs -> imported E (map_of es) (VObj i kvs lo).

(** A choice of entries that has all the names is a permutation. *)
Lemma perm_by_names {A} (l l1 : list (bytes * A)) : NoDup (map fst l) -> NoDup (map fst l1) ->
  (forall x, In x l1 -> In x l) -> (forall k, In k (map fst l) -> In k (map fst l1)) -> Permutation l l1.
Proof.
  intros N N1 I K. apply NoDup_Permutation; [eapply NoDup_map_inv; exact N|eapply NoDup_map_inv; exact N1|].
  intros x. split; [|apply I]. intros Hx. assert (H : In (fst x) (map fst l1)) by now apply K, in_map.
  apply in_map_iff in H as (y & E & Hy). assert (Hy' := I _ Hy).
  enough (x = y) by now subst. clear -N Hx Hy' E. induction l as [|z l IH]; [easy|]. cbn in N. inversion N as [|? ? N1 N2]; subst.
  destruct Hx as [->|Hx], Hy' as [->|Hy']; auto.
  - exfalso. apply N1. rewrite <- E. now apply in_map.
  - exfalso. apply N1. rewrite E. now apply in_map.
Qed.

Section Import.
Variables (E : Env) (W : World) (d : opt).
Hypothesis HE : forall f fmt bits, fmt_float E f fmt (-1) bits <> [].

Lemma shape_enc PS ign g : any_shape finite64 PS g -> exists t, enc ign g t /\ alike ign g /\ forall v, shows_tree E t v -> imported E g v.
Proof using.
  intros H. induction H as [|b|f Hf|s Hs|gs _ IH|es N _ IH] using any_shape_ind'.
  - exists TNull. split; [constructor|]. split; [exact I|]. intros [] C; try contradiction. constructor.
  - exists (TBool b). split; [constructor|]. split; [exact I|]. intros [] C; try contradiction. cbn in C. subst. constructor.
  - exists (TFloat64 f). split; [now constructor|]. split; [exact I|]. intros [] C; try contradiction. destruct C as [<- C]. now constructor.
  - exists (TStr s). split; [constructor|]. split; [exact I|]. intros [] C; try contradiction. cbn in C. subst. constructor.
  - assert (exists ts, Forall2 (enc ign) (map GIface gs) ts /\ Forall (alike ign) (map GIface gs) /\
              forall l, Forall2 (shows_tree E) ts l -> Forall2 (imported E) gs l) as (ts & H1 & H2 & H3).
    { induction IH as [|g gs (t & T1 & T2 & T3) _ IHg].
      - exists []. split; [constructor|]. split; [constructor|]. intros l Hl. inversion Hl; subst. constructor.
      - destruct IHg as (ts & H1 & H2 & H3). exists (t :: ts). split; [constructor; [now constructor|exact H1]|].
        split; [constructor; assumption|]. intros l Hl. inversion Hl; subst. constructor; auto. }
    exists (TArr ts). split; [now constructor|]. split; [cbn; now apply alike_list|].
    intros v C. destruct v; try contradiction. apply shows_arr in C. constructor. auto.
  - assert (exists ms, Forall2 (fun (e : bytes * gov) (m : bytes * tree) => fst m = fst e /\ enc ign (GIface (snd e)) (snd m)) es ms /\
              Forall (fun e => alike ign (snd e)) es /\
              Forall2 (fun (e : bytes * gov) (m : bytes * tree) => fst m = fst e /\ forall v, shows_tree E (snd m) v -> imported E (snd e) v) es ms) as (ms & H1 & H2 & H3).
    { clear N. induction IH as [|[k g] es (t & T1 & T2 & T3) _ IHg].
      - exists []. repeat split; constructor.
      - destruct IHg as (ms & H1 & H2 & H3). exists ((k, t) :: ms). split; [constructor; [split; [reflexivity|now constructor]|exact H1]|].
        split; [constructor; assumption|]. constructor; [split; [reflexivity|exact T3]|exact H3]. }
    assert (K : map fst ms = map fst es).
    { clear -H1. induction H1 as [|e m es ms [M _] _ IHm]; [reflexivity|]. cbn [map]. now rewrite M, IHm. }
    exists (TObj ms). split; [|split].
    + constructor; [|now rewrite K]. clear -H1. induction H1 as [|e m es ms [M1 M2] _ IHm]; constructor; [split; assumption|exact IHm].
    + cbn. apply alike_map. rewrite Forall_map. exact H2.
    + intros v C. destruct v as [| | |i kvs lo| | | | |]; try contradiction. apply shows_obj in C as (C1 & C2 & C3).
      destruct (ExportProof.Forall2_pick (fun (e : bytes * gov) x => fst x = fst e /\ imported E (snd e) (snd (snd x))) es kvs) as (es1 & P1 & P2).
      { intros x Hx. assert (Hk : In (fst x) (map fst ms)) by now apply C2, in_map.
        apply in_map_iff in Hk as (m & M1 & M2). destruct (Forall2_in_r _ _ _ _ H3 M2) as (e & He & X1 & X2).
        exists e. split; [exact He|]. rewrite Forall_forall in C3. destruct (C3 _ M2) as (id & y & Y1 & Y2).
        rewrite M1 in Y1. replace x with (fst x, (id, y)); [split; [now rewrite <- M1|now apply X2]|].
        clear -C1 Hx Y1. revert C1 Hx Y1. induction kvs as [|z kvs IHk]; [easy|]. cbn. intros N [->|A] [B|B]; inversion N as [|? ? N1 N2]; subst; auto.
        - exfalso. apply N1. apply (in_map fst) in B. exact B.
        - exfalso. apply N1. now apply (in_map fst) in A. }
      apply IM_map with (es1 := es1); [|exact C1|exact P2].
      assert (K1 : map fst es1 = map fst kvs).
      { clear -P2. induction P2 as [|e m es ms [M _] _ IHm]; [reflexivity|]. cbn [map]. now rewrite <- M, IHm. }
      apply perm_by_names; [exact N|now rewrite K1|exact P1|]. intros k Hk. rewrite K1. apply C2. now rewrite K.
Qed.

Lemma shape_import PS opts g : any_shape finite64 PS g -> exists v, import E W d opts g = Ok (v, None) /\ imported E g v.
Proof using HE.
  intros H. destruct (shape_enc PS (o_ignore_omitempty (combine_options d opts)) g H) as (t & H1 & H2 & H3).
  destruct (import_alike E W d HE opts g t H2 H1) as (v & V1 & V2). exists v. auto.
Qed.
End Import.

(** *** Export, then Import *)

Lemma exported_shape v : forall g, exported v g -> all_text (fun _ => True) (fun _ src => finite_lit src) v -> any_shape finite64 (fun _ => True) g.
Proof.
  induction v as [| s | n src | i kvs lo IH | l IH | b | | | ] using V_ind'; intros g H L; inversion H as [| |? ? ? ? ? ? ? N| |? gs F|? ? ? kvs' es P K N F]; subst;
    try (now constructor).
  - constructor. eapply L. exact N.
  - constructor; [exact N|]. apply all_text_obj in L. rewrite Forall_forall in *. intros e He. split; [exact I|].
    destruct (Forall2_in_r _ _ _ _ F He) as (x & Hx & _ & X). eapply IH; [apply P, Hx|exact X|]. now apply L, P.
  - constructor. apply all_text_arr in L. clear H. induction F as [|x g l gs F1 _ IHF]; constructor; inversion IH; subst; inversion L; subst; auto.
Qed.

Lemma exported_rounded E v : forall g v', json_typed v -> all_objs names_distinct v -> all_text (Forall is_byte) (fun _ _ => True) v ->
  exported v g -> imported E g v' -> rounded E v v'.
Proof.
  induction v as [| s | n src | i kvs lo IH | l IH | b | | | ] using V_ind'; intros g v' T D B H M;
    inversion H as [| |? ? ? ? ? ? ? N| |? gs F|? ? ? kvs' es P K N F]; subst;
    try (inversion M; subst; now constructor).
  - inversion M; subst. econstructor; [eassumption|congruence|congruence].
  - assert (M' : exists g, g = map_of es /\ imported E g v') by eauto. clear M. destruct M' as (g & Eg & M).
    destruct M as [| | | | |es0 es1 i' kvs1 lo' Q N1 G]; try discriminate. apply (f_equal (fun g => match g with GMap (Some m) => m | _ => [] end)) in Eg.
    cbn in Eg. assert (es0 = es).
    { clear -Eg. revert es Eg. induction es0 as [|[k x] es0 IH]; intros [|[k' x'] es] Eg; try discriminate; [reflexivity|].
      cbn [map] in Eg. injection Eg as -> -> Eg. f_equal. auto. }
    subst es0. clear Eg.
    apply json_typed_obj in T as [T1 T2]. apply all_objs_obj in D as [D1 D2]. apply all_text_obj in B.
    rewrite Forall_forall in IH, T2, D2, B.
    destruct (ExportProof.Forall2_pick (fun x y : bytes * (Z * V) => fixed (fst x) (fst y) /\ rounded E (snd (snd x)) (snd (snd y))) kvs kvs1) as (kvs2 & X1 & X2).
    { intros y Hy. destruct (Forall2_in_r _ _ _ _ G Hy) as (e & He & E1 & E2). apply (Permutation_in _ (Permutation_sym Q)) in He.
      destruct (Forall2_in_r _ _ _ _ F He) as (x & Hx & E3 & E4). apply P in Hx. exists x. split; [exact Hx|]. rewrite E1. split; [exact E3|].
      eapply IH; eauto. now apply B. }
    apply RD_obj with (kvs1 := kvs2); [|exact X2].
    assert (NK : NoDup (map fst kvs2)).
    { clear -X1 X2 N1 B. revert N1. induction X2 as [|x y l l' [F1 _] F IHF]; intros N1; cbn [map] in *; [constructor|]. inversion N1 as [|? ? A1 A2]; subst.
      constructor; [|apply IHF; [intros; apply X1; now right|exact A2]]. intros C. apply in_map_iff in C as (x' & C1 & C2).
      destruct (Forall2_in_l _ _ _ _ F C2) as (y' & Y1 & Y2 & _). apply A1. rewrite C1 in Y2.
      rewrite (fixed_fun (fst x) (fst y) (fst y')); [now apply in_map| |exact F1|exact Y2]. apply B, X1. now left. }
    apply perm_by_names; [exact T1|exact NK|exact X1|].
    intros k Hk. apply in_map_iff in Hk as (x & <- & Hx). destruct (K _ Hx) as (e & He & E1).
    apply (Permutation_in _ Q) in He. destruct (Forall2_in_l _ _ _ _ G He) as (y & Hy & Y1 & _).
    destruct (Forall2_in_r _ _ _ _ X2 Hy) as (x' & Hx' & Y2 & _). rewrite Y1 in Y2.
    rewrite (D1 (fst x) (fst x') (fst e)); [now apply in_map|now apply in_map|now apply in_map, X1|exact E1|exact Y2].
  - assert (M' : exists g, g = slice_of gs /\ imported E g v') by eauto. clear M. destruct M' as (g & Eg & M).
    destruct M as [| | | |gs0 l' G|]; try discriminate. injection Eg as Eg. assert (gs0 = gs).
    { clear -Eg. revert gs Eg. induction gs0 as [|x es0 IH]; intros [|x' es] Eg; try discriminate; [reflexivity|].
      cbn [map] in Eg. injection Eg as -> Eg. f_equal. auto. }
    subst gs0. apply json_typed_arr in T. apply all_objs_arr in D. apply all_text_arr in B. constructor. clear H Eg. revert l' G.
    induction F as [|x g l gs F1 _ IHF]; intros l' G; inversion G; subst; constructor; inversion IH; subst; inversion T; subst; inversion D; subst; inversion B; subst; eauto.
Qed.

Theorem export_import E W d opts v g :
  (forall f fmt bits, fmt_float E f fmt (-1) bits <> []) ->
  o_omit_null (combine_options d []) = false -> opt_ws (combine_options d []) ->
  json_typed v -> all_text (Forall is_byte) num_bytes v -> all_objs names_distinct v ->
  export_any E W d v (Some g) -> exists v', import E W d opts g = Ok (v', None) /\ rounded E v v'.
Proof.
  intros HE HO HW HT HB HD H. destruct (export_exactly E W d v HO HW HT HB) as (_ & _ & K). destruct (K _ H) as [X1 X2].
  apply exportable_split in X1 as (_ & _ & X1).
  destruct (shape_import E W d HE (fun _ => True) opts g (exported_shape _ _ X2 X1)) as (v' & V1 & V2).
  exists v'. split; [exact V1|]. eapply exported_rounded; eauto. revert HB. apply all_text_impl; auto.
Qed.

(** *** Import, then Export *)

Lemma slice_inj gs gs' : slice_of gs = slice_of gs' -> gs = gs'.
Proof.
  intros H. injection H as H. revert gs' H. induction gs as [|x gs IH]; intros [|x' gs'] H; try discriminate; [reflexivity|].
  cbn [map] in H. injection H as -> H. f_equal. auto.
Qed.
Lemma map_inj es es' : map_of es = map_of es' -> es = es'.
Proof.
  intros H. injection H as H. revert es' H. induction es as [|[k x] es IH]; intros [|[k' x'] es'] H; try discriminate; [reflexivity|].
  cbn [map] in H. injection H as -> -> H. f_equal. auto.
Qed.

Lemma slice_imported E gs v : imported E (slice_of gs) v -> exists l, v = VArr l /\ Forall2 (imported E) gs l.
Proof.
  intros M. remember (slice_of gs) as g eqn:Eg. destruct M as [| | | |gs0 l' G|]; try discriminate. apply slice_inj in Eg. subst. eauto.
Qed.
Lemma map_imported E es v : imported E (map_of es) v -> exists es1 i kvs lo, v = VObj i kvs lo /\ Permutation es es1 /\ NoDup (map fst kvs) /\
  Forall2 (fun e x => fst x = fst e /\ imported E (snd e) (snd (snd x))) es1 kvs.
Proof.
  intros M. remember (map_of es) as g eqn:Eg. destruct M as [| | | | |es0 es1 i kvs lo Q N G]; try discriminate. apply map_inj in Eg. subst. eauto 10.
Qed.

Section Back.
Variables (E : Env).
Hypothesis HC : format_contract E.

Lemma float_text_reads f s M q src : float64 f s M q -> float_text E f 64 src ->
  exists ip fd e i, num_lit src s ip fd e i /\ lit_f64 s ip fd e = f.
Proof using HC.
  intros HF HT. destruct (HC f s M q HF) as ((ip & fd & i & L & [HO HN] & _) & (c & fd' & e & L' & [HO' HN'] & _)).
  assert (X : forall t ip fd e i, num_lit t s ip fd e i -> ~ lit_overflows ip fd e -> lit_nearest s ip fd e f -> lit_f64 s ip fd e = f).
  { clear. intros t ip fd e i HL HO HN. inversion HL as [? ? fr ? ex ? Hip Hfr Hex]; subst. destruct (NumProof.int_part_digits ip Hip) as [D _].
    destruct (lit_f64_ok s ip fd e D (frac_digits _ _ Hfr)) as [[O1 O2]|[O1 O2]]; [contradiction|]. eapply nearest_unique; eassumption. }
  destruct HT as [-> | ->]; do 4 eexists; (split; [eassumption|eauto]).
Qed.

Lemma plain_finite f : plain_float f -> finite64 f.
Proof using. intros (s & M & q & H & _). destruct f; try discriminate; exact I. Qed.

Lemma float_text_exportable f src : plain_float f -> float_text E f 64 src ->
  (forall n, num_bytes n src) /\ rfc_lit src /\ finite_lit src.
Proof using HC.
  intros HP HT. pose proof (plain_finite _ HP) as HF. destruct HP as (s & M & q & HP). destruct (float_text_reads _ _ _ _ _ HP HT) as (ip & fd & e & i & L & X).
  split; [intros n; split|split].
  - destruct (num_lit_cons _ _ _ _ _ _ L) as (c & r & ->). discriminate.
  - eapply num_lit_bytes, L.
  - unfold rfc_lit. eauto 10.
  - intros neg ip' fd' e' i' L'. destruct (num_lit_det _ _ _ _ _ _ _ _ _ _ _ L L') as (-> & -> & -> & -> & _). now rewrite X.
Qed.

Lemma imported_ok g : plain_data g -> forall v, imported E g v ->
  json_typed v /\ all_text (Forall is_byte) num_bytes v /\ all_text (fun s => ~ In 11 s) (fun _ src => rfc_lit src /\ finite_lit src) v /\
  levels v = go_levels g.
Proof using HC.
  intros H. induction H as [|b|f Hf|s [Hs Hv]|gs _ IH|es N HS IH] using any_shape_ind'; intros v M.
  - inversion M; subst. cbn. auto.
  - inversion M; subst. cbn. auto.
  - inversion M as [| |n src T| | |]; subst. destruct (float_text_exportable _ _ Hf T) as (A & B). cbn. auto.
  - inversion M; subst. cbn. apply well_formed_bytes in Hs. auto.
  - apply slice_imported in M as (l & -> & G). rewrite json_typed_arr, !all_text_arr. cbn [levels go_levels slice_of].
    rewrite map_map. cbn [go_levels].
    enough (A : Forall json_typed l /\ Forall (all_text (Forall is_byte) num_bytes) l /\
      Forall (all_text (fun s => ~ In 11 s) (fun _ src => rfc_lit src /\ finite_lit src)) l /\ map levels l = map go_levels gs).
    { destruct A as (A1 & A2 & A3 & A4). rewrite A4. auto. }
    induction G as [|g x gs l G1 _ IHG]; [repeat split; constructor|]. inversion IH as [|? ? I1 I2]; subst.
    destruct (IHG I2) as (A1 & A2 & A3 & A4). destruct (I1 _ G1) as (B1 & B2 & B3 & B4). cbn [map].
    split; [now constructor|]. split; [now constructor|]. split; [now constructor|]. now rewrite A4, B4.
  - apply map_imported in M as (es1 & i & kvs & lo & -> & Q & NK & G). rewrite json_typed_obj, !all_text_obj. cbn [levels go_levels map_of].
    rewrite map_map. cbn [go_levels snd].
    apply (Permutation_Forall Q) in IH. apply (Permutation_Forall Q) in HS.
    assert (L : fold_right Z.max 0 (map (fun x => go_levels (snd x)) es) = fold_right Z.max 0 (map (fun x => go_levels (snd x)) es1)).
    { clear -Q. induction Q; cbn [map fold_right]; lia. }
    rewrite L. clear L Q N.
    enough (A : Forall (fun x => json_typed (snd (snd x))) kvs /\
      Forall (fun x => Forall is_byte (fst x) /\ all_text (Forall is_byte) num_bytes (snd (snd x))) kvs /\
      Forall (fun x => ~ In 11 (fst x) /\ all_text (fun s => ~ In 11 s) (fun _ src => rfc_lit src /\ finite_lit src) (snd (snd x))) kvs /\
      map (fun x => levels (snd (snd x))) kvs = map (fun x => go_levels (snd x)) es1).
    { destruct A as (A1 & A2 & A3 & A4). rewrite A4. unfold akeys. auto. }
    clear NK. induction G as [|g x gs l [G0 G1] _ IHG]; [repeat split; constructor|]. inversion IH as [|? ? I1 I2]; subst. inversion HS as [|? ? [[S1 S2] S3] S4]; subst.
    destruct (IHG S4 I2) as (A1 & A2 & A3 & A4). destruct (I1 _ G1) as (B1 & B2 & B3 & B4). cbn [map]. rewrite <- G0 in *.
    split; [now constructor|]. split; [constructor; [split; [now apply well_formed_bytes|exact B2]|exact A2]|].
    split; [now constructor|]. now rewrite A4, B4.
Qed.

Lemma wf_fixed s s' : well_formed s -> fixed s s' -> s = s'.
Proof using.
  intros H F. apply (fixed_fun s); [now apply well_formed_bytes|now apply fixed_well_formed|exact F].
Qed.

Lemma imported_back g : plain_data g -> forall v g', imported E g v -> exported v g' -> same_data g g'.
Proof using HC.
  intros H. induction H as [|b|f Hf|s [Hs Hv]|gs _ IH|es N HS IH] using any_shape_ind'; intros v g' M X.
  - inversion M; subst. inversion X; subst. constructor.
  - inversion M; subst. inversion X; subst. constructor.
  - inversion M as [| |n src T| | |]; subst. inversion X as [| |? ? neg ip fd e i L| | |]; subst.
    destruct Hf as (s & Mm & q & Hf). destruct (float_text_reads _ _ _ _ _ Hf T) as (ip' & fd' & e' & i' & L' & R).
    destruct (num_lit_det _ _ _ _ _ _ _ _ _ _ _ L L') as (-> & -> & -> & -> & _). rewrite R. constructor.
  - inversion M; subst. inversion X as [| | |? s' F| |]; subst. rewrite <- (wf_fixed _ _ Hs F). constructor.
  - apply slice_imported in M as (l & -> & G). inversion X as [| | | |? gs' F|]; subst. constructor. clear X. revert gs' F.
    induction G as [|g x gs l G1 _ IHG]; intros gs' F; inversion F; subst; constructor; inversion IH; subst; eauto.
  - apply map_imported in M as (es1 & i & kvs & lo & -> & Q & NK & G). inversion X as [| | | | |? ? ? kvs' es' P K N' F]; subst.
    rewrite Forall_forall in IH, HS.
    destruct (ExportProof.Forall2_pick (fun e e' : bytes * gov => fst e = fst e' /\ same_data (snd e) (snd e')) es es') as (es2 & X1 & X2).
    { intros e' He'. destruct (Forall2_in_r _ _ _ _ F He') as (x & Hx & F1 & F2). apply P in Hx.
      destruct (Forall2_in_r _ _ _ _ G Hx) as (e & He & G1 & G2). apply (Permutation_in _ (Permutation_sym Q)) in He.
      exists e. split; [exact He|]. destruct (HS _ He) as [[W1 _] _]. rewrite G1 in F1. split; [now apply wf_fixed|]. eapply IH; eauto. }
    apply SD_map with (es1 := es2); [|exact X2].
    assert (K2 : map fst es2 = map fst es').
    { clear -X2. induction X2 as [|e m l l' [A _] _ IHm]; [reflexivity|]. cbn [map]. now rewrite A, IHm. }
    apply perm_by_names; [exact N|now rewrite K2|exact X1|]. rewrite K2. intros k Hk. apply in_map_iff in Hk as (e & <- & He).
    destruct (HS _ He) as [[W1 _] _]. apply (Permutation_in _ Q) in He. destruct (Forall2_in_l _ _ _ _ G He) as (x & Hx & G1 & _).
    destruct (K _ Hx) as (e' & He' & E1). rewrite G1 in E1. rewrite (wf_fixed _ _ W1 E1). now apply in_map.
Qed.

Lemma shape_impl (PF PF' : spec_float -> Prop) (PS PS' : bytes -> Prop) g : (forall f, PF f -> PF' f) -> (forall s, PS s -> PS' s) ->
  any_shape PF PS g -> any_shape PF' PS' g.
Proof using.
  intros H1 H2 H. induction H as [|b|f Hf|s Hs|gs _ IH|es N HS IH] using any_shape_ind'; try (constructor; now auto).
  constructor; [exact N|]. rewrite Forall_forall in *. intros e He. split; [apply H2; now apply HS|auto].
Qed.

Theorem import_export W d opts g :
  (forall f fmt bits, fmt_float E f fmt (-1) bits <> []) ->
  o_omit_null (combine_options d []) = false -> opt_ws (combine_options d []) ->
  plain_data g -> go_levels g <= 10000 ->
  exists v, import E W d opts g = Ok (v, None) /\ (exists g', export_any E W d v (Some g')) /\
    forall g', export_any E W d v (Some g') -> same_data g g'.
Proof using HC.
  intros HE HO HW HP HL.
  destruct (shape_import E W d HE (fun _ => True) opts g) as (v & V1 & V2).
  { revert HP. apply shape_impl; [exact plain_finite|auto]. }
  destruct (imported_ok g HP v V2) as (A1 & A2 & A3 & A4).
  destruct (export_exactly E W d v HO HW A1 A2) as (X1 & _ & X2).
  exists v. split; [exact V1|]. split; [apply X1; split; [exact A3|lia]|].
  intros g' Hg. destruct (X2 _ Hg) as [_ Y]. eapply imported_back; eauto.
Qed.
End Back.
