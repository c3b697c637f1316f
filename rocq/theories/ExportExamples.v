(** Export: instances and counterexamples. *)
From Verif Require Import Base Float64 Value Scan Unmarshal Opt Marshal ListLemmas GoValue Import SpecJson SpecValue SpecFacts SpecLax SpecText SpecOpts
  SpecRound SpecFloatText SpecSpell SpecImport SpecExport Export ValueLemmas EscapeProof MarshalProof MarshalFacts ExactFormat ExportProof ExportImport ExampleWorld.

Definition ex_num : num := Num false true 1 1 (S754_finite false 6755399441055744 (-52)).
Definition ex_value : V := VObj 2 [(bs "b", (1, VArr [VNum ex_num (bs "1.50"); VNull])); (bs "a", (2, VStr (bs "x")))] None.
Definition ex_data : gov := map_of [(bs "b", slice_of [GFloat64 (S754_finite false 6755399441055744 (-52)); GInvalid]); (bs "a", GStr (bs "x"))].

Lemma lit_1_50 : num_lit (bs "1.50") false (bs "1") (bs "50") 0 false.
Proof.
  change (bs "1.50") with ((if false then [45] else []) ++ bs "1" ++ bs ".50" ++ []).
  apply (NumLit false (bs "1") (bs ".50") (bs "50") [] 0).
  - apply (IP_pos 49 []); [lia|constructor].
  - apply (FP_some (bs "50")). split; [discriminate|]. change (Forall digit [53; 48]). repeat (apply Forall_cons; [unfold digit; lia|]); apply Forall_nil.
  - constructor.
Qed.

Lemma ascii_string s : forallb (fun c => (32 <=? c) && (c <=? 127)) s = true -> Forall is_byte s /\ ~ In 11 s /\ well_formed s.
Proof.
  intros H0. assert (H : Forall (fun c => 32 <= c <= 127) s) by (apply Forall_forall; rewrite forallb_forall in H0; intros c Hc; apply H0 in Hc; lia).
  split; [|split].
  - revert H. apply Forall_impl. intros c Hc. unfold is_byte. lia.
  - intros C. rewrite Forall_forall in H. apply H in C. lia.
  - apply ascii_wf. revert H. apply Forall_impl. intros. lia.
Qed.
Ltac ascii := first [apply ascii_string; reflexivity | now intros [C|[]]].

Lemma ex_typed : json_typed ex_value.
Proof. apply json_typed_obj. split; [cbn; repeat (constructor; [cbn; intuition discriminate|]); constructor|repeat constructor]. Qed.
Lemma ex_bytes : all_text (Forall is_byte) num_bytes ex_value.
Proof.
  cbn. split; [ascii|]. split.
  - split; [|split; exact I]. split; [discriminate|]. eapply LaxFacts.num_lit_bytes, lit_1_50.
  - split; [ascii|]. split; [ascii|exact I].
Qed.
Lemma ex_exportable : exportable ex_value.
Proof.
  split; [|vm_compute; discriminate]. cbn. split; [ascii|]. split.
  - split; [|split; exact I]. split; [unfold rfc_lit; eauto 10 using lit_1_50|].
    intros neg ip fd e i H. destruct (num_lit_det _ _ _ _ _ _ _ _ _ _ _ H lit_1_50) as (-> & -> & -> & -> & _). vm_compute. exact I.
  - split; [ascii|]. split; [ascii|exact I].
Qed.

Lemma ex_names : all_objs names_distinct ex_value.
Proof.
  apply all_objs_obj. split; [|repeat constructor].
  intros k1 k2 s H1 H2 F1 F2.
  assert (K : forall k, In k (map fst [(bs "b", (1, VArr [VNum ex_num (bs "1.50"); VNull])); (bs "a", (2, VStr (bs "x")))]) -> SpecText.fixed k s -> k = s).
  { intros k [<-|[<-|[]]] F; (eapply wf_fixed; [ascii|exact F]). }
  rewrite (K k1 H1 F1), (K k2 H2 F2). reflexivity.
Qed.

Lemma export_example E W : exists g, export_any E W opt0 ex_value (Some g) /\ same_data ex_data g.
Proof.
  destruct (export_exactly E W opt0 ex_value eq_refl (conj (Forall_nil _) (Forall_nil _)) ex_typed ex_bytes) as (H1 & _ & H2).
  destruct (H1 ex_exportable) as [g Hg]. exists g. split; [exact Hg|]. destruct (H2 g Hg) as [_ X].
  inversion X as [| | | | |? ? ? kvs' es P K N F]; subst.
  assert (A : forall e, In e es -> exists e0, In e0 [(bs "b", slice_of [GFloat64 (S754_finite false 6755399441055744 (-52)); GInvalid]); (bs "a", GStr (bs "x"))] /\
                 fst e0 = fst e /\ same_data (snd e0) (snd e)).
  { intros e He. destruct (Forall2_in_r _ _ _ _ F He) as (x & Hx & F1 & F2). apply P in Hx. destruct Hx as [<-|[<-|[]]].
    - eexists. split; [now left|]. cbn [fst snd] in *. split; [apply wf_fixed; [ascii|exact F1]|].
      inversion F2 as [| | | |? gs G|]; subst. inversion G as [|? g1 ? r G1 G2]; subst. inversion G2 as [|? g2 ? r' G3 G4]; subst. inversion G4; subst.
      inversion G3; subst. inversion G1 as [| |? ? ? ? ? ? ? L| | |]; subst.
      destruct (num_lit_det _ _ _ _ _ _ _ _ _ _ _ L lit_1_50) as (-> & -> & -> & -> & _).
      constructor. constructor; [|repeat constructor].
      replace (lit_f64 false (bs "1") (bs "50") 0) with (S754_finite false 6755399441055744 (-52)) by (vm_compute; reflexivity). constructor.
    - eexists. split; [right; now left|]. cbn [fst snd] in *. split; [apply wf_fixed; [ascii|exact F1]|].
      inversion F2 as [| | |? s' G| |]; subst. rewrite <- (wf_fixed (bs "x") s'); [constructor|ascii|exact G]. }
  destruct (ExportProof.Forall2_pick _ _ _ A) as (es2 & X1 & X2).
  apply SD_map with (es1 := es2); [|exact X2].
  assert (K2 : map fst es2 = map fst es).
  { clear -X2. induction X2 as [|e m l l' [B _] _ IHm]; [reflexivity|]. cbn [map]. now rewrite B, IHm. }
  apply perm_by_names; [cbn; repeat (constructor; [cbn; intuition discriminate|]); constructor|now rewrite K2|exact X1|].
  rewrite K2. intros k [<-|[<-|[]]].
  - destruct (K (bs "b", (1, VArr [VNum ex_num (bs "1.50"); VNull]))) as (e & He & Fe); [now left|]. cbn [fst] in *.
    rewrite (wf_fixed (bs "b") (fst e)); [now apply in_map|ascii|exact Fe].
  - destruct (K (bs "a", (2, VStr (bs "x")))) as (e & He & Fe); [right; now left|]. cbn [fst] in *.
    rewrite (wf_fixed (bs "a") (fst e)); [now apply in_map|ascii|exact Fe].
Qed.

(** A JSON text whose value cannot be exported. *)
Lemma export_vt : exists b j v, json_doc b j /\ forall E W, unmarshal E b = Ok (v, None) /\ json_typed v /\
  export_any E W opt0 v None /\ (forall g, ~ export_any E W opt0 v (Some g)) /\ export_v E W opt0 v VNotExist None.
Proof.
  exists ([34] ++ [92; 117; 48; 48; 48; 98] ++ [34]), (JStr [11]), (VStr [11]).
  assert (HX : ~ exportable (VStr [11])) by (intros [H _]; apply H; now left).
  assert (HB : all_text (Forall is_byte) num_bytes (VStr [11])) by (cbn; repeat constructor; unfold is_byte; lia).
  split.
  - exists [], ([34] ++ [92; 117; 48; 48; 48; 98] ++ [34]), []. split; [reflexivity|]. split; [constructor|]. split; [|constructor].
    apply (JT_str [92; 117; 48; 48; 48; 98] [11]).
    apply (SB_unicode [48; 48; 48; 98] 11 [] []); [|left; lia|constructor].
    apply (Hex4 48 48 48 98 0 0 0 11); [apply (HD_dec 48); lia|apply (HD_dec 48); lia|apply (HD_dec 48); lia|apply (HD_low 98); lia].
  - intros E W. split; [vm_compute; reflexivity|]. split; [exact I|].
    destruct (export_exactly E W opt0 (VStr [11]) eq_refl (conj (Forall_nil _) (Forall_nil _)) I HB) as (_ & H1 & H2).
    split; [exact (H1 HX)|]. split; [intros g Hg; apply HX; now apply (H2 g)|].
    destruct (export_v_exactly E W opt0 (VStr [11]) VNotExist eq_refl (conj (Forall_nil _) (Forall_nil _)) I) as (_ & H3 & _); [apply HB|discriminate|].
    apply H3. intros [H _]. apply H. now left.
Qed.

(** The contract of FormatFloat can be met, and the texts are not empty. *)
Definition env_full : Env := {|
  oor_i64 := oor_i64 env0; oor_u64 := oor_u64 env0; to_lower := to_lower env0;
  fmt_float := fun f a b c => match fmt_float env_exact f a b c with [] => bs "NaN" | t => t end;
  json_float := json_float env0; to_f32 := to_f32 env0 |}.
Lemma full_contract : format_contract env_full /\ forall f fmt bits, fmt_float env_full f fmt (-1) bits <> [].
Proof.
  split.
  - intros f s M q H. destruct (exact_contract f s M q H) as ((ip & fd & i & L & R) & (c & fd' & e & L' & R')).
    destruct (MarshalClaims.num_lit_cons _ _ _ _ _ _ L) as (x & r & X). destruct (MarshalClaims.num_lit_cons _ _ _ _ _ _ L') as (y & r' & Y).
    split.
    + exists ip, fd, i. cbn [fmt_float env_full]. rewrite X. rewrite <- X. auto.
    + exists c, fd', e. cbn [fmt_float env_full]. rewrite Y. rewrite <- Y. auto.
  - intros f fmt bits. cbn [fmt_float env_full]. destruct (fmt_float env_exact f fmt (-1) bits); discriminate.
Qed.

Lemma ex_plain : plain_data ex_data /\ go_levels ex_data <= 10000.
Proof.
  split; [|vm_compute; discriminate]. apply AS_map; [cbn; repeat (constructor; [cbn; intuition discriminate|]); constructor|].
  assert (K : forall c, 97 <= c <= 127 -> plain_string [c]) by (intros c Hc; split; apply ascii_string; cbn; lia).
  constructor; [|constructor; [|constructor]]; cbn [fst snd].
  - split; [exact (K 98 ltac:(lia))|]. apply AS_slice. constructor; [|repeat constructor]. constructor.
    exists false, 6755399441055744, (-52). split; [reflexivity|]. unfold binary64, normal_form. lia.
  - split; [exact (K 97 ltac:(lia))|]. constructor. exact (K 120 ltac:(lia)).
Qed.

(** A string with U+000B does not survive. *)
Lemma import_export_vt : forall E W, exists v, import E W opt0 [] (GStr [11]) = Ok (v, None) /\ well_formed [11] /\ forall g, ~ export_any E W opt0 v (Some g).
Proof.
  intros E W. exists (VStr [11]). split; [reflexivity|]. split; [apply ascii_wf; repeat constructor; lia|].
  intros g Hg. destruct (export_exactly E W opt0 (VStr [11]) eq_refl (conj (Forall_nil _) (Forall_nil _)) I) as (_ & _ & H).
  - cbn. repeat constructor; unfold is_byte; lia.
  - destruct (H g Hg) as [[X _] _]. apply X. now left.
Qed.
