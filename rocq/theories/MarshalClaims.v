(** Statements about Marshal in the form of the properties. *)
From Verif Require Import Base Utf8 Float64 Value Scan Unmarshal Pure Opt Marshal Defaults ListLemmas
  SpecJson SpecValue SpecLax SpecText SpecOrder SpecOut SpecOpts
  ValueLemmas ParseComplete SortProof EscapeProof MarshalProof OrderProof LaxNum LaxParse ExampleWorld
  RoundTrip NumFacts SeqProof LaxFacts MarshalFacts IndentProof.

Lemma num_lit_cons t neg ip fd e i : num_lit t neg ip fd e i -> exists c r, t = c :: r.
Proof.
  intros H. inversion H as [neg' ip' fr fd' ex e' Hi Hf He]; subst. destruct neg; cbn [app]; [eauto|].
  inversion Hi; subst; cbn [app]; eauto.
Qed.

Lemma rfc_written E o n src : rfc_lit src -> num_written E o num_text jval n src.
Proof.
  intros (neg & ip & fd & e & i & H). destruct (num_lit_cons _ _ _ _ _ _ H) as (c & r & ->).
  exists (c :: r), (JNum (c :: r)). split; [reflexivity|]. split; [|reflexivity]. econstructor; eassumption.
Qed.

Lemma all_objs_impl2 (P Q : list (bytes * (Z * V)) -> Prop) v : (forall kvs, P kvs -> Q kvs) -> all_objs P v -> all_objs Q v.
Proof. intros H. now apply all_objs_impl. Qed.

Lemma typed_nodup v : json_typed v -> all_objs (fun kvs => NoDup (akeys kvs)) v.
Proof.
  induction v as [| s | n src | i kvs lo IH | l IH | b | | | ] using V_ind'; intros Ht; try exact I.
  - apply json_typed_obj in Ht as [Hn Ht]. apply all_objs_obj. split; [assumption|].
    rewrite Forall_forall in *. intros x Hx. apply IH; auto.
  - apply json_typed_arr in Ht. apply all_objs_arr. rewrite Forall_forall in *. auto.
Qed.

Lemma all_objs_conj P Q v : all_objs P v -> all_objs Q v -> all_objs (fun kvs => P kvs /\ Q kvs) v.
Proof.
  induction v as [| s | n src | i kvs lo IH | l IH | b | | | ] using V_ind'; intros H1 H2; try exact I.
  - apply all_objs_obj in H1 as [A B], H2 as [C D]. apply all_objs_obj. split; [auto|]. rewrite Forall_forall in *. intros x Hx. apply IH; auto.
  - apply all_objs_arr in H1, H2. apply all_objs_arr. rewrite Forall_forall in *. auto.
Qed.

(** RFC output, for any order of members and any display of numbers. *)
Lemma rfc_output E W o (NT : num -> bytes -> jv -> Prop) ORD v :
  opt_ws o -> json_typed v -> all_text str_ok (num_written E o NT jval) v ->
  all_objs (fun kvs => omit_guard (o_omit_null o) kvs /\ in_order E W o ORD kvs) v ->
  exists b j, marshal_opt E W o v = Ok b /\ json_doc b j /\ shows NT (o_omit_null o) ORD v j.
Proof.
  intros [Hp Hi] Ht Ha Ho.
  destruct (marshal_rfc E W o NT ORD Hp Hi v Ht Ha Ho) as [_ H]. destruct (H None [] 0%nat) as (b & j & Hr & Hj & Hs).
  exists b, j. split; [|split; [|assumption]].
  - destruct v; try contradiction; cbn [marshal_opt]; rewrite Hr; reflexivity.
  - exists [], b, []. rewrite app_nil_r. repeat split; try constructor. assumption.
Qed.

Lemma no_omit om : om = false -> forall kvs, omit_guard om kvs.
Proof. intros -> kvs H. discriminate. Qed.

(** C04 *)
Theorem marshal_json E W o v :
  o_omit_null o = false -> opt_ws o -> json_typed v -> all_text str_ok (fun _ src => rfc_lit src) v ->
  exists b j, marshal_opt E W o v = Ok b /\ json_doc b j /\ shows_text v j.
Proof.
  intros Ho Hw Ht Ha.
  destruct (rfc_output E W o num_text any_order v Hw Ht) as (b & j & H1 & H2 & H3).
  - eapply all_text_impl; [| |exact Ha]; [auto|]. intros n src H. now apply rfc_written.
  - apply all_objs_all. intros kvs. split; [now apply no_omit|apply in_any_order].
  - exists b, j. unfold shows_text. rewrite Ho in H3. auto.
Qed.

Theorem vt_not_json : forall E W o, exists b,
  marshal_opt E W o (VStr [11]) = Ok b /\ forall j, ~ json_doc b j.
Proof.
  intros E W o. exists (34 :: 11 :: [34]). split.
  - cbn [marshal_opt marshal_to mok rbind]. unfold quoted, escape_string.
    change (runes [11]) with [11]. cbn [flat_map app]. unfold esc_rune. change (11 <=? 127) with true.
    unfold esc_ascii. change ((11 =? 60) || (11 =? 62) || (11 =? 38)) with false. change (11 =? 47) with false.
    rewrite !Bool.andb_false_r. reflexivity.
  - apply (not_json_byte _ 11); [now right; left|]. unfold text_byte, is_ws. lia.
Qed.

(** C24 *)
Theorem sorted_json E W o ORD v :
  opt_ws o -> o_omit_null o = false -> json_typed v -> all_text str_ok (fun _ src => rfc_lit src) v ->
  all_objs (in_order E W o ORD) v ->
  exists b j, marshal_opt E W o v = Ok b /\ json_doc b j /\ shows num_text false ORD v j.
Proof.
  intros Hw Ho Ht Ha Hord. rewrite <- Ho.
  apply rfc_output; try assumption.
  - eapply all_text_impl; [| |exact Ha]; [auto|]. intros n src H. now apply rfc_written.
  - eapply all_objs_impl2; [|exact Hord]. intros kvs H. split; [now apply no_omit|assumption].
Qed.

Theorem order_default E W o v :
  opt_ws o -> o_omit_null o = false -> json_typed v -> all_text str_ok (fun _ src => rfc_lit src) v ->
  o_less o = Some default_string_sequence ->
  exists b j, marshal_opt E W o v = Ok b /\ json_doc b j /\ shows num_text false (by_key blt) v j.
Proof.
  intros Hw Ho Ht Ha Hl. apply sorted_json; try assumption.
  eapply all_objs_impl2; [|apply typed_nodup, Ht]. intros kvs Hn. now apply in_order_default.
Qed.
Theorem order_keyseq E W o v :
  opt_ws o -> o_omit_null o = false -> json_typed v -> all_text str_ok (fun _ src => rfc_lit src) v ->
  o_less o = None -> o_keyseq o <> [] ->
  exists b j, marshal_opt E W o v = Ok b /\ json_doc b j /\ shows num_text false (by_key (seq_before (o_keyseq o))) v j.
Proof.
  intros Hw Ho Ht Ha Hl Hs. apply sorted_json; try assumption.
  eapply all_objs_impl2; [|apply typed_nodup, Ht]. intros kvs Hn. now apply in_order_keyseq.
Qed.
Theorem order_setseq E W o v :
  opt_ws o -> o_omit_null o = false -> json_typed v -> all_text str_ok (fun _ src => rfc_lit src) v ->
  all_objs (fun kvs => NoDup (map (fun x => fst (snd x)) kvs)) v ->
  o_less o = None -> o_keyseq o = [] -> o_setseq o = true ->
  exists b j, marshal_opt E W o v = Ok b /\ json_doc b j /\ shows num_text false by_id v j.
Proof.
  intros Hw Ho Ht Ha Hid Hl Hs Hq. apply sorted_json; try assumption.
  eapply all_objs_impl2; [|apply all_objs_conj; [apply typed_nodup, Ht|exact Hid]]. intros kvs [Hn H]. now apply in_order_setseq.
Qed.

Theorem output_determined E W W' o v :
  json_typed v -> all_objs (total_order o) v -> marshal_opt E W o v = marshal_opt E W' o v.
Proof.
  intros Ht Ho. unfold marshal_opt. destruct v; try reflexivity;
  (rewrite (marshal_det E W W' o); [reflexivity|]; apply all_objs_conj; [now apply typed_nodup|assumption]).
Qed.

Lemma default_total : less_total default_string_sequence.
Proof.
  intros pi. exists (fun x y => bltb (fst x) (fst y)). split; [split; [|split]|split].
  - intros x. destruct (bltb (fst x) (fst x)) eqn:Ea; [|reflexivity]. apply bltb_blt in Ea. now apply blt_irrefl in Ea.
  - intros x y z H1 H2. apply bltb_blt in H1, H2. apply bltb_blt. eapply blt_trans; eassumption.
  - intros x y z H1 H2 H3 H4.
    assert (E1 : fst x = fst y) by (destruct (blt_total (fst x) (fst y)) as [H|[H|H]]; [apply bltb_blt in H; congruence|assumption|apply bltb_blt in H; congruence]).
    now rewrite E1.
  - intros x y Hn H. destruct (blt_total (fst x) (fst y)) as [H'|[H'|H']]; [apply bltb_blt in H'; congruence|contradiction|now apply bltb_blt].
  - intros k1 k2 v1 v2 Hn. unfold default_string_sequence. cbn.
    destruct (blt_total k1 k2) as [H|[H|H]]; [|contradiction|].
    + replace (bltb k1 k2) with true by (symmetry; now apply bltb_blt). destruct (bltb k2 k1) eqn:E2; [|reflexivity].
      apply bltb_blt in E2. exfalso. eapply blt_irrefl, blt_trans; eassumption.
    + replace (bltb k2 k1) with true by (symmetry; now apply bltb_blt). destruct (bltb k1 k2) eqn:E2; [|reflexivity].
      apply bltb_blt in E2. exfalso. eapply blt_irrefl, blt_trans; eassumption.
Qed.

(** C05 *)

(** Two names, different and ill-formed, that are repaired to the same name. *)
Definition collide_text : bytes := 123 :: 34 :: 192 :: 97 :: 34 :: 58 :: 49 :: 44 :: 34 :: 193 :: 97 :: 34 :: 58 :: 50 :: [125].
Definition opt_sorted : opt := combine_options opt0 [opt_default_string_sequence].

Lemma opt_sorted_ws : opt_ws opt_sorted.
Proof. split; constructor. Qed.

Ltac rfc_no :=
  match goal with
  | H : Permutation _ _ |- _ => apply Permutation_length in H; cbn in H
  end.

Theorem collide_refuted : exists b, Forall is_byte b /\ forall E W, exists v b' v',
  unmarshal E b = Ok (v, None) /\ marshal_opt E W opt_sorted v = Ok b' /\ unmarshal E b' = Ok (v', None) /\
  ~ same_json (fun _ _ _ => True) false v v'.
Proof.
  exists collide_text. split; [unfold collide_text; repeat (constructor; [unfold is_byte; lia|]); constructor|].
  intros E W. eexists. eexists. eexists. split; [vm_compute; reflexivity|]. split.
  - rewrite (output_determined E W world1); [vm_compute; reflexivity| |].
    + apply json_typed_obj. split; [cbn; repeat (constructor; [cbn; intuition discriminate|]); constructor|repeat constructor].
    + apply all_objs_obj. split; [exact default_total|repeat constructor].
  - split; [vm_compute; reflexivity|]. intros H. inversion H as [| | | | |i kvs lo kvs2 i' kvs' lo' P F]; subst.
    apply Permutation_length in P. assert (L : List.length kvs2 = 1%nat).
    { inversion F as [|? ? ? ? ? F']; subst. inversion F'; subst. reflexivity. }
    rewrite L in P. discriminate.
Qed.

(** C07 *)
Theorem string_text E W o s : Forall is_byte s -> exists t s',
  marshal_opt E W o (VStr s) = Ok (34 :: t ++ [34]) /\ fixed s s' /\ lstr t s' /\
  (~ In 11 s -> str_body t s') /\ (well_formed s -> s' = s).
Proof.
  intros Hs. exists (escape_string (o_esc o) s), (fix_utf8 s). split; [reflexivity|].
  split; [now apply fix_fixed|]. split; [now apply escape_string_lstr|]. split; [now apply escape_string_body|].
  intros Hw. symmetry. now apply fixed_fix, fixed_well_formed.
Qed.

(** C10 *)
Theorem parsed_number_text E W o b v : opt_ws o -> Forall is_byte b -> unmarshal E b = Ok (v, None) ->
  exists b' j, marshal_opt E W o v = Ok b' /\ lax_doc b' j /\ shows num_text (o_omit_null o) any_order v j.
Proof.
  intros Ho Hb H. destruct (parsed_text E b v Hb H) as [Ht Ha].
  destruct (marshal_accepted E W o (fun n src => q_number E src = Ok (VNum n src, [])) v Ho Ht) as (b' & j & H1 & H2 & H3); [|exact Ha|].
  { intros n src Hq. now apply q_number_lax in Hq. }
  exists b', j. repeat split; try assumption. eapply shows_impl; [| |exact H3]; [|auto]. intros n src j0 [-> _]. reflexivity.
Qed.

(** C12, C23 *)
Theorem duplicates E W o b j : opt_ws o -> o_omit_null o = false ->
  o_less o = None -> o_keyseq o = [] -> o_setseq o = true ->
  Forall is_byte b -> Z.of_nat (List.length b) < two32 -> lax_doc b j ->
  exists v b' j', unmarshal E b = Ok (v, None) /\ tree_of lax_value j v /\
    marshal_opt E W o v = Ok b' /\ lax_doc b' j' /\ norm j j'.
Proof.
  intros Hw Hom Hl Hk Hq Hb Hlen Hj.
  pose proof (unmarshal_of_lax E b j Hj) as Hu. destruct (parsed_text E b _ Hb Hu) as [Ht Ha].
  assert (Hlit : all_lits lax_num j /\ small two32 j).
  { destruct Hj as (w1 & t & w2 & -> & _ & Hj & _). split; [now apply (proj1 lax_lits t)|].
    apply (proj1 (lax_small two32) t); [assumption|]. rewrite !app_length in Hlen. lia. }
  destruct Hlit as [Hlits Hsm].
  set (NT := fun (n : num) (src : bytes) (j : jv) => j = JNum src).
  destruct (marshal_lax E W o NT by_id (proj1 Hw) (proj2 Hw) (to_V E j) Ht) as [_ H].
  { eapply all_text_impl; [| |exact Ha]; [auto|]. intros n src Hn. apply q_number_lax in Hn as HN.
    destruct (lax_num_cons src HN) as (c & r & ->).
    exists (c :: r), (JNum (c :: r)). split; [reflexivity|]. split; [|reflexivity]. now constructor. }
  { eapply all_objs_impl2; [|apply all_objs_conj; [apply typed_nodup, Ht|apply (to_V_ids E j Hsm)]].
    intros kvs [H1 H2]. now apply in_order_setseq. }
  destruct (H None [] 0%nat) as (b' & j' & Hr & Hj' & Hs).
  exists (to_V E j), b', j'. split; [assumption|]. split; [now apply to_V_tree|]. split; [|split].
  - destruct (to_V E j); try contradiction; cbn [marshal_opt]; rewrite Hr; reflexivity.
  - exists [], b', []. rewrite app_nil_r. repeat split; try constructor. assumption.
  - rewrite Hom in Hs. eapply shows_norm with (ORD := by_id) (NT := NT); eauto.
Qed.

(** C30 *)
Theorem omit_null_json E W o v :
  opt_ws o -> json_typed v -> all_text str_ok (fun _ src => rfc_lit src) v -> all_objs (omit_guard true) v ->
  o_omit_null o = true ->
  exists b j, marshal_opt E W o v = Ok b /\ json_doc b j /\ shows num_text true any_order v j.
Proof.
  intros Hw Ht Ha Hg Ho. rewrite <- Ho. apply rfc_output; try assumption.
  - eapply all_text_impl; [| |exact Ha]; [auto|]. intros n src H. now apply rfc_written.
  - eapply all_objs_impl2; [|exact Hg]. intros kvs H. split; [now rewrite Ho|apply in_any_order].
Qed.

Definition omit_doc : V :=
  VObj 3 [(bs "a", (1, VNum (Num false false 0 0 f_zero) (bs "1"))); (bs "b", (2, VNull)); (bs "c", (3, VNum (Num false false 0 0 f_zero) (bs "2")))] None.
Definition opt_omit : opt := combine_options opt0 [OOmitNull true; opt_default_string_sequence].

Theorem omit_refuted : exists o v b, o_omit_null o = true /\ opt_ws o /\ json_typed v /\
  all_text str_ok (fun _ src => rfc_lit src) v /\
  (forall E W, marshal_opt E W o v = Ok b) /\ forall j, ~ json_doc b j.
Proof.
  assert (Ht : json_typed omit_doc).
  { apply json_typed_obj. split; [cbn; repeat (constructor; [cbn; intuition discriminate|]); constructor|repeat constructor]. }
  exists opt_omit, omit_doc, (bs "{""a"":1""c"":2}"). split; [reflexivity|]. split; [split; constructor|]. split; [exact Ht|].
  split; [|split].
  - apply all_text_obj.
    assert (H1 : forall c, 48 < c <= 57 -> rfc_lit [c]).
    { intros c Hc. exists false, [c], [], 0, true. apply (NumLit false [c] [] [] [] 0); constructor; [lia|constructor]. }
    assert (Hs : forall c, 97 <= c <= 99 -> str_ok [c]).
    { intros c Hc. split; [repeat constructor; unfold is_byte; lia|cbn; lia]. }
    constructor; [split; [exact (Hs 97 ltac:(lia))|exact (H1 49 ltac:(lia))]|].
    constructor; [split; [exact (Hs 98 ltac:(lia))|exact I]|].
    constructor; [split; [exact (Hs 99 ltac:(lia))|exact (H1 50 ltac:(lia))]|]. constructor.
  - intros E W. rewrite (output_determined E W world1); [vm_compute; reflexivity|exact Ht|].
    apply all_objs_obj. split; [exact default_total|repeat constructor].
  - exact not_json_two_members.
Qed.

(** C31 *)

Lemma valid_finite f : finite_float f -> is_valid_float f = true.
Proof. destruct f; cbn; tauto. Qed.
Lemma opp_finite f : finite_float f -> finite_float (f_opp f).
Proof. destruct f; cbn; tauto. Qed.

Lemma trim_strip s : strip_plus s (trim_plus s).
Proof.
  induction s as [|c s (k & IH & Hn)].
  - exists 0%nat. cbn. split; [reflexivity|discriminate].
  - destruct (Z.eq_dec c 43) as [->|Hc].
    + exists (S k). cbn [repeat app trim_plus]. split; [now rewrite <- IH|assumption].
    + exists 0%nat. assert (Et : trim_plus (c :: s) = c :: s).
      { cbn. destruct c as [|p|p]; try reflexivity. do 6 (destruct p as [p|p|]; try reflexivity). congruence. }
      rewrite Et. split; [reflexivity|]. congruence.
Qed.
Lemma strip_ok s r : str_ok s -> strip_plus s r -> str_ok r.
Proof.
  intros [Hb Hv] (k & -> & _). apply Forall_app in Hb as [_ Hb]. split; [assumption|].
  intros H. apply Hv. apply in_or_app. now right.
Qed.

Lemma quoted_written o s : str_ok s -> jval (quoted (o_esc o) s) (JStr (fix_utf8 s)).
Proof. intros [H1 H2]. apply JT_str. now apply escape_string_body. Qed.
Lemma rfc_jval t : rfc_lit t -> jval t (JNum t).
Proof. intros (neg & ip & fd & e & i & H). econstructor; eassumption. Qed.

Lemma raw_quoted (t : bytes) : Forall (fun c => 32 <= c <= 126 /\ c <> 34 /\ c <> 92) t ->
  jval (34 :: t ++ [34]) (JStr t).
Proof.
  intros H. apply JT_str. induction H as [|c t Hc Ht IH]; [constructor|].
  replace (c :: t) with (utf8 c ++ t) by (rewrite utf8_ascii by lia; reflexivity).
  apply SB_raw; [unfold scalar; lia|lia|lia|lia|assumption].
Qed.
Lemma ascii_fixed (t : bytes) : Forall (fun c => 32 <= c <= 126 /\ c <> 34 /\ c <> 92) t -> fixed t t.
Proof. intros H. apply fixed_well_formed, ascii_wf. revert H. apply Forall_impl. intros; lia. Qed.

Ltac plain_text := match goal with |- Forall ?P ?t => let t' := eval vm_compute in t in change (Forall P t') end;
  repeat (apply Forall_cons; [lia|]); apply Forall_nil.

Lemma policy_written E o n : json_env E -> policy_set o -> Forall str_ok (opt_strings o) ->
  num_written E o (num_policy E o) jval n [].
Proof.
  intros HE [Hn Hi] Ho. unfold opt_strings in Ho.
  pose proof (Forall_inv Ho) as O1. apply Forall_inv_tail in Ho. pose proof (Forall_inv Ho) as O2.
  apply Forall_inv_tail in Ho. pose proof (Forall_inv Ho) as O3. clear Ho.
  assert (Hnan : exists b j, marshal_nan E o = Ok (b, None) /\ jval b j /\
    ((o_nan o = 1 /\ j = JNum (json_float E (o_nan_float o))) \/ (o_nan o = 2 /\ j = JNull) \/
     (o_nan o = 3 /\ exists s, fixed (or_else (o_nan_str o) (bs "NaN")) s /\ j = JStr s))).
  { unfold marshal_nan. destruct Hn as [[H1 H2]|[H1|H1]]; rewrite H1; cbn [Z.eqb Pos.eqb].
    - rewrite (valid_finite _ H2). cbn [negb]. do 2 eexists. split; [reflexivity|]. split; [apply rfc_jval, HE, H2|]. left. auto.
    - do 2 eexists. split; [reflexivity|]. split; [constructor|]. right. left. auto.
    - destruct (o_nan_str o) as [|c s] eqn:Es.
      + do 2 eexists. split; [reflexivity|]. split.
        * apply (raw_quoted (bs "NaN")). plain_text.
        * right. right. split; [reflexivity|]. eexists. split; [|reflexivity]. apply ascii_fixed. plain_text.
      + do 2 eexists. split; [reflexivity|]. split; [now apply quoted_written|]. right. right. split; [reflexivity|].
        eexists. split; [|reflexivity]. cbn [or_else]. apply fix_fixed, O1. }
  assert (Hp : exists b j, marshal_infp E o = Ok (b, None) /\ jval b j /\ policy_json E o (S754_infinity false) j).
  { unfold marshal_infp, policy_json. destruct Hi as [[H1 H2]|[H1|H1]]; rewrite H1; cbn [Z.eqb Pos.eqb].
    - rewrite (valid_finite _ H2). cbn [negb]. do 2 eexists. split; [reflexivity|]. split; [apply rfc_jval, HE, H2|]. left. auto.
    - do 2 eexists. split; [reflexivity|]. split; [constructor|]. right. left. auto.
    - destruct (o_inf_pos o) as [|c s] eqn:Es.
      + do 2 eexists. split; [reflexivity|]. split.
        * apply (raw_quoted (bs "+Inf")). plain_text.
        * right. right. split; [reflexivity|]. eexists. split; [|reflexivity]. apply ascii_fixed. plain_text.
      + do 2 eexists. split; [reflexivity|]. split; [now apply quoted_written|]. right. right. split; [reflexivity|].
        eexists. split; [|reflexivity]. cbn [or_else]. apply fix_fixed, O2. }
  assert (Hm : exists b j, marshal_infn E o = Ok (b, None) /\ jval b j /\ policy_json E o (S754_infinity true) j).
  { unfold marshal_infn, policy_json. destruct Hi as [[H1 H2]|[H1|H1]]; rewrite H1; cbn [Z.eqb Pos.eqb].
    - rewrite (valid_finite _ H2). cbn [negb]. do 2 eexists. split; [reflexivity|]. split; [apply rfc_jval, HE, opp_finite, H2|]. left. auto.
    - do 2 eexists. split; [reflexivity|]. split; [constructor|]. right. left. auto.
    - pose proof (trim_strip (o_inf_pos o)) as Hstrip.
      destruct (o_inf_neg o) as [|c s] eqn:Es; [destruct (o_inf_pos o) as [|c' s'] eqn:Es'|].
      + do 2 eexists. split; [reflexivity|]. split.
        * apply (raw_quoted (bs "-Inf")). plain_text.
        * right. right. split; [reflexivity|]. exists [], (bs "-Inf"). split; [reflexivity|]. split; [exact Hstrip|].
          apply ascii_fixed. plain_text.
      + assert (Hok : str_ok (45 :: trim_plus (c' :: s'))).
        { destruct (strip_ok _ _ O2 Hstrip) as [A B]. split; [constructor; [unfold is_byte; lia|assumption]|]. intros [H|H]; [lia|auto]. }
        do 2 eexists. split; [reflexivity|]. split; [apply quoted_written, Hok|]. right. right. split; [reflexivity|].
        exists (trim_plus (c' :: s')). eexists. split; [reflexivity|]. split; [exact Hstrip|]. cbn [or_else]. apply fix_fixed, Hok.
      + do 2 eexists. split; [reflexivity|]. split; [now apply quoted_written|]. right. right. split; [reflexivity|].
        eexists. eexists. split; [reflexivity|]. split; [exact Hstrip|]. cbn [or_else]. apply fix_fixed, O3. }
  unfold num_written, marshal_number, num_policy.
  destruct (n_f64 n) as [sg|[|]| |sg m e] eqn:Ef; cbn [is_infp is_infn]; try exact Hnan; assumption.
Qed.

Theorem policy_output E W o v :
  json_env E -> policy_set o -> Forall str_ok (opt_strings o) -> o_omit_null o = false -> opt_ws o -> json_typed v ->
  all_text str_ok (fun n src => rfc_lit src \/ (src = [] /\ ~ finite_float (n_f64 n))) v ->
  exists b j, marshal_opt E W o v = Ok b /\ json_doc b j /\ shows (num_policy E o) false any_order v j.
Proof.
  intros HE Hp Hs Ho Hw Ht Ha. rewrite <- Ho. apply rfc_output; try assumption.
  - eapply all_text_impl; [| |exact Ha]; [auto|]. intros n src [H|[-> _]]; [|now apply policy_written].
    destruct (rfc_written E o n src H) as (b & j & H1 & H2 & H3). exists b, j. split; [assumption|]. split; [assumption|].
    destruct H as (neg & ip & fd & e & i & H). apply num_lit_cons in H as (c & r & ->). exact H3.
  - apply all_objs_all. intros kvs. split; [now apply no_omit|apply in_any_order].
Qed.

(** A number at the top level, default policy. *)
Theorem policy_default E W o n src : o_nan o = 0 -> o_inf o = 0 ->
  (src = [] -> marshal_opt E W o (VNum n src) = Err ErrUnsupportedFloat) /\
  (src <> [] -> marshal_opt E W o (VNum n src) = Ok src).
Proof.
  intros H1 H2. split.
  - intros ->. cbn [marshal_opt marshal_to marshal_number]. unfold marshal_infp, marshal_infn, marshal_nan. rewrite H1, H2.
    destruct (n_f64 n) as [sg|[|]| |sg m e]; reflexivity.
  - intros Hs. destruct src as [|c r]; [congruence|]. reflexivity.
Qed.

Theorem policy_refuted : exists v, all_text (fun _ => True) (fun n src => src = [] /\ n_f64 n = S754_nan) v /\
  (forall E W, marshal_opt E W opt0 v = Ok (bs "[]")) /\ v = VArr [VNum (Num false false 0 0 S754_nan) []].
Proof. eexists. split; [|split; [|reflexivity]]; [cbn; auto|]. intros E W. vm_compute. reflexivity. Qed.

(** C38 *)

Lemma last_said_fold {A} (say : option_ -> option A) (field : opt -> A) :
  (forall o t, field (merge o t) = match say o with Some x => x | None => field t end) ->
  forall opts d, last_said say opts (field d) (field (combine_options d opts)).
Proof.
  intros Hm opts. unfold combine_options, combine_from. induction opts as [|o opts IH] using rev_ind; intros d.
  - right. auto.
  - rewrite fold_left_app. cbn [fold_left]. rewrite Hm. destruct (say o) as [x|] eqn:Es.
    + left. exists opts, o, []. auto.
    + destruct (IH d) as [(p & o' & q & -> & H1 & H2)|[H1 H2]].
      * left. exists p, o', (q ++ [o]). rewrite <- app_assoc. split; [reflexivity|]. split; [assumption|].
        apply Forall_app. auto.
      * right. split; [apply Forall_app; auto|assumption].
Qed.

Lemma testbit_set e m k : 0 <= m -> Z.testbit (esc_set e m) k = (if k =? m then true else Z.testbit e k).
Proof.
  intros Hm. unfold esc_set. rewrite Z.lor_spec. destruct (Z.eqb_spec k m) as [->|Hk].
  - rewrite Z.shiftl_spec by lia. rewrite Z.sub_diag. apply Bool.orb_true_r.
  - destruct (Z.lt_ge_cases k 0); [rewrite !Z.testbit_neg_r by lia; reflexivity|].
    rewrite Z.shiftl_spec by lia.
    destruct (Z.lt_ge_cases (k - m) 0); [rewrite (Z.testbit_neg_r 1) by lia; apply Bool.orb_false_r|].
    rewrite (Z.bits_above_log2 1 (k - m)); [apply Bool.orb_false_r|lia|cbn; lia].
Qed.
Lemma testbit_clear e m k : 0 <= m -> Z.testbit (esc_clear e m) k = (if k =? m then false else Z.testbit e k).
Proof.
  intros Hm. unfold esc_clear. rewrite Z.ldiff_spec. destruct (Z.eqb_spec k m) as [->|Hk].
  - rewrite Z.shiftl_spec by lia. rewrite Z.sub_diag. apply Bool.andb_false_r.
  - destruct (Z.lt_ge_cases k 0); [rewrite !Z.testbit_neg_r by lia; reflexivity|].
    rewrite Z.shiftl_spec by lia.
    destruct (Z.lt_ge_cases (k - m) 0); [rewrite (Z.testbit_neg_r 1) by lia; apply Bool.andb_true_r|].
    rewrite (Z.bits_above_log2 1 (k - m)); [apply Bool.andb_true_r|lia|cbn; lia].
Qed.

Theorem options_said d opts (o := combine_options d opts) :
  last_said say_omit_null opts (o_omit_null d) (o_omit_null o) /\
  last_said say_ignore_omitempty opts (o_ignore_omitempty d) (o_ignore_omitempty o) /\
  last_said say_order opts (o_less d, o_keyseq d, o_setseq d) (o_less o, o_keyseq o, o_setseq o) /\
  last_said say_nan opts (o_nan d) (o_nan o) /\
  last_said say_nan_float opts (o_nan_float d) (o_nan_float o) /\
  last_said say_nan_str opts (o_nan_str d) (o_nan_str o) /\
  last_said say_inf opts (o_inf d) (o_inf o) /\
  last_said say_inf_float opts (o_inf_float d) (o_inf_float o) /\
  last_said say_inf_str opts (o_inf_pos d, o_inf_neg d) (o_inf_pos o, o_inf_neg o) /\
  last_said say_utf8 opts (Z.testbit (o_esc d) 0) (Z.testbit (o_esc o) 0) /\
  last_said say_html_off opts (Z.testbit (o_esc d) 1) (Z.testbit (o_esc o) 1) /\
  last_said say_slash_off opts (Z.testbit (o_esc d) 2) (Z.testbit (o_esc o) 2) /\
  last_said say_indent opts (o_indent d, o_prefix d, o_indent_str d) (o_indent o, o_prefix o, o_indent_str o).
Proof.
  subst o.
  Ltac field_of f := apply (last_said_fold _ f); intros o t; destruct o as [x|bb| |[g|]|sq| |ff| |ss|ff| |ss1 ss2|[|]| |[|]|pp ii]; cbn [merge]; try reflexivity;
    cbn -[Z.testbit esc_set esc_clear]; rewrite ?testbit_set, ?testbit_clear by (cbv; discriminate); reflexivity.
  split; [field_of (fun o => o_omit_null o)|]. split; [field_of (fun o => o_ignore_omitempty o)|].
  split; [field_of (fun o => (o_less o, o_keyseq o, o_setseq o))|].
  split; [field_of (fun o => o_nan o)|]. split; [field_of (fun o => o_nan_float o)|]. split; [field_of (fun o => o_nan_str o)|].
  split; [field_of (fun o => o_inf o)|]. split; [field_of (fun o => o_inf_float o)|]. split; [field_of (fun o => (o_inf_pos o, o_inf_neg o))|].
  split; [field_of (fun o => Z.testbit (o_esc o) 0)|]. split; [field_of (fun o => Z.testbit (o_esc o) 1)|]. split; [field_of (fun o => Z.testbit (o_esc o) 2)|].
  field_of (fun o => (o_indent o, o_prefix o, o_indent_str o)).
Qed.

Fixpoint default_after (d : opt) (cs : list api_call) : opt :=
  match cs with
  | [] => d
  | CallSetDefault l :: r => default_after (set_default l) r
  | CallReset :: r => default_after opt0 r
  | _ :: r => default_after d r
  end.
Lemma default_after_app d a b : default_after d (a ++ b) = default_after (default_after d a) b.
Proof. revert d. induction a as [|[l| |l v] a IH]; intros d; cbn; auto. Qed.
Lemma default_after_none d cs : Forall (fun c => ~ changes_default c) cs -> default_after d cs = d.
Proof. induction 1 as [|[l| |l v] cs H Hs IH]; cbn in *; tauto. Qed.
Lemma exec_app E W d a b : exec_calls E W d (a ++ b) = exec_calls E W d a ++ exec_calls E W (default_after d a) b.
Proof. revert d. induction a as [|[l| |l v] a IH]; intros d; cbn [app exec_calls exec_call default_after]; [reflexivity|..]; now rewrite IH. Qed.
Lemma in_force_default cs l : in_force cs l -> default_after opt0 cs = combine_from opt0 l.
Proof.
  intros [(p & q & -> & H)|[(p & q & -> & H & ->)|[H ->]]].
  - rewrite default_after_app. cbn [default_after]. now rewrite default_after_none.
  - rewrite default_after_app. cbn [default_after]. now rewrite default_after_none.
  - now rewrite default_after_none.
Qed.
Theorem defaults_in_force E W cs l opts v rest : in_force cs l ->
  nth_error (exec_calls E W opt0 (cs ++ CallMarshal opts v :: rest)) (List.length cs)
  = Some (Some (marshal_opt E W (combine_options opt0 (l ++ opts)) v)).
Proof.
  intros H. rewrite exec_app. rewrite nth_error_app2.
  - replace (List.length cs - List.length (exec_calls E W opt0 cs))%nat with 0%nat.
    + cbn. unfold marshal, combine_options, combine_from. rewrite (in_force_default cs l H). unfold combine_from. now rewrite <- fold_left_app.
    + enough (Hl : forall d, List.length (exec_calls E W d cs) = List.length cs) by (rewrite Hl; lia).
      clear H. induction cs as [|[l0| |l0 v0] cs IH]; intros d; cbn [exec_calls exec_call List.length]; auto.
  - enough (Hl : forall d, List.length (exec_calls E W d cs) = List.length cs) by (rewrite Hl; lia).
    clear H. induction cs as [|[l0| |l0 v0] cs IH]; intros d; cbn [exec_calls exec_call List.length]; auto.
Qed.

(** C06 *)
Theorem alphabet E W o v b : plain_env E -> marshal_opt E W o v = Ok b ->
  all_text byte_str (fun _ src => Forall number_byte src) v -> Forall byte_str (opt_strings o) ->
  (~ utf8_on o -> all_text (fun s => ~ In 11 s) (fun _ _ => True) v -> Forall (fun s => ~ In 11 s) (opt_strings o) ->
     Forall (fun c => printable c \/ indentation o c) b) /\
  (well_formed (o_prefix o) -> well_formed (o_indent_str o) ->
     well_formed b /\
     (all_text (fun s => ~ In 11 s) (fun _ _ => True) v -> Forall (fun s => ~ In 11 s) (opt_strings o) ->
      Forall (fun c => 32 <= c /\ c <> 127 \/ indentation o c) b)) /\
  (~ html_off o -> forall c, In c b -> (c = 60 \/ c = 62 \/ c = 38) -> indentation o c) /\
  (~ slash_off o -> ~ In 47 (o_prefix o) -> ~ In 47 (o_indent_str o) -> slashes_escaped b).
Proof.
  intros HE Hm Ha Ho. split; [|split; [|split]].
  - intros Hu Hv Hs. eapply out_ascii; eauto.
    + clear -Ha Hv. revert Ha Hv. induction v as [| s | n src | i kvs lo IH | l IH | b0 | | | ] using V_ind'; intros Ha Hv; try exact I; try exact Ha.
      * split; assumption.
      * apply all_text_obj in Ha, Hv. apply all_text_obj. rewrite Forall_forall in *. intros x Hx.
        destruct (Ha x Hx), (Hv x Hx). split; [split; assumption|]. apply IH; assumption.
      * apply all_text_arr in Ha, Hv. apply all_text_arr. rewrite Forall_forall in *. auto.
    + rewrite Forall_forall in *. auto.
  - intros Hp Hi. eapply out_utf8; eauto.
  - intros Hh. eapply out_html; eauto.
  - intros Hh Hp Hi. eapply out_slash; eauto.
Qed.
