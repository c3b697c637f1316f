(** Indentation under OptOmitNull (C32). *)
From Coq Require Import Permutation.
From Verif Require Import Base Utf8 Float64 Value Opt Marshal ListLemmas SpecJson SpecValue SpecLax SpecText SpecOrder SpecOut SpecOpts SpecLayout
  UnmarshalProof ValueLemmas MarshalProof OrderProof SeqProof LaxFacts MarshalFacts IndentProof.

Section Leaves.
Variable P : bytes -> Prop.
Inductive gleaves : gtree -> Prop :=
| GL_leaf b : P b -> gleaves (GLeaf b)
| GL_arr l : Forall gleaves l -> gleaves (GArr l)
| GL_obj rs : Forall (Forall (fun m => P (fst m) /\ gleaves (snd m))) rs -> gleaves (GObj rs).
End Leaves.

Section Render.
Variable E : Env.
Variable W : World.
Variable o : opt.
Variable P : bytes -> Prop.
Variable PS : bytes -> Prop.
Variable PN : num -> bytes -> Prop.
Hypothesis P_null : P (bs "null").
Hypothesis P_true : P (bs "true").
Hypothesis P_false : P (bs "false").
Hypothesis P_quoted : forall s, PS s -> P (quoted (o_esc o) s).
Hypothesis P_num : forall n src b e, PN n src -> marshal_number E o n src = Ok (b, e) -> P b.
Let o' := no_indent o.

Definition gboth (run run' : option pinfo -> list key -> nat -> mres) : Prop :=
  forall pi path, exists t e, gleaves P t /\ forall cnt,
    run pi path cnt = Ok (grender (lay_of o) cnt t, e) /\ run' pi path cnt = Ok (grender None cnt t, e).

Definition one (lay : option (bytes * bytes)) (cnt : nat) (x : bytes * gtree) : bytes :=
  line lay cnt ++ fst x ++ colon lay ++ grender lay cnt (snd x).

Lemma join_front x r : join (x :: r) = x ++ match r with [] => [] | _ => 44 :: join r end.
Proof. destruct r; [cbn [join]; now rewrite app_nil_r|reflexivity]. Qed.

Lemma members_grender pi path : forall l,
  Forall (fun x => snd (snd x) <> VNil /\ PS (fst x) /\ gboth (marshal_to E W o (snd (snd x))) (marshal_to E W o' (snd (snd x)))) l ->
  exists r0 rs, Forall (Forall (fun m => P (fst m) /\ gleaves P (snd m))) (r0 :: rs) /\ forall (cnt : nat) (first : bool),
    let comma : bytes := if first then [] else match r0 with [] => [] | _ => [44] end in
    write_members o pi path cnt first (map (mk_entry E W o) l)
    = Ok (comma ++ List.concat (map (fun r => join (map (one (lay_of o) cnt) r)) (r0 :: rs))) /\
    write_members o' pi path cnt first (map (mk_entry E W o') l)
    = Ok (comma ++ List.concat (map (fun r => join (map (one None cnt) r)) (r0 :: rs))).
Proof.
  induction l as [|x l IH]; intros Hf.
  - exists [], []. split; [repeat constructor|]. intros cnt [|]; split; reflexivity.
  - inversion Hf as [|? ? (Hn & Hk & Hb) Hf']; subst. destruct (IH Hf') as (r0 & rs & Hms & Hw).
    destruct (Hb (match o_less o with
                  | Some _ => Some (new_parent_info (snd (snd x)) pi (string_key (fst x)))
                  | None => None end) (path ++ [string_key (fst x)])) as (t & e & Ht & Hr).
    destruct (o_omit_null o && is_null (snd (snd x))) eqn:Eo.
    + apply andb_true_iff in Eo as [Eo En]. exists [], (r0 :: rs). split; [constructor; [constructor|exact Hms]|].
      intros cnt first. destruct (Hw cnt true) as [W1 W2].
      destruct x as [k [id x]]. cbn [fst snd] in *. destruct x; try discriminate En.
      split; cbn [map write_members mk_entry e_key e_val e_run]; change (o_omit_null o') with (o_omit_null o); rewrite Eo.
      * rewrite W1. destruct first; reflexivity.
      * rewrite W2. destruct first; reflexivity.
    + exists ((quoted (o_esc o) (fst x), t) :: r0), rs.
      inversion Hms as [|? ? Hr0 Hrs]; subst.
      split; [constructor; [constructor; [split; [now apply P_quoted|assumption]|assumption]|assumption]|].
      intros cnt first. destruct (Hr cnt) as [R1 R2]. destruct (Hw cnt false) as [W1 W2].
      assert (HC : forall (A : Type) (a : A) (k1 k2 : A),
          match snd (snd x) with VNil => a | VNull => if o_omit_null o then k2 else k1 | _ => k1 end = k1).
      { intros A a k1 k2. destruct (snd (snd x)); try reflexivity; [|congruence]. cbn [is_null] in Eo. rewrite andb_true_r in Eo. now rewrite Eo. }
      assert (HJ : forall lay, (if first then [] else [44]) ++ line lay cnt ++ quoted (o_esc o) (fst x) ++ colon lay ++ grender lay cnt t ++
          (match r0 with [] => [] | _ => [44] end) ++ List.concat (map (fun r => join (map (one lay cnt) r)) (r0 :: rs)) =
        (if first then [] else [44]) ++ List.concat (map (fun r => join (map (one lay cnt) r)) (((quoted (o_esc o) (fst x), t) :: r0) :: rs))).
      { intros lay. f_equal. cbn [map List.concat]. rewrite join_front.
        change (one lay cnt (quoted (o_esc o) (fst x), t)) with (line lay cnt ++ quoted (o_esc o) (fst x) ++ colon lay ++ grender lay cnt t).
        rewrite <- !app_assoc. do 4 f_equal.
        destruct r0; reflexivity. }
      split.
      * cbn [map write_members mk_entry e_key e_val e_run]. etransitivity; [apply HC|]. rewrite R1. cbn [rbind].
        rewrite W1. cbn [rbind]. f_equal. rewrite nl_line, colon_lay. apply HJ.
      * cbn [map write_members mk_entry e_key e_val e_run]. etransitivity; [apply HC|].
        change (o_less o') with (o_less o). rewrite R2. cbn [rbind].
        rewrite W2. cbn [rbind]. f_equal. rewrite nl_line, colon_lay. change (lay_of o') with (@None (bytes * bytes)). change (o_esc o') with (o_esc o).
        apply HJ.
Qed.

Lemma elems_grender v pi path : forall l,
  Forall (fun x => gboth (marshal_to E W o x) (marshal_to E W o' x)) l -> forall i, 0 <= i ->
  exists ts, List.length ts = List.length l /\ Forall (gleaves P) ts /\ forall cnt,
    let comma : bytes := if 0 <? i then match ts with [] => [] | _ => [44] end else [] in
    write_elems o v pi path cnt i (map (marshal_to E W o) l)
    = Ok (comma ++ join (map (fun x => line (lay_of o) cnt ++ grender (lay_of o) cnt x) ts)) /\
    write_elems o' v pi path cnt i (map (marshal_to E W o') l)
    = Ok (comma ++ join (map (fun x => line None cnt ++ grender None cnt x) ts)).
Proof.
  induction l as [|x l IH]; intros Hf i Hi.
  - exists []. split; [reflexivity|]. split; [constructor|]. intros cnt. destruct (0 <? i); split; reflexivity.
  - inversion Hf as [|? ? Hb Hf']; subst. destruct (IH Hf' (i + 1)) as (ts & Hlen & Hts & Hw); [lia|].
    destruct (Hb (match o_less o with
                  | Some _ => Some (new_parent_info v pi (int_key i))
                  | None => None end) (path ++ [int_key i])) as (t & e & Ht & Hr).
    exists (t :: ts). split; [cbn; congruence|]. split; [constructor; auto|].
    intros cnt. destruct (Hr cnt) as [R1 R2]. destruct (Hw cnt) as [W1 W2]. replace (0 <? i + 1) with true in W1, W2 by lia.
    split.
    + cbn [map write_elems]. rewrite R1. cbn [rbind]. rewrite W1. cbn [rbind]. f_equal. rewrite nl_line.
      f_equal. destruct ts as [|m ms]; cbn [map]; [cbn [join app]; now rewrite app_nil_r|]. rewrite join_cons.
        repeat (rewrite <- app_assoc || cbn [app]). reflexivity.
    + cbn [map write_elems]. change (o_less o') with (o_less o). rewrite R2. cbn [rbind]. rewrite W2. cbn [rbind]. f_equal. rewrite nl_line.
      change (lay_of o') with (@None (bytes * bytes)).
      f_equal. destruct ts as [|m ms]; cbn [map]; [cbn [join app]; now rewrite app_nil_r|]. rewrite join_cons.
        repeat (rewrite <- app_assoc || cbn [app]). reflexivity.
Qed.

Lemma marshal_grender v : json_typed v -> all_text PS PN v -> gboth (marshal_to E W o v) (marshal_to E W o' v).
Proof.
  induction v as [| s | n src | i kvs lo IH | l IH | b | | | ] using V_ind'; intros Ht Ha pi path; try contradiction.
  - exists (GLeaf (quoted (o_esc o) s)), None. split; [constructor; now apply P_quoted|]. intros cnt. split; reflexivity.
  - destruct (marshal_number E o n src) as [[b e]| | |] eqn:Em.
    2,3,4: exfalso; unfold marshal_number, marshal_infp, marshal_infn, marshal_nan in Em;
      repeat match type of Em with
        | context [match ?x with _ => _ end] => destruct x; try discriminate Em
        end.
    exists (GLeaf b), e. split; [constructor; eapply P_num; [exact Ha|exact Em]|]. intros cnt. split; exact Em.
  - apply json_typed_obj in Ht as [Hnd Ht]. apply all_text_obj in Ha.
    destruct (members_grender pi path (order_kvs W o pi path kvs)) as (r0 & rs & Hms & Hw).
    { eapply Permutation_Forall; [apply Permutation_sym, order_kvs_perm|]. rewrite Forall_forall in *. intros x Hx.
      split; [|split; [apply (Ha x Hx)|]].
      - intros Hv. specialize (Ht x Hx). now rewrite Hv in Ht.
      - apply (IH x Hx); [now apply Ht|apply (Ha x Hx)]. }
    destruct kvs as [|x0 kvs0].
    { exists (GObj []), None. split; [constructor; constructor|]. intros cnt. split; reflexivity. }
    exists (GObj (r0 :: rs)), None. split; [now constructor|]. intros cnt. rewrite !marshal_obj.
    destruct (Hw (S cnt) true) as [W1 W2]. cbn [app] in W1, W2.
    change (order_kvs W o' pi path (x0 :: kvs0)) with (order_kvs W o pi path (x0 :: kvs0)).
    rewrite W1, W2. cbn [rbind]. rewrite !nl_line. split; reflexivity.
  - apply json_typed_arr in Ht. apply all_text_arr in Ha.
    destruct (elems_grender (VArr l) pi path l) with (i := 0) as (ts & Hlen & Hts & Hw); [|lia|].
    { rewrite Forall_forall in *. auto. }
    exists (GArr ts), None. split; [now constructor|]. intros cnt. destruct (Hw (S cnt)) as [W1 W2].
    destruct l as [|x0 l0]; [destruct ts; [|discriminate]; split; reflexivity|]. cbn [marshal_to].
    rewrite W1, W2. cbn [rbind app Z.ltb Z.compare]. rewrite !nl_line. destruct ts as [|m ts]; [discriminate|]. split; reflexivity.
  - exists (GLeaf (if b then bs "true" else bs "false")), None. split; [constructor; destruct b; assumption|]. intros cnt; split; reflexivity.
  - exists (GLeaf (bs "null")), None. split; [constructor; assumption|]. intros cnt; split; reflexivity.
Qed.
End Render.

(** *** Squeezing *)
Lemma gtree_ind' (P : gtree -> Prop) : (forall b, P (GLeaf b)) -> (forall l, Forall P l -> P (GArr l)) ->
  (forall rs, Forall (Forall (fun m => P (snd m))) rs -> P (GObj rs)) -> forall t, P t.
Proof.
  intros Hl Ha Ho. fix IH 1. intros [b|l|rs]; [apply Hl|apply Ha|apply Ho].
  - induction l as [|x l IHl]; constructor; [apply IH|exact IHl].
  - induction rs as [|r rs IHr]; constructor; [|exact IHr].
    induction r as [|x r IHx]; constructor; [apply IH|exact IHx].
Qed.

Lemma sq_nil : sq [] [].
Proof. intros rest. reflexivity. Qed.

Lemma squeeze_grender lay t : (forall d d', sq (line lay d) (line None d')) -> gleaves solid t -> forall d d',
  sq (grender lay d t) (grender None d' t).
Proof.
  intros Hline. assert (Hcol : sq (colon lay) (colon None)) by (intros rest; destruct lay; reflexivity).
  induction t as [b|l IH|rs IH] using gtree_ind'; intros Hl d d'; inversion Hl; subst.
  - assumption.
  - destruct l as [|x0 l0]; [intros rest; reflexivity|].
    cbn [grender]. set (l := x0 :: l0) in *. apply sq_cons; [reflexivity|lia|]. apply sq_app.
    + apply sq_join. match goal with H : Forall _ l |- _ => rename H into Hf end. clearbody l. clear -IH Hf Hline.
      induction l as [|x l IHl]; cbn [map]; constructor; inversion IH; inversion Hf; subst; auto. apply sq_app; auto.
    + apply sq_app; [apply Hline|]. apply sq_char; [reflexivity|lia].
  - destruct rs as [|r0 rs0]; [intros rest; reflexivity|].
    cbn [grender]. set (rs := r0 :: rs0) in *. apply sq_cons; [reflexivity|lia|]. apply sq_app.
    + match goal with H : Forall _ rs |- _ => rename H into Hf end. clearbody rs. clear -IH Hf Hline Hcol.
      induction rs as [|r rs IHr]; [apply sq_nil|]. cbn [map List.concat]. inversion IH as [|? ? IH1 IH2]; inversion Hf as [|? ? F1 F2]; subst.
      apply sq_app; [|auto]. apply sq_join. clear -IH1 F1 Hline Hcol.
      induction r as [|x r IHx]; cbn [map]; constructor; inversion IH1 as [|? ? H1 H2]; inversion F1 as [|? ? [H3 H4] H5]; subst; auto.
      apply sq_app; [auto|]. apply sq_app; [exact H3|]. apply sq_app; auto.
    + apply sq_app; [apply Hline|]. apply sq_char; [reflexivity|lia].
Qed.

Lemma any_text v : all_text (fun _ => True) (fun _ _ => True) v.
Proof.
  induction v as [| s | n src | i kvs lo IH | l IH | b | | | ] using V_ind'; try exact I.
  - apply all_text_obj. rewrite Forall_forall in *. auto.
  - now apply all_text_arr.
Qed.

Theorem indent_glayout E W o v b :
  o_indent o = true -> json_typed v -> marshal_opt E W o v = Ok b ->
  exists t, b = grender (Some (o_prefix o, o_indent_str o)) 0 t /\ marshal_opt E W (no_indent o) v = Ok (grender None 0 t).
Proof.
  intros Hi Ht Hm.
  destruct (marshal_grender E W o (fun _ => True) (fun _ => True) (fun _ _ => True) I I I (fun _ _ => I) (fun _ _ _ _ _ _ => I) v Ht (any_text v) None [])
    as (t & e & _ & H). destruct (H 0%nat) as [H1 H2]. unfold lay_of in H1. rewrite Hi in H1.
  exists t. unfold marshal_opt in *. destruct v; try contradiction; rewrite H1 in Hm; rewrite H2; cbn [rbind] in *;
    (destruct e; [discriminate|injection Hm as <-; auto]).
Qed.

Theorem indent_gsqueeze E W o v b :
  opt_ws o -> json_typed v -> plain_env E ->
  all_text (Forall is_byte) (fun _ src => Forall number_byte src) v -> Forall (Forall is_byte) (opt_strings o) ->
  marshal_opt E W o v = Ok b ->
  marshal_opt E W (no_indent o) v = Ok (squeeze false b).
Proof.
  intros [Hp Hin] Ht HE Ha Ho Hm.
  unfold opt_strings in Ho. inversion Ho as [|? ? Ho1 Ho']; subst. inversion Ho' as [|? ? Ho2 Ho'']; subst. inversion Ho'' as [|? ? Ho3 _]; subst.
  assert (Hlit : forall s, Forall (fun c => is_wsb c = false /\ c <> 34) s -> solid s) by exact plain_solid.
  destruct (marshal_grender E W o solid (Forall is_byte) (fun _ src => Forall number_byte src)) with (v := v) (pi := @None pinfo) (path := @nil key)
    as (t & e & Hl & H); auto.
  - apply Hlit. cbv; fall; split; (reflexivity || discriminate).
  - apply Hlit. cbv; fall; split; (reflexivity || discriminate).
  - apply Hlit. cbv; fall; split; (reflexivity || discriminate).
  - intros s. apply quoted_solid.
  - intros n src b0 e Hs Hn. unfold marshal_number in Hn. destruct src as [|c r]; [|injection Hn as <- _; now apply number_solid].
    assert (HLN : solid (bs "null")) by (apply Hlit; cbv; fall; split; (reflexivity || discriminate)).
    assert (HQ : forall s, Forall is_byte s -> solid (quoted (o_esc o) s)) by (intros s; apply quoted_solid).
    assert (Hq1 : solid (bs """NaN""")) by (intros rest; reflexivity).
    assert (Hq2 : solid (bs """+Inf""")) by (intros rest; reflexivity).
    assert (Hq3 : solid (bs """-Inf""")) by (intros rest; reflexivity).
    assert (Hnil : solid []) by (intros rest; reflexivity).
    assert (HJ : forall f, solid (json_float E f)) by (intros f; apply number_solid, HE).
    assert (HM : Forall is_byte (45 :: trim_plus (o_inf_pos o))).
    { constructor; [unfold is_byte; lia|]. rewrite Forall_forall in *. intros c Hc. apply Ho2. now apply trim_plus_In. }
    destruct (is_infp (n_f64 n)); [|destruct (is_infn (n_f64 n))].
    + unfold marshal_infp in Hn. destruct (o_inf o =? 1); [destruct (negb _); injection Hn as <- _; auto|].
      destruct (o_inf o =? 2); [injection Hn as <- _; auto|]. destruct (o_inf o =? 3); [|injection Hn as <- _; auto].
      destruct (o_inf_pos o); injection Hn as <- _; auto.
    + unfold marshal_infn in Hn. destruct (o_inf o =? 1); [destruct (negb _); injection Hn as <- _; auto|].
      destruct (o_inf o =? 2); [injection Hn as <- _; auto|]. destruct (o_inf o =? 3); [|injection Hn as <- _; auto].
      destruct (o_inf_neg o); [destruct (o_inf_pos o)|]; injection Hn as <- _; auto.
    + unfold marshal_nan in Hn. destruct (o_nan o =? 1); [destruct (negb _); injection Hn as <- _; auto|].
      destruct (o_nan o =? 2); [injection Hn as <- _; auto|]. destruct (o_nan o =? 3); [|injection Hn as <- _; auto].
      destruct (o_nan_str o); injection Hn as <- _; auto.
  - destruct (H 0%nat) as [H1 H2].
    assert (Eb : e = None /\ b = grender (lay_of o) 0 t /\ marshal_opt E W (no_indent o) v = Ok (grender None 0 t)).
    { unfold marshal_opt in *. destruct v; try contradiction; rewrite H1 in Hm; rewrite H2; cbn [rbind] in *;
        (destruct e; [discriminate|injection Hm as <-; auto]). }
    destruct Eb as (_ & -> & ->). f_equal.
    pose proof (squeeze_grender (lay_of o) t) as S. specialize (S ltac:(
      intros d d'; unfold lay_of; destruct (o_indent o); [|apply sq_nil]; apply ws_blank; cbn [line]; constructor; [unfold is_ws; auto|]; apply ws_app; [assumption|]; now apply ws_concat_repeat) Hl 0%nat 0%nat []).
    cbn [squeeze] in S. rewrite !app_nil_r in S. now symmetry.
Qed.
