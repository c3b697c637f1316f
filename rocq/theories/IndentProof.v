(** Indentation (C32) and key paths (C44). *)
From Verif Require Import Base Utf8 Float64 Value Scan Unmarshal Pure Opt Marshal ListLemmas SpecJson SpecValue SpecLax SpecText SpecOrder SpecOut SpecOpts
  UnmarshalProof ValueLemmas NumProof ParseComplete ParseFacts SortProof Utf8Proof EscapeProof MarshalProof OrderProof LaxNum LaxParse
  RoundTrip NumFacts SeqProof LaxFacts MarshalFacts.

Lemma ent_mk E W o x : ent_kv (mk_entry E W o x) = x.
Proof. destruct x as [? [? ?]]; reflexivity. Qed.
Lemma order_mk E W o pi path kvs :
  order_entries W o pi path (map (mk_entry E W o) kvs) = map (mk_entry E W o) (order_kvs W o pi path kvs).
Proof. apply order_entries_map, ent_mk. Qed.

Lemma marshal_obj E W o i kvs lo pi path cnt :
  marshal_to E W o (VObj i kvs lo) pi path cnt =
  match kvs with
  | [] => mok [123; 125]
  | _ => let* b := write_members o pi path (S cnt) true (map (mk_entry E W o) (order_kvs W o pi path kvs)) in
         mok (123 :: b ++ nl_indent o cnt ++ [125])
  end.
Proof. rewrite <- order_mk. destruct kvs; reflexivity. Qed.

Definition lay_of (o : opt) : option (bytes * bytes) := if o_indent o then Some (o_prefix o, o_indent_str o) else None.
Lemma nl_line o cnt : nl_indent o cnt = line (lay_of o) cnt.
Proof. unfold nl_indent, line, lay_of, write_indent. destruct (o_indent o); reflexivity. Qed.
Lemma colon_lay o : (if o_indent o then [58; 32] else [58]) = colon (lay_of o).
Proof. unfold colon, lay_of. destruct (o_indent o); reflexivity. Qed.

(** Texts of leaves and names. *)
Section Leaves.
Variable P : bytes -> Prop.
Fixpoint leaves (t : rtree) : Prop :=
  match t with
  | RLeaf b => P b
  | RArr l => (fix go (l : list rtree) : Prop := match l with [] => True | x :: r => leaves x /\ go r end) l
  | RObj l => (fix go (l : list (bytes * rtree)) : Prop := match l with [] => True | (k, x) :: r => P k /\ leaves x /\ go r end) l
  end.
Lemma leaves_arr l : leaves (RArr l) <-> Forall leaves l.
Proof.
  cbn. induction l as [|x l IH]; [split; auto|]. rewrite IH. split.
  - intros [H1 H2]; constructor; auto.
  - intros H; inversion H; auto.
Qed.
Lemma leaves_obj l : leaves (RObj l) <-> Forall (fun m => P (fst m) /\ leaves (snd m)) l.
Proof.
  cbn [leaves]. induction l as [|[k x] l IH]; [split; auto|]. rewrite IH. split.
  - intros (H1 & H2 & H3); constructor; auto.
  - intros H; inversion H as [|? ? [H1 H2] H3]; auto.
Qed.
End Leaves.

Lemma join_cons x y r : join (x :: y :: r) = x ++ 44 :: join (y :: r).
Proof. reflexivity. Qed.

Section Render.
Variable E : Env.
Variable W : World.
Variable o : opt.
Variable P : bytes -> Prop.
Variable PS : bytes -> Prop.
Variable PN : num -> bytes -> Prop.
Hypothesis Hom : o_omit_null o = false.
Hypothesis P_null : P (bs "null").
Hypothesis P_true : P (bs "true").
Hypothesis P_false : P (bs "false").
Hypothesis P_quoted : forall s, PS s -> P (quoted (o_esc o) s).
Hypothesis P_num : forall n src b e, PN n src -> marshal_number E o n src = Ok (b, e) -> P b.
Let o' := no_indent o.

Definition both (run run' : option pinfo -> list key -> nat -> mres) : Prop :=
  forall pi path, exists t e, leaves P t /\ forall cnt,
    run pi path cnt = Ok (render (lay_of o) cnt t, e) /\ run' pi path cnt = Ok (render None cnt t, e).

Lemma members_render pi path : forall l,
  Forall (fun x => snd (snd x) <> VNil /\ PS (fst x) /\ both (marshal_to E W o (snd (snd x))) (marshal_to E W o' (snd (snd x)))) l ->
  exists ms, List.length ms = List.length l /\ Forall (fun m => P (fst m) /\ leaves P (snd m)) ms /\ forall (cnt : nat) (first : bool),
    let comma : bytes := if first then [] else match ms with [] => [] | _ => [44] end in
    write_members o pi path cnt first (map (mk_entry E W o) l)
    = Ok (comma ++ join (map (fun x => line (lay_of o) cnt ++ fst x ++ colon (lay_of o) ++ render (lay_of o) cnt (snd x)) ms)) /\
    write_members o' pi path cnt first (map (mk_entry E W o') l)
    = Ok (comma ++ join (map (fun x => line None cnt ++ fst x ++ colon None ++ render None cnt (snd x)) ms)).
Proof.
  induction l as [|x l IH]; intros Hf.
  - exists []. split; [reflexivity|]. split; [constructor|]. intros cnt [|]; split; reflexivity.
  - inversion Hf as [|? ? (Hn & Hk & Hb) Hf']; subst. destruct (IH Hf') as (ms & Hlen & Hms & Hw).
    destruct (Hb (match o_less o with
                  | Some _ => Some (new_parent_info (snd (snd x)) pi (string_key (fst x)))
                  | None => None end) (path ++ [string_key (fst x)])) as (t & e & Ht & Hr).
    exists ((quoted (o_esc o) (fst x), t) :: ms). split; [cbn; congruence|]. split; [constructor; [split; [now apply P_quoted|assumption]|assumption]|].
    intros cnt first. destruct (Hr cnt) as [R1 R2]. destruct (Hw cnt false) as [W1 W2].
    assert (HC : forall (A : Type) (a : A) (v : V) (k1 k2 : A), v <> VNil ->
        match v with VNil => a | VNull => if o_omit_null o then k2 else k1 | _ => k1 end = k1).
    { intros A a v k1 k2 Hv. rewrite Hom. destruct v; try reflexivity. congruence. }
    split.
    + cbn [map write_members mk_entry e_key e_val e_run]. etransitivity; [apply HC; assumption|]. rewrite R1. cbn [rbind].
      rewrite W1. cbn [rbind]. f_equal. rewrite nl_line, colon_lay. destruct first; cbn [app].
      * destruct ms as [|m ms]; cbn [map]; [cbn [join fst snd app]; now rewrite app_nil_r|]. rewrite join_cons. cbn [fst snd].
        repeat (rewrite <- app_assoc || cbn [app]). reflexivity.
      * f_equal. destruct ms as [|m ms]; cbn [map]; [cbn [join fst snd app]; now rewrite app_nil_r|]. rewrite join_cons. cbn [fst snd].
        repeat (rewrite <- app_assoc || cbn [app]). reflexivity.
    + cbn [map write_members mk_entry e_key e_val e_run]. etransitivity; [apply HC; assumption|].
      change (o_less o') with (o_less o). rewrite R2. cbn [rbind].
      rewrite W2. cbn [rbind]. f_equal. rewrite nl_line, colon_lay. change (lay_of o') with (@None (bytes * bytes)). change (o_esc o') with (o_esc o).
      destruct first; cbn [app].
      * destruct ms as [|m ms]; cbn [map]; [cbn [join fst snd app]; now rewrite app_nil_r|]. rewrite join_cons. cbn [fst snd].
        repeat (rewrite <- app_assoc || cbn [app]). reflexivity.
      * f_equal. destruct ms as [|m ms]; cbn [map]; [cbn [join fst snd app]; now rewrite app_nil_r|]. rewrite join_cons. cbn [fst snd].
        repeat (rewrite <- app_assoc || cbn [app]). reflexivity.
Qed.

Lemma elems_render v pi path : forall l,
  Forall (fun x => both (marshal_to E W o x) (marshal_to E W o' x)) l -> forall i, 0 <= i ->
  exists ts, List.length ts = List.length l /\ Forall (leaves P) ts /\ forall cnt,
    let comma : bytes := if 0 <? i then match ts with [] => [] | _ => [44] end else [] in
    write_elems o v pi path cnt i (map (marshal_to E W o) l)
    = Ok (comma ++ join (map (fun x => line (lay_of o) cnt ++ render (lay_of o) cnt x) ts)) /\
    write_elems o' v pi path cnt i (map (marshal_to E W o') l)
    = Ok (comma ++ join (map (fun x => line None cnt ++ render None cnt x) ts)).
Proof.
  induction l as [|x l IH]; intros Hf i Hi.
  - exists []. split; [reflexivity|]. split; [constructor|]. intros cnt. destruct (0 <? i); split; reflexivity.
  - inversion Hf as [|? ? Hb Hf']; subst. destruct (IH Hf' (i + 1)) as (ts & Hlen & Hts & Hw); [lia|].
    destruct (Hb (match o_less o with
                  | Some _ => Some (new_parent_info v pi (int_key i))
                  | None => None end) (path ++ [int_key i])) as (t & e & Ht & Hr).
    exists (t :: ts). split; [cbn; congruence|]. split; [constructor; auto|].
    intros cnt. destruct (Hr cnt) as [R1 R2]. destruct (Hw cnt) as [W1 W2]. replace (0 <? i + 1) with true in W1, W2 by lia.
    split.
    + cbn [map write_elems]. rewrite R1. cbn [rbind]. rewrite W1. cbn [rbind]. f_equal. rewrite nl_line.
      f_equal. destruct ts as [|m ms]; cbn [map]; [cbn [join app]; now rewrite app_nil_r|]. rewrite join_cons.
        repeat (rewrite <- app_assoc || cbn [app]). reflexivity.
    + cbn [map write_elems]. change (o_less o') with (o_less o). rewrite R2. cbn [rbind]. rewrite W2. cbn [rbind]. f_equal. rewrite nl_line.
      change (lay_of o') with (@None (bytes * bytes)).
      f_equal. destruct ts as [|m ms]; cbn [map]; [cbn [join app]; now rewrite app_nil_r|]. rewrite join_cons.
        repeat (rewrite <- app_assoc || cbn [app]). reflexivity.
Qed.

Lemma marshal_render v : json_typed v -> all_text PS PN v -> both (marshal_to E W o v) (marshal_to E W o' v).
Proof.
  induction v as [| s | n src | i kvs lo IH | l IH | b | | | ] using V_ind'; intros Ht Ha pi path; try contradiction.
  - exists (RLeaf (quoted (o_esc o) s)), None. split; [now apply P_quoted|]. intros cnt. split; reflexivity.
  - destruct (marshal_number E o n src) as [[b e]| | |] eqn:Em.
    2,3,4: exfalso; unfold marshal_number, marshal_infp, marshal_infn, marshal_nan in Em;
      repeat match type of Em with
        | context [match ?x with _ => _ end] => destruct x; try discriminate Em
        end.
    exists (RLeaf b), e. split; [eapply P_num; [exact Ha|exact Em]|]. intros cnt. split; exact Em.
  - apply json_typed_obj in Ht as [Hnd Ht]. apply all_text_obj in Ha.
    destruct (members_render pi path (order_kvs W o pi path kvs)) as (ms & Hlen & Hms & Hw).
    { eapply Permutation_Forall; [apply Permutation_sym, order_kvs_perm|]. rewrite Forall_forall in *. intros x Hx.
      split; [|split; [apply (Ha x Hx)|]].
      - intros Hv. specialize (Ht x Hx). now rewrite Hv in Ht.
      - apply (IH x Hx); [now apply Ht|apply (Ha x Hx)]. }
    rewrite (Permutation_length (order_kvs_perm W o pi path kvs)) in Hlen.
    exists (RObj ms), None. split; [now apply leaves_obj|]. intros cnt. rewrite !marshal_obj.
    destruct kvs as [|x0 kvs0].
    { destruct ms; [|discriminate]. split; reflexivity. }
    destruct (Hw (S cnt) true) as [W1 W2]. cbn [app] in W1, W2.
    change (order_kvs W o' pi path (x0 :: kvs0)) with (order_kvs W o pi path (x0 :: kvs0)).
    rewrite W1, W2. cbn [rbind]. rewrite !nl_line. destruct ms as [|m ms]; [discriminate|]. split; reflexivity.
  - apply json_typed_arr in Ht. apply all_text_arr in Ha.
    destruct (elems_render (VArr l) pi path l) with (i := 0) as (ts & Hlen & Hts & Hw); [|lia|].
    { rewrite Forall_forall in *. auto. }
    exists (RArr ts), None. split; [now apply leaves_arr|]. intros cnt. destruct (Hw (S cnt)) as [W1 W2].
    destruct l as [|x0 l0]; [destruct ts; [|discriminate]; split; reflexivity|]. cbn [marshal_to].
    rewrite W1, W2. cbn [rbind app Z.ltb Z.compare]. rewrite !nl_line. destruct ts as [|m ts]; [discriminate|]. split; reflexivity.
  - exists (RLeaf (if b then bs "true" else bs "false")), None. split; [destruct b; assumption|]. intros cnt; split; reflexivity.
  - exists (RLeaf (bs "null")), None. split; [assumption|]. intros cnt; split; reflexivity.
Qed.
End Render.

(** *** Squeezing *)

Definition solid (b : bytes) : Prop := forall rest, squeeze false (b ++ rest) = b ++ squeeze false rest.
Definition inner (b : bytes) : Prop := forall rest, squeeze true (b ++ rest) = b ++ squeeze true rest.

Lemma solid_app a b : solid a -> solid b -> solid (a ++ b).
Proof. intros Ha Hb rest. rewrite <- !app_assoc. rewrite Ha, Hb. reflexivity. Qed.
Lemma inner_app a b : inner a -> inner b -> inner (a ++ b).
Proof. intros Ha Hb rest. rewrite <- !app_assoc. rewrite Ha, Hb. reflexivity. Qed.
Lemma inner_plain b : Forall (fun c => c <> 34 /\ c <> 92) b -> inner b.
Proof.
  intros H rest. induction H as [|c b [H1 H2] Hb IH]; [reflexivity|]. cbn [app squeeze].
  rewrite (proj2 (Z.eqb_neq c 92) H2), (proj2 (Z.eqb_neq c 34) H1). cbn [negb]. now rewrite IH.
Qed.
Lemma inner_esc c b : inner b -> inner (92 :: c :: b).
Proof. intros H rest. cbn [app squeeze]. change (92 =? 92) with true. cbn iota. now rewrite H. Qed.
Lemma hex_plain h v : hex4d h v -> Forall (fun c => c <> 34 /\ c <> 92) h.
Proof.
  intros H. inversion H as [a b c d ? ? ? ? Ha Hb Hc Hd]; subst. fall;
    match goal with |- ?x <> 34 /\ _ => match goal with Hx : hexd x _ |- _ => inversion Hx; lia end end.
Qed.
Lemma str_body_inner t s : str_body t s -> inner t.
Proof.
  induction 1 as [|cp t s Hs H32 Hq Hb _ IH|c d t s He _ IH|h cp t s Hh _ _ IH|h1 h2 hi lo t s H1 _ H2 _ _ IH].
  - intros rest. reflexivity.
  - apply inner_app; [|assumption]. apply inner_plain. apply Forall_forall. intros c Hc.
    split; intros ->; apply utf8_byte in Hc; try assumption; lia.
  - now apply inner_esc.
  - apply (inner_app [92; 117]); [apply (inner_esc 117 []); intros rest; reflexivity|].
    apply inner_app; [apply inner_plain; eapply hex_plain; eassumption|assumption].
  - apply (inner_app [92; 117]); [apply (inner_esc 117 []); intros rest; reflexivity|].
    apply inner_app; [apply inner_plain; eapply hex_plain; eassumption|].
    apply (inner_app [92; 117]); [apply (inner_esc 117 []); intros rest; reflexivity|].
    apply inner_app; [apply inner_plain; eapply hex_plain; eassumption|assumption].
Qed.
Lemma escape_inner esc s : Forall is_byte s -> inner (escape_string esc s).
Proof.
  intros Hb. unfold escape_string. pose proof (utf8_read_scalar _ _ (runes_read s Hb)) as Hs.
  induction Hs as [|r l Hr Hl IH]; cbn [flat_map]; [intros rest; reflexivity|]. apply inner_app; [|assumption].
  destruct (Z.eq_dec r 11) as [->|N].
  - rewrite esc_rune_vt. apply inner_plain. fall. lia.
  - pose proof (esc_rune_body esc r [] [] Hr N SB_nil) as H. rewrite app_nil_r in H. eapply str_body_inner; exact H.
Qed.
Lemma quoted_solid esc s : Forall is_byte s -> solid (quoted esc s).
Proof.
  intros Hb rest. unfold quoted. cbn [app squeeze is_wsb]. change (is_wsb 34) with false. cbn iota. change (34 =? 34) with true.
  rewrite <- app_assoc. rewrite (escape_inner esc s Hb). cbn [app squeeze]. change (34 =? 92) with false. rewrite <- app_assoc. reflexivity.
Qed.
Lemma plain_solid b : Forall (fun c => is_wsb c = false /\ c <> 34) b -> solid b.
Proof.
  intros H rest. induction H as [|c b [H1 H2] Hb IH]; [reflexivity|]. cbn [app squeeze].
  rewrite H1, (proj2 (Z.eqb_neq c 34) H2). now rewrite IH.
Qed.
Lemma number_solid b : Forall number_byte b -> solid b.
Proof.
  intros H. apply plain_solid. eapply Forall_impl; [|exact H]. unfold number_byte, digit, is_wsb. intros; lia.
Qed.

(** White space disappears. *)
Definition blank (b : bytes) : Prop := forall rest, squeeze false (b ++ rest) = squeeze false rest.
Lemma ws_blank w : ws w -> blank w.
Proof.
  intros H rest. induction H as [|c w Hc Hw IH]; [reflexivity|]. cbn [app squeeze].
  replace (is_wsb c) with true by (unfold is_ws in Hc; unfold is_wsb; lia). exact IH.
Qed.
Lemma squeeze_plain c t : is_wsb c = false -> c <> 34 -> squeeze false (c :: t) = c :: squeeze false t.
Proof. intros H1 H2. cbn [squeeze]. rewrite H1. now rewrite (proj2 (Z.eqb_neq c 34) H2). Qed.

Fixpoint rtree_ind' (P : rtree -> Prop) (Hl : forall b, P (RLeaf b)) (Ha : forall l, Forall P l -> P (RArr l))
  (Ho : forall l, Forall (fun m => P (snd m)) l -> P (RObj l)) (t : rtree) : P t :=
  match t with
  | RLeaf b => Hl b
  | RArr l => Ha l ((fix go (l : list rtree) : Forall P l :=
      match l with [] => Forall_nil _ | x :: r => Forall_cons x (rtree_ind' P Hl Ha Ho x) (go r) end) l)
  | RObj l => Ho l ((fix go (l : list (bytes * rtree)) : Forall (fun m => P (snd m)) l :=
      match l with [] => Forall_nil _ | x :: r => Forall_cons x (rtree_ind' P Hl Ha Ho (snd x)) (go r) end) l)
  end.

(** [sq a b]: squeezing turns [a] into [b]. *)
Definition sq (a b : bytes) : Prop := forall rest, squeeze false (a ++ rest) = b ++ squeeze false rest.
Lemma sq_app a b a' b' : sq a b -> sq a' b' -> sq (a ++ a') (b ++ b').
Proof. intros H H' rest. rewrite <- !app_assoc. now rewrite H, H'. Qed.
Lemma sq_char c : is_wsb c = false -> c <> 34 -> sq [c] [c].
Proof. intros H1 H2 rest. now apply squeeze_plain. Qed.
Lemma sq_cons c a b : is_wsb c = false -> c <> 34 -> sq a b -> sq (c :: a) (c :: b).
Proof. intros H1 H2 H. apply (sq_app [c] [c]); [now apply sq_char|assumption]. Qed.
Lemma sq_join l l' : Forall2 sq l l' -> sq (join l) (join l').
Proof.
  induction 1 as [|a b l l' H Hl IH]; [intros rest; reflexivity|].
  destruct Hl as [|a2 b2 l l' H2 Hl]; [assumption|]. rewrite !join_cons.
  apply sq_app; [assumption|]. apply sq_cons; [reflexivity|lia|assumption].
Qed.

Lemma squeeze_render p i t : ws p -> ws i -> leaves solid t -> forall d d',
  sq (render (Some (p, i)) d t) (render None d' t).
Proof.
  intros Hp Hi. assert (Hline : forall d d', sq (line (Some (p, i)) d) (line None d')).
  { intros d d'. apply ws_blank. cbn [line]. constructor; [unfold is_ws; auto|]. apply ws_app; [assumption|]. now apply ws_concat_repeat. }
  induction t as [b|l IH|l IH] using rtree_ind'; intros Hl d d'.
  - exact Hl.
  - apply leaves_arr in Hl. destruct l as [|x0 l0]; [intros rest; reflexivity|].
    cbn [render]. set (l := x0 :: l0) in *. apply sq_cons; [reflexivity|lia|]. apply sq_app.
    + apply sq_join. clearbody l. clear -IH Hl Hline. induction l as [|x l IHl]; cbn [map]; constructor; inversion IH; inversion Hl; subst; auto.
      apply sq_app; auto.
    + apply sq_app; [apply Hline|]. apply sq_char; [reflexivity|lia].
  - apply leaves_obj in Hl. destruct l as [|x0 l0]; [intros rest; reflexivity|].
    cbn [render]. set (l := x0 :: l0) in *. apply sq_cons; [reflexivity|lia|]. apply sq_app.
    + apply sq_join. clearbody l. clear -IH Hl Hline. induction l as [|x l IHl]; cbn [map]; constructor;
        inversion IH as [|? ? H1 H2]; inversion Hl as [|? ? [H3 H4] H5]; subst; auto.
      apply sq_app; [auto|]. apply sq_app; [exact H3|]. apply sq_app; [|auto].
      intros rest. reflexivity.
    + apply sq_app; [apply Hline|]. apply sq_char; [reflexivity|lia].
Qed.

Lemma squeeze_nil : squeeze false [] = [].
Proof. reflexivity. Qed.

(** C32 *)
Theorem indent_layout E W o v b :
  o_omit_null o = false -> o_indent o = true -> json_typed v -> marshal_opt E W o v = Ok b ->
  exists t, b = render (Some (o_prefix o, o_indent_str o)) 0 t /\ marshal_opt E W (no_indent o) v = Ok (render None 0 t).
Proof.
  intros Hom Hi Ht Hm.
  assert (Ha : all_text (fun _ => True) (fun _ _ => True) v).
  { clear. induction v as [| s | n src | i kvs lo IH | l IH | b | | | ] using V_ind'; try exact I.
    - apply all_text_obj. rewrite Forall_forall in *. auto.
    - now apply all_text_arr. }
  destruct (marshal_render E W o (fun _ => True) (fun _ => True) (fun _ _ => True) Hom I I I (fun _ _ => I) (fun _ _ _ _ _ _ => I) v Ht Ha None [])
    as (t & e & _ & H). destruct (H 0%nat) as [H1 H2]. unfold lay_of in H1. rewrite Hi in H1.
  exists t. unfold marshal_opt in *. destruct v; try contradiction; rewrite H1 in Hm; rewrite H2; cbn [rbind] in *;
    (destruct e; [discriminate|injection Hm as <-; auto]).
Qed.

Theorem indent_squeeze E W o v b :
  o_omit_null o = false -> opt_ws o -> json_typed v -> plain_env E ->
  all_text byte_str (fun _ src => Forall number_byte src) v -> Forall byte_str (opt_strings o) ->
  marshal_opt E W o v = Ok b ->
  marshal_opt E W (no_indent o) v = Ok (squeeze false b).
Proof.
  intros Hom [Hp Hin] Ht HE Ha Ho Hm.
  unfold opt_strings in Ho. inversion Ho as [|? ? Ho1 Ho']; subst. inversion Ho' as [|? ? Ho2 Ho'']; subst. inversion Ho'' as [|? ? Ho3 _]; subst.
  assert (Hlit : forall s, Forall (fun c => is_wsb c = false /\ c <> 34) s -> solid s) by exact plain_solid.
  destruct (marshal_render E W o solid byte_str (fun _ src => Forall number_byte src) Hom) with (v := v) (pi := @None pinfo) (path := @nil key)
    as (t & e & Hl & H); auto.
  - apply Hlit. cbv; fall; split; (reflexivity || discriminate).
  - apply Hlit. cbv; fall; split; (reflexivity || discriminate).
  - apply Hlit. cbv; fall; split; (reflexivity || discriminate).
  - intros s. apply quoted_solid.
  - intros n src b0 e Hs Hn. unfold marshal_number in Hn. destruct src as [|c r]; [|injection Hn as <- _; now apply number_solid].
    assert (HLN : solid (bs "null")) by (apply Hlit; cbv; fall; split; (reflexivity || discriminate)).
    assert (HQ : forall s, byte_str s -> solid (quoted (o_esc o) s)) by (intros s; apply quoted_solid).
    assert (Hq1 : solid (bs """NaN""")) by (intros rest; reflexivity).
    assert (Hq2 : solid (bs """+Inf""")) by (intros rest; reflexivity).
    assert (Hq3 : solid (bs """-Inf""")) by (intros rest; reflexivity).
    assert (Hnil : solid []) by (intros rest; reflexivity).
    assert (HJ : forall f, solid (json_float E f)) by (intros f; apply number_solid, HE).
    assert (HM : byte_str (45 :: trim_plus (o_inf_pos o))).
    { constructor; [unfold is_byte; lia|]. unfold byte_str in *. rewrite Forall_forall in *. intros c Hc. apply Ho2. now apply trim_plus_In. }
    destruct (is_infp (n_f64 n)); [|destruct (is_infn (n_f64 n))].
    + unfold marshal_infp in Hn. destruct (o_inf o =? 1); [destruct (negb _); injection Hn as <- _; auto|].
      destruct (o_inf o =? 2); [injection Hn as <- _; auto|]. destruct (o_inf o =? 3); [|injection Hn as <- _; auto].
      destruct (o_inf_pos o); injection Hn as <- _; auto.
    + unfold marshal_infn in Hn. destruct (o_inf o =? 1); [destruct (negb _); injection Hn as <- _; auto|].
      destruct (o_inf o =? 2); [injection Hn as <- _; auto|]. destruct (o_inf o =? 3); [|injection Hn as <- _; auto].
      destruct (o_inf_neg o); [destruct (o_inf_pos o)|]; injection Hn as <- _; auto.
    + unfold marshal_nan in Hn. destruct (o_nan o =? 1); [destruct (negb _); injection Hn as <- _; auto|].
      destruct (o_nan o =? 2); [injection Hn as <- _; auto|]. destruct (o_nan o =? 3); [|injection Hn as <- _; auto].
      destruct (o_nan_str o); injection Hn as <- _; auto.
  - destruct (H 0%nat) as [H1 H2].
    assert (Eb : e = None /\ b = render (lay_of o) 0 t /\ marshal_opt E W (no_indent o) v = Ok (render None 0 t)).
    { unfold marshal_opt in *. destruct v; try contradiction; rewrite H1 in Hm; rewrite H2; cbn [rbind] in *;
        (destruct e; [discriminate|injection Hm as <-; auto]). }
    destruct Eb as (_ & -> & ->). f_equal. unfold lay_of. destruct (o_indent o).
    + pose proof (squeeze_render (o_prefix o) (o_indent_str o) t Hp Hin Hl 0%nat 0%nat []) as S.
      cbn [squeeze] in S. rewrite !app_nil_r in S. now symmetry.
    + (* compact output has no white space outside strings *)
      assert (S : sq (render None 0 t) (render None 0 t)).
      { clear -Hl. enough (forall d, sq (render None d t) (render None d t)) by auto.
        induction t as [b|l IH|l IH] using rtree_ind'; intros d.
        - exact Hl.
        - apply leaves_arr in Hl. destruct l as [|x0 l0]; [intros rest; reflexivity|].
          cbn [render]. set (l := x0 :: l0) in *. apply sq_cons; [reflexivity|lia|]. apply sq_app; [|intros rest; reflexivity].
          apply sq_join. clearbody l. clear -IH Hl. induction l as [|x l IHl]; cbn [map]; constructor; inversion IH; inversion Hl; subst; auto.
          cbn [line app]. auto.
        - apply leaves_obj in Hl. destruct l as [|x0 l0]; [intros rest; reflexivity|].
          cbn [render]. set (l := x0 :: l0) in *. apply sq_cons; [reflexivity|lia|]. apply sq_app; [|intros rest; reflexivity].
          apply sq_join. clearbody l. clear -IH Hl. induction l as [|x l IHl]; cbn [map]; constructor;
            inversion IH as [|? ? H1 H2]; inversion Hl as [|? ? [H3 H4] H5]; subst; auto.
          cbn [line app]. apply sq_app; [exact H3|]. apply sq_app; [intros rest; reflexivity|auto]. }
      specialize (S []). cbn [squeeze] in S. rewrite !app_nil_r in S. now symmetry.
Qed.

(** *** Key paths *)

Lemma write_members_less o f f' pi path cnt : forall es es' first,
  Forall2 (fun e e' => e_key e = e_key e' /\ e_val e = e_val e' /\
     forall path cnt, e_run e (Some (new_parent_info (e_val e) pi (string_key (e_key e)))) path cnt
       = e_run e' (Some (new_parent_info (e_val e) pi (string_key (e_key e)))) path cnt) es es' ->
  write_members (with_less o f) pi path cnt first es = write_members (with_less o f') pi path cnt first es'.
Proof.
  intros es es' first H. revert first. induction H as [|e e' es es' (Hk & Hv & Hr) H IH]; intros first; [reflexivity|].
  cbn [write_members with_less o_less]. rewrite Hr, <- Hk, <- Hv, !IH. reflexivity.
Qed.

Lemma at_path_trans v p x : at_path v p x -> forall q w, at_path x q w -> at_path v (p ++ q) w.
Proof. induction 1; intros q w' Hq; cbn; [assumption|econstructor; eauto|econstructor; eauto]. Qed.

Lemma info_of_snoc p pi v s : info_of p pi -> info_of (p ++ [s]) (Some (new_parent_info v pi (step_key s))).
Proof.
  intros H. assert (Hne : info_of (p ++ [s]) (Some (new_parent_info v pi (step_key s))) <->
     pi_path (new_parent_info v pi (step_key s)) = map step_key (p ++ [s])).
  { destruct p; cbn; (split; [intros (q & Hq & Hp); injection Hq as <-; exact Hp|intros Hp; eexists; split; [reflexivity|exact Hp]]). }
  apply Hne. rewrite map_app. destruct p as [|a p]; cbn [info_of] in H.
  - subst pi. reflexivity.
  - destruct H as (q & -> & Hq). cbn [new_parent_info pi_path]. now rewrite Hq.
Qed.

Theorem less_calls_to E W o f f' root : (forall pi k1 k2 v1 v2, proper_call root pi k1 k2 v1 v2 -> f pi k1 k2 v1 v2 = f' pi k1 k2 v1 v2) ->
  forall v p pi, at_path root p v -> info_of p pi -> forall path cnt,
  marshal_to E W (with_less o f) v pi path cnt = marshal_to E W (with_less o f') v pi path cnt.
Proof.
  intros Hf. induction v as [| s | n src | i kvs lo IH | l IH | b | | | ] using V_ind'; intros p pi Hp Hpi path cnt; try reflexivity.
  - rewrite !marshal_obj. destruct kvs as [|x0 kvs0] eqn:Ek; [reflexivity|]. rewrite <- Ek in *.
    assert (Ho : order_kvs W (with_less o f) pi path kvs = order_kvs W (with_less o f') pi path kvs).
    { unfold order_kvs, kv_less. cbn [with_less o_less]. apply go_sort_ext. intros x y Hx Hy.
      apply (Permutation_in _ (go_range_perm W path kvs)) in Hx, Hy. apply Hf. destruct x as [k1 [id1 v1]], y as [k2 [id2 v2]].
      exists p, i, kvs, lo, id1, id2. auto. }
    rewrite Ho. match goal with |- rbind ?x _ = rbind ?y _ => enough (Hw : x = y) by now rewrite Hw end.
    apply write_members_less.
    assert (Hin : forall x, In x (order_kvs W (with_less o f') pi path kvs) -> In x kvs) by (intros x; apply Permutation_in, order_kvs_perm).
    revert Hin. clear Ho. generalize (order_kvs W (with_less o f') pi path kvs). intros L Hin. induction L as [|[k [id x]] r IHr]; cbn [map]; constructor.
    + split; [reflexivity|]. split; [reflexivity|]. intros path' cnt'. cbn [mk_entry e_run e_val e_key fst snd].
      rewrite Forall_forall in IH. assert (Hi : In (k, (id, x)) kvs) by (apply Hin; now left).
      apply (IH _ Hi (p ++ [SKey k])).
      * eapply at_path_trans; [exact Hp|]. econstructor; [exact Hi|constructor].
      * apply (info_of_snoc p pi x (SKey k) Hpi).
    + apply IHr. intros z Hz. apply Hin. now right.
  - cbn [marshal_to]. destruct l as [|x0 l0] eqn:El; [reflexivity|]. rewrite <- El in *.
    assert (H : forall l' n, (forall j x, nth_error l' j = Some x -> nth_error l (n + j) = Some x) ->
       Forall (fun x => forall p pi, at_path root p x -> info_of p pi -> forall path cnt,
           marshal_to E W (with_less o f) x pi path cnt = marshal_to E W (with_less o f') x pi path cnt) l' ->
       write_elems (with_less o f) (VArr l) pi path (S cnt) (Z.of_nat n) (map (marshal_to E W (with_less o f)) l')
       = write_elems (with_less o f') (VArr l) pi path (S cnt) (Z.of_nat n) (map (marshal_to E W (with_less o f')) l')).
    { induction l' as [|x l' IHl]; intros n Hn H'; [reflexivity|]. pose proof (Forall_inv H') as Hx. pose proof (Forall_inv_tail H') as Hl'. cbn [map write_elems with_less o_less].
      rewrite (Hx (p ++ [SIdx n])).
      - replace (Z.of_nat n + 1) with (Z.of_nat (S n)) by lia.
        rewrite IHl; [reflexivity| |assumption]. intros j y Hj. rewrite Nat.add_succ_comm. now apply Hn.
      - eapply at_path_trans; [exact Hp|]. econstructor; [|constructor]. rewrite <- (Nat.add_0_r n). now apply Hn.
      - apply (info_of_snoc p pi (VArr l) (SIdx n) Hpi). }
    change 0 with (Z.of_nat 0). rewrite (H l 0%nat); auto.
Qed.

Theorem less_calls E W o f f' v :
  (forall pi k1 k2 v1 v2, proper_call v pi k1 k2 v1 v2 -> f pi k1 k2 v1 v2 = f' pi k1 k2 v1 v2) ->
  marshal_opt E W (with_less o f) v = marshal_opt E W (with_less o f') v.
Proof.
  intros H. unfold marshal_opt. destruct v; try reflexivity;
    (rewrite (less_calls_to E W o f f' _ H _ [] None (AP_here _) eq_refl); reflexivity).
Qed.
