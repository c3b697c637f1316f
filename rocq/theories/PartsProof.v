(** Import part by part. *)
From Verif Require Import Base Utf8 Float64 Value Scan Unmarshal Opt Marshal Access Path Edit Iter Base64 GoValue Import
  SpecJson SpecValue SpecPath SpecIter SpecNil SpecImport SpecParts ListLemmas ValueLemmas SortProof IterProof MarshalTotal UnmarshalProof
  ParseMore ImportProof ImportTotal.
Local Open Scope Z_scope.

(** *** Members *)

Lemma member_obj i kvs lo k x : member (VObj i kvs lo) k x <-> exists id, In (k, (id, x)) kvs.
Proof.
  split.
  - intros (i' & kvs' & lo' & id & [= <- <- <-] & H). eauto.
  - intros (id & H). exists i, kvs, lo, id. auto.
Qed.
Lemma aset_names {A} k (a : A) l : NoDup (map fst l) -> NoDup (map fst (aset k a l)).
Proof.
  induction l as [|[k' b] l IH]; cbn [aset map fst]; intros H; [constructor; [intros []|constructor]|].
  inversion H as [|? ? H1 H2]; subst. destruct (beqb_spec k k') as [->|N]; cbn [map fst]; [constructor; assumption|].
  constructor; [|now apply IH]. intros Hi. apply H1. clear -Hi N.
  induction l as [|[k2 b2] l IH]; cbn [aset map fst] in *.
  - destruct Hi as [->|[]]. congruence.
  - destruct (beqb_spec k k2) as [->|N2]; cbn [map fst] in *; [exact Hi|]. destruct Hi as [->|Hi]; [now left|right; auto].
Qed.
Lemma aset_in {A} k (a : A) l : NoDup (map fst l) -> forall k' b,
  In (k', b) (aset k a l) <-> (k' = k /\ b = a) \/ (k' <> k /\ In (k', b) l).
Proof.
  induction l as [|[k1 b1] l IH]; cbn [aset map fst]; intros H k' b.
  - cbn. split; [intros [[= <- <-]|[]]; auto|]. intros [(-> & ->)|(_ & [])]. now left.
  - inversion H as [|? ? H1 H2]; subst. destruct (beqb_spec k k1) as [->|N].
    + split.
      * intros [[= <- <-]|Hi]; [auto|]. right. split; [|now right]. intros ->. apply H1. now apply (in_map fst) in Hi.
      * intros [(-> & ->)|(Nk & [[= <- <-]|Hi])]; [now left|congruence|now right].
    + cbn [In]. rewrite (IH H2). split.
      * intros [[= <- <-]|[H3|(H3 & H4)]]; [right; split; [congruence|now left]|now left|right; auto].
      * intros [H3|(H3 & [H4|H4])]; [now right; left|now left|right; right; auto].
Qed.

Lemma uninit_typeless c : uninitialized c = true <-> typeless c.
Proof. unfold typeless. destruct c; cbn; split; intros H; try discriminate; auto; destruct H as [H|H]; discriminate. Qed.

(** One Set. *)
Lemma set_member E acc c k : an_object acc -> exists acc', must_op (set_at E acc (arg_v c) (PStr k) []) = Ok acc' /\ an_object acc' /\
  forall k' x, member acc' k' x <-> (~ typeless c /\ k' = k /\ x = c) \/ ((typeless c \/ k' <> k) /\ member acc k' x).
Proof.
  intros (i & kvs & lo & -> & Hn). unfold set_at, arg_v. cbn [snd fst set_f peel psum]. cbn [uninitialized is_nil not_exist orb].
  fold (uninitialized c). destruct (uninitialized c) eqn:Eu.
  - eexists. split; [reflexivity|]. split; [exists i, kvs, lo; auto|]. apply uninit_typeless in Eu. intros k' x. split; [auto|].
    intros [(N & _)|(_ & H)]; [contradiction|exact H].
  - cbn [at_last_param any_to_string set_to_object]. unfold must_op. cbn [snd fst]. eexists. split; [reflexivity|].
    split; [eexists _, _, _; split; [reflexivity|now apply aset_names]|].
    assert (Nt : ~ typeless c) by (intros T; apply uninit_typeless in T; congruence).
    intros k' x. rewrite !member_obj. split.
    + intros (id & H). apply (aset_in k _ kvs Hn) in H as [(-> & [= -> ->])|(N & H)]; [left; auto|right; split; [auto|eauto]].
    + intros [(_ & -> & ->)|([T|N] & id & H)]; [|contradiction|].
      * eexists. apply (aset_in k _ kvs Hn). left. split; reflexivity.
      * exists id. apply (aset_in k _ kvs Hn). auto.
Qed.

(** [acc] is [base] with the members of [v] put over it. *)
Definition over (base v acc : V) : Prop := an_object acc /\ an_object v /\
  forall k x, member acc k x <-> member v k x \/ (member base k x /\ forall y, ~ member v k y).

Lemma set_all_over E kcs : forall base v acc, over base v acc -> exists acc' v',
  set_all E acc kcs = Ok acc' /\ set_all E v kcs = Ok v' /\ over base v' acc'.
Proof.
  induction kcs as [|[k c] kcs IH]; intros base v acc Ho; [exists acc, v; auto|]. cbn [set_all].
  destruct Ho as (O1 & O2 & O3).
  destruct (set_member E acc c k O1) as (acc' & E1 & I1 & M1). destruct (set_member E v c k O2) as (v' & E2 & I2 & M2).
  rewrite E1, E2. cbn [rbind]. apply IH. split; [exact I1|]. split; [exact I2|]. intros k' x. rewrite M1, M2, O3. split.
  - intros [H|(Hk & [H|(H & Hn)])]; [left; left; exact H|left; right; auto|right]. split; [exact H|].
    intros y. rewrite M2. intros [(Nt & -> & ->)|(_ & Hy)]; [|exact (Hn y Hy)]. destruct Hk as [T|N]; [contradiction|congruence].
  - intros [[H|(Hk & H)]|(H & Hn)]; [left; exact H|right; auto|]. right.
    assert (Hk : typeless c \/ k' <> k).
    { destruct (beqb_spec k' k) as [->|N]; [|now right]. destruct (uninitialized c) eqn:Eu; [left; now apply uninit_typeless|].
      exfalso. apply (Hn c). rewrite M2. left. split; [|auto]. intros T. apply uninit_typeless in T. congruence. }
    split; [exact Hk|]. right. split; [exact H|]. intros y Hy. apply (Hn y). rewrite M2. right. auto.
Qed.
Lemma new_obj : an_object new_object.
Proof. exists 0, [], None. split; [reflexivity|constructor]. Qed.
Lemma new_none k x : ~ member new_object k x.
Proof. intros H. apply member_obj in H as (id & []). Qed.
Lemma over_new acc : an_object acc -> over acc new_object acc.
Proof.
  intros H. split; [exact H|]. split; [exact new_obj|]. intros k x. split; [intros Hm; right; split; [exact Hm|intros y; apply new_none]|].
  intros [Hm|(Hm & _)]; [now apply new_none in Hm|exact Hm].
Qed.

(** The objects one after the other; the last one that has a name gives the
    value. *)
Definition last_wins (vs : list V) (k : bytes) (x : V) : Prop :=
  exists a w b, vs = a ++ w :: b /\ member w k x /\ forall w' y, In w' b -> ~ member w' k y.

Lemma last_cons w vs k x : last_wins (w :: vs) k x <-> last_wins vs k x \/ (member w k x /\ forall w' y, In w' vs -> ~ member w' k y).
Proof.
  split.
  - intros ([|w0 a] & w1 & b & Ea & Hm & Hb).
    + injection Ea as -> ->. right. auto.
    + injection Ea as -> ->. left. exists a, w1, b. auto.
  - intros [(a & w1 & b & -> & Hm & Hb)|(Hm & Hb)]; [exists (w :: a), w1, b; auto|exists [], w, vs; auto].
Qed.
Lemma member_dec (vs : list V) k : (exists x, last_wins vs k x) \/ (forall w' y, In w' vs -> ~ member w' k y).
Proof.
  induction vs as [|w vs IH]; [right; intros ? ? []|]. destruct IH as [(x & H)|H].
  - left. exists x. apply last_cons. now left.
  - assert (D : (exists x, member w k x) \/ forall y, ~ member w k y).
    { destruct w as [ | | |i kvs lo| | | | | ]; try (right; intros y (i0 & kvs0 & lo0 & id & Hd & _); discriminate Hd).
      induction kvs as [|[k' [id' x']] kvs IHk].
      - right. intros y Hm. apply member_obj in Hm as (id & []).
      - destruct (beqb_spec k k') as [->|N]; [left; exists x'; apply member_obj; exists id'; now left|].
        destruct IHk as [(x & Hx)|Hx].
        + left. exists x. apply member_obj in Hx as (id & Hx). apply member_obj. exists id. now right.
        + right. intros y Hm. apply member_obj in Hm as (id & [[= -> -> ->]|Hm]); [congruence|]. apply (Hx y), member_obj. eauto. }
    destruct D as [(x & Hx)|Hx].
    + left. exists x. apply last_cons. right. auto.
    + right. intros w' y [<-|Hw]; [apply Hx|now apply H].
Qed.

Section Parts.
Variable E : Env.
Variable W : World.
Variable d : opt.
Notation imp := (import_val E W d).

Lemma import_ok opts g v : import E W d opts g = Ok (v, None) <->
  imp g RNone (Ext false false false (o_ignore_omitempty (combine_options d opts))) = Ok v.
Proof. unfold import. destruct (imp _ _ _) as [v'|e| |]; split; intros H; try discriminate; injection H as <-; reflexivity. Qed.

(** *** Structs *)

Definition part r ex (e : gfield * gov) : res (list (bytes * V)) :=
  let '(f, x) := e in
  if gf_anon f then parse_anonymous W (imp x) (is_nil_ptr x) f r ex else parse_field (imp x) f r ex.

Lemma import_fields_eq fs r ex : imp (GStruct fs) r ex = set_fields E new_object (map (part r ex) fs).
Proof. reflexivity. Qed.
Lemma import_one e r ex v : imp (GStruct [e]) r ex = Ok v <-> exists kcs, part r ex e = Ok kcs /\ set_all E new_object kcs = Ok v.
Proof.
  rewrite import_fields_eq. cbn [map set_fields]. destruct (part r ex e) as [kcs|er| |]; cbn [rbind].
  - destruct (set_all E new_object kcs) eqn:Es; cbn [rbind]; split.
    + intros [= <-]. eauto.
    + intros (kcs' & [= <-] & H). congruence.
    + discriminate.
    + intros (kcs' & [= <-] & H). congruence.
    + discriminate.
    + intros (kcs' & [= <-] & H). congruence.
    + discriminate.
    + intros (kcs' & [= <-] & H). congruence.
  - split; [discriminate|intros (kcs' & [=] & _)].
  - split; [discriminate|intros (kcs' & [=] & _)].
  - split; [discriminate|intros (kcs' & [=] & _)].
Qed.

Lemma fields_over r ex fs : forall vs, Forall2 (fun e v => imp (GStruct [e]) r ex = Ok v) fs vs -> forall acc, an_object acc ->
  exists v, set_fields E acc (map (part r ex) fs) = Ok v /\ an_object v /\
  forall k x, member v k x <-> last_wins vs k x \/ (member acc k x /\ forall w y, In w vs -> ~ member w k y).
Proof.
  induction fs as [|e fs IH]; intros vs Hf; inversion Hf as [|? w ? vs' Hw Hf']; subst; intros acc Ha.
  - exists acc. split; [reflexivity|]. split; [exact Ha|]. intros k x. split; [intros H; right; split; [exact H|intros w y []]|].
    intros [(a & w & b & Ea & _)|(H & _)]; [destruct a; discriminate|exact H].
  - cbn [map set_fields]. apply import_one in Hw as (kcs & -> & Hk). cbn [rbind].
    destruct (set_all_over E kcs acc new_object acc (over_new acc Ha)) as (acc' & w' & E1 & E2 & (O1 & O2 & O3)).
    rewrite Hk in E2. injection E2 as <-. rewrite E1. cbn [rbind].
    destruct (IH vs' Hf' acc' O1) as (v & Ev & Hv & Hm). exists v. split; [exact Ev|]. split; [exact Hv|].
    intros k x. rewrite Hm, O3, last_cons. split.
    + intros [H|([H|(H & Hn)] & Ho)]; [left; left; exact H|left; right; auto|right]. split; [exact H|].
      intros w0 y [<-|Hi]; [apply Hn|now apply Ho].
    + intros [[H|(H & Ho)]|(H & Ho)]; [left; exact H|right; split; [now left|exact Ho]|right]. split.
      * right. split; [exact H|]. intros y. apply Ho. now left.
      * intros w0 y Hi. apply Ho. now right.
Qed.

Theorem struct_parts opts fs vs : Forall2 (fun e v => import E W d opts (GStruct [e]) = Ok (v, None)) fs vs ->
  exists v, import E W d opts (GStruct fs) = Ok (v, None) /\ an_object v /\
  forall k x, member v k x <->
    exists a w b, vs = a ++ w :: b /\ member w k x /\ forall w' y, In w' b -> ~ member w' k y.
Proof.
  intros H. set (ex := Ext false false false (o_ignore_omitempty (combine_options d opts))).
  assert (H' : Forall2 (fun e v => imp (GStruct [e]) RNone ex = Ok v) fs vs).
  { clear -H. induction H as [|e v fs vs He _ IH]; constructor; [now apply import_ok in He|exact IH]. }
  destruct (fields_over RNone ex fs vs H' new_object new_obj) as (v & Ev & Hv & Hm). exists v.
  split; [apply import_ok; exact Ev|]. split; [exact Hv|]. intros k x. rewrite Hm. split.
  - intros [L|(N & _)]; [exact L|now apply new_none in N].
  - intros L. left. exact L.
Qed.

Lemma fields_each r ex fs : forall acc v, an_object acc -> set_fields E acc (map (part r ex) fs) = Ok v ->
  Forall (fun e => exists w, imp (GStruct [e]) r ex = Ok w) fs.
Proof.
  induction fs as [|e fs IH]; intros acc v Ha H; constructor; cbn [map set_fields] in H.
  - destruct (part r ex e) as [kcs|er| |] eqn:Ep; try discriminate.
    destruct (set_all_over E kcs acc new_object acc (over_new acc Ha)) as (acc' & w' & E1 & E2 & _).
    exists w'. apply import_one. eauto.
  - destruct (part r ex e) as [kcs|er| |] eqn:Ep; try discriminate. cbn [rbind] in H.
    destruct (set_all_over E kcs acc new_object acc (over_new acc Ha)) as (acc' & w' & E1 & E2 & (O1 & _)).
    rewrite E1 in H. cbn [rbind] in H. exact (IH acc' v O1 H).
Qed.
Theorem struct_each opts fs v : import E W d opts (GStruct fs) = Ok (v, None) ->
  Forall (fun e => exists w, import E W d opts (GStruct [e]) = Ok (w, None)) fs.
Proof.
  intros H. apply import_ok in H. rewrite import_fields_eq in H. pose proof (fields_each _ _ _ _ _ new_obj H) as G.
  rewrite Forall_forall in *. intros e He. destruct (G e He) as (w & Hw). exists w. now apply import_ok.
Qed.

(** *** What becomes of a field *)

Lemma zero_float f : is_zero_float f = true <-> exists s, f = S754_zero s.
Proof.
  unfold is_zero_float. destruct f as [s|s| |s m e]; cbn.
  - split; [eauto|reflexivity].
  - split; [destruct s; discriminate|intros (s' & [=])].
  - split; [discriminate|intros (s' & [=])].
  - split; [destruct s; discriminate|intros (s' & [=])].
Qed.

Definition empty_b (v : V) : bool :=
  match v with
  | VStr s => match s with [] => true | _ => false end
  | VNum n _ => SFeqb (n_f64 n) f_zero
  | VArr l => match l with [] => true | _ => false end
  | VObj _ kvs _ => match kvs with [] => true | _ => false end
  | VBool b => negb b
  | _ => true
  end.
Lemma empty_b_doc v : json_typed v -> empty_b v = true <-> empty_doc v.
Proof.
  destruct v as [ |s|n src|i kvs lo|l|b| | | ]; intros H; cbn [empty_b empty_doc]; try (destruct H; fail).
  - destruct s; split; intros G; try discriminate; auto.
  - apply zero_float.
  - destruct kvs; split; intros G; try discriminate; auto.
  - destruct l; split; intros G; try discriminate; auto.
  - destruct b; split; intros G; try discriminate; auto.
  - split; auto.
Qed.
Lemma typed_init v : json_typed v -> ~ typeless v.
Proof. destruct v; cbn; intros H [G|G]; try discriminate; contradiction. Qed.
Lemma unmarshal_typed b v : unmarshal E b = Ok (v, None) -> json_typed v.
Proof. intros H. destruct (unmarshal_total E b) as (v' & e & He & Hq). rewrite H in He. injection He as <- <-. exact Hq. Qed.

(** A method MarshalJSON. *)
Lemma json_value b ex c : parse_json_marshaler E (MOut (Ok b)) ex = Ok c ->
  exists v, unmarshal E b = Ok (v, None) /\ json_typed v /\
  ((c = VNil /\ should_omit ex = true /\ empty_doc v) \/ (c = v /\ ~ (should_omit ex = true /\ empty_doc v))).
Proof.
  cbn [parse_json_marshaler rbind]. destruct (unmarshal E b) as [[v e]| | |] eqn:Eu; try discriminate. cbn [rbind].
  destruct e as [e|]; [discriminate|]. fold (empty_b v). unfold omit_or. intros [= <-]. exists v.
  pose proof (unmarshal_typed _ _ Eu) as Ht. split; [reflexivity|]. split; [exact Ht|].
  destruct (empty_b v) eqn:Eb; cbn [andb].
  - apply (empty_b_doc v Ht) in Eb. destruct (should_omit ex); [left; auto|right; split; [reflexivity|intros (G & _); discriminate]].
  - right. split; [reflexivity|]. intros (_ & G). apply (empty_b_doc v Ht) in G. congruence.
Qed.
Lemma json_typeless b ex c : parse_json_marshaler E (MOut (Ok b)) ex = Ok c ->
  (typeless c <-> should_omit ex = true /\ empty_text E b).
Proof.
  intros H. apply json_value in H as (v & Hu & Ht & [(-> & Ho & He)|(-> & Hn)]).
  - split; [|intros _; now left]. intros _. split; [exact Ho|]. exists v. auto.
  - split; [intros G; now apply (typed_init v Ht) in G|]. intros (Ho & v' & Hu' & He). rewrite Hu in Hu'. injection Hu' as <-.
    destruct Hn. auto.
Qed.
Lemma text_typeless b ex c : parse_text_marshaler (MOut (Ok b)) ex = Ok c -> (typeless c <-> should_omit ex = true /\ b = []).
Proof.
  cbn [parse_text_marshaler rbind]. unfold omit_or. intros [= <-]. destruct b as [|x b]; cbn [andb].
  - destruct (should_omit ex); split; intros H; auto; [now left|destruct H; discriminate|destruct H; discriminate].
  - split; [intros [H|H]; discriminate|intros (_ & H); discriminate].
Qed.
Lemma omit_typeless ex (b : bool) v c : omit_or ex b v = Ok c -> ~ typeless v -> (typeless c <-> should_omit ex = true /\ b = true).
Proof.
  unfold omit_or. intros [= <-] Hv. destruct b, (should_omit ex); cbn [andb]; split; intros H; auto; try (now left); try (destruct H; discriminate); contradiction.
Qed.
Lemma float_typeless v f ex c n src : v = VNum n src -> parse_float E W d v f ex = Ok c ->
  (typeless c <-> should_omit ex = true /\ exists s, f = S754_zero s).
Proof.
  intros ->. unfold parse_float. destruct (is_zero_float f) eqn:Ez; cbn [andb].
  - apply zero_float in Ez. destruct (should_omit ex); [intros [= <-]; split; auto; intros _; now left|].
    destruct (x_str ex); [destruct (must_marshal _ _ _ _ _); try discriminate|]; intros [= <-];
      (split; [intros [H|H]; discriminate|intros (H & _); discriminate]).
  - assert (Hz : ~ exists s, f = S754_zero s) by (intros G; apply zero_float in G; congruence).
    destruct (x_str ex); [destruct (must_marshal _ _ _ _ _); try discriminate|]; intros [= <-];
      (split; [intros [H|H]; discriminate|intros (_ & H); contradiction]).
Qed.

Definition left_out (o : bool) (g : gov) : Prop := lost g \/ (o = true /\ void E W d g).

Lemma append_arr l : forall a c, append_all E W (VArr a) l = Ok c -> exists xs, c = VArr (a ++ xs) /\ Forall2 (fun r x => r = Ok x) l xs.
Proof.
  induction l as [|x l IH]; intros a c H.
  - injection H as <-. exists []. rewrite app_nil_r. split; [reflexivity|constructor].
  - cbn [append_all] in H. destruct x as [y| | |]; try discriminate. cbn [rbind] in H. rewrite append_new in H. cbn [rbind] in H.
    apply IH in H as (xs & -> & Hf). exists (y :: xs). rewrite <- app_assoc. split; [reflexivity|now constructor].
Qed.
Lemma entries_obj l : forall acc c, an_object acc -> set_entries E acc l = Ok c -> an_object c.
Proof.
  induction l as [|[k x] l IH]; intros acc c Ha H; [injection H as <-; exact Ha|]. cbn [set_entries] in H.
  destruct x as [y| | |]; try discriminate. cbn [rbind] in H. destruct (set_member E acc y k Ha) as (acc' & Es & Ha' & _).
  rewrite Es in H. cbn [rbind] in H. exact (IH _ _ Ha' H).
Qed.
Lemma fields_obj l : forall acc c, an_object acc -> set_fields E acc l = Ok c -> an_object c.
Proof.
  induction l as [|x l IH]; intros acc c Ha H; [injection H as <-; exact Ha|]. cbn [set_fields] in H.
  destruct x as [kcs| | |]; try discriminate. cbn [rbind] in H.
  destruct (set_all_over E kcs acc new_object acc (over_new acc Ha)) as (acc' & w' & E1 & _ & (O1 & _)).
  rewrite E1 in H. cbn [rbind] in H. exact (IH _ _ O1 H).
Qed.
Lemma obj_init c : an_object c -> ~ typeless c.
Proof. intros (i & kvs & lo & -> & _) [H|H]; discriminate. Qed.
Lemma interface_inv r x (c : V) : interface r x = Ok c -> r = RNone /\ x = Ok c.
Proof. unfold interface. destruct r; cbn [can_interface]; try discriminate. auto. Qed.

Ltac vc := first [apply void_nil|apply void_bool|apply void_int|apply void_uint|apply void_float64|apply void_float32|apply void_slice; auto
  |apply void_bytes; auto|apply void_str|apply void_map; auto|apply void_ptr_nil|apply void_json; assumption|apply void_text].

Lemma void_inv g : void E W d g -> lost g \/
  match g with
  | GSlice l => l = None \/ l = Some []
  | GBytes b => b = None \/ b = Some []
  | GStr s => s = []
  | GMap m => m = None \/ m = Some []
  | GPtr (Some (GVal v)) | GValue v => v <> VNil /\ exists b, marshal E W d [] v = Ok b /\ empty_text E b
  | GPtr (Some x) | GIface x => void E W d x
  | GJson m => exists b, m = MOut (Ok b) /\ empty_text E b
  | GText m => m = MOut (Ok [])
  | GStruct _ | GVal _ | GArray _ | GMapOther | GOther => False
  | _ => True
  end.
Proof.
  destruct 1 as [x L| | | | | | | | | | | | | |v b Hv Hm He|v b Hv Hm He|x Hx V0|]; try (left; exact L); right; eauto.
  destruct x; try exact V0. now destruct (Hx v).
Qed.

Lemma left_out_exact g : forall r ex c, imp g r ex = Ok c -> (typeless c <-> left_out (should_omit ex) g).
Proof.
  unfold left_out.
  induction g as [ |b|z|z|f|f|l IH| |l IH|b|s| |m IH| | |g IH|g IH|fs IH|v|v|m|m| ] using gov_ind'; intros r ex c H; cbn [import_val] in H.
  - (* nil *)
    rewrite (omit_typeless _ _ _ _ H) by (intros [G|G]; discriminate). split; [intros (? & _); right; split; [assumption|vc]|].
    intros [G|(G & _)]; [inversion G|auto].
  - unfold parse_bool in H. rewrite (omit_typeless _ _ _ _ H) by (destruct (x_str ex); intros [G|G]; discriminate).
    split; [intros (? & G); right; split; [assumption|destruct b; [discriminate|vc]]|].
    intros [G|(G & V0)]; [inversion G|split; [exact G|]]. inversion V0; subst; [match goal with L : lost _ |- _ => inversion L end|reflexivity].
  - unfold parse_int in H. rewrite (omit_typeless _ _ _ _ H) by (destruct (x_str ex); intros [G|G]; discriminate).
    split; [intros (? & G); right; split; [assumption|apply Z.eqb_eq in G as ->; vc]|].
    intros [G|(G & V0)]; [inversion G|split; [exact G|]]. inversion V0; subst; [match goal with L : lost _ |- _ => inversion L end|reflexivity].
  - unfold parse_uint in H. rewrite (omit_typeless _ _ _ _ H) by (destruct (x_str ex); intros [G|G]; discriminate).
    split; [intros (? & G); right; split; [assumption|apply Z.eqb_eq in G as ->; vc]|].
    intros [G|(G & V0)]; [inversion G|split; [exact G|]]. inversion V0; subst; [match goal with L : lost _ |- _ => inversion L end|reflexivity].
  - assert (Hv : exists n src, new_float64 E f = VNum n src) by (unfold new_float64; destruct (is_valid_float f); eexists _, _; reflexivity).
    destruct Hv as (n & src & Hv). rewrite (float_typeless _ _ _ _ _ _ Hv H).
    split; [intros (? & s & ->); right; split; [assumption|vc]|].
    intros [G|(G & V0)]; [inversion G|split; [exact G|]]. inversion V0; subst; [match goal with L : lost _ |- _ => inversion L end|eauto].
  - assert (Hv : exists n src, new_float32 E f = VNum n src) by (unfold new_float32; destruct (is_valid_float f); eexists _, _; reflexivity).
    destruct Hv as (n & src & Hv). rewrite (float_typeless _ _ _ _ _ _ Hv H).
    split; [intros (? & s & ->); right; split; [assumption|vc]|].
    intros [G|(G & V0)]; [inversion G|split; [exact G|]]. inversion V0; subst; [match goal with L : lost _ |- _ => inversion L end|eauto].
  - (* arrays *)
    apply append_arr in H as (xs & -> & _). split; [intros [G|G]; discriminate|].
    intros [G|(_ & V0)]; [inversion G|]. inversion V0; subst. match goal with L : lost _ |- _ => inversion L end.
  - rewrite (omit_typeless _ _ _ _ H) by (intros [G|G]; discriminate). split; [intros (? & _); right; split; [assumption|vc]|].
    intros [G|(G & _)]; [inversion G|auto].
  - destruct l as [|x l].
    + rewrite (omit_typeless _ _ _ _ H) by (intros [G|G]; discriminate). split; [intros (? & _); right; split; [assumption|vc]|].
      intros [G|(G & _)]; [inversion G|auto].
    + apply append_arr in H as (xs & -> & _). split; [intros [G|G]; discriminate|].
      intros [G|(_ & V0)]; [inversion G|]. apply void_inv in V0 as [L|[L|L]]; [inversion L|discriminate|discriminate].
  - apply interface_inv in H as (_ & H). rewrite (omit_typeless _ _ _ _ H) by (intros [G|G]; discriminate). split.
    + intros (? & G). right. split; [assumption|]. destruct b as [[|x b]|]; try discriminate; vc.
    + intros [G|(G & V0)]; [inversion G|split; [exact G|]]. apply void_inv in V0 as [L|[->| ->]]; [inversion L|reflexivity|reflexivity].
  - rewrite (omit_typeless _ _ _ _ H) by (intros [G|G]; discriminate). split.
    + intros (? & G). right. split; [assumption|]. destruct s; [vc|discriminate].
    + intros [G|(G & V0)]; [inversion G|split; [exact G|]]. apply void_inv in V0 as [L|V0]; [inversion L|now rewrite V0].
  - rewrite (omit_typeless _ _ _ _ H) by (intros [G|G]; discriminate). split; [intros (? & _); right; split; [assumption|vc]|].
    intros [G|(G & _)]; [inversion G|auto].
  - destruct m as [|e m].
    + rewrite (omit_typeless _ _ _ _ H) by (intros [G|G]; discriminate). split; [intros (? & _); right; split; [assumption|vc]|].
      intros [G|(G & _)]; [inversion G|auto].
    + apply (entries_obj _ _ _ new_obj) in H. split; [intros G; now apply (obj_init c H) in G|].
      intros [G|(_ & V0)]; [inversion G|]. apply void_inv in V0 as [L|[L|L]]; [inversion L|discriminate|discriminate].
  - discriminate.
  - rewrite (omit_typeless _ _ _ _ H) by (intros [G|G]; discriminate). split; [intros (? & _); right; split; [assumption|vc]|].
    intros [G|(G & _)]; [inversion G|auto].
  - (* pointers *)
    assert (K : (forall v, g <> GVal v) -> imp g r ex = Ok c ->
       typeless c <-> lost (GPtr (Some g)) \/ should_omit ex = true /\ void E W d (GPtr (Some g))).
    { intros Hg Hi. rewrite (IH r ex c Hi). split.
      - intros [L|(Ho & V0)]; [left; now apply lost_ptr|right; split; [exact Ho|now apply void_ptr]].
      - intros [L|(Ho & V0)].
        + left. inversion L; subst; [exfalso; now apply (Hg VNil)|assumption].
        + apply void_inv in V0 as [L|V0].
          * left. inversion L; subst; [exfalso; now apply (Hg VNil)|assumption].
          * right. split; [exact Ho|]. destruct g; try exact V0. now destruct (Hg v). }
    destruct g as [ |b|z|z|f|f|l|l|b|s|m| |p|g|fs|v|v|m|m| ]; try (apply K; [discriminate|exact H]).
    apply interface_inv in H as (_ & H).
    destruct (match v with VNil => true | _ => false end) eqn:En.
    + destruct v; try discriminate. injection H as <-. split; [|intros _; now left]. intros _. left. constructor.
    + assert (Nv : v <> VNil) by (intros ->; discriminate).
      assert (Em : v_method E W d v = MOut (marshal E W d [] v)) by (destruct v; try reflexivity; discriminate). rewrite Em in H.
      destruct (marshal E W d [] v) as [b|e| |] eqn:Eb; try discriminate. rewrite (json_typeless _ _ _ H). split.
      * intros (Ho & He). right. split; [exact Ho|]. eapply void_value_ptr; eauto.
      * intros [L|(Ho & V0)]; [exfalso; inversion L as [| | | | |? Hx|]; subst; [congruence|now apply (Hx v)]|].
        apply void_inv in V0 as [L|(_ & b' & Eb' & He)]; [exfalso; inversion L as [| | | | |? Hx|]; subst; [congruence|now apply (Hx v)]|].
        rewrite Eb in Eb'. injection Eb' as <-. auto.
  - rewrite (IH _ _ _ H). split.
    + intros [L|(Ho & V0)]; [left; now constructor|right; split; [exact Ho|now apply void_iface]].
    + intros [L|(Ho & V0)]; [left; now inversion L|].
      apply void_inv in V0 as [L|V0]; [left; now inversion L|right; auto].
  - apply (fields_obj _ _ _ new_obj) in H. split; [intros G; now apply (obj_init c H) in G|].
    intros [L|(_ & V0)]; [inversion L|apply void_inv in V0 as [L|[]]; inversion L].
  - apply interface_inv in H as (_ & H).
    assert (Hc : typeless c <-> typeless v \/ v = VUnknown).
    { injection H as <-. unfold typeless. destruct v; cbn; split; intros G; intuition discriminate. }
    rewrite Hc. split; [intros G; left; now constructor|]. intros [L|(_ & V0)]; [now inversion L|].
    apply void_inv in V0 as [L|[]]. now inversion L.
  - apply interface_inv in H as (_ & H).
    destruct (match v with VNil => true | _ => false end) eqn:En.
    + destruct v; try discriminate. injection H as <-. split; [|intros _; now left]. intros _. left. constructor.
    + assert (Nv : v <> VNil) by (intros ->; discriminate).
      assert (Em : v_method E W d v = MOut (marshal E W d [] v)) by (destruct v; try reflexivity; discriminate). rewrite Em in H.
      destruct (marshal E W d [] v) as [b|e| |] eqn:Eb; try discriminate. rewrite (json_typeless _ _ _ H). split.
      * intros (Ho & He). right. split; [exact Ho|]. eapply void_value; eauto.
      * intros [L|(Ho & V0)]; [inversion L; subst; congruence|].
        apply void_inv in V0 as [L|(_ & b' & Eb' & He)]; [inversion L; subst; congruence|].
        rewrite Eb in Eb'. injection Eb' as <-. auto.
  - apply interface_inv in H as (_ & H). destruct m as [| |[b|e| |]]; try discriminate.
    + injection H as <-. split; [|intros _; now left]. intros _. left. constructor. now left.
    + injection H as <-. split; [|intros _; now left]. intros _. left. constructor. now right.
    + rewrite (json_typeless _ _ _ H). split; [intros (Ho & He); right; split; [exact Ho|vc]|].
      intros [L|(Ho & V0)]; [inversion L as [| |? [N|N]| | | |]; discriminate|].
      split; [exact Ho|]. apply void_inv in V0 as [L|(b' & [= <-] & He)]; [|exact He].
      inversion L as [| |? [N|N]| | | |]; discriminate.
  - apply interface_inv in H as (_ & H). destruct m as [| |[b|e| |]]; try discriminate.
    + injection H as <-. split; [|intros _; now left]. intros _. left. constructor.
    + injection H as <-. split; [intros [G|G]; discriminate|]. intros [L|(_ & V0)]; [inversion L|].
      apply void_inv in V0 as [L|V0]; [inversion L|discriminate].
    + rewrite (text_typeless _ _ _ H). split; [intros (Ho & ->); right; split; [exact Ho|vc]|].
      intros [L|(Ho & V0)]; [inversion L|]. split; [exact Ho|].
      apply void_inv in V0 as [L|V0]; [inversion L|congruence].
  - discriminate.
Qed.
End Parts.
