(** Import part by part: fields, embedded structs, maps, lists, pointers. *)
From Verif Require Import Base Utf8 Float64 Value Scan Unmarshal Opt Marshal Access Path Edit Iter Base64 GoValue Import
  SpecJson SpecValue SpecPath SpecIter SpecNil SpecImport SpecParts ListLemmas ValueLemmas SortProof IterProof MarshalTotal UnmarshalProof
  ParseMore ImportProof ImportTotal PartsProof.
Local Open Scope Z_scope.

Section More.
Variable E : Env.
Variable W : World.
Variable d : opt.
Notation imp := (import_val E W d).

(** *** Import fails or succeeds whatever the tag says *)

Definition succeeds {A} (r : res A) : Prop := exists x, r = Ok x.

Lemma append_succeeds l : forall a, succeeds (append_all E W (VArr a) l) <-> Forall succeeds l.
Proof.
  induction l as [|x l IH]; intros a; [split; [constructor|intros _; eexists; reflexivity]|]. cbn [append_all].
  destruct x as [y| | |]; cbn [rbind]; try (split; [intros (z & Hz); discriminate Hz|intros H; inversion H as [|? ? (z & Hz)]; discriminate Hz]).
  rewrite append_new. cbn [rbind]. rewrite IH. split; [intros H; constructor; [eexists; reflexivity|exact H]|intros H; now inversion H].
Qed.
Lemma entries_succeeds l : forall acc, an_object acc -> succeeds (set_entries E acc l) <-> Forall (fun e : bytes * res V => succeeds (snd e)) l.
Proof.
  induction l as [|[k x] l IH]; intros acc Ha; [split; [constructor|intros _; eexists; reflexivity]|]. cbn [set_entries].
  destruct x as [y| | |]; cbn [rbind]; try (split; [intros (z & Hz); discriminate Hz|intros H; inversion H as [|? ? (z & Hz)]; discriminate Hz]).
  destruct (set_member E acc y k Ha) as (acc' & -> & Ha' & _). cbn [rbind]. rewrite (IH acc' Ha').
  split; [intros H; constructor; [eexists; reflexivity|exact H]|intros H; now inversion H].
Qed.
Lemma fields_succeeds l : forall acc, an_object acc -> succeeds (set_fields E acc l) <-> Forall succeeds l.
Proof.
  induction l as [|x l IH]; intros acc Ha; [split; [constructor|intros _; eexists; reflexivity]|]. cbn [set_fields].
  destruct x as [kcs| | |]; cbn [rbind]; try (split; [intros (z & Hz); discriminate Hz|intros H; inversion H as [|? ? (z & Hz)]; discriminate Hz]).
  destruct (set_all_over E kcs acc new_object acc (over_new acc Ha)) as (acc' & w' & -> & _ & (O1 & _)). cbn [rbind]. rewrite (IH acc' O1).
  split; [intros H; constructor; [eexists; reflexivity|exact H]|intros H; now inversion H].
Qed.
Lemma range_succeeds c : (exists i kvs lo, c = VObj i kvs lo) -> succeeds (range_objects_by_set W [] c (Some (fun (s : list (bytes * V)) e => (s ++ [e], true))) []).
Proof. intros (i & kvs & lo & ->). cbn [range_objects_by_set api_is_object on_value vtype_of vtype_eqb rbind negb object_of]. eexists. reflexivity. Qed.

Lemma json_succeeds m ex ex' : succeeds (parse_json_marshaler E m ex) -> succeeds (parse_json_marshaler E m ex').
Proof.
  destruct m as [| |r]; intros (c & H); try (eexists; reflexivity). cbn [parse_json_marshaler] in *. destruct r as [b| | |]; try discriminate.
  cbn [rbind] in *. destruct (unmarshal E b) as [[v [e|]]| | |]; try discriminate. cbn [rbind]. eexists. reflexivity.
Qed.
Lemma text_succeeds m ex ex' : succeeds (parse_text_marshaler m ex) -> succeeds (parse_text_marshaler m ex').
Proof.
  destruct m as [| |r]; intros (c & H); try (eexists; reflexivity). cbn [parse_text_marshaler] in *. destruct r as [b| | |]; try discriminate.
  eexists. reflexivity.
Qed.
Lemma float_succeeds v f ex n src : v = VNum n src -> succeeds (parse_float E W d v f ex).
Proof.
  intros ->. unfold parse_float. destruct (_ && _); [eexists; reflexivity|]. destruct (x_str ex); [|eexists; reflexivity].
  destruct (marshal_total E W d [] (VNum n src)) as (_ & _ & G). destruct G as (b & ->); [inversion 1|eexists; reflexivity].
Qed.

Lemma read_name f ex ex' : fst (read_field_tag f ex) = fst (read_field_tag f ex').
Proof. unfold read_field_tag. destruct (gf_tag f); reflexivity. Qed.
Lemma bind_succeeds {A B} (a a' : res A) (f f' : A -> res B) : (succeeds a -> succeeds a') -> (forall x, succeeds (f' x)) ->
  succeeds (rbind a f) -> succeeds (rbind a' f').
Proof.
  intros Ha Hf (y & H). destruct a as [x| | |]; try discriminate. destruct Ha as (x' & ->); [eexists; reflexivity|]. apply Hf.
Qed.
Lemma part_succeeds f x : (forall r ex ex', succeeds (imp x r ex) -> succeeds (imp x r ex')) ->
  forall r ex ex', succeeds (part E W d r ex (f, x)) -> succeeds (part E W d r ex' (f, x)).
Proof.
  intros Hx r ex ex' H. unfold part in *. pose proof (read_name f ex ex') as Hn. destruct (gf_anon f).
  - unfold parse_anonymous, read_anonymous_tag in *. destruct (read_field_tag f ex) as [n e1]. destruct (read_field_tag f ex') as [n' e1'].
    cbn [fst] in Hn. subst n'. destruct (beqb n (bs "-")); [eexists; reflexivity|]. destruct (is_nil_ptr x); [eexists; reflexivity|].
    revert H. apply bind_succeeds; [apply Hx|]. intros y. destruct y; try (eexists; reflexivity); apply range_succeeds; eauto.
  - unfold parse_field in *. destruct (negb _); [eexists; reflexivity|].
    destruct (read_field_tag f ex) as [n e1]. destruct (read_field_tag f ex') as [n' e1'].
    cbn [fst] in Hn. subst n'. destruct (beqb n (bs "-")); [eexists; reflexivity|].
    revert H. apply bind_succeeds; [apply Hx|]. intros y. eexists; reflexivity.
Qed.

Lemma succeeds_any g : forall r ex ex', succeeds (imp g r ex) -> succeeds (imp g r ex').
Proof.
  induction g as [ |b|z|z|f|f|l IH| |l IH|b|s| |m IH| | |g IH|g IH|fs IH|v|v|m|m| ] using gov_ind'; intros r ex ex' H;
    try (cbn [import_val]; unfold parse_bool, parse_int, parse_uint, omit_or; eexists; reflexivity).
  - cbn [import_val]. eapply float_succeeds. unfold new_float64. destruct (is_valid_float f); reflexivity.
  - cbn [import_val]. eapply float_succeeds. unfold new_float32. destruct (is_valid_float f); reflexivity.
  - cbn [import_val] in *. apply append_succeeds in H. apply append_succeeds.
    induction IH as [|x l Hx _ IHl]; cbn [map] in *; constructor; inversion H; subst; eauto.
  - assert (K : forall l, Forall (fun g => forall r ex ex', succeeds (imp g r ex) -> succeeds (imp g r ex')) l -> forall e e',
       Forall succeeds (map (fun x => imp x (ro_inside r) e) l) -> Forall succeeds (map (fun x => imp x (ro_inside r) e') l)).
    { clear. induction 1 as [|x l Hx _ IHl]; cbn [map] in *; intros e e' H; constructor; inversion H; subst; eauto. }
    destruct l as [|x l]; [eexists; reflexivity|]. cbn [import_val] in *. apply append_succeeds in H. apply append_succeeds.
    revert H. apply K. exact IH.
  - cbn [import_val] in *. destruct H as (c & H). apply interface_inv in H as (-> & H). eexists. reflexivity.
  - assert (K : forall m, Forall (fun e : gkey * gov => forall r ex ex', succeeds (imp (snd e) r ex) -> succeeds (imp (snd e) r ex')) m ->
       Forall (fun e : bytes * res V => succeeds (snd e)) (map (fun e : gkey * gov => let '(k, x) := e in (key_string_of k, imp x (ro_inside r) ex)) m) ->
       Forall (fun e : bytes * res V => succeeds (snd e)) (map (fun e : gkey * gov => let '(k, x) := e in (key_string_of k, imp x (ro_inside r) ex')) m)).
    { clear. induction 1 as [|[k x] l Hx _ IHl]; cbn [map] in *; intros H; constructor; inversion H; subst; cbn [snd] in *; eauto. }
    destruct m as [|x m]; [eexists; reflexivity|]. cbn [import_val] in *. apply (entries_succeeds _ _ new_obj) in H.
    apply (entries_succeeds _ _ new_obj). revert H. apply K. exact IH.
  - destruct H as (c & [=]).
  - destruct g as [ |b|z|z|f|f|l|l|b|s|m| |p|g|fs|v|v|m|m| ]; try (exact (IH r ex ex' H)).
    cbn [import_val] in *. destruct H as (c & H). apply interface_inv in H as (-> & H). cbn [interface can_interface].
    eapply json_succeeds. eexists. exact H.
  - exact (IH _ ex ex' H).
  - cbn [import_val] in *. apply (fields_succeeds _ _ new_obj) in H. apply (fields_succeeds _ _ new_obj).
    induction IH as [|[f x] fs Hx _ IHl]; cbn [map] in *; [constructor|]. inversion H as [|? ? H1 H2]; subst. constructor; [|auto]. cbn [snd] in Hx.
    exact (part_succeeds f x Hx r ex ex' H1).
  - cbn [import_val] in *. destruct H as (c & H). apply interface_inv in H as (-> & H). eexists. reflexivity.
  - cbn [import_val] in *. destruct H as (c & H). apply interface_inv in H as (-> & H). cbn [interface can_interface].
    eapply json_succeeds. eexists. exact H.
  - cbn [import_val] in *. destruct H as (c & H). apply interface_inv in H as (-> & H). cbn [interface can_interface].
    eapply json_succeeds. eexists. exact H.
  - cbn [import_val] in *. destruct H as (c & H). apply interface_inv in H as (-> & H). cbn [interface can_interface].
    eapply text_succeeds. eexists. exact H.
  - destruct H as (c & [=]).
Qed.

(** *** A field *)

Definition tag_ext (opts : list bytes) (ign : bool) : Import.ext :=
  Ext (existsb (beqb (bs "omitempty")) opts) (existsb (beqb (bs "string")) opts) false ign.
Definition put (key : bytes) (c : V) : V := if uninitialized c then new_object else VObj 1 [(key, (1, c))] None.

Lemma put_member key c k x : member (put key c) k x <-> ~ typeless c /\ k = key /\ x = c.
Proof.
  unfold put. destruct (uninitialized c) eqn:Eu.
  - apply uninit_typeless in Eu. split; [intros H; now apply new_none in H|]. intros (N & _). contradiction.
  - rewrite member_obj. assert (Nt : ~ typeless c) by (intros T; apply uninit_typeless in T; congruence). split.
    + intros (id & [[= <- <- <-]|[]]). auto.
    + intros (_ & -> & ->). exists 1. now left.
Qed.
Lemma put_obj key c : an_object (put key c).
Proof. unfold put. destruct (uninitialized c); [exact new_obj|]. eexists _, _, _. split; [reflexivity|]. repeat constructor. intros []. Qed.

Lemma plain_part f key opts g ex : plain_field f key opts ->
  part E W d RNone ex (f, g) = let* c := imp g RNone (tag_ext opts (x_ign ex)) in Ok (if is_nil c then [] else [(key, c)]).
Proof.
  intros (He & Ha & name & Hp & Hs & -> & Hk). unfold part, parse_field. rewrite Ha. unfold ro_field. rewrite He. cbn [can_interface negb].
  rewrite (read_tag f name opts ex Hp Hs). destruct (beqb_spec (field_key f name) (bs "-")) as [Hd|_]; [contradiction|reflexivity].
Qed.
Lemma plain_one f key opts g ex v : plain_field f key opts ->
  (imp (GStruct [(f, g)]) RNone ex = Ok v <-> exists c, imp g RNone (tag_ext opts (x_ign ex)) = Ok c /\ v = put key c).
Proof.
  intros Hf. rewrite import_one, (plain_part f key opts g ex Hf).
  assert (K : forall c, set_all E new_object (if is_nil c then [] else [(key, c)]) = Ok (put key c)).
  { intros c. destruct c; reflexivity. }
  destruct (imp g RNone (tag_ext opts (x_ign ex))) as [c|er| |]; cbn [rbind].
  - split.
    + intros (kcs & [= <-] & H). exists c. split; [reflexivity|]. rewrite K in H. congruence.
    + intros (c' & [= <-] & ->). eexists. split; [reflexivity|apply K].
  - split; [intros (kcs & H & _); discriminate|intros (c' & H & _); discriminate].
  - split; [intros (kcs & H & _); discriminate|intros (c' & H & _); discriminate].
  - split; [intros (kcs & H & _); discriminate|intros (c' & H & _); discriminate].
Qed.

Lemma existsb_out s opts : ~ In s opts -> existsb (beqb s) opts = false.
Proof. intros N. destruct (existsb (beqb s) opts) eqn:X; [|reflexivity]. apply existsb_In in X. contradiction. Qed.

Notation ign opts := (o_ignore_omitempty (combine_options d opts)).

Lemma omits_In opts i : should_omit (tag_ext opts i) = true <-> In (bs "omitempty") opts /\ i = false.
Proof.
  unfold should_omit, tag_ext. cbn [x_ign x_omit x_priv]. rewrite orb_false_r. rewrite andb_true_iff, existsb_In.
  destruct i; cbn; split; intros (H1 & H2); auto; discriminate.
Qed.
Lemma field_import o f key opts g v : plain_field f key opts ->
  (import E W d o (GStruct [(f, g)]) = Ok (v, None) <-> exists c, imp g RNone (tag_ext opts (ign o)) = Ok c /\ v = put key c).
Proof. intros Hf. rewrite import_ok. exact (plain_one f key opts g (Ext false false false (ign o)) v Hf). Qed.

(** Whether there is a member. *)
Theorem field_left_out o f key opts g v : plain_field f key opts -> import E W d o (GStruct [(f, g)]) = Ok (v, None) ->
  an_object v /\
  (lost g \/ (In (bs "omitempty") opts /\ ign o = false /\ void E W d g) <-> forall k x, ~ member v k x) /\
  (~ (lost g \/ (In (bs "omitempty") opts /\ ign o = false /\ void E W d g)) ->
   exists x, forall k y, member v k y <-> k = key /\ y = x).
Proof.
  intros Hf H. apply (field_import o f key opts g v Hf) in H as (c & Hc & ->). split; [apply put_obj|].
  pose proof (left_out_exact E W d g RNone _ c Hc) as L. unfold left_out in L. rewrite omits_In in L.
  assert (L' : typeless c <-> lost g \/ (In (bs "omitempty") opts /\ ign o = false /\ void E W d g)) by (rewrite L; tauto).
  split.
  - rewrite <- L'. split.
    + intros T k x Hm. apply put_member in Hm as (N & _). contradiction.
    + intros N. destruct (uninitialized c) eqn:Eu; [now apply uninit_typeless|]. destruct (N key c). apply put_member. split; [|auto].
      intros T. apply uninit_typeless in T. congruence.
  - rewrite <- L'. intros N. exists c. intros k y. rewrite put_member. tauto.
Qed.

(** Without the options, the value of the member is the import of the value of
    the field. *)
Theorem field_value o f key opts g v : plain_field f key opts -> import E W d o (GStruct [(f, g)]) = Ok (v, None) ->
  ~ In (bs "string") opts -> (~ In (bs "omitempty") opts \/ ign o = true) ->
  exists c, import E W d o g = Ok (c, None) /\ forall k x, member v k x <-> ~ typeless c /\ k = key /\ x = c.
Proof.
  intros Hf H Hs Ho. apply (field_import o f key opts g v Hf) in H as (c & Hc & ->). exists c. split; [|intros k x; apply put_member].
  apply import_ok. revert Hc. unfold tag_ext.
  assert (Es : existsb (beqb (bs "string")) opts = false). { now apply existsb_out. }
  rewrite Es. destruct Ho as [Ho|Ho].
  - assert (Eo : existsb (beqb (bs "omitempty")) opts = false). { now apply existsb_out. }
    rewrite Eo. auto.
  - rewrite Ho. rewrite import_ign. auto.
Qed.
Theorem field_fails o f key opts g : plain_field f key opts ->
  ((exists v, import E W d o (GStruct [(f, g)]) = Ok (v, None)) <-> (exists c, import E W d o g = Ok (c, None))).
Proof.
  intros Hf. split.
  - intros (v & H). apply (field_import o f key opts g v Hf) in H as (c & Hc & _).
    destruct (succeeds_any g RNone _ (Ext false false false (ign o)) (ex_intro _ c Hc)) as (c' & Hc'). exists c'. now apply import_ok.
  - intros (c & H). apply import_ok in H. destruct (succeeds_any g RNone _ (tag_ext opts (ign o)) (ex_intro _ c H)) as (c' & Hc').
    exists (put key c'). apply (field_import o f key opts g _ Hf). eauto.
Qed.

(** Fields that are not seen. *)
Theorem field_unseen o f g : gf_anon f = false -> gf_exported f = false \/ (exists opts, tag_parts (gf_tag f) (bs "-") opts) ->
  import E W d o (GStruct [(f, g)]) = Ok (VObj 0 [] None, None).
Proof.
  intros Ha H. apply import_ok. apply import_one. exists []. split; [|reflexivity]. unfold part, parse_field. rewrite Ha. unfold ro_field.
  destruct H as [He|(opts & Hp)]; [rewrite He, Ha; reflexivity|]. destruct (gf_exported f); [|rewrite Ha; reflexivity].
  cbn [can_interface negb]. unfold read_field_tag. pose proof (tag_parts_split _ _ _ Hp) as Es.
  destruct (gf_tag f) as [|c tg]; [discriminate|]. rewrite Es. reflexivity.
Qed.

(** *** omitempty where it does not apply *)

Lemma map_out m : m <> [] -> leads_to_map (GMap (Some m)).
Proof. apply leads_map. Qed.
Lemma omit_same g : ~ leads_to_map g -> forall r o s p i c, imp g r (Ext o s p i) = Ok c -> ~ typeless c -> forall o', should_omit (Ext o' s p i) = false ->
  imp g r (Ext o' s p i) = Ok c.
Proof.
  induction g as [ |b|z|z|f|f|l IH| |l IH|b|x| |m IH| | |g IH|g IH|fs IH|v|v|m|m| ] using gov_ind'; intros Hl r o s p i c H N o' Ho;
    cbn [import_val] in *.
  - unfold omit_or in *. rewrite Ho. destruct (should_omit _); cbn [andb] in *; [|exact H]. injection H as <-. destruct N. now left.
  - unfold parse_bool, omit_or in *. rewrite Ho. destruct b, (should_omit _); cbn [andb negb] in *; try exact H; injection H as <-; destruct N; now left.
  - unfold parse_int, omit_or in *. rewrite Ho. destruct (z =? 0), (should_omit _); cbn [andb negb] in *; try exact H; injection H as <-; destruct N; now left.
  - unfold parse_uint, omit_or in *. rewrite Ho. destruct (z =? 0), (should_omit _); cbn [andb negb] in *; try exact H; injection H as <-; destruct N; now left.
  - unfold parse_float in *. rewrite Ho. destruct (is_zero_float f), (should_omit _); cbn [andb negb] in *; try exact H; injection H as <-; destruct N; now left.
  - unfold parse_float in *. rewrite Ho. destruct (is_zero_float f), (should_omit _); cbn [andb negb] in *; try exact H; injection H as <-; destruct N; now left.
  - exact H.
  - unfold omit_or in *. rewrite Ho. destruct (should_omit _); cbn [andb] in *; [|exact H]. injection H as <-. destruct N. now left.
  - destruct l; [|exact H]. unfold omit_or in *. rewrite Ho. destruct (should_omit _); cbn [andb] in *; [|exact H]. injection H as <-. destruct N. now left.
  - apply interface_inv in H as (-> & H). cbn [interface can_interface]. unfold omit_or in *. rewrite Ho.
    destruct b as [[|y b]|], (should_omit _); cbn [andb negb] in *; try exact H; injection H as <-; destruct N; now left.
  - unfold omit_or in *. rewrite Ho. destruct x, (should_omit _); cbn [andb negb] in *; try exact H; injection H as <-; destruct N; now left.
  - unfold omit_or in *. rewrite Ho. destruct (should_omit _); cbn [andb] in *; [|exact H]. injection H as <-. destruct N. now left.
  - destruct m; [|destruct Hl; now apply leads_map].
    unfold omit_or in *. rewrite Ho. destruct (should_omit _); cbn [andb] in *; [|exact H]. injection H as <-. destruct N. now left.
  - discriminate.
  - unfold omit_or in *. rewrite Ho. destruct (should_omit _); cbn [andb] in *; [|exact H]. injection H as <-. destruct N. now left.
  - assert (Hl' : ~ leads_to_map g) by (intros X; apply Hl; now constructor).
    destruct g as [ |b|z|z|f|f|l|l|b|x|m| |q|g|fs|v|v|m|m| ]; try (exact (IH Hl' _ _ _ _ _ _ H N _ Ho)).
    apply interface_inv in H as (-> & H). cbn [interface can_interface]. destruct (v_method E W d v) as [| |[b|e| |]]; try discriminate; try exact H.
    cbn [parse_json_marshaler rbind] in *. destruct (unmarshal E b) as [[w e]| | |]; try discriminate. cbn [rbind] in *. destruct e; [discriminate|].
    fold (empty_b w) in *. unfold omit_or in *. rewrite Ho. destruct (empty_b w), (should_omit _); cbn [andb] in *; try exact H; injection H as <-; destruct N; now left.
  - apply (IH (fun X => Hl (leads_iface _ X)) _ _ _ _ _ _ H N _ Ho).
  - exact H.
  - exact H.
  - apply interface_inv in H as (-> & H). cbn [interface can_interface]. destruct (v_method E W d v) as [| |[b|e| |]]; try discriminate; try exact H.
    cbn [parse_json_marshaler rbind] in *. destruct (unmarshal E b) as [[w e]| | |]; try discriminate. cbn [rbind] in *. destruct e; [discriminate|].
    fold (empty_b w) in *. unfold omit_or in *. rewrite Ho. destruct (empty_b w), (should_omit _); cbn [andb] in *; try exact H; injection H as <-; destruct N; now left.
  - apply interface_inv in H as (-> & H). cbn [interface can_interface]. destruct m as [| |[b|e| |]]; try discriminate; try exact H.
    cbn [parse_json_marshaler rbind] in *. destruct (unmarshal E b) as [[w e]| | |]; try discriminate. cbn [rbind] in *. destruct e; [discriminate|].
    fold (empty_b w) in *. unfold omit_or in *. rewrite Ho. destruct (empty_b w), (should_omit _); cbn [andb] in *; try exact H; injection H as <-; destruct N; now left.
  - apply interface_inv in H as (-> & H). cbn [interface can_interface]. destruct m as [| |[b|e| |]]; try discriminate; try exact H.
    cbn [parse_text_marshaler rbind] in *. unfold omit_or in *. rewrite Ho. destruct b, (should_omit _); cbn [andb] in *; try exact H; injection H as <-; destruct N; now left.
  - discriminate.
Qed.
Theorem field_omit_same o f f' key opts opts' g v : plain_field f key opts -> plain_field f' key opts' ->
  ~ In (bs "omitempty") opts' -> (In (bs "string") opts <-> In (bs "string") opts') -> ~ leads_to_map g ->
  import E W d o (GStruct [(f, g)]) = Ok (v, None) -> (exists k x, member v k x) ->
  import E W d o (GStruct [(f', g)]) = Ok (v, None).
Proof.
  intros Hf Hf' No Hs Hl H (k & x & Hm). apply (field_import o f key opts g v Hf) in H as (c & Hc & ->).
  apply put_member in Hm as (N & _). apply (field_import o f' key opts' g _ Hf'). exists c. split; [|reflexivity].
  unfold tag_ext in *.
  assert (Es : existsb (beqb (bs "string")) opts = existsb (beqb (bs "string")) opts').
  { apply Bool.eq_iff_eq_true. rewrite !existsb_In. exact Hs. }
  assert (Eo : existsb (beqb (bs "omitempty")) opts' = false). { now apply existsb_out. }
  rewrite <- Es, Eo. apply (omit_same g Hl _ _ _ _ _ _ Hc N). unfold should_omit. cbn. apply andb_false_r.
Qed.
End More.
