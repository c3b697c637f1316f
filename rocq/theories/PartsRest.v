(** Import part by part: embedded fields, maps, lists, pointers, the option "string". *)
From Verif Require Import Base Utf8 Float64 Value Scan Unmarshal Opt Marshal Access Path Edit Iter Base64 GoValue Import
  SpecJson SpecValue SpecPath SpecIter SpecNil SpecImport SpecParts ListLemmas ValueLemmas SortProof IterProof MarshalTotal UnmarshalProof
  ParseMore ImportProof ImportTotal PartsProof PartsMore.
Local Open Scope Z_scope.

Section Rest.
Variable E : Env.
Variable W : World.
Variable d : opt.
Notation imp := (import_val E W d).
Notation ign opts := (o_ignore_omitempty (combine_options d opts)).

Lemma no_omit s i : should_omit (Ext false s false i) = false.
Proof. apply andb_false_r. Qed.

(** *** Embedded fields *)

(** Objects whose members all have a type. *)
Definition filled (v : V) : Prop := an_object v /\ forall k x, member v k x -> ~ typeless x.
Lemma new_filled : filled new_object.
Proof. split; [exact new_obj|]. intros k x H. now apply new_none in H. Qed.
Lemma set_all_filled kcs : forall acc, filled acc -> exists acc', set_all E acc kcs = Ok acc' /\ filled acc'.
Proof.
  induction kcs as [|[k c] kcs IH]; intros acc (Ha & Hm); [exists acc; split; [reflexivity|split; assumption]|]. cbn [set_all].
  destruct (set_member E acc c k Ha) as (acc' & -> & Ha' & Hm'). cbn [rbind]. apply IH. split; [exact Ha'|].
  intros k' x H. apply Hm' in H as [(N & _ & ->)|(_ & H)]; [exact N|exact (Hm _ _ H)].
Qed.
Lemma fields_filled l : forall acc v, filled acc -> set_fields E acc l = Ok v -> filled v.
Proof.
  induction l as [|x l IH]; intros acc v Ha H; [injection H as <-; exact Ha|]. cbn [set_fields] in H.
  destruct x as [kcs| | |]; try discriminate. cbn [rbind] in H. destruct (set_all_filled kcs acc Ha) as (acc' & Es & Ha').
  rewrite Es in H. cbn [rbind] in H. exact (IH _ _ Ha' H).
Qed.
Lemma entries_filled l : forall acc v, filled acc -> set_entries E acc l = Ok v -> filled v.
Proof.
  induction l as [|[k x] l IH]; intros acc v Ha H; [injection H as <-; exact Ha|]. cbn [set_entries] in H.
  destruct x as [c| | |]; try discriminate. cbn [rbind] in H. destruct (set_all_filled [(k, c)] acc Ha) as (acc' & Es & Ha').
  cbn [set_all] in Es. destruct (must_op _) as [a| | |]; try discriminate. injection Es as ->. cbn [rbind] in H. exact (IH _ _ Ha' H).
Qed.

(** Taking the members of an object and setting them one by one. *)
Lemma range_again c : filled c -> exists kcs v,
  range_objects_by_set W [] c (Some (fun (s : list (bytes * V)) e => (s ++ [e], true))) [] = Ok kcs /\
  set_all E new_object kcs = Ok v /\ same_members v c.
Proof.
  intros ((i & kvs & lo & -> & Hn) & Hf).
  cbn [range_objects_by_set api_is_object on_value vtype_of vtype_eqb rbind negb object_of].
  set (es := go_sort W _ _).
  assert (Hp : Permutation es kvs) by (unfold es; rewrite go_sort_perm; apply go_range_perm).
  assert (Hr : forall (l : list (bytes * V)) s, range_list (fun s e => (s ++ [e], true)) l s = s ++ l).
  { induction l as [|e l IH]; intros s; cbn [range_list]; [now rewrite app_nil_r|]. rewrite IH, <- app_assoc. reflexivity. }
  exists (entries es). rewrite Hr. cbn [app].
  assert (Hnd : NoDup (map fst (entries es))).
  { unfold entries. rewrite map_map. cbn [fst]. apply (Permutation_NoDup (Permutation_map fst (Permutation_sym Hp))) in Hn. exact Hn. }
  destruct (set_all_fresh E (entries es) 0 [] None) as (i' & es' & lo' & Hs & Hm).
  { rewrite Forall_forall. intros (k, x) Hi. cbn [snd]. unfold entries in Hi. apply in_map_iff in Hi as ([k' [id x']] & [= -> ->] & Hi).
    apply (Permutation_in _ Hp) in Hi. destruct (uninitialized x) eqn:Eu; [|reflexivity]. apply uninit_typeless in Eu.
    exfalso. apply (Hf k x); [apply member_obj; eauto|exact Eu]. }
  { exact Hnd. }
  eexists. split; [reflexivity|]. split; [exact Hs|]. cbn [app].
  assert (He : forall k x, In (k, x) (members es') <-> exists id, In (k, (id, x)) es').
  { intros k x. unfold members. rewrite in_map_iff. split.
    - intros ([k' [id x']] & [= -> ->] & H). eauto.
    - intros (id & H). exists (k, (id, x)). auto. }
  split; [|split].
  - exists i', es', lo'. split; [reflexivity|]. assert (X : map fst es' = map fst (members es')) by (unfold members; now rewrite map_map).
    rewrite X, Hm. exact Hnd.
  - exists i, kvs, lo. auto.
  - intros k x. rewrite !member_obj, <- He, Hm. unfold entries. rewrite in_map_iff. split.
    + intros ([k' [id x']] & [= -> ->] & H). exists id. now apply (Permutation_in _ Hp).
    + intros (id & H). exists (k, (id, x)). split; [reflexivity|]. now apply (Permutation_in _ (Permutation_sym Hp)).
Qed.

Lemma struct_not_nil g gs : struct_of g = Some gs -> is_nil_ptr g = false.
Proof. destruct g as [ |b|z|z|f|f|l|l|b|s|m| |[g|]|g|fs|v|v|m|m| ]; try discriminate; auto. Qed.
Lemma struct_of_import g gs ex : struct_of g = Some gs -> imp g RNone ex = imp (GStruct gs) RNone ex.
Proof. destruct g as [ |b|z|z|f|f|l|l|b|s|m| |[g|]|g|fs|v|v|m|m| ]; try discriminate; [destruct g; try discriminate|]; intros [= ->]; reflexivity. Qed.

Lemma embedded_part o f g gs : embedded_field f -> struct_of g = Some gs ->
  part E W d RNone (Ext false false false (ign o)) (f, g) =
  let* c := imp (GStruct gs) RNone (Ext false false false (ign o)) in
  match c with
  | VStr _ | VNum _ _ | VBool _ | VNull | VArr _ =>
    Ok (if negb ((65 <=? hd 0 (gf_name f)) && (hd 0 (gf_name f) <=? 90)) then [] else [(fst (read_field_tag f (Ext false false false (ign o))), c)])
  | VObj _ _ _ => range_objects_by_set W [] c (Some (fun s e => (s ++ [e], true))) []
  | _ => Ok []
  end.
Proof.
  intros (Ha & name & opts & Hp & Hs & Hk) Hg. unfold part, parse_anonymous, read_anonymous_tag. rewrite Ha.
  rewrite (read_tag f name opts _ Hp Hs). cbn [fst x_omit x_str x_ign x_priv].
  destruct (beqb_spec (field_key f name) (bs "-")) as [D|_]; [contradiction|]. rewrite (struct_not_nil g gs Hg).
  rewrite (import_struct_of E W d g gs _ _ Hg) by (unfold ro_field; destruct (gf_exported f); rewrite ?Ha; discriminate).
  cbn [x_ign]. rewrite (struct_of_import g gs _ Hg). reflexivity.
Qed.

Theorem embedded_struct o f g gs : embedded_field f -> struct_of g = Some gs ->
  (forall v, import E W d o (GStruct [(f, g)]) = Ok (v, None) -> exists w, import E W d o (GStruct gs) = Ok (w, None) /\ same_members v w) /\
  (forall w, import E W d o (GStruct gs) = Ok (w, None) -> exists v, import E W d o (GStruct [(f, g)]) = Ok (v, None) /\ same_members v w).
Proof.
  intros Hf Hg. pose proof (embedded_part o f g gs Hf Hg) as Hp. split.
  - intros v H. apply import_ok in H. apply import_one in H as (kcs & Hk & Hs). rewrite Hp in Hk.
    destruct (imp (GStruct gs) RNone _) as [c| | |] eqn:Ec; try discriminate. cbn [rbind] in Hk.
    exists c. split; [now apply import_ok|]. rewrite import_fields_eq in Ec. apply (fields_filled _ _ _ new_filled) in Ec as Hc.
    pose proof Hc as ((i & kvs & lo & -> & _) & _). destruct (range_again _ Hc) as (kcs' & v' & R1 & R2 & R3).
    rewrite R1 in Hk. injection Hk as ->. rewrite R2 in Hs. injection Hs as ->. exact R3.
  - intros w H. apply import_ok in H. pose proof H as Ec. rewrite import_fields_eq in Ec. apply (fields_filled _ _ _ new_filled) in Ec as Hc.
    pose proof Hc as ((i & kvs & lo & -> & _) & _). destruct (range_again _ Hc) as (kcs' & v' & R1 & R2 & R3).
    exists v'. split; [|exact R3]. apply import_ok, import_one. exists kcs'. split; [|exact R2]. rewrite Hp, H. exact R1.
Qed.

Lemma nil_pointer_is g : is_nil_ptr g = true <-> nil_pointer g.
Proof.
  unfold nil_pointer. split.
  - destruct g as [ |b|z|z|f|f|l|l|b|s|m| |[g|]|g|fs|v|v|m|m| ]; try discriminate; auto;
      [destruct v; try discriminate; auto|destruct m; try discriminate; auto|destruct m; try discriminate; auto].
  - intros [->|[->|[->| ->]]]; reflexivity.
Qed.
Theorem embedded_nil_field o f g name opts : gf_anon f = true -> tag_parts (gf_tag f) name opts -> no_space_ends name -> field_key f name <> bs "-" ->
  nil_pointer g ->
  exists v, import E W d o (GStruct [(f, g)]) = Ok (v, None) /\ an_object v /\
  forall k x, member v k x <->
    (ign o = true \/ (~ In (bs "omitempty") opts /\ letter_first (gf_name f))) /\ k = field_key f name /\ x = VNull.
Proof.
  intros Ha Hp Hs Hk Hn. apply nil_pointer_is in Hn.
  set (ex := Ext false false false (ign o)).
  assert (Pt : part E W d RNone ex (f, g) =
     Ok (if should_omit (Ext (existsb (beqb (bs "omitempty")) opts) (existsb (beqb (bs "string")) opts)
           (negb ((65 <=? hd 0 (gf_name f)) && (hd 0 (gf_name f) <=? 90))) (ign o)) then [] else [(field_key f name, VNull)])).
  { unfold part, parse_anonymous, read_anonymous_tag. rewrite Ha, (read_tag f name opts _ Hp Hs), Hn. cbn [x_omit x_str x_ign ex].
    destruct (beqb_spec (field_key f name) (bs "-")) as [D|_]; [contradiction|reflexivity]. }
  assert (Hl : negb ((65 <=? hd 0 (gf_name f)) && (hd 0 (gf_name f) <=? 90)) = false <-> letter_first (gf_name f)).
  { split; [|apply letter_private]. intros H. apply negb_false_iff, andb_true_iff in H as (H1 & H2). unfold letter_first.
    destruct (gf_name f) as [|c r]; [cbn in H1; discriminate|]. cbn [hd] in *. apply Z.leb_le in H1, H2. eauto. }
  set (b := should_omit _) in Pt.
  assert (Hb : b = false <-> ign o = true \/ (~ In (bs "omitempty") opts /\ letter_first (gf_name f))).
  { unfold b, should_omit. cbn [x_ign x_omit x_priv]. rewrite <- Hl, andb_false_iff, orb_false_iff, negb_false_iff.
    assert (X : existsb (beqb (bs "omitempty")) opts = false <-> ~ In (bs "omitempty") opts).
    { split; [intros X Hi; apply existsb_In in Hi; congruence|apply existsb_out]. }
    rewrite X. reflexivity. }
  destruct b.
  - exists new_object. split; [apply import_ok, import_one; eexists; split; [exact Pt|reflexivity]|]. split; [exact new_obj|].
    intros k x. split; [intros H; now apply new_none in H|]. intros (H & _). apply Hb in H. discriminate.
  - exists (VObj 1 [(field_key f name, (1, VNull))] None). split; [apply import_ok, import_one; eexists; split; [exact Pt|reflexivity]|].
    split; [exists 1, [(field_key f name, (1, VNull))], None; split; [reflexivity|repeat constructor; intros []]|].
    intros k x. rewrite member_obj. split.
    + intros (id & [[= <- <- <-]|[]]). split; [now apply Hb|auto].
    + intros (_ & -> & ->). exists 1. now left.
Qed.

(** *** Maps *)

Lemma entries_members (l : list (bytes * res V)) : forall acc v, an_object acc -> set_entries E acc l = Ok v -> NoDup (map fst l) ->
  (forall k, In k (map fst l) -> forall x, ~ member acc k x) ->
  forall k x, member v k x <-> member acc k x \/ (In (k, Ok x) l /\ ~ typeless x).
Proof.
  induction l as [|[k0 r] l IH]; intros acc v Ha H Hn Hd k x.
  - injection H as <-. split; [auto|]. intros [H|([] & _)]. exact H.
  - cbn [set_entries] in H. destruct r as [c| | |]; try discriminate. cbn [rbind] in H.
    destruct (set_member E acc c k0 Ha) as (acc' & Es & Ha' & Hm). rewrite Es in H. cbn [rbind] in H. cbn [map fst] in *.
    inversion Hn as [|? ? N1 N2]; subst.
    rewrite (IH acc' v Ha' H N2).
    + rewrite Hm. split.
      * intros [[(N & -> & ->)|(_ & M)]|(Hi & N)]; [right; split; [now left|exact N]|auto|right; split; [now right|exact N]].
      * intros [M|([[= -> ->]|Hi] & N)]; [|left; left; auto|right; auto].
        left. right. split; [|exact M]. destruct (beqb_spec k k0) as [->|Nk]; [|auto]. exfalso. apply (Hd k0 (or_introl eq_refl) x M).
    + intros k' Hi y My. apply Hm in My as [(_ & -> & _)|(_ & M)]; [contradiction|]. exact (Hd k' (or_intror Hi) y M).
Qed.
Lemma map_keys (m : list (gkey * gov)) ex : map fst (map (fun e : gkey * gov => let '(k, x) := e in (key_string_of k, imp x (ro_inside RNone) ex)) m)
  = map (fun e => key_text (fst e)) m.
Proof. rewrite map_map. apply map_ext. intros (k, x). cbn [fst]. apply key_text_string. Qed.
Lemma map_members m ex c : m <> [] -> NoDup (map (fun e => key_text (fst e)) m) -> imp (GMap (Some m)) RNone ex = Ok c ->
  filled c /\
  forall k x, member c k x <-> exists kk g, In (kk, g) m /\ k = key_text kk /\ imp g RNone ex = Ok x /\ ~ typeless x.
Proof.
  intros Hm Hn H.
  assert (H' : set_entries E new_object (map (fun e : gkey * gov => let '(k, x) := e in (key_string_of k, imp x (ro_inside RNone) ex)) m) = Ok c)
    by (destruct m; [contradiction|exact H]). clear H.
  split; [exact (entries_filled _ _ _ new_filled H')|]. intros k x.
  rewrite (entries_members _ _ _ new_obj H'); [|now rewrite map_keys|intros k0 _ y My; now apply new_none in My].
  split.
  - intros [M|(Hi & N)]; [now apply new_none in M|]. apply in_map_iff in Hi as ((kk & g) & [= <- Hg] & Hi).
    exists kk, g. rewrite key_text_string. cbn [ro_inside] in Hg. auto.
  - intros (kk & g & Hi & -> & Hg & N). right. split; [|exact N]. apply in_map_iff. exists (kk, g). rewrite key_text_string. cbn [ro_inside].
    rewrite Hg. auto.
Qed.
Theorem map_import o m c : NoDup (map (fun e => key_text (fst e)) m) -> import E W d o (GMap (Some m)) = Ok (c, None) ->
  an_object c /\
  forall k x, member c k x <-> exists kk g, In (kk, g) m /\ k = key_text kk /\ import E W d o g = Ok (x, None) /\ ~ typeless x.
Proof.
  intros Hn H. apply import_ok in H. destruct m as [|e m].
  - cbn [import_val] in H. unfold omit_or in H. rewrite no_omit in H. injection H as <-.
    split; [exact new_obj|]. intros k x. split; [intros M; now apply new_none in M|]. intros (kk & g & [] & _).
  - apply map_members in H as ((H1 & _) & H2); [|discriminate|exact Hn]. split; [exact H1|]. intros k x. rewrite H2.
    split; intros (kk & g & Hi & -> & Hg & N); exists kk, g; repeat split; auto; apply import_ok; exact Hg.
Qed.
Theorem field_map o f key opts m v : plain_field f key opts -> m <> [] -> NoDup (map (fun e => key_text (fst e)) m) ->
  import E W d o (GStruct [(f, GMap (Some m))]) = Ok (v, None) ->
  exists c, an_object c /\ (forall k x, member v k x <-> k = key /\ x = c) /\
  forall k x, member c k x <-> exists kk g w, In (kk, g) m /\ k = key_text kk /\ import E W d o (GStruct [(f, g)]) = Ok (w, None) /\ member w key x.
Proof.
  intros Hf Hm Hn H. apply (field_import E W d o f key opts _ v Hf) in H as (c & Hc & ->). exists c.
  apply map_members in Hc as ((H1 & _) & H2); [|exact Hm|exact Hn]. split; [exact H1|]. split.
  - intros k x. rewrite put_member. split; [tauto|]. intros (-> & ->). split; [now apply obj_init|auto].
  - intros k x. rewrite H2. split.
    + intros (kk & g & Hi & -> & Hg & N). exists kk, g, (put key x). repeat split; auto.
      * apply (field_import E W d o f key opts g _ Hf). eauto.
      * apply put_member. auto.
    + intros (kk & g & w & Hi & -> & Hw & M). apply (field_import E W d o f key opts g _ Hf) in Hw as (x' & Hx & ->).
      apply put_member in M as (N & _ & ->). exists kk, g. auto.
Qed.

(** The entries of an embedded map. *)
Theorem embedded_map o f f0 key opts m v : plain_field f0 key opts -> gf_anon f = true -> gf_exported f = true ->
  gf_name f = gf_name f0 -> gf_tag f = gf_tag f0 -> letter_first (gf_name f) ->
  m <> [] -> NoDup (map (fun e => key_text (fst e)) m) ->
  import E W d o (GStruct [(f, GMap (Some m))]) = Ok (v, None) ->
  exists w c, import E W d o (GStruct [(f0, GMap (Some m))]) = Ok (w, None) /\ member w key c /\ same_members v c.
Proof.
  intros Hf0 Ha Hx Hname Htag Hl Hm Hn H. pose proof Hf0 as (_ & _ & name & Hp & Hs & Hk & Hd).
  apply import_ok, import_one in H as (kcs & Hpart & Hset).
  unfold part, parse_anonymous, read_anonymous_tag in Hpart. rewrite Ha in Hpart.
  rewrite <- Htag in Hp. rewrite (read_tag f name opts _ Hp Hs) in Hpart.
  assert (Hk' : field_key f name = key) by (rewrite Hk; unfold field_key; now rewrite Hname). rewrite Hk' in Hpart.
  destruct (beqb_spec key (bs "-")) as [D|_]; [contradiction|]. cbn [is_nil_ptr x_omit x_str x_ign] in Hpart.
  unfold ro_field in Hpart. rewrite Hx, (letter_private f Hl) in Hpart. fold (tag_ext opts (ign o)) in Hpart.
  destruct (imp (GMap (Some m)) RNone (tag_ext opts (ign o))) as [c| | |] eqn:Ec; try discriminate. cbn [rbind] in Hpart.
  exists (put key c), c. split; [apply (field_import E W d o f0 key opts _ _ Hf0); eauto|].
  apply map_members in Ec as (Hc & _); [|exact Hm|exact Hn].
  split; [apply put_member; split; [apply obj_init, Hc|auto]|].
  destruct (range_again c Hc) as (kcs' & v' & R1 & R2 & R3).
  pose proof Hc as ((i & kvs & lo & -> & _) & _). rewrite R1 in Hpart. injection Hpart as ->. rewrite R2 in Hset. injection Hset as ->.
  exact R3.
Qed.

(** *** Arrays and slices *)

Lemma lost_any g : lost g -> forall r ex ex', imp g r ex = imp g r ex'.
Proof.
  induction 1 as [v Hv| |m Hm| | |x Hx L IH|x L IH]; intros r ex ex'; cbn [import_val].
  - reflexivity.
  - reflexivity.
  - destruct Hm as [->| ->]; reflexivity.
  - reflexivity.
  - reflexivity.
  - destruct x; try exact (IH r ex ex'). now destruct (Hx v).
  - apply IH.
Qed.
Lemma list_values l ex (c : V) : append_all E W new_array (map (fun x => imp x (ro_inside RNone) ex) l) = Ok c <->
  exists xs, c = VArr xs /\ Forall2 (fun g x => imp g RNone ex = Ok x) l xs.
Proof.
  assert (K : forall xs, Forall2 (fun r x => r = Ok x) (map (fun x => imp x (ro_inside RNone) ex) l) xs <-> Forall2 (fun g x => imp g RNone ex = Ok x) l xs).
  { induction l as [|g l IH]; intros xs; cbn [map]; split; intros H; inversion H; subst; constructor; auto; now apply IH. }
  split.
  - intros H. apply append_arr in H as (xs & -> & H). exists xs. split; [reflexivity|now apply K].
  - intros (xs & -> & H). unfold new_array. rewrite (append_all_ok E W _ xs []); [reflexivity|now apply K].
Qed.
Theorem list_import o l g c : g = GSlice (Some l) \/ g = GArray l ->
  (import E W d o g = Ok (c, None) <-> exists xs, c = VArr xs /\ Forall2 (fun g x => import E W d o g = Ok (x, None)) l xs).
Proof.
  intros Hg. rewrite import_ok. set (ex := Ext _ _ _ _).
  assert (X : imp g RNone ex = append_all E W new_array (map (fun x => imp x (ro_inside RNone) ex) l)).
  { destruct Hg as [->| ->]; [|reflexivity]. destruct l; [|reflexivity]. cbn [import_val]. unfold omit_or, ex. now rewrite no_omit. }
  rewrite X, list_values. split; intros (xs & -> & H); exists xs; (split; [reflexivity|]); clear -H;
    induction H; constructor; auto; apply import_ok; assumption.
Qed.
Theorem field_list o f f' key opts opts' l g v : g = GSlice (Some l) /\ l <> [] \/ g = GArray l ->
  plain_field f key opts -> plain_field f' key opts' ->
  ~ In (bs "omitempty") opts' -> (In (bs "string") opts <-> In (bs "string") opts') ->
  import E W d o (GStruct [(f, g)]) = Ok (v, None) ->
  exists xs, (forall k x, member v k x <-> k = key /\ x = VArr xs) /\
  Forall2 (fun g x => exists w, import E W d o (GStruct [(f', g)]) = Ok (w, None) /\
    (member w key x \/ lost g /\ import E W d o g = Ok (x, None))) l xs.
Proof.
  intros Hg Hf Hf' No Hs H. apply (field_import E W d o f key opts _ v Hf) in H as (c & Hc & ->).
  assert (Et : tag_ext opts' (ign o) = Ext false (existsb (beqb (bs "string")) opts) false (ign o)).
  { unfold tag_ext. rewrite (existsb_out _ _ No). f_equal. apply Bool.eq_iff_eq_true. rewrite !existsb_In. now symmetry. }
  assert (X : append_all E W new_array (map (fun x => imp x (ro_inside RNone) (tag_ext opts' (ign o))) l) = Ok c).
  { rewrite Et. destruct Hg as [(-> & Hl)| ->]; [destruct l; [contradiction|exact Hc]|exact Hc]. }
  apply list_values in X as (xs & -> & Hx). exists xs. split.
  - intros k x. rewrite put_member. split; [tauto|]. intros (-> & ->). split; [intros [T|T]; discriminate|auto].
  - clear -Hx Hf' No. induction Hx as [|g x l xs Hx _ IH]; constructor; [|exact IH]. exists (put key x).
    split; [apply (field_import E W d o f' key opts' g _ Hf'); eauto|]. rewrite put_member.
    destruct (uninitialized x) eqn:Eu.
    + right. apply uninit_typeless in Eu. apply (left_out_exact E W d g RNone _ x Hx) in Eu as [L|(Ho & _)].
      * split; [exact L|]. apply import_ok. rewrite <- Hx. now apply lost_any.
      * exfalso. apply omits_In in Ho as (Ho & _). contradiction.
    + left. split; [|auto]. intros T. apply uninit_typeless in T. congruence.
Qed.

(** *** Pointers and interfaces *)

Theorem ptr_import o g : (forall v, g <> GVal v) -> import E W d o (GPtr (Some g)) = import E W d o g.
Proof. intros Hg. unfold import. destruct g; try reflexivity. now destruct (Hg v). Qed.
Theorem iface_import o g : import E W d o (GIface g) = import E W d o g.
Proof. reflexivity. Qed.
Lemma field_same o f key opts g g' : plain_field f key opts ->
  (forall ex, imp g RNone ex = imp g' RNone ex) -> import E W d o (GStruct [(f, g)]) = import E W d o (GStruct [(f, g')]).
Proof.
  intros Hf H. unfold import. rewrite !import_fields_eq. cbn [map]. rewrite !(plain_part E W d f key opts _ _ Hf), H. reflexivity.
Qed.
Theorem field_ptr o f key opts g : plain_field f key opts -> (forall v, g <> GVal v) ->
  import E W d o (GStruct [(f, GPtr (Some g))]) = import E W d o (GStruct [(f, g)]).
Proof. intros Hf Hg. apply (field_same o f key opts _ _ Hf). intros ex. destruct g; try reflexivity. now destruct (Hg v). Qed.
Theorem field_iface o f key opts g : plain_field f key opts ->
  import E W d o (GStruct [(f, GIface g)]) = import E W d o (GStruct [(f, g)]).
Proof. intros Hf. apply (field_same o f key opts _ _ Hf). reflexivity. Qed.
(** A V that is not a pointer, or a pointer to a pointer to a V, is imported by way
    of its text. *)
Theorem field_value_text o f key opts v : plain_field f key opts -> v <> VNil ->
  import E W d o (GStruct [(f, GValue v)]) = import E W d o (GStruct [(f, GJson (MOut (marshal E W d [] v)))]) /\
  import E W d o (GStruct [(f, GPtr (Some (GVal v)))]) = import E W d o (GStruct [(f, GValue v)]).
Proof.
  intros Hf Hv. split; apply (field_same o f key opts _ _ Hf); intros ex; cbn [import_val]; [|reflexivity].
  destruct v; try reflexivity. congruence.
Qed.

(** *** The option "string" *)

Lemma must_text v s : must_marshal E W d [] v = Ok s -> text_of E W d v s.
Proof.
  unfold must_marshal, text_of. destruct (marshal E W d [] v) as [b|e| |]; try discriminate.
  - intros [= ->]. now left.
  - intros [= <-]. right. eauto.
Qed.
Lemma digits_nonempty fuel : forall n acc, acc <> [] -> dec_digits_aux fuel n acc <> [].
Proof. induction fuel as [|fuel IH]; intros n acc Ha; [exact Ha|]. cbn [dec_digits_aux]. destruct (_ =? 0); [discriminate|]. apply IH. discriminate. Qed.
Lemma format_int_nonempty z : format_int z <> [].
Proof.
  unfold format_int. destruct (z <? 0); [discriminate|]. unfold dec_digits. cbn [dec_digits_aux]. destruct (_ =? 0); [discriminate|].
  apply digits_nonempty. discriminate.
Qed.
Lemma int_marshals z : marshal E W d [] (new_int64 z) = Ok (format_int z) /\ marshal E W d [] (new_uint64 z) = Ok (format_int z).
Proof.
  assert (N : format_int z <> []) by apply format_int_nonempty.
  split; unfold marshal, marshal_opt; cbn; destruct (format_int z); try contradiction; reflexivity.
Qed.
Theorem field_string o f key opts g v c : plain_field f key opts -> In (bs "string") opts -> go_scalar g ->
  import E W d o g = Ok (c, None) -> import E W d o (GStruct [(f, g)]) = Ok (v, None) -> (exists k x, member v k x) ->
  exists s, text_of E W d c s /\ forall k x, member v k x <-> k = key /\ x = VStr s.
Proof.
  intros Hf Hs Hg Hc Hv (k0 & x0 & Hm). apply import_ok in Hc. apply (field_import E W d o f key opts _ v Hf) in Hv as (c' & Hc' & ->).
  apply put_member in Hm as (N & _).
  assert (Es : x_str (tag_ext opts (ign o)) = true) by (unfold tag_ext; cbn [x_str]; now apply existsb_In).
  assert (K : exists s, c' = VStr s /\ text_of E W d c s).
  { destruct g; try contradiction; cbn [import_val] in *.
    - unfold parse_bool, omit_or in *. rewrite Es in Hc'. rewrite no_omit, andb_false_r in Hc. cbn [x_str] in Hc. injection Hc as <-.
      destruct (_ && _); [injection Hc' as <-; destruct N; now left|]. injection Hc' as <-. eexists. split; [reflexivity|]. left. now destruct b.
    - unfold parse_int, omit_or in *. rewrite Es in Hc'. rewrite no_omit, andb_false_r in Hc. cbn [x_str] in Hc. injection Hc as <-.
      destruct (_ && _); [injection Hc' as <-; destruct N; now left|]. injection Hc' as <-. eexists. split; [reflexivity|]. left. apply int_marshals.
    - unfold parse_uint, omit_or in *. rewrite Es in Hc'. rewrite no_omit, andb_false_r in Hc. cbn [x_str] in Hc. injection Hc as <-.
      destruct (_ && _); [injection Hc' as <-; destruct N; now left|]. injection Hc' as <-. eexists. split; [reflexivity|]. left. apply int_marshals.
    - unfold parse_float in *. rewrite Es in Hc'. rewrite no_omit, andb_false_r in Hc. cbn [x_str] in Hc. injection Hc as <-.
      destruct (_ && _); [injection Hc' as <-; destruct N; now left|]. destruct (must_marshal _ _ _ _ _) as [s| | |] eqn:Em; try discriminate.
      injection Hc' as <-. exists s. split; [reflexivity|now apply must_text].
    - unfold parse_float in *. rewrite Es in Hc'. rewrite no_omit, andb_false_r in Hc. cbn [x_str] in Hc. injection Hc as <-.
      destruct (_ && _); [injection Hc' as <-; destruct N; now left|]. destruct (must_marshal _ _ _ _ _) as [s| | |] eqn:Em; try discriminate.
      injection Hc' as <-. exists s. split; [reflexivity|now apply must_text]. }
  destruct K as (s & -> & Ht). exists s. split; [exact Ht|]. intros k x. rewrite put_member. split; [tauto|]. intros (-> & ->).
  split; [intros [T|T]; discriminate|auto].
Qed.
Theorem field_string_same o f f' key opts opts' g : plain_field f key opts -> plain_field f' key opts' ->
  (In (bs "omitempty") opts <-> In (bs "omitempty") opts') -> not_quoted g ->
  import E W d o (GStruct [(f, g)]) = import E W d o (GStruct [(f', g)]).
Proof.
  intros Hf Hf' Ho Hg.
  assert (Eo : existsb (beqb (bs "omitempty")) opts = existsb (beqb (bs "omitempty")) opts').
  { apply Bool.eq_iff_eq_true. rewrite !existsb_In. exact Ho. }
  unfold import. rewrite !import_fields_eq. cbn [map]. rewrite (plain_part E W d f key opts _ _ Hf), (plain_part E W d f' key opts' _ _ Hf').
  cbn [x_ign].
  assert (X : imp g RNone (tag_ext opts (ign o)) = imp g RNone (tag_ext opts' (ign o))).
  { unfold tag_ext. rewrite Eo.
    destruct g as [ |b|z|z|x|x|l|l|b|x|[m|]| |[q|]|g|fs|v|v|m|m| ]; try contradiction; try reflexivity. }
  rewrite X. reflexivity.
Qed.
End Rest.
