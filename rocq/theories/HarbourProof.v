(** When Import makes a document with a nil inside. *)
From Verif Require Import Base Utf8 Float64 Value Scan Unmarshal Opt Marshal Access Path Edit Iter Base64 GoValue Import
  SpecJson SpecValue SpecPath SpecIter SpecNil SpecImport SpecFault SpecParts SpecHarbour ListLemmas ValueLemmas SortProof IterProof
  MarshalProof MarshalTotal UnmarshalProof ParseMore ImportProof ImportTotal PartsProof PartsMore PartsRest.
Local Open Scope Z_scope.

Lemma structs_list l : (fix go (l : list gov) : Prop := match l with [] => True | x :: r => embeds_structs x /\ go r end) l <-> Forall embeds_structs l.
Proof. induction l as [|x l IH]; [split; auto|]. rewrite IH. split; [intros (? & ?); now constructor|intros H; inversion H; auto]. Qed.
Lemma structs_map m : (fix go (m : list (gkey * gov)) : Prop := match m with [] => True | (_, x) :: r => embeds_structs x /\ go r end) m <->
  Forall (fun e : gkey * gov => embeds_structs (snd e)) m.
Proof. induction m as [|[k x] m IH]; [split; auto|]. rewrite IH. split; [intros (? & ?); now constructor|intros H; inversion H; auto]. Qed.
Lemma structs_fields fs : embeds_structs (GStruct fs) <->
  Forall (fun e : gfield * gov => (gf_anon (fst e) = true -> struct_of (snd e) <> None) /\ embeds_structs (snd e)) fs.
Proof.
  cbn [embeds_structs]. induction fs as [|[f x] fs IH]; [split; auto|]. rewrite IH. split; [intros (? & ? & ?); constructor; auto|].
  intros H. inversion H as [|? ? (H1 & H2) H3]; subst. auto.
Qed.
Lemma distinct_list l : (fix go (l : list gov) : Prop := match l with [] => True | x :: r => distinct x /\ go r end) l <-> Forall distinct l.
Proof. induction l as [|x l IH]; [split; auto|]. rewrite IH. split; [intros (? & ?); now constructor|intros H; inversion H; auto]. Qed.
Lemma distinct_map m : (fix go (m : list (gkey * gov)) : Prop := match m with [] => True | (_, x) :: r => distinct x /\ go r end) m <->
  Forall (fun e : gkey * gov => distinct (snd e)) m.
Proof. induction m as [|[k x] m IH]; [split; auto|]. rewrite IH. split; [intros (? & ?); now constructor|intros H; inversion H; auto]. Qed.
Lemma distinct_fields fs : (fix go (fs : list (gfield * gov)) : Prop := match fs with [] => True | (_, x) :: r => distinct x /\ go r end) fs <->
  Forall (fun e : gfield * gov => distinct (snd e)) fs.
Proof. induction fs as [|[f x] m IH]; [split; auto|]. rewrite IH. split; [intros (? & ?); now constructor|intros H; inversion H; auto]. Qed.

Lemma copy_no_nil v : ~ nil_at (deep_copy v).
Proof.
  induction v as [ |s|n src|i kvs lo IH|l IH|b| | | ] using V_ind'; cbn [deep_copy]; intros H; inversion H; subst.
  - match goal with A : In _ (map _ _), B : nil_at ?x |- _ => rename A into Hi, B into Hn end.
    apply in_map_iff in Hi as ([k' [id' x']] & [= <- <- <-] & Hi). rewrite Forall_forall in IH. exact (IH _ Hi Hn).
  - match goal with A : In _ (map _ _), B : nil_at ?x |- _ => rename A into Hi, B into Hn end.
    apply in_map_iff in Hi as (x' & <- & Hi). rewrite Forall_forall in IH. exact (IH _ Hi Hn).
Qed.

(** *** Where the nil comes from *)

Section Harbour.
Variable E : Env.
Variable W : World.
Variable d : opt.
Notation imp := (import_val E W d).

(** An object with a nil inside has a member with a nil inside. *)
Lemma obj_nil v : an_object v -> (nil_at v <-> exists k x, member v k x /\ nil_at x).
Proof.
  intros (i & kvs & lo & -> & _). split.
  - intros H. inversion H as [ |? ? ? ?|? ? ? k id x Hi Hx]; subst. exists k, x. split; [apply member_obj; eauto|exact Hx].
  - intros (k & x & Hm & Hx). apply member_obj in Hm as (id & Hi). eapply nil_member; eauto.
Qed.

Lemma json_no_nil b ex c : parse_json_marshaler E (MOut (Ok b)) ex = Ok c -> nil_at c -> c = VNil.
Proof.
  intros H Hn. apply json_value in H as (v & _ & Ht & [(-> & _)|(-> & _)]); [reflexivity|]. now apply typed_not_nil in Ht.
Qed.
Lemma method_nil m ex c : parse_json_marshaler E m ex = Ok c -> nil_at c -> c = VNil.
Proof.
  destruct m as [| |[b| | |]]; intros H Hn; try discriminate; try (injection H as <-; reflexivity). exact (json_no_nil b ex c H Hn).
Qed.
Lemma text_nil m ex c : parse_text_marshaler m ex = Ok c -> nil_at c -> c = VNil.
Proof.
  destruct m as [| |[b| | |]]; intros H Hn; try discriminate; [injection H as <-; reflexivity|injection H as <-; inversion Hn|].
  unfold parse_text_marshaler, rbind, omit_or in H. destruct (_ && _); injection H as <-; [reflexivity|inversion Hn].
Qed.
Lemma omit_nil ex b v c : omit_or ex b v = Ok c -> ~ nil_at v -> nil_at c -> c = VNil.
Proof. unfold omit_or. intros [= <-] Hv Hn. destruct (_ && _); [reflexivity|contradiction]. Qed.
Lemma float_nil v f ex c n src : v = VNum n src -> parse_float E W d v f ex = Ok c -> nil_at c -> c = VNil.
Proof.
  intros -> H Hn. unfold parse_float in H. destruct (_ && _); [injection H as <-; reflexivity|].
  destruct (x_str ex); [destruct (must_marshal _ _ _ _ _); try discriminate|]; injection H as <-; inversion Hn.
Qed.

Lemma method_is_nil m ex : should_omit ex = false -> parse_json_marshaler E m ex = Ok VNil -> nil_method m.
Proof.
  intros Ho H. destruct m as [| |[b| | |]]; try discriminate; [now left|now right|].
  apply json_value in H as (w & _ & Ht & [(_ & Ho' & _)|(<- & _)]); [congruence|destruct Ht].
Qed.
Lemma value_is_nil v ex : should_omit ex = false -> parse_json_marshaler E (v_method E W d v) ex = Ok VNil -> v = VNil.
Proof. intros Ho H. apply (method_is_nil _ _ Ho) in H. destruct v; destruct H as [H|H]; try discriminate; reflexivity. Qed.

(** nil comes from data that is nil. *)
Lemma nil_nilled g : forall r ex, should_omit ex = false -> imp g r ex = Ok VNil -> nilled g.
Proof.
  induction g as [ |b|z|z|f|f|l IH| |l IH|b|s| |m IH| | |g IH|g IH|fs IH|v|v|m|m| ] using gov_ind'; intros r ex Ho H; cbn [import_val] in H;
    try (unfold parse_bool, parse_int, parse_uint, omit_or in H; rewrite Ho, ?andb_false_r in H; try destruct (x_str ex); discriminate).
  - unfold parse_float in H. rewrite Ho, andb_false_r in H. unfold new_float64 in H.
    destruct (x_str ex), (is_valid_float f); try discriminate; destruct (must_marshal _ _ _ _ _); discriminate.
  - unfold parse_float in H. rewrite Ho, andb_false_r in H. unfold new_float32 in H.
    destruct (x_str ex), (is_valid_float f); try discriminate; destruct (must_marshal _ _ _ _ _); discriminate.
  - apply append_arr in H as (xs & [=] & _).
  - destruct l; [unfold omit_or in H; rewrite Ho in H; discriminate|]. apply append_arr in H as (xs & [=] & _).
  - apply interface_inv in H as (_ & H). unfold omit_or in H. rewrite Ho, andb_false_r in H. discriminate.
  - destruct m as [|e m]; [unfold omit_or in H; rewrite Ho in H; discriminate|]. apply (entries_obj _ _ _ _ new_obj) in H as (i & kvs & lo & [=] & _).
  - discriminate.
  - destruct g as [ |b|z|z|f|f|l|l|b|s|m| |p|g|fs|v|v|m|m| ]; try (constructor; exact (IH r ex Ho H)).
    apply interface_inv in H as (_ & H). constructor.
    apply (value_is_nil _ _ Ho) in H as ->. constructor.
  - constructor. exact (IH _ ex Ho H).
  - apply (fields_obj _ _ _ _ new_obj) in H as (i & kvs & lo & [=] & _).
  - apply interface_inv in H as (_ & H). destruct v; try discriminate. constructor.
  - apply interface_inv in H as (_ & H). 
    apply (value_is_nil _ _ Ho) in H as ->. constructor.
  - apply interface_inv in H as (_ & H). constructor. exact (method_is_nil _ _ Ho H).
  - apply interface_inv in H as (_ & H). destruct m as [| |[b| | |]]; try discriminate; [constructor|].
    cbn [parse_text_marshaler rbind] in H. unfold omit_or in H. rewrite Ho, andb_false_r in H. discriminate.
  - discriminate.
Qed.
Lemma nilled_nil g : nilled g -> forall r ex c, imp g r ex = Ok c -> c = VNil.
Proof.
  induction 1 as [| |m Hm| |x Hx IH|x Hx IH]; intros r ex c H; cbn [import_val] in H.
  - apply interface_inv in H as (_ & [= <-]). reflexivity.
  - apply interface_inv in H as (_ & [= <-]). reflexivity.
  - apply interface_inv in H as (_ & H). destruct Hm as [->| ->]; injection H as <-; reflexivity.
  - apply interface_inv in H as (_ & [= <-]). reflexivity.
  - destruct x as [ |b|z|z|f|f|l|l|b|s|m| |p|g|fs|v|v|m|m| ]; try (exact (IH _ _ _ H)).
    inversion Hx; subst. apply interface_inv in H as (_ & [= <-]). reflexivity.
  - exact (IH _ _ _ H).
Qed.

Definition from_below (g : gov) : Prop := embeds_structs g -> forall r ex c, x_priv ex = false -> imp g r ex = Ok c -> nil_at c -> c = VNil \/ harbours g.

Lemma set_all_nil kcs : forall acc v, an_object acc -> set_all E acc kcs = Ok v -> nil_at v -> nil_at acc \/ exists k c, In (k, c) kcs /\ c <> VNil /\ nil_at c.
Proof.
  induction kcs as [|[k c] kcs IH]; intros acc v Ha H Hn; [injection H as <-; auto|]. cbn [set_all] in H.
  destruct (set_member E acc c k Ha) as (acc' & Es & Ha' & Hm). rewrite Es in H. cbn [rbind] in H.
  destruct (IH acc' v Ha' H Hn) as [H'|(k' & c' & Hi & H1 & H2)]; [|right; exists k', c'; split; [now right|auto]].
  apply (obj_nil _ Ha') in H' as (k' & x & Hx & Hnx). apply Hm in Hx as [(N & -> & ->)|(_ & Hx)].
  - right. exists k, c. split; [now left|]. split; [intros ->; apply N; now left|exact Hnx].
  - left. apply (obj_nil _ Ha). eauto.
Qed.
Lemma entries_nil (l : list (bytes * res V)) : forall acc v, an_object acc -> set_entries E acc l = Ok v -> nil_at v ->
  nil_at acc \/ exists k c, In (k, Ok c) l /\ c <> VNil /\ nil_at c.
Proof.
  induction l as [|[k r] l IH]; intros acc v Ha H Hn; [injection H as <-; auto|]. cbn [set_entries] in H. destruct r as [c| | |]; try discriminate.
  cbn [rbind] in H. destruct (set_member E acc c k Ha) as (acc' & Es & Ha' & Hm). rewrite Es in H. cbn [rbind] in H.
  destruct (IH acc' v Ha' H Hn) as [H'|(k' & c' & Hi & H1 & H2)]; [|right; exists k', c'; split; [now right|auto]].
  apply (obj_nil _ Ha') in H' as (k' & x & Hx & Hnx). apply Hm in Hx as [(N & -> & ->)|(_ & Hx)].
  - right. exists k, c. split; [now left|]. split; [intros ->; apply N; now left|exact Hnx].
  - left. apply (obj_nil _ Ha). eauto.
Qed.
Lemma fields_nil (l : list (res (list (bytes * V)))) : forall acc v, an_object acc -> set_fields E acc l = Ok v -> nil_at v ->
  nil_at acc \/ exists kcs k c, In (Ok kcs) l /\ In (k, c) kcs /\ c <> VNil /\ nil_at c.
Proof.
  induction l as [|r l IH]; intros acc v Ha H Hn; [injection H as <-; auto|]. cbn [set_fields] in H. destruct r as [kcs| | |]; try discriminate.
  cbn [rbind] in H. destruct (set_all_over E kcs acc new_object acc (over_new acc Ha)) as (acc' & w & Es & _ & (Ha' & _)).
  rewrite Es in H. cbn [rbind] in H.
  destruct (IH acc' v Ha' H Hn) as [H'|(kcs' & k' & c' & Hi & H1 & H2)]; [|right; exists kcs', k', c'; split; [now right|auto]].
  destruct (set_all_nil kcs acc acc' Ha Es H') as [H0|(k & c & Hi & H1)]; [now left|]. right. exists kcs, k, c. split; [now left|auto].
Qed.
Lemma new_no_nil : ~ nil_at new_object.
Proof. intros H. inversion H as [| |? ? ? ? ? ? Hi]; subst. destruct Hi. Qed.

Lemma range_kcs c kcs : (exists i kvs lo, c = VObj i kvs lo) ->
  range_objects_by_set W [] c (Some (fun (s : list (bytes * V)) e => (s ++ [e], true))) [] = Ok kcs ->
  forall k x, In (k, x) kcs -> member c k x.
Proof.
  intros (i & kvs & lo & ->). cbn [range_objects_by_set api_is_object on_value vtype_of vtype_eqb rbind negb object_of].
  set (es := go_sort W _ _).
  assert (Hp : Permutation es kvs) by (unfold es; rewrite go_sort_perm; apply go_range_perm).
  assert (Hr : forall (l : list (bytes * V)) s, range_list (fun s e => (s ++ [e], true)) l s = s ++ l).
  { induction l as [|e l IH]; intros s; cbn [range_list]; [now rewrite app_nil_r|]. rewrite IH, <- app_assoc. reflexivity. }
  rewrite Hr. cbn [app]. intros [= <-] k x Hi. unfold entries in Hi. apply in_map_iff in Hi as ([k' [id x']] & [= -> ->] & Hi).
  apply member_obj. exists id. now apply (Permutation_in _ Hp).
Qed.

Lemma list_from l ex c r : x_priv ex = false -> Forall from_below l -> Forall embeds_structs l ->
  append_all E W new_array (map (fun x => imp x r (Ext false (x_str ex) (x_priv ex) (x_ign ex))) l) = Ok c -> nil_at c ->
  exists x, In x l /\ (nilled x \/ harbours x).
Proof.
  intros Hp IH Hs H Hn. unfold new_array in H. apply append_arr in H as (xs & -> & Hf). cbn [app] in Hn.
  inversion Hn as [|? x Hi Hx|]; subst. rewrite Hp in Hf.
  assert (K : exists g, In g l /\ imp g r (Ext false (x_str ex) false (x_ign ex)) = Ok x).
  { clear -Hf Hi. revert xs Hf Hi. induction l as [|g l IHl]; intros xs Hf Hi; inversion Hf; subst; [destruct Hi|].
    destruct Hi as [->|Hi]; [exists g; split; [now left|assumption]|]. destruct (IHl _ H3 Hi) as (g' & Ha & Hb). exists g'. split; [now right|exact Hb]. }
  destruct K as (g & Hg & Hgx). exists g. split; [exact Hg|]. rewrite Forall_forall in IH, Hs.
  destruct (IH g Hg (Hs g Hg) _ (Ext false (x_str ex) false (x_ign ex)) _ eq_refl Hgx Hx) as [->|Hh]; [left|now right]. eapply nil_nilled; [|exact Hgx]. apply no_omit.
Qed.

Lemma tag_not_dash f ex name ex' : read_field_tag f ex = (name, ex') -> name <> bs "-" -> forall opts, ~ tag_parts (gf_tag f) (bs "-") opts.
Proof.
  intros Hr Hn opts Hp. pose proof (tag_parts_split _ _ _ Hp) as Es. unfold read_field_tag in Hr.
  destruct (gf_tag f) as [|c tg]; [discriminate|]. rewrite Es in Hr. injection Hr as <- _. now apply Hn.
Qed.

Lemma nil_from g : from_below g.
Proof.
  induction g as [ |b|z|z|f|f|l IH| |l IH|b|s| |m IH| | |g IH|g IH|fs IH|v|v|m|m| ] using gov_ind'; intros Hs r ex c Hp H Hn; cbn [import_val] in H.
  - left. eapply omit_nil; [exact H|inversion 1|exact Hn].
  - left. eapply omit_nil; [exact H|destruct (x_str ex); inversion 1|exact Hn].
  - left. eapply omit_nil; [exact H|destruct (x_str ex); inversion 1|exact Hn].
  - left. eapply omit_nil; [exact H|destruct (x_str ex); inversion 1|exact Hn].
  - left. eapply float_nil; [|exact H|exact Hn]. unfold new_float64. destruct (is_valid_float f); reflexivity.
  - left. eapply float_nil; [|exact H|exact Hn]. unfold new_float32. destruct (is_valid_float f); reflexivity.
  - right. cbn [embeds_structs] in Hs. apply structs_list in Hs. destruct (list_from l ex c _ Hp IH Hs H Hn) as (x & Hx & Hh). eapply harbours_element; eauto.
  - left. eapply omit_nil; [exact H|inversion 1; subst; contradiction|exact Hn].
  - destruct l as [|x0 l0].
    + left. eapply omit_nil; [exact H|inversion 1; subst; contradiction|exact Hn].
    + right. cbn [embeds_structs] in Hs. apply (structs_list (x0 :: l0)) in Hs. destruct (list_from (x0 :: l0) ex c _ Hp IH Hs H Hn) as (x & Hx & Hh). eapply harbours_element; eauto.
  - left. apply interface_inv in H as (_ & H). eapply omit_nil; [exact H|inversion 1|exact Hn].
  - left. eapply omit_nil; [exact H|inversion 1|exact Hn].
  - left. eapply omit_nil; [exact H|inversion 1|exact Hn].
  - destruct m as [|e0 m0].
    + left. eapply omit_nil; [exact H|exact new_no_nil|exact Hn].
    + right. cbn [embeds_structs] in Hs. apply (structs_map (e0 :: m0)) in Hs.
      apply (entries_nil _ _ _ new_obj) in H as [H|(k & x & Hi & Nx & Hx)]; [now apply new_no_nil in H| |exact Hn].
      apply (in_map_iff _ (e0 :: m0)) in Hi as ((kk & g) & [= Hk Hg] & Hi). rewrite Forall_forall in IH, Hs.
      destruct (IH _ Hi (Hs _ Hi) _ _ _ Hp Hg Hx) as [->|Hh]; [congruence|]. eapply harbours_entry; eauto.
  - discriminate.
  - left. eapply omit_nil; [exact H|inversion 1|exact Hn].
  - destruct g as [ |b|z|z|f|f|l|l|b|s|m| |p|g|fs|v|v|m|m| ];
      try (destruct (IH Hs _ _ _ Hp H Hn) as [->|Hh]; [now left|right; now constructor]).
    apply interface_inv in H as (_ & H). left. exact (method_nil _ _ _ H Hn).
  - destruct (IH Hs _ _ _ Hp H Hn) as [->|Hh]; [now left|right; now constructor].
  - right. apply structs_fields in Hs. apply (fields_nil _ _ _ new_obj) in H as [H|(kcs & k & x & Hi & Hk & Nx & Hx)]; [now apply new_no_nil in H| |exact Hn].
    apply in_map_iff in Hi as ((f & g) & Hg & Hi). rewrite Forall_forall in IH, Hs. specialize (IH _ Hi). specialize (Hs _ Hi). cbn [fst snd] in *.
    destruct Hs as (Hs1 & Hs2). destruct (gf_anon f) eqn:Ea.
    + unfold parse_anonymous, read_anonymous_tag in Hg. destruct (read_field_tag f ex) as [name ex'] eqn:Er.
      destruct (beqb_spec name (bs "-")) as [->|Nd]; [injection Hg as <-; destruct Hk|].
      destruct (is_nil_ptr g) eqn:Eg. { destruct (struct_of g) eqn:Es; [|now destruct Hs1]. rewrite (struct_not_nil g l Es) in Eg. discriminate. }
      set (ex1 := Ext _ _ _ _) in Hg.
      destruct (struct_of g) as [gs|] eqn:Es; [|now destruct Hs1].
      destruct (imp g (ro_field r f) ex1) as [c'| | |] eqn:Ec; try discriminate. cbn [rbind] in Hg.
      assert (Ec2 : exists r2 ex2, x_priv ex2 = false /\ imp g r2 ex2 = Ok c').
      { exists (ro_field r f), (Ext (x_omit ex1) (x_str ex1) false (x_ign ex1)). split; [reflexivity|]. rewrite <- Ec.
        destruct g as [ |b|z|z|y|y|l|l|b|s|m| |[g|]|g|fs'|v|v|m|m| ]; try discriminate; [destruct g; try discriminate|]; reflexivity. }
      destruct Ec2 as (r2 & ex2 & Hp2 & Ec2).
      assert (Ho : an_object c').
      { clear -Ec2 Es. destruct g as [ |b|z|z|y|y|l|l|b|s|m| |[g|]|g|fs'|v|v|m|m| ]; try discriminate; [destruct g; try discriminate|];
          exact (fields_obj _ _ _ _ new_obj Ec2). }
      pose proof Ho as (i & kvs & lo & -> & _).
      assert (Hm : member (VObj i kvs lo) k x) by (eapply range_kcs; [eauto|exact Hg|exact Hk]).
      eapply harbours_field; [exact Hi|split; [now right|exact (tag_not_dash _ _ _ _ Er Nd)]|].
      destruct (IH Hs2 r2 ex2 _ Hp2 Ec2) as [[=]|Hh]; [|exact Hh]. apply (obj_nil _ Ho). eauto.
    + unfold parse_field in Hg. destruct (can_interface (ro_field r f)) eqn:Ei; [|injection Hg as <-; destruct Hk]. cbn [negb] in Hg.
      destruct (read_field_tag f ex) as [name ex'] eqn:Er. destruct (beqb_spec name (bs "-")) as [->|Nd]; [injection Hg as <-; destruct Hk|].
      destruct (imp g (ro_field r f) ex') as [c'| | |] eqn:Ec; try discriminate. cbn [rbind] in Hg.
      destruct (is_nil c') eqn:En; injection Hg as <-; [destruct Hk|]. destruct Hk as [[= <- <-]|[]].
      assert (Hp' : x_priv ex' = false). { unfold read_field_tag in Er. destruct (gf_tag f); injection Er as _ <-; reflexivity. }
      eapply harbours_field; [exact Hi|split; [|exact (tag_not_dash _ _ _ _ Er Nd)]|].
      * left. unfold ro_field in Ei. destruct r; try discriminate; destruct (gf_exported f); try reflexivity; rewrite Ea in Ei; discriminate.
      * destruct (IH Hs2 _ _ _ Hp' Ec Hx) as [->|Hh]; [congruence|exact Hh].
  - apply interface_inv in H as (_ & H). left.
    destruct (is_nil v) eqn:En; [destruct v; try discriminate; injection H as <-; reflexivity|].
    exfalso. apply (copy_no_nil v). replace (deep_copy v) with c; [exact Hn|]. destruct v; try discriminate; injection H as <-; reflexivity.
  - apply interface_inv in H as (_ & H). left. exact (method_nil _ _ _ H Hn).
  - apply interface_inv in H as (_ & H). left. exact (method_nil _ _ _ H Hn).
  - apply interface_inv in H as (_ & H). left. exact (text_nil _ _ _ H Hn).
  - discriminate.
Qed.

(** *** It arrives *)

Lemma set_all_keep kcs : forall acc v k x, an_object acc -> set_all E acc kcs = Ok v -> member acc k x -> ~ In k (map fst kcs) -> member v k x.
Proof.
  induction kcs as [|[k' c] kcs IH]; intros acc v k x Ha H Hm Hn; [injection H as <-; exact Hm|]. cbn [set_all] in H.
  destruct (set_member E acc c k' Ha) as (acc' & Es & Ha' & Hs). rewrite Es in H. cbn [rbind] in H.
  apply (IH acc' v k x Ha' H); [|intros Hi; apply Hn; now right]. apply Hs. right. split; [right; intros ->; apply Hn; now left|exact Hm].
Qed.
Lemma fields_keep (l : list (res (list (bytes * V)))) : forall acc v k x, an_object acc -> set_fields E acc l = Ok v -> member acc k x ->
  (forall kcs, In (Ok kcs) l -> ~ In k (map fst kcs)) -> member v k x.
Proof.
  induction l as [|r l IH]; intros acc v k x Ha H Hm Hn; [injection H as <-; exact Hm|]. cbn [set_fields] in H. destruct r as [kcs| | |]; try discriminate.
  cbn [rbind] in H. destruct (set_all_over E kcs acc new_object acc (over_new acc Ha)) as (acc' & w & Es & _ & (Ha' & _)).
  rewrite Es in H. cbn [rbind] in H. apply (IH acc' v k x Ha' H); [|intros kcs' Hi; apply Hn; now right].
  eapply set_all_keep; [exact Ha|exact Es|exact Hm|]. apply Hn. now left.
Qed.
Lemma fields_put a : forall k x b acc v, an_object acc -> set_fields E acc (a ++ Ok [(k, x)] :: b) = Ok v -> ~ typeless x ->
  (forall kcs, In (Ok kcs) b -> ~ In k (map fst kcs)) -> member v k x.
Proof.
  induction a as [|r a IH]; intros k x b acc v Ha H Nt Hb.
  - cbn [app set_fields rbind set_all] in H. destruct (set_member E acc x k Ha) as (acc' & Es & Ha' & Hs). rewrite Es in H. cbn [rbind] in H.
    eapply fields_keep; [exact Ha'|exact H| |exact Hb]. apply Hs. now left.
  - cbn [app set_fields] in H. destruct r as [kcs| | |]; try discriminate. cbn [rbind] in H.
    destruct (set_all_over E kcs acc new_object acc (over_new acc Ha)) as (acc' & w & Es & _ & (Ha' & _)).
    rewrite Es in H. cbn [rbind] in H. exact (IH k x b acc' v Ha' H Nt Hb).
Qed.
Lemma entries_keep (l : list (bytes * res V)) : forall acc v k x, an_object acc -> set_entries E acc l = Ok v -> member acc k x ->
  ~ In k (map fst l) -> member v k x.
Proof.
  induction l as [|[k' r] l IH]; intros acc v k x Ha H Hm Hn; [injection H as <-; exact Hm|]. cbn [set_entries] in H. destruct r as [c| | |]; try discriminate.
  cbn [rbind] in H. destruct (set_member E acc c k' Ha) as (acc' & Es & Ha' & Hs). rewrite Es in H. cbn [rbind] in H.
  apply (IH acc' v k x Ha' H); [|intros Hi; apply Hn; now right]. apply Hs. right. split; [right; intros ->; apply Hn; now left|exact Hm].
Qed.
Lemma entries_put (l : list (bytes * res V)) : forall k r acc v, an_object acc -> set_entries E acc l = Ok v -> NoDup (map fst l) ->
  In (k, r) l -> exists x, r = Ok x /\ (~ typeless x -> member v k x).
Proof.
  induction l as [|[k' r'] l IH]; intros k r acc v Ha H Hd Hi; [destruct Hi|]. cbn [set_entries] in H. destruct r' as [c| | |]; try discriminate.
  cbn [rbind] in H. destruct (set_member E acc c k' Ha) as (acc' & Es & Ha' & Hs). rewrite Es in H. cbn [rbind] in H.
  inversion Hd as [|? ? Hn Hd']; subst. destruct Hi as [[= -> <-]|Hi].
  - exists c. split; [reflexivity|]. intros Nt. eapply entries_keep; [exact Ha'|exact H| |exact Hn]. apply Hs. now left.
  - exact (IH k r acc' v Ha' H Hd' Hi).
Qed.

Lemma fields_all (l : list (res (list (bytes * V)))) : forall acc v, set_fields E acc l = Ok v -> Forall (fun r => exists kcs, r = Ok kcs) l.
Proof.
  induction l as [|r l IH]; intros acc v H; [constructor|]. cbn [set_fields] in H. destruct r as [kcs| | |]; try discriminate.
  cbn [rbind] in H. destruct (set_all E acc kcs); try discriminate. constructor; [eauto|exact (IH _ _ H)].
Qed.

Lemma field_keys f g ko ex kcs k : field_name f ko -> part E W d RNone ex (f, g) = Ok kcs -> In k (map fst kcs) -> ko = Some k.
Proof.
  destruct ko as [k'|]; cbn [field_name].
  - intros (opts & Hf) H Hi. rewrite (plain_part E W d f k' opts g ex Hf) in H. destruct (imp _ _ _) as [c| | |]; try discriminate.
    cbn [rbind] in H. destruct (is_nil c); injection H as <-; [destruct Hi|]. destruct Hi as [<-|[]]. reflexivity.
  - intros (Ha & Hx) H Hi. exfalso. unfold part in H. rewrite Ha in H. unfold parse_field in H. destruct Hx as [Hx|(opts & Hp)].
    + unfold ro_field in H. rewrite Hx, Ha in H. injection H as <-. destruct Hi.
    + destruct (can_interface _); [|injection H as <-; destruct Hi]. cbn [negb] in H. destruct (read_field_tag f ex) as [name ex'] eqn:Er.
      destruct (beqb_spec name (bs "-")) as [->|Nd]; [injection H as <-; destruct Hi|]. exact (tag_not_dash _ _ _ _ Er Nd opts Hp).
Qed.
Lemma In_names k ks : In (Some k) ks -> In k (names ks).
Proof.
  induction ks as [|k' ks IH]; intros H; [destruct H|]. destruct H as [->|H]; [now left|]. destruct k'; [right|]; exact (IH H).
Qed.

Lemma split_In {A B} (R : A -> B -> Prop) l ks x : Forall2 R l ks -> In x l ->
  exists a b ka k kb, l = a ++ x :: b /\ ks = ka ++ k :: kb /\ R x k /\ Forall2 R b kb.
Proof.
  intros H. induction H as [|y k l ks Hy Hf IH]; intros Hi; [destruct Hi|]. destruct Hi as [->|Hi].
  - exists [], l, [], k, ks. auto.
  - destruct (IH Hi) as (a & b & ka & k' & kb & -> & -> & Hr & Hb). exists (y :: a), b, (k :: ka), k', kb. auto.
Qed.
Lemma names_app a b : names (a ++ b) = names a ++ names b.
Proof. induction a as [|[k|] a IH]; cbn [names app]; [reflexivity|now rewrite IH|exact IH]. Qed.

Lemma harbour_arrives g : harbours g -> distinct g -> forall ex c, imp g RNone ex = Ok c -> nil_at c /\ ~ typeless c.
Proof.
  induction g as [ |b|z|z|y|y|l IH| |l IH|b|s| |m IH| | |g IH|g IH|fs IH|v|v|m|m| ] using gov_ind'; intros Hh Hd ex c H;
    inversion Hh as [l' g' x Hg Hi Hx|m' k x Hi Hx|x Hx|x Hx|fs' f x Hi Hs Hx]; subst; try (destruct Hg; discriminate).
  - assert (l' = l) as -> by (destruct Hg as [Hg|Hg]; congruence). clear Hg. cbn [import_val] in H. unfold new_array in H.
    apply append_arr in H as (xs & -> & Hf). split; [|intros [T|T]; discriminate]. cbn [app].
    cbn [distinct] in Hd. apply distinct_list in Hd. rewrite Forall_forall in IH, Hd.
    apply (proj1 (Forall2_map_l _ _ _ _)) in Hf. destruct (split_In _ _ _ _ Hf Hi) as (a & b & ka & c & kb & _ & -> & Hc & _).
    apply nil_element with c; [apply in_or_app; right; now left|]. destruct Hx as [Hx|Hx].
    + rewrite (nilled_nil x Hx _ _ _ Hc). constructor.
    + exact (proj1 (IH x Hi Hx (Hd x Hi) _ _ Hc)).
  - assert (l' = l) as -> by (destruct Hg as [Hg|Hg]; congruence). clear Hg. destruct l as [|x0 l]; [destruct Hi|]. cbn [import_val] in H. unfold new_array in H.
    apply append_arr in H as (xs & -> & Hf). split; [|intros [T|T]; discriminate]. cbn [app].
    cbn [distinct] in Hd. apply (distinct_list (x0 :: l)) in Hd. rewrite Forall_forall in IH, Hd.
    apply (proj1 (Forall2_map_l _ _ (x0 :: l) _)) in Hf. destruct (split_In _ _ _ _ Hf Hi) as (a & b & ka & c & kb & _ & -> & Hc & _).
    apply nil_element with c; [apply in_or_app; right; now left|]. destruct Hx as [Hx|Hx].
    + rewrite (nilled_nil x Hx _ _ _ Hc). constructor.
    + exact (proj1 (IH x Hi Hx (Hd x Hi) _ _ Hc)).
  - destruct m as [|e0 m]; [destruct Hi|]. cbn [import_val] in H. cbn [distinct] in Hd. destruct Hd as (Hn & Hd).
    apply (distinct_map (e0 :: m)) in Hd. rewrite Forall_forall in IH, Hd.
    pose proof (entries_obj _ _ _ _ new_obj H) as Ho. split; [|now apply obj_init].
    assert (Hk : NoDup (map fst (map (fun e : gkey * gov => let '(k0, x0) := e in (key_text k0, imp x0 (ro_inside RNone) ex)) (e0 :: m)))).
    { rewrite map_map. erewrite map_ext; [exact Hn|]. now intros []. }
    destruct (entries_put _ (key_text k) (imp x (ro_inside RNone) ex) _ _ new_obj H Hk) as (c' & Hc & Hm); [apply in_map_iff; exists (k, x); auto|].
    destruct (IH _ Hi Hx (Hd _ Hi) _ _ Hc) as (H1 & H2). apply (obj_nil _ Ho). eauto.
  - destruct g as [ |b|z|z|y|y|l|l|b|s|m| |p|g|fs|v|v|m|m| ]; try exact (IH Hx Hd ex c H). inversion Hx as [? ? ? [?|?]| | | | ]; discriminate.
  - exact (IH Hx Hd ex c H).
  - pose proof H as H0. cbn [import_val] in H. cbn [distinct] in Hd. destruct Hd as ((ks & Hf & Hn) & Hd). apply distinct_fields in Hd. rewrite Forall_forall in IH, Hd.
    pose proof (fields_obj _ _ _ _ new_obj H) as Ho. split; [|now apply obj_init].
    destruct (split_In _ _ _ _ Hf Hi) as (a & b & ka & k & kb & -> & -> & Hk & Hb). cbn [fst] in Hk.
    destruct k as [k|].
    2:{ exfalso. destruct Hk as (Ha & [He|(opts & Ht)]), Hs as ([Hs1|Hs1] & Hs2); try congruence; exact (Hs2 _ Ht). }
    destruct Hk as (opts & Hk). fold (part E W d RNone ex) in H.
    change (set_fields E new_object (map (part E W d RNone ex) (a ++ (f, x) :: b)) = Ok c) in H.
    pose proof (fields_all _ _ _ H) as Hall. rewrite map_app in H, Hall. cbn [map] in H, Hall.
    apply Forall_app in Hall as (_ & Hall). apply Forall_inv in Hall as (kcs & Hkcs).
    rewrite (plain_part E W d f k opts x ex Hk) in Hkcs, H. destruct (imp x RNone (tag_ext opts (x_ign ex))) as [c'| | |] eqn:Ec; try discriminate.
    destruct (IH _ Hi Hx (Hd _ Hi) _ _ Ec) as (H1 & H2). cbn [rbind] in H.
    assert (En : is_nil c' = false) by (destruct c'; try reflexivity; exfalso; apply H2; now left). rewrite En in H.
    apply (obj_nil _ Ho). exists k, c'. split; [|exact H1]. eapply fields_put; [exact new_obj|exact H|exact H2|].
    intros kcs' Hi' Hk'. rewrite names_app in Hn. cbn [names] in Hn. apply NoDup_remove_2 in Hn. apply Hn, in_or_app. right. apply In_names.
    clear -Hb Hi' Hk'. induction Hb as [|[f' g'] ko b kb Hy Hb IHb]; [destruct Hi'|]. cbn [map] in Hi'. destruct Hi' as [Hi'|Hi']; [|right; auto].
    left. eapply field_keys; eauto.
Qed.
End Harbour.

(** *** Import *)

Lemma import_nil E W d opts g v : embeds_structs g -> import E W d opts g = Ok (v, None) -> nil_at v -> nilled g \/ harbours g.
Proof.
  intros Hs H Hn. apply import_ok in H. destruct (nil_from E W d g Hs RNone (Ext false false false (o_ignore_omitempty (combine_options d opts))) v eq_refl H Hn) as [->|Hh]; [left|now right].
  eapply nil_nilled; [|exact H]. apply no_omit.
Qed.
Lemma import_harbours E W d opts g v : distinct g -> import E W d opts g = Ok (v, None) -> nilled g \/ harbours g -> nil_at v.
Proof.
  intros Hd H Hh. apply import_ok in H. destruct Hh as [Hh|Hh].
  - rewrite (nilled_nil E W d g Hh _ _ _ H). constructor.
  - exact (proj1 (harbour_arrives E W d g Hh Hd _ _ H)).
Qed.
Lemma nil_dec v : nil_at v \/ ~ nil_at v.
Proof.
  induction v as [ |s|n src|i kvs lo IH|l IH|b| | | ] using V_ind'; try (right; inversion 1; fail); [| |left; constructor].
  - assert (K : Exists (fun e : kv => nil_at (snd (snd e))) kvs \/ Forall (fun e : kv => ~ nil_at (snd (snd e))) kvs).
    { induction IH as [|e kvs [H|H] Hf [K|K]]; [right; constructor|left; now left|left; now left|left; now right|right; now constructor]. }
    destruct K as [K|K].
    + left. apply Exists_exists in K as ((k & id & x) & Hi & Hx). eapply nil_member; eauto.
    + right. intros H. inversion H as [| |? ? ? k id x Hi Hx]; subst. rewrite Forall_forall in K. exact (K _ Hi Hx).
  - assert (K : Exists nil_at l \/ Forall (fun x => ~ nil_at x) l).
    { induction IH as [|e kvs [H|H] Hf [K|K]]; [right; constructor|left; now left|left; now left|left; now right|right; now constructor]. }
    destruct K as [K|K].
    + left. apply Exists_exists in K as (x & Hi & Hx). eapply nil_element; eauto.
    + right. intros H. inversion H as [|? x Hi Hx|]; subst. rewrite Forall_forall in K. exact (K _ Hi Hx).
Qed.
Lemma import_nil_iff E W d opts mopts g v : embeds_structs g -> distinct g -> import E W d opts g = Ok (v, None) ->
  (marshal E W d mopts v = Panic <-> nilled g \/ harbours g).
Proof.
  intros Hs Hd H. destruct (marshal_total E W d mopts v) as (H1 & H2 & _). split.
  - intros Hp. destruct (nil_dec v) as [Hn|Hn]; [exact (import_nil _ _ _ _ _ _ Hs H Hn)|]. destruct (H1 Hn) as [(b & Hb)|(e & He)]; congruence.
  - intros Hh. exact (H2 (import_harbours _ _ _ _ _ _ Hd H Hh)).
Qed.
