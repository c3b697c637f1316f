(** When Import returns an error. *)
From Verif Require Import Base Utf8 Float64 Value Scan Unmarshal Opt Marshal Access Path Edit Iter Base64 GoValue Import
  SpecJson SpecValue SpecPath SpecIter SpecNil SpecImport SpecFault ListLemmas ValueLemmas SortProof IterProof MarshalTotal ImportProof
  ImportTotal.

Definition fails {A} (r : res A) : Prop := match r with Err _ => True | _ => False end.

Lemma append_fails E W l : Forall back l -> forall a, fails (append_all E W (VArr a) l) <-> Exists fails l.
Proof.
  induction 1 as [|x l Hx _ IH]; intros a; [split; [intros []|inversion 1]|]. cbn [append_all].
  destruct x as [c|e| |]; try contradiction; cbn [rbind].
  - rewrite append_new. cbn [rbind]. rewrite IH. split; [now right|]. inversion 1; subst; [contradiction|assumption].
  - split; [now left|intros _; exact I].
Qed.
Lemma entries_fails E l : Forall (fun x : bytes * res V => back (snd x)) l ->
  forall i kvs lo, fails (set_entries E (VObj i kvs lo) l) <-> Exists (fun x => fails (snd x)) l.
Proof.
  induction 1 as [|[k x] l Hx _ IH]; intros i kvs lo; [split; [intros []|inversion 1]|]. cbn [set_entries snd] in *.
  destruct x as [c|e| |]; try contradiction; cbn [rbind].
  - destruct (set_back E i kvs lo c k) as (i' & kvs' & lo' & ->). cbn [rbind]. rewrite IH. split; [now right|].
    inversion 1; subst; [contradiction|assumption].
  - split; [now left|intros _; exact I].
Qed.
Lemma fields_fails E l : Forall back l -> forall i kvs lo, fails (set_fields E (VObj i kvs lo) l) <-> Exists fails l.
Proof.
  induction 1 as [|x l Hx _ IH]; intros i kvs lo; [split; [intros []|inversion 1]|]. cbn [set_fields].
  destruct x as [kcs|e| |]; try contradiction; cbn [rbind].
  - destruct (set_all_back E kcs i kvs lo) as (i' & kvs' & lo' & ->). cbn [rbind]. rewrite IH. split; [now right|].
    inversion 1; subst; [contradiction|assumption].
  - split; [now left|intros _; exact I].
Qed.

Section Fault.
Variable E : Env.
Variable W : World.
Variable d : opt.
Notation imp := (import_val E W d).
Notation bad := (faulty E W d).

Lemma json_fails b ex : fails (parse_json_marshaler E (MOut (Ok b)) ex) <-> refused E b.
Proof.
  cbn [parse_json_marshaler rbind]. destruct (unmarshal_total E b) as (v & e & Hu & _). rewrite Hu. cbn [rbind].
  destruct e as [e|]; cbn.
  - split; [|intros _; exact I]. intros _ v'. rewrite Hu. discriminate.
  - split; [intros []|]. intros H. exact (H v Hu).
Qed.
Lemma value_fails v ex : v <> VNil -> ~ nil_at v -> fails (parse_json_marshaler E (v_method E W d v) ex) <-> faulty_v E W d v.
Proof.
  intros Hv Hn. assert (Em : v_method E W d v = MOut (marshal E W d [] v)) by (destruct v; try reflexivity; congruence). rewrite Em.
  destruct (marshal_total E W d [] v) as (G & _). destruct (G Hn) as [(b & Hb)|(e & Hb)]; rewrite Hb.
  - rewrite json_fails. split; [now apply faulty_output|]. intros H. inversion H as [? e He|? b' Hb' Hr]; subst; congruence.
  - cbn [parse_json_marshaler rbind fails]. split; [intros _; now apply faulty_marshal with (e := e)|auto].
Qed.

Lemma tag_seen f parent : gf_name f <> bs "-" -> (forall name opts, tag_parts (gf_tag f) name opts -> no_space_ends name) ->
  (fst (read_field_tag f parent) <> bs "-" <-> forall opts, ~ tag_parts (gf_tag f) (bs "-") opts).
Proof.
  intros Hn Hs. destruct (tag_parts_exist (gf_tag f)) as (name & opts & Hp).
  rewrite (read_tag f name opts parent Hp (Hs _ _ Hp)). cbn [fst].
  pose proof (tag_parts_split _ _ _ Hp) as E1. unfold field_key. split.
  - intros H opts' Hd. pose proof (tag_parts_split _ _ _ Hd) as E2. rewrite E1 in E2. injection E2 as -> ->. now apply H.
  - intros H. destruct name as [|c r]; [exact Hn|]. intros Hd. rewrite Hd in Hp. exact (H _ Hp).
Qed.

Lemma float_ok v f ex n src : v = VNum n src -> ~ fails (parse_float E W d v f ex).
Proof.
  intros ->. unfold parse_float. destruct (_ && _); [intros []|]. destruct (x_str ex); [|intros []].
  destruct (marshal_total E W d [] (VNum n src)) as (_ & _ & G). destruct G as (b & ->); [inversion 1|intros []].
Qed.

Definition exact_on (g : gov) : Prop := tame g -> tidy g -> forall r ex, r = RNone \/ (r = REmbed /\ struct_of g <> None) ->
  (fails (imp g r ex) <-> bad g).

Lemma list_exact l ex : Forall exact_on l ->
  (fix go (l : list gov) : Prop := match l with [] => True | x :: r => tame x /\ go r end) l ->
  (fix go (l : list gov) : Prop := match l with [] => True | x :: r => tidy x /\ go r end) l ->
  Forall back (map (fun x => imp x (ro_inside RNone) ex) l) /\
  (Exists fails (map (fun x => imp x (ro_inside RNone) ex) l) <-> exists x, In x l /\ bad x).
Proof.
  induction 1 as [|x l Hx _ IH]; intros Ht Hd; cbn [map].
  - split; [constructor|]. split; [inversion 1|intros (x & [] & _)].
  - destruct Ht as (Ht & Ht'), Hd as (Hd & Hd'). destruct (IH Ht' Hd') as (IH1 & IH2).
    specialize (Hx Ht Hd RNone ex (or_introl eq_refl)). split.
    + constructor; [|exact IH1]. apply import_val_back; [exact Ht|now left].
    + rewrite Exists_cons. cbn [ro_inside] in *. rewrite IH2, Hx. split.
      * intros [H|(y & Hy & H)]; [exists x|exists y]; split; auto; [now left|now right].
      * intros (y & [<-|Hy] & H); [now left|right; eauto].
Qed.
Lemma map_exact (m : list (gkey * gov)) ex : Forall (fun e => exact_on (snd e)) m ->
  (fix go (m : list (gkey * gov)) : Prop := match m with [] => True | (_, x) :: r => tame x /\ go r end) m ->
  (fix go (m : list (gkey * gov)) : Prop := match m with [] => True | (_, x) :: r => tidy x /\ go r end) m ->
  let l := map (fun e : gkey * gov => let '(k, x) := e in (key_string_of k, imp x (ro_inside RNone) ex)) m in
  Forall (fun x : bytes * res V => back (snd x)) l /\
  (Exists (fun x => fails (snd x)) l <-> exists k x, In (k, x) m /\ bad x).
Proof.
  induction 1 as [|[k x] m Hx _ IH]; intros Ht Hd; cbn [map].
  - split; [constructor|]. split; [inversion 1|intros (k & x & [] & _)].
  - destruct Ht as (Ht & Ht'), Hd as (Hd & Hd'). destruct (IH Ht' Hd') as (IH1 & IH2).
    specialize (Hx Ht Hd RNone ex (or_introl eq_refl)). cbn [snd] in Hx. split.
    + constructor; [|exact IH1]. apply import_val_back; [exact Ht|now left].
    + rewrite Exists_cons. cbn [ro_inside snd] in *. rewrite IH2, Hx. split.
      * intros [H|(k' & y & Hy & H)]; [exists k, x|exists k', y]; split; auto; [now left|now right].
      * intros (k' & y & [Hy|Hy] & H); [injection Hy as <- <-; now left|right; eauto].
Qed.

Lemma range_ok c : (exists i kvs lo, c = VObj i kvs lo) ->
  ~ fails (range_objects_by_set W [] c (Some (fun (s : list (bytes * V)) e => (s ++ [e], true))) []).
Proof. intros (i & kvs & lo & ->). cbn [range_objects_by_set api_is_object on_value vtype_of vtype_eqb rbind negb object_of]. intros []. Qed.
Lemma nil_not_bad x : is_nil_ptr x = true -> ~ bad x.
Proof. intros H B. destruct B; try discriminate H; congruence. Qed.

Lemma import_val_exact g : exact_on g.
Proof.
  induction g as [ |b|z|z|f|f|l IH| |l IH|b|x| |m IH| | |g IH|g IH|fs IH|v|v|m|m| ] using gov_ind'; intros Ht Hd r ex Hr;
    try (destruct Hr as [->|(_ & Hr)]; [|now cbn in Hr]);
    try (split; [intros []|intros B; inversion B; contradiction]; fail).
  - split; [|intros B; inversion B]. cbn [import_val]. intros B; exfalso; revert B. eapply float_ok. unfold new_float64. destruct (is_valid_float f); reflexivity.
  - split; [|intros B; inversion B]. cbn [import_val]. intros B; exfalso; revert B. eapply float_ok. unfold new_float32. destruct (is_valid_float f); reflexivity.
  - cbn [import_val]. cbn [tame] in Ht. cbn [tidy] in Hd.
    destruct (list_exact l (Ext false (x_str ex) (x_priv ex) (x_ign ex)) IH Ht Hd) as (B & X).
    unfold new_array. rewrite (append_fails E W _ B), X. split; [intros (x & H1 & H2); eapply faulty_array; eauto|inversion 1; subst; eauto].
  - destruct l as [|x0 l0]; [split; [intros []|intros B; inversion B; contradiction]|].
    change (imp (GSlice (Some (x0 :: l0))) RNone ex) with
      (append_all E W new_array (map (fun x => imp x (ro_inside RNone) (Ext false (x_str ex) (x_priv ex) (x_ign ex))) (x0 :: l0))).
    cbn [tame] in Ht. cbn [tidy] in Hd.
    destruct (list_exact _ (Ext false (x_str ex) (x_priv ex) (x_ign ex)) IH Ht Hd) as (B & X).
    unfold new_array. rewrite (append_fails E W _ B), X. split; [intros (x & H1 & H2); eapply faulty_slice; eauto|inversion 1; subst; eauto].
  - destruct m as [|e0 m0]; [split; [intros []|intros B; inversion B; contradiction]|].
    change (imp (GMap (Some (e0 :: m0))) RNone ex) with
      (set_entries E new_object (map (fun e : gkey * gov => let '(k, x) := e in (key_string_of k, imp x (ro_inside RNone) ex)) (e0 :: m0))).
    cbn [tame] in Ht. cbn [tidy] in Hd.
    destruct (map_exact _ ex IH Ht Hd) as (B & X).
    unfold new_object. rewrite (entries_fails E _ B), X. split; [intros (k & x & H1 & H2); eapply faulty_entry; eauto|inversion 1; subst; eauto].
  - split; [intros _; constructor|intros _; exact I].
  - assert (G : (forall v, g <> GVal v) -> fails (imp (GPtr (Some g)) r ex) <-> bad (GPtr (Some g))).
    { intros Hg. assert (Ei : imp (GPtr (Some g)) r ex = imp g r ex) by (destruct g; try reflexivity; now destruct (Hg v)).
      assert (Et : tame g) by (destruct g; try exact Ht; now destruct (Hg v)).
      rewrite Ei. rewrite (IH Et Hd r ex).
      - split; [apply faulty_ptr|]. intros B. inversion B; subst; [now destruct (Hg v)|assumption].
      - destruct Hr as [->|(-> & Hr)]; [now left|]. destruct g; try (now cbn in Hr); now right. }
    destruct g as [ |b|z|z|f|f|l|l|b|x|m| |p|g|fs|v|v|m|m| ]; try (apply G; discriminate).
    destruct Hr as [->|(_ & Hr)]; [|now cbn in Hr]. cbn [import_val interface can_interface]. cbn [tame] in Ht.
    destruct v as [ | | | | | | | |] eqn:Ev; try (rewrite value_fails; [|discriminate|apply Ht; discriminate];
      split; [intros H; apply faulty_value_ptr; [discriminate|exact H]|intros B; inversion B as [| | | | | |v0 H1 H2| | | |? H1| |]; subst; [exact H2|inversion H1]]).
    split; [intros []|]. intros B. inversion B as [| | | | | |v0 H1 H2| | | |? H1| |]; subst; [congruence|inversion H1].
  - change (imp (GIface g) RNone ex) with (imp g RNone ex). cbn [tame] in Ht. cbn [tidy] in Hd.
    rewrite (IH Ht Hd RNone ex (or_introl eq_refl)). split; [apply faulty_iface|inversion 1; assumption].
  - cbn [import_val]. cbn [tame] in Ht. cbn [tidy] in Hd.
    assert (Hr' : r <> RSticky) by (destruct Hr as [->|(-> & _)]; discriminate). clear Hr.
    match goal with |- context [set_fields _ _ (map ?f fs)] => set (ff := f) end.
    assert (K : Forall back (map ff fs) /\ (Exists fails (map ff fs) <-> exists f x, In (f, x) fs /\ field_seen f /\ bad x)).
    { induction IH as [|[f x] fs Hx _ IHl]; cbn [map].
      - split; [constructor|]. split; [inversion 1|intros (f & x & [] & _)].
      - destruct Ht as (He & Hx' & Ht), Hd as ((Hn & Hs) & Hdx & Hd). destruct (IHl Ht Hd) as (B & X). cbn [snd] in Hx.
        assert (K : back (ff (f, x)) /\ (fails (ff (f, x)) <-> field_seen f /\ bad x)).
        { unfold ff. pose proof (tag_seen f ex Hn Hs) as Hseen. destruct (gf_anon f) eqn:Ea.
          - unfold parse_anonymous, read_anonymous_tag. destruct (read_field_tag f ex) as [name ex'] eqn:Er. cbn [fst] in Hseen.
            destruct (beqb_spec name (bs "-")) as [->|Hne].
            { split; [exact I|]. split; [intros []|]. intros ((_ & Hf) & _). now apply Hseen in Hf. }
            destruct (is_nil_ptr x) eqn:Enp.
            { split; [exact I|]. split; [intros []|]. intros (_ & Hb). now apply nil_not_bad in Hb. }
            set (ex1 := Ext _ _ _ _).
            assert (Hro : ro_field r f = RNone \/ ro_field r f = REmbed /\ struct_of x <> None).
            { unfold ro_field. destruct r; try contradiction; destruct (gf_exported f) eqn:Ee; rewrite ?Ea; auto. }
            pose proof (import_val_back E W d x Hx' (ro_field r f) ex1 Hro) as Hb. specialize (Hx Hx' Hdx (ro_field r f) ex1 Hro).
            destruct (imp x (ro_field r f) ex1) as [c|e| |]; try contradiction; cbn [rbind].
            + assert (G : back (match c with VStr _ | VNum _ _ | VBool _ | VNull | VArr _ => Ok (if x_priv ex1 then [] else [(name, c)])
                   | VObj _ _ _ => range_objects_by_set W [] c (Some (fun s e => (s ++ [e], true))) [] | _ => Ok [] end) /\
                 ~ fails (match c with VStr _ | VNum _ _ | VBool _ | VNull | VArr _ => Ok (if x_priv ex1 then [] else [(name, c)])
                   | VObj _ _ _ => range_objects_by_set W [] c (Some (fun s e => (s ++ [e], true))) [] | _ => Ok [] end)).
              { destruct c; try (split; [exact I|intros []]; fail). }
              destruct G as (G1 & G2). split; [exact G1|]. split; [intros H; now destruct (G2 H)|]. intros (_ & H). now apply Hx in H.
            + split; [exact I|]. split; [|intros _; exact I]. intros _. split; [|now apply Hx]. split; [auto|]. now apply Hseen.
          - unfold parse_field. destruct (can_interface (ro_field r f)) eqn:Ec; cbn [negb].
            + assert (Hro : ro_field r f = RNone) by (destruct (ro_field r f); try discriminate; reflexivity).
              assert (Hex : gf_exported f = true).
              { unfold ro_field in Hro. destruct r; try contradiction; destruct (gf_exported f); try reflexivity; rewrite Ea in Hro; discriminate. }
              destruct (read_field_tag f ex) as [name ex'] eqn:Er. cbn [fst] in Hseen.
              destruct (beqb_spec name (bs "-")) as [->|Hne].
              { split; [exact I|]. split; [intros []|]. intros ((_ & Hf) & _). now apply Hseen in Hf. }
              rewrite Hro. pose proof (import_val_back E W d x Hx' RNone ex' (or_introl eq_refl)) as Hb.
              specialize (Hx Hx' Hdx RNone ex' (or_introl eq_refl)).
              destruct (imp x RNone ex') as [c|e| |]; try contradiction; cbn [rbind].
              * split; [exact I|]. split; [intros []|]. intros (_ & H). now apply Hx in H.
              * split; [exact I|]. split; [|intros _; exact I]. intros _. split; [|now apply Hx]. split; [auto|]. now apply Hseen.
            + split; [exact I|]. split; [intros []|]. intros (([H|H] & _) & _); [|congruence].
              unfold ro_field in Ec. destruct r; try contradiction; rewrite H in Ec; discriminate. }
        destruct K as (K1 & K2). split; [constructor; assumption|]. rewrite Exists_cons, K2, X. split.
        + intros [(H1 & H2)|(f' & x' & H1 & H2)]; [exists f, x; repeat split; auto; try apply H1; now left|exists f', x'; split; [now right|exact H2]].
        + intros (f' & x' & [H1|H1] & H2); [injection H1 as <- <-; now left|right; eauto]. }
    destruct K as (K1 & K2). unfold new_object. rewrite (fields_fails E _ K1), K2.
    split; [intros (f & x & H1 & H2 & H3); eapply faulty_field; eauto|inversion 1; subst; eauto].
  - cbn [import_val interface can_interface]. cbn [tame] in Ht.
    destruct v as [ | | | | | | | |] eqn:Ev; try (rewrite value_fails; [|discriminate|apply Ht; discriminate];
      split; [intros H; apply faulty_value; [discriminate|exact H]|intros B; inversion B; subst; assumption]).
    split; [intros []|]. intros B. inversion B; subst; congruence.
  - cbn [import_val interface can_interface]. destruct m as [| |[b|e| |]]; try contradiction;
      try (split; [intros []|intros B; inversion B]; fail).
    + rewrite json_fails. split; [apply faulty_no_json|inversion 1; assumption].
    + split; [intros _; constructor|intros _; exact I].
  - cbn [import_val interface can_interface]. destruct m as [| |[b|e| |]]; try contradiction;
      try (split; [intros []|intros B; inversion B]; fail).
    split; [intros _; constructor|intros _; exact I].
  - split; [intros _; constructor|intros _; exact I].
Qed.

Theorem import_error opts g : tame g -> tidy g ->
  (bad g -> exists e, import E W d opts g = Ok (VNotExist, Some e)) /\
  (~ bad g -> exists v, import E W d opts g = Ok (v, None)).
Proof.
  intros Ht Hd. pose proof (import_val_exact g Ht Hd RNone (Ext false false false (o_ignore_omitempty (combine_options d opts))) (or_introl eq_refl)) as X.
  pose proof (import_val_back E W d g Ht RNone (Ext false false false (o_ignore_omitempty (combine_options d opts))) (or_introl eq_refl)) as B.
  unfold import. destruct (imp _ _ _) as [v|e| |]; try contradiction.
  - split; [intros H; now apply X in H|eauto].
  - split; [eauto|]. intros H. destruct H. now apply X.
Qed.
End Fault.
