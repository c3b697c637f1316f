(** Import does not panic on tame values. *)
From Verif Require Import Base Utf8 Float64 Value Scan Unmarshal Opt Marshal Access Path Edit Iter Base64 GoValue Import
  SpecJson SpecValue SpecPath SpecIter SpecNil SpecImport ListLemmas ValueLemmas SortProof IterProof MarshalTotal ImportProof.

Definition back {A} (r : res A) : Prop := match r with Ok _ | Err _ => True | _ => False end.

Lemma set_back E i kvs lo c k : exists i' kvs' lo', must_op (set_at E (VObj i kvs lo) (arg_v c) (PStr k) []) = Ok (VObj i' kvs' lo').
Proof.
  unfold set_at, arg_v. cbn [snd fst set_f peel psum]. cbn [uninitialized is_nil not_exist orb].
  fold (uninitialized c). destruct (uninitialized c); [unfold must_op; cbn [fst snd]; eauto|].
  cbn [at_last_param any_to_string set_to_object]. unfold must_op. cbn [snd fst]. eauto.
Qed.
Lemma set_all_back E kcs : forall i kvs lo, exists i' kvs' lo', set_all E (VObj i kvs lo) kcs = Ok (VObj i' kvs' lo').
Proof.
  induction kcs as [|[k c] kcs IH]; intros i kvs lo; [exists i, kvs, lo; reflexivity|]. cbn [set_all].
  destruct (set_back E i kvs lo c k) as (i' & kvs' & lo' & ->). apply IH.
Qed.
Lemma set_entries_back E l : Forall (fun x : bytes * res V => back (snd x)) l -> forall i kvs lo, back (set_entries E (VObj i kvs lo) l).
Proof.
  induction 1 as [|[k x] l Hx _ IH]; intros i kvs lo; [exact I|]. cbn [set_entries snd] in *. destruct x as [c|e| |]; try contradiction; [|exact I].
  cbn [rbind]. destruct (set_back E i kvs lo c k) as (i' & kvs' & lo' & ->). apply IH.
Qed.
Lemma set_fields_back E l : Forall back l -> forall i kvs lo, back (set_fields E (VObj i kvs lo) l).
Proof.
  induction 1 as [|x l Hx _ IH]; intros i kvs lo; [exact I|]. cbn [set_fields]. destruct x as [kcs|e| |]; try contradiction; [|exact I].
  cbn [rbind]. destruct (set_all_back E kcs i kvs lo) as (i' & kvs' & lo' & ->). apply IH.
Qed.
Lemma append_all_back E W l : Forall back l -> forall a, back (append_all E W (VArr a) l).
Proof.
  induction 1 as [|x l Hx _ IH]; intros a; [exact I|]. cbn [append_all]. destruct x as [c|e| |]; try contradiction; [|exact I].
  cbn [rbind]. rewrite append_new. apply IH.
Qed.

Section Total.
Variable E : Env.
Variable W : World.
Variable d : opt.
Notation imp := (import_val E W d).

Lemma json_back m ex : calm m -> back (parse_json_marshaler E m ex).
Proof.
  destruct m as [| |r]; try exact (fun _ => I). destruct r as [b|e| |]; try contradiction; intros _; [|exact I].
  cbn [parse_json_marshaler rbind]. destruct (unmarshal_total E b) as (v & e & -> & _). cbn [rbind]. destruct e; exact I.
Qed.
Lemma text_back m ex : calm m -> back (parse_text_marshaler m ex).
Proof. destruct m as [| |r]; try exact (fun _ => I). destruct r as [b|e| |]; try contradiction; intros _; exact I. Qed.
Lemma v_calm v : (v <> VNil -> ~ nil_at v) -> calm (v_method E W d v).
Proof.
  intros H. destruct v; try exact I; cbn [v_method];
    match goal with |- calm (MOut (marshal _ _ _ _ ?v)) => destruct (marshal_total E W d [] v) as (G & _); destruct G as [(b & ->)|(e & ->)]; try exact I; apply H; discriminate end.
Qed.

Lemma float_back v f ex n src : v = VNum n src -> back (parse_float E W d v f ex).
Proof.
  intros ->. unfold parse_float. destruct (_ && _); [exact I|]. destruct (x_str ex); [|exact I].
  destruct (marshal_total E W d [] (VNum n src)) as (_ & _ & G). destruct G as (b & ->); [inversion 1|exact I].
Qed.

Lemma range_back c : (exists i kvs lo, c = VObj i kvs lo) -> back (range_objects_by_set W [] c (Some (fun (s : list (bytes * V)) e => (s ++ [e], true))) []).
Proof. intros (i & kvs & lo & ->). cbn [range_objects_by_set api_is_object on_value vtype_of vtype_eqb rbind negb object_of]. exact I. Qed.

Lemma import_val_back g : tame g -> forall r ex, r = RNone \/ (r = REmbed /\ struct_of g <> None) -> back (imp g r ex).
Proof.
  induction g as [ |b|z|z|f|f|l IH| |l IH|b|x| |m IH| | |g IH|g IH|fs IH|v|v|m|m| ] using gov_ind'; intros Ht r ex Hr;
    (* only structs and pointers to them may come through an embedded field *)
    try (destruct Hr as [->|(_ & Hr)]; [|now cbn in Hr]); try exact I.
  - eapply float_back. unfold new_float64. destruct (is_valid_float f); reflexivity.
  - eapply float_back. unfold new_float32. destruct (is_valid_float f); reflexivity.
  - cbn [import_val]. apply append_all_back. cbn [tame] in Ht. induction IH as [|x l Hx _ IHl]; cbn [map]; constructor; [apply Hx; [apply Ht|now left]|].
    apply IHl, Ht.
  - destruct l as [|x l]; [exact I|]. cbn [import_val]. apply append_all_back. cbn [tame] in Ht.
    assert (G : forall l, Forall (fun g => tame g -> forall r ex, r = RNone \/ (r = REmbed /\ struct_of g <> None) -> back (imp g r ex)) l ->
       (fix go (l : list gov) : Prop := match l with [] => True | x :: r => tame x /\ go r end) l ->
       Forall back (map (fun x => imp x (ro_inside RNone) (Ext false (x_str ex) (x_priv ex) (x_ign ex))) l)).
    { clear. induction 1 as [|x l Hx _ IHl]; intros Ht; cbn [map]; constructor; [apply Hx; [apply Ht|now left]|]. apply IHl, Ht. }
    apply (G (x :: l) IH Ht).
  - destruct m as [|e m]; [exact I|]. cbn [import_val]. apply set_entries_back.
    assert (G : forall m, Forall (fun e : gkey * gov => tame (snd e) -> forall r ex, r = RNone \/ (r = REmbed /\ struct_of (snd e) <> None) -> back (imp (snd e) r ex)) m ->
       (fix go (m : list (gkey * gov)) : Prop := match m with [] => True | (_, x) :: r => tame x /\ go r end) m ->
       Forall (fun x : bytes * res V => back (snd x)) (map (fun e : gkey * gov => let '(k, x) := e in (key_string_of k, imp x (ro_inside RNone) ex)) m)).
    { clear. induction 1 as [|[k x] l Hx _ IHl]; intros Ht; cbn [map]; constructor; [apply Hx; [apply Ht|now left]|]. apply IHl, Ht. }
    apply (G (e :: m) IH Ht).
  - destruct g as [ |b|z|z|f|f|l|l|b|x|m| |p|g|fs|v|v|m|m| ];
      try (refine (IH Ht r ex _); destruct Hr as [->|(-> & Hr)]; [now left|now cbn in Hr]; fail).
    + refine (IH Ht r ex _). destruct Hr as [->|(-> & Hr)]; [now left|now right].
    + destruct Hr as [->|(_ & Hr)]; [|now cbn in Hr]. cbn [import_val interface can_interface]. apply json_back, v_calm, Ht.
  - refine (IH Ht _ ex (or_introl eq_refl)).
  - cbn [import_val]. apply set_fields_back. cbn [tame] in Ht.
    assert (Hr' : r <> RSticky) by (destruct Hr as [->|(-> & _)]; discriminate). clear Hr.
    induction IH as [|[f x] fs Hx _ IHl]; cbn [map]; constructor; [|apply IHl, Ht]. destruct Ht as (He & Hx' & _). cbn [snd] in Hx.
    destruct (gf_anon f) eqn:Ea.
    + unfold parse_anonymous. destruct (read_anonymous_tag f ex) as [name ex']. destruct (beqb name (bs "-")); [exact I|].
      destruct (is_nil_ptr x); [exact I|].
      assert (G : back (imp x (ro_field r f) ex')).
      { apply Hx; [assumption|]. unfold ro_field. destruct r; try contradiction; destruct (gf_exported f) eqn:Ee; rewrite ?Ea; auto. }
      destruct (imp x (ro_field r f) ex') as [c|e| |]; try contradiction; [|exact I]. cbn [rbind].
      destruct c; try exact I; apply range_back; eauto.
    + unfold parse_field. destruct (can_interface (ro_field r f)) eqn:Ec; [|exact I]. cbn [negb].
      destruct (read_field_tag f ex) as [name ex']. destruct (beqb name (bs "-")); [exact I|].
      assert (G : back (imp x (ro_field r f) ex')). { apply Hx; [assumption|]. left. destruct (ro_field r f); try discriminate. reflexivity. }
      destruct (imp x (ro_field r f) ex') as [c|e| |]; try contradiction; exact I.
  - cbn [import_val interface can_interface]. apply json_back, v_calm, Ht.
  - cbn [import_val interface can_interface]. apply json_back, Ht.
  - cbn [import_val interface can_interface]. apply text_back, Ht.
Qed.

Theorem import_total opts g : tame g -> exists v e, import E W d opts g = Ok (v, e).
Proof.
  intros H. unfold import. pose proof (import_val_back g H RNone (Ext false false false (o_ignore_omitempty (combine_options d opts))) (or_introl eq_refl)) as G.
  destruct (import_val _ _ _ _ _ _); try contradiction; eauto.
Qed.
End Total.
