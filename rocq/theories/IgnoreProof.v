(** OptIgnoreOmitempty: proofs. *)
From Verif Require Import Base Utf8 Float64 Value Scan Unmarshal Opt Marshal Access Path Edit Iter Base64 GoValue Import SpecImport SpecIgnore ListLemmas ValueLemmas ImportProof ExampleWorld.

Definition ban (p : bytes) : bool := if list_eq_dec Z.eq_dec p (bs "omitempty") then false else true.

Lemma ban_beqb p : ban p = negb (beqb (bs "omitempty") p).
Proof.
  unfold ban. destruct (list_eq_dec Z.eq_dec p (bs "omitempty")), (beqb_spec (bs "omitempty") p); try reflexivity; congruence.
Qed.

Lemma no_omitempty opts : existsb (beqb (bs "omitempty")) (filter ban opts) = false.
Proof.
  induction opts as [|p opts IH]; [reflexivity|]. cbn [filter]. destruct (ban p) eqn:Eb; [|exact IH].
  cbn [existsb]. rewrite IH. rewrite ban_beqb in Eb. now destruct (beqb (bs "omitempty") p).
Qed.
Lemma same_string opts : existsb (beqb (bs "string")) (filter ban opts) = existsb (beqb (bs "string")) opts.
Proof.
  induction opts as [|p opts IH]; [reflexivity|]. cbn [filter existsb]. destruct (ban p) eqn:Eb.
  - cbn [existsb]. now rewrite IH.
  - rewrite IH. rewrite ban_beqb in Eb. apply negb_false_iff in Eb. destruct (beqb_spec (bs "omitempty") p) as [<-|]; [reflexivity|discriminate Eb].
Qed.

(** What Import makes of a tag. *)
Lemma read_tag f parent name opts : tag_parts (gf_tag f) name opts ->
  read_field_tag f parent = (match trim_space name with [] => gf_name f | n => n end,
    Ext (existsb (beqb (bs "omitempty")) opts) (existsb (beqb (bs "string")) opts) false (x_ign parent)).
Proof.
  intros H. pose proof (tag_parts_split _ _ _ H) as S. unfold read_field_tag. destruct (gf_tag f) as [|c tg].
  - cbn in S. injection S as <- <-. reflexivity.
  - rewrite S. cbn [hd tl]. now destruct (trim_space name).
Qed.

Section Ignore.
Variable E : Env.
Variable W : World.
Variable d : opt.
Variable t : bytes -> bytes.
Hypothesis Ht : takes_out t.

(** An [ext] that has omitempty switched off, one way or the other. *)
Definition quiet (ex : ext) : Prop := should_omit ex = false.

Lemma omit_quiet ex ex' b v : quiet ex -> quiet ex' -> omit_or ex b v = omit_or ex' b v.
Proof. unfold quiet, omit_or. intros -> ->. reflexivity. Qed.
Lemma json_quiet m ex ex' : quiet ex -> quiet ex' -> parse_json_marshaler E m ex = parse_json_marshaler E m ex'.
Proof.
  intros H H'. unfold parse_json_marshaler. destruct m as [| |r]; try reflexivity. destruct r as [b| | |]; cbn [rbind]; try reflexivity.
  destruct (unmarshal E b) as [[v e]| | |]; cbn [rbind]; try reflexivity. destruct e; [reflexivity|]. now apply omit_quiet.
Qed.
Lemma text_quiet m ex ex' : quiet ex -> quiet ex' -> parse_text_marshaler m ex = parse_text_marshaler m ex'.
Proof.
  intros H H'. unfold parse_text_marshaler. destruct m as [| |r]; try reflexivity. destruct r as [b| | |]; cbn [rbind]; try reflexivity.
  now apply omit_quiet.
Qed.

(** Two ways to ignore omitempty: by the option, or because no tag has it. *)
Definition pair_ok (ig : bool) (ex ex' : ext) : Prop :=
  x_ign ex = true /\ x_str ex' = x_str ex /\ x_ign ex' = ig /\ (ig = true \/ (x_omit ex' = false /\ x_priv ex' = false)).
Lemma pair_quiet ig ex ex' : pair_ok ig ex ex' -> quiet ex /\ quiet ex'.
Proof.
  unfold quiet, should_omit. intros (H1 & _ & H3 & H4). rewrite H1. split; [reflexivity|].
  destruct H4 as [->|[-> ->]]; [now rewrite H3|]. apply andb_false_r.
Qed.

Lemma retag_nil g : is_nil_ptr (retag t g) = is_nil_ptr g.
Proof. destruct g as [ |b|z|z|f|f|l|[l|]|b|s|[m|]| |[g|]|g|fs|v|v|m|m| ]; reflexivity. Qed.

Lemma append_eq : forall l l' acc, l = l' -> append_all E W acc l = append_all E W acc l'.
Proof. now intros l l' acc ->. Qed.

Lemma field_name f : gf_name (retag_field t f) = gf_name f. Proof. reflexivity. Qed.

Lemma read_retag f parent parent' ig : x_ign parent = true -> x_ign parent' = ig ->
  let '(n, ex) := read_field_tag f parent in let '(n', ex') := read_field_tag (retag_field t f) parent' in
  n = n' /\ pair_ok ig ex ex' /\ x_priv ex = false /\ x_priv ex' = false.
Proof.
  intros Hp Hp'. destruct (tag_parts_exist (gf_tag f)) as (name & opts & HP).
  rewrite (read_tag f parent _ _ HP). rewrite (read_tag (retag_field t f) parent' name (filter ban opts)) by (apply Ht; exact HP).
  split; [reflexivity|]. split; [|split; reflexivity]. unfold pair_ok. cbn [x_ign x_str x_omit x_priv].
  split; [exact Hp|]. split; [apply same_string|]. split; [exact Hp'|]. right. split; [apply no_omitempty|reflexivity].
Qed.

(** [ig = false]: the other side runs without the option. *)
Lemma import_quiet ig : forall g, (ig = false -> open_embeds g) -> forall r ex ex',
  pair_ok ig ex ex' \/ (struct_of g <> None /\ x_ign ex = true /\ x_ign ex' = ig) ->
  import_val E W d g r ex = import_val E W d (retag t g) r ex'.
Proof.
  assert (SG : forall fs, Forall (fun e : gfield * gov => (ig = false -> open_embeds (snd e)) -> forall r ex ex',
      pair_ok ig ex ex' \/ (struct_of (snd e) <> None /\ x_ign ex = true /\ x_ign ex' = ig) ->
      import_val E W d (snd e) r ex = import_val E W d (retag t (snd e)) r ex') fs ->
    (ig = false -> open_embeds (GStruct fs)) -> forall r ex ex', x_ign ex = true -> x_ign ex' = ig ->
    import_val E W d (GStruct fs) r ex = import_val E W d (retag t (GStruct fs)) r ex').
  { intros fs IH HO r ex ex' Hx Hx'. cbn [retag import_val]. f_equal. rewrite map_map.
    induction IH as [|[f x] fs IHx IHfs IHl]; [reflexivity|].
    cbn [map]. f_equal; [|apply IHl; intros Hi; apply HO in Hi; cbn in Hi |- *; tauto].
    cbn [fst snd] in *. change (gf_anon (retag_field t f)) with (gf_anon f).
    assert (Hxo : ig = false -> open_embeds x) by (intros Hi; apply HO in Hi; cbn in Hi; tauto).
    pose proof (read_retag f ex ex' ig Hx Hx') as HR.
    destruct (gf_anon f) eqn:Ea.
    - unfold parse_anonymous, read_anonymous_tag. change (gf_name (retag_field t f)) with (gf_name f).
      destruct (read_field_tag f ex) as [n e]. destruct (read_field_tag (retag_field t f) ex') as [n' e'].
      destruct HR as (<- & HP & HPr & HPr'). rewrite retag_nil.
      change (ro_field r (retag_field t f)) with (ro_field r f).
      set (pr := negb ((65 <=? hd 0 (gf_name f)) && (hd 0 (gf_name f) <=? 90))).
      destruct (beqb n (bs "-")); [reflexivity|]. destruct HP as (P1 & P2 & P3 & P4).
      assert (PQ : pair_ok ig (Ext (x_omit e) (x_str e) pr (x_ign e)) (Ext (x_omit e') (x_str e') pr (x_ign e')) \/
        struct_of x <> None).
      { destruct ig.
        - left. split; [exact P1|]. split; [exact P2|]. split; [exact P3|now left].
        - specialize (HO eq_refl). cbn in HO. destruct HO as [HO _]. specialize (HO Ea) as [HL|HS]; [left|now right].
          split; [exact P1|]. split; [exact P2|]. split; [exact P3|]. right. cbn [x_omit x_priv].
          split; [destruct P4 as [P4|[P4 _]]; [discriminate P4|exact P4]|].
          destruct HL as (c & q & HL & HB). unfold pr. rewrite HL. cbn [hd]. lia. }
      destruct (is_nil_ptr x) eqn:En.
      + destruct PQ as [PQ|PS]; [|exfalso; destruct x as [ |b|z|z|y|y|l|[l|]|b|s|[m|]| |[g|]|g|gs|v|v|m|m| ]; try discriminate En; apply PS; reflexivity].
        destruct (pair_quiet _ _ _ PQ) as [Q1 Q2]. unfold quiet in Q1, Q2. rewrite Q1, Q2. reflexivity.
      + rewrite (IHx Hxo (ro_field r f) (Ext (x_omit e) (x_str e) pr (x_ign e)) (Ext (x_omit e') (x_str e') pr (x_ign e'))).
        * reflexivity.
        * destruct PQ as [PQ|PS]; [now left|right]. cbn [x_ign]. auto.
    - unfold parse_field. change (ro_field r (retag_field t f)) with (ro_field r f).
      destruct (negb (can_interface (ro_field r f))); [reflexivity|].
      destruct (read_field_tag f ex) as [n e]. destruct (read_field_tag (retag_field t f) ex') as [n' e'].
      destruct HR as (<- & HP & _ & _). destruct (beqb n (bs "-")); [reflexivity|].
      now rewrite (IHx Hxo (ro_field r f) e e' (or_introl HP)). }
  assert (Inner : forall ex ex', pair_ok ig ex ex' ->
    pair_ok ig (Ext false (x_str ex) (x_priv ex) (x_ign ex)) (Ext false (x_str ex') (x_priv ex') (x_ign ex'))).
  { intros ex ex' (P1 & P2 & P3 & P4). unfold pair_ok. cbn. repeat split; try assumption. destruct P4 as [->|[_ P4]]; [now left|right; auto]. }
  assert (IL : forall l, Forall (fun g => (ig = false -> open_embeds g) -> forall r ex ex',
      pair_ok ig ex ex' \/ (struct_of g <> None /\ x_ign ex = true /\ x_ign ex' = ig) ->
      import_val E W d g r ex = import_val E W d (retag t g) r ex') l ->
    (ig = false -> open_embeds (GArray l)) -> forall r ex ex', pair_ok ig ex ex' ->
    map (fun x => import_val E W d x r ex) l = map (fun x => import_val E W d x r ex') (map (retag t) l)).
  { intros l IH HO r ex ex' HP. rewrite map_map. induction IH as [|x l IHx IHl IH2]; [reflexivity|].
    cbn [map]. f_equal; [|apply IH2; intros Hi; apply HO in Hi; cbn in Hi |- *; tauto].
    apply IHx; [intros Hi; apply HO in Hi; cbn in Hi; tauto|now left]. }
  induction g as [ |b|z|z|f|f|l IH| |l IH|b|x| |m IH| | |g IH|g IH|fs IH|v|v|m|m| ] using gov_ind'; intros HO r ex ex' [HP|(HS & HX & HX')];
    try (exfalso; apply HS; reflexivity);
    try (destruct (pair_quiet _ _ _ HP) as [Q Q']; pose proof (proj1 (proj2 HP)) as HStr).
  - now apply omit_quiet.
  - cbn [import_val retag]. unfold parse_bool. rewrite HStr. now apply omit_quiet.
  - cbn [import_val retag]. unfold parse_int. rewrite HStr. now apply omit_quiet.
  - cbn [import_val retag]. unfold parse_uint. rewrite HStr. now apply omit_quiet.
  - cbn [import_val retag]. unfold parse_float. unfold quiet in Q, Q'. now rewrite HStr, Q, Q'.
  - cbn [import_val retag]. unfold parse_float. unfold quiet in Q, Q'. now rewrite HStr, Q, Q'.
  - cbn [import_val retag]. f_equal. apply IL; [exact IH|exact HO|now apply Inner].
  - now apply omit_quiet.
  - cbn [retag]. destruct l as [|x l]; [now apply omit_quiet|]. cbn [import_val map]. f_equal.
    change (retag t x :: map (retag t) l) with (map (retag t) (x :: l)).
    apply (IL (x :: l)); [exact IH|exact HO|now apply Inner].
  - cbn [import_val retag]. f_equal. now apply omit_quiet.
  - now apply omit_quiet.
  - now apply omit_quiet.
  - cbn [retag]. destruct m as [|e m]; [now apply omit_quiet|].
    assert (IM : forall m, Forall (fun e : gkey * gov => (ig = false -> open_embeds (snd e)) -> forall r ex ex',
      pair_ok ig ex ex' \/ (struct_of (snd e) <> None /\ x_ign ex = true /\ x_ign ex' = ig) ->
      import_val E W d (snd e) r ex = import_val E W d (retag t (snd e)) r ex') m ->
      (ig = false -> open_embeds (GMap (Some m))) ->
      map (fun e : gkey * gov => let '(k, x) := e in (key_string_of k, import_val E W d x (ro_inside r) ex)) m =
      map (fun e : gkey * gov => let '(k, x) := e in (key_string_of k, import_val E W d x (ro_inside r) ex')) (map (fun e => (fst e, retag t (snd e))) m)).
    { clear IH HO. intros m' IH HO. rewrite map_map. induction IH as [|[k x] m' IHx IHl IH2]; [reflexivity|].
      cbn [map fst snd] in *. f_equal; [|apply IH2; intros Hi; apply HO in Hi; cbn in Hi |- *; tauto].
      f_equal. apply IHx; [intros Hi; apply HO in Hi; cbn in Hi; tauto|now left]. }
    specialize (IM (e :: m) IH HO). revert IM. cbn [map import_val]. intros ->. reflexivity.
  - reflexivity.
  - now apply omit_quiet.
  - specialize (IH HO). destruct g as [ |b|z|z|f|f|l|[l|]|b|s|[m|]| |[g|]|g|fs|v|v|m|m| ]; try exact (IH r ex ex' (or_introl HP)).
    cbn [retag import_val]. f_equal. now apply json_quiet.
  - cbn [retag import_val]. destruct g as [ |b|z|z|f|f|l|[l|]|b|s|[m|]| |[g|]|g|fs|v|v|m|m| ]; try (exfalso; apply HS; reflexivity).
    apply (IH HO r ex ex'). right. auto.
  - cbn [retag import_val]. apply IH; [exact HO|now left].
  - apply SG; [exact IH|exact HO| |]; destruct HP as (P1 & _ & P3 & _); assumption.
  - now apply SG.
  - reflexivity.
  - cbn [retag import_val]. f_equal. now apply json_quiet.
  - cbn [retag import_val]. f_equal. now apply json_quiet.
  - cbn [retag import_val]. f_equal. now apply text_quiet.
  - reflexivity.
Qed.

(** C80 *)
Theorem ignore_tags opts g : o_ignore_omitempty (combine_options d opts) = true ->
  import E W d opts (retag t g) = import E W d opts g.
Proof.
  intros H. unfold import. rewrite H.
  rewrite (import_quiet true g ltac:(discriminate) RNone (Ext false false false true) (Ext false false false true)); [reflexivity|].
  left. repeat split. now left.
Qed.

Theorem ignore_strip opts opts' g : o_ignore_omitempty (combine_options d opts) = true -> o_ignore_omitempty (combine_options d opts') = false ->
  open_embeds g -> import E W d opts g = import E W d opts' (retag t g).
Proof.
  intros H H' HO. unfold import. rewrite H, H'.
  rewrite (import_quiet false g (fun _ => HO) RNone (Ext false false false true) (Ext false false false false)); [reflexivity|].
  left. repeat split. right. split; reflexivity.
Qed.
End Ignore.

(** Such a change of tags exists. *)
Definition strip_tag (tag : bytes) : bytes :=
  match split_comma tag with [] => tag | n :: opts => join_comma (n :: filter ban opts) end.
Lemma strip_takes_out : takes_out strip_tag.
Proof.
  intros tag name opts H. unfold strip_tag. rewrite (tag_parts_split _ _ _ H). split; [reflexivity|].
  destruct H as [_ H]. inversion H as [|? ? H1 H2]; subst. constructor; [exact H1|]. rewrite Forall_forall in H2 |- *.
  intros p Hp. apply filter_In in Hp. now apply H2.
Qed.

(** An unexported embedded nil pointer. *)
Definition closed : gov := GStruct [(GField (bs "inner") true false true [], GPtr None)].
Lemma closed_shown : enc false closed (TObj []) /\ enc true closed (TObj []) /\
  forall t, takes_out t -> forall E W,
  import E W opt0 [OIgnoreOmitempty] closed = Ok (VObj 1 [(bs "inner", (1, VNull))] None, None) /\
  import E W opt0 [] (retag t closed) = Ok (VObj 0 [] None, None).
Proof.
  assert (P : tag_parts [] [] []) by (split; [reflexivity|constructor; [intros []|constructor]]).
  split; [|split].
  1-2: constructor; [|constructor]; eapply enc_embedded_nil; try reflexivity; [discriminate|exact P|constructor].
  intros t Ht E W. split; [reflexivity|].
  assert (T : t [] = []). { apply Ht in P. destruct P as [P _]. exact P. }
  unfold closed. cbn [retag map fst snd retag_field gf_name gf_anon gf_exported gf_struct gf_tag]. unfold retag_field. cbn. rewrite T. reflexivity.
Qed.

(** A struct with three kinds of tags. *)
Definition marked : gov := GStruct [
  (GField (bs "A") false true false (bs "a,omitempty"), GInt 0);
  (GField (bs "B") false true false (bs "b,string,omitempty"), GPtr (Some (GBool false)));
  (GField (bs "T") true true true (bs ",omitempty"), GStruct [(GField (bs "C") false true false (bs "c,omitempty"), GMap (Some [(KStr (bs "x"), GStr [])]))])].
Example ignore_example :
  takes_out strip_tag /\ open_embeds marked /\ strip_tag (bs "b,string,omitempty") = bs "b,string" /\
  import env0 world1 opt0 [] marked = Ok (VObj 1 [(bs "c", (1, VObj 0 [] None))] None, None) /\
  import env0 world1 opt0 [OIgnoreOmitempty] marked = import env0 world1 opt0 [] (retag strip_tag marked) /\
  (let* (v, e) := import env0 world1 opt0 [OIgnoreOmitempty] marked in marshal env0 world1 opt0 [OSetSeq] v) =
    Ok (bs "{""a"":0,""b"":""false"",""c"":{""x"":""""}}").
Proof.
  split; [exact strip_takes_out|]. split; [cbn; repeat split; try discriminate; intros _; left; exists 84, []; repeat split; lia|].
  split; [vm_compute; reflexivity|]. split; [vm_compute; reflexivity|]. split; vm_compute; reflexivity.
Qed.
