(** NewObject with key values; Go data as arguments. *)
From Verif Require Import Base Utf8 Float64 Value Scan Unmarshal Opt Marshal Access Path Edit Iter GoValue Import Compare Contain NewObject
  SpecJson SpecValue SpecPath SpecGet SpecContain SpecNil SpecImport SpecFault SpecNewObject ListLemmas ValueLemmas ParseComplete ImportProof ImportTotal ImportFault ContainProof GetClaims LaxFacts.

Lemma child_shows E x : mval_ok x ->
  match mval_child E x, mval_tree x with
  | Some c, Some t => shows_tree E t c
  | None, None => True
  | _, _ => False
  end.
Proof.
  destruct x as [ |b|z|z|f|s| ]; cbn [mval_ok mval_child mval_tree]; intros H; try exact I; try reflexivity.
  - now apply int_shown.
  - now apply uint_shown.
  - destruct (float64_shown E f H) as (n & src & -> & Hn). exact Hn.
Qed.

Fixpoint children (E : Env) (m : list (bytes * mval)) : list (bytes * V) :=
  match m with
  | [] => []
  | (k, x) :: r => match mval_child E x with Some c => (k, c) :: children E r | None => children E r end
  end.
Lemma parse_kv_set_all E m : forall v, parse_new_object_kv E v m = set_all E v (children E m).
Proof.
  induction m as [|[k x] m IH]; intros v; [reflexivity|]. cbn [parse_new_object_kv children].
  destruct (mval_child E x) as [c|]; cbn [rbind set_all]; [|apply IH]. destruct (must_op _); cbn [rbind]; auto.
Qed.
Lemma children_add E m : Forall (fun e => mval_ok (snd e)) m -> adds E (children E m) (supported m).
Proof.
  intros H. exists (children E m). split; [reflexivity|]. induction H as [|[k x] m Hx Hm IH]; [constructor|].
  cbn [children supported]. pose proof (child_shows E x Hx) as C. destruct (mval_child E x) as [c|], (mval_tree x) as [t|]; try contradiction; auto.
Qed.
Lemma supported_in k m : In k (map fst (supported m)) -> In k (map fst m).
Proof. induction m as [|[k0 x] m IH]; [auto|]. cbn. destruct (mval_tree x); cbn; intuition. Qed.
Lemma supported_nodup m : NoDup (map fst m) -> NoDup (map fst (supported m)).
Proof.
  induction m as [|[k x] m IH]; [intros _; constructor|]. cbn. intros H. inversion H; subst.
  destruct (mval_tree x); cbn; auto. constructor; auto. intros C. now apply supported_in in C.
Qed.

Theorem new_object_shows E m more : NoDup (map fst m) -> Forall (fun e => mval_ok (snd e)) m ->
  exists v, new_object_m E (Some m :: more) = Ok v /\ shows_tree E (TObj (supported m)) v.
Proof.
  intros Hn Hm. cbn [new_object_m]. rewrite parse_kv_set_all.
  destruct (set_all_shows E [] (supported m) (children E m) 0 [] None) as (i & kvs & lo & H1 & H2).
  - apply shows_new.
  - now apply children_add.
  - now apply supported_nodup.
  - exists (VObj i kvs lo). auto.
Qed.
Theorem new_object_empty E args : (forall m r, args <> Some m :: r) -> new_object_m E args = Ok new_object.
Proof. destruct args as [|[m|] r]; intros H; [reflexivity|now elim (H m r)|reflexivity]. Qed.

(** *** What is shown is of JSON types *)
Lemma same_entry (kvs : list kv) k id x id' x' : NoDup (map fst kvs) -> In (k, (id, x)) kvs -> In (k, (id', x')) kvs -> x = x'.
Proof.
  intros Hn H1 H2. apply alookup_NoDup_In in H1; [|exact Hn]. apply alookup_NoDup_In in H2; [|exact Hn]. congruence.
Qed.
Lemma last_of {A} k (l : list (bytes * A)) : In k (map fst l) -> exists l1 x l2, l = l1 ++ (k, x) :: l2 /\ ~ In k (map fst l2).
Proof.
  induction l as [|[k0 x] l IH]; [intros []|]. intros H.
  destruct (in_dec (list_eq_dec Z.eq_dec) k (map fst l)) as [Hi|Hi].
  - destruct (IH Hi) as (l1 & y & l2 & -> & Hn). exists ((k0, x) :: l1), y, l2. auto.
  - destruct H as [H|H]; [|contradiction]. cbn in H. subst. exists [], x, l. auto.
Qed.

Lemma denotes_typed v : forall j, denotes j v -> json_typed v.
Proof.
  induction v as [ |s|n src|i kvs lo IH|l IH|b| | | ] using V_ind'; intros [ |b0|lit|s0|l0|l0] H; try contradiction; try exact I.
  - apply json_typed_obj. cbn [denotes] in H. destruct H as (H1 & H2 & H3). split; [exact H1|].
    rewrite Forall_forall in *. intros [k [id x]] Hin. cbn [snd].
    assert (Hk : In k (map fst l0)) by (apply H2; apply (in_map fst) in Hin; exact Hin).
    destruct (last_of k l0 Hk) as (l1 & y & l2 & -> & Hn).
    assert (G : (~ In k (map fst l2) -> exists id x', In (k, (id, x')) kvs /\ denotes y x')).
    { clear -H3. induction l1 as [|[k1 x1] l1 IHl]; cbn [app] in H3; [exact (proj1 H3)|]. apply IHl. exact (proj2 H3). }
    destruct (G Hn) as (id' & x' & Hi & Hd). rewrite (same_entry kvs k id x id' x' H1 Hin Hi).
    apply (IH _ Hi y). exact Hd.
  - apply json_typed_arr. cbn [denotes] in H. revert l0 H. induction IH as [|x l Hx Hl IHl]; intros [|y l0] H; try contradiction; constructor.
    + apply (Hx y), H.
    + apply (IHl l0), H.
Qed.

Lemma shows_typed E v : forall t, shows_tree E t v -> json_typed v.
Proof.
  induction v as [ |s|n src|i kvs lo IH|l IH|b| | | ] using V_ind'; intros t H;
    try (destruct t; cbn [shows_tree] in H; try contradiction; try exact I; try (now apply denotes_typed in H); now destruct H).
  - destruct t as [ | | | | | |ts|ms| |j|w]; try contradiction; [|now apply denotes_typed in H|now destruct H].
    apply shows_obj in H. destruct H as (H1 & H2 & H3). apply json_typed_obj. split; [exact H1|].
    rewrite Forall_forall in *. intros [k [id x]] Hin. cbn [snd].
    assert (Hk : In k (map fst ms)) by (apply H2; apply (in_map fst) in Hin; exact Hin).
    apply in_map_iff in Hk. destruct Hk as ([k0 t] & E0 & Hk). cbn in E0. subst k0.
    destruct (H3 _ Hk) as (id' & x' & Hi & Hd). cbn [fst snd] in *. rewrite (same_entry kvs k id x id' x' H1 Hin Hi).
    apply (IH _ Hi t). exact Hd.
  - destruct t as [ | | | | | |ts|ms| |j|w]; try contradiction; [|now apply denotes_typed in H|now destruct H].
    apply shows_arr in H. apply json_typed_arr. revert ts H. induction IH as [|x l Hx Hl IHl]; intros ts H; inversion H; subst; constructor; eauto.
Qed.

(** *** Go data as arguments *)
Section Data.
Variable E : Env.
Variable W : World.
Variable d : opt.
Hypothesis HE : forall f fmt bits, fmt_float E f fmt (-1) bits <> [].

Theorem arg_alike g t : alike (o_ignore_omitempty (combine_options d [])) g -> enc (o_ignore_omitempty (combine_options d [])) g t ->
  exists w, arg_any E W d g = Ok (w, None) /\ shows_tree E t w.
Proof.
  intros Ha Ht. destruct (import_alike E W d HE [] g t Ha Ht) as (v & H1 & H2).
  destruct g; try (exists v; split; assumption).
  - inversion Ht; subst. exists VNull. split; [reflexivity|exact I].
  - inversion Ht; subst; [cbn in Ha; contradiction|]. eexists. split; [reflexivity|]. split; [exact Ha|reflexivity].
Qed.

Theorem contains_data g t v ps : alike (o_ignore_omitempty (combine_options d [])) g -> enc (o_ignore_omitempty (combine_options d [])) g t ->
  json_typed v -> Forall plain ps ->
  exists w b, shows_tree E t w /\ contains_any E W d v g ps = Ok b /\
  (b = true <-> exists hs u, leads v ps hs u /\ contained (fun x y => forall W' path, equal W' path x y = true) u w).
Proof.
  intros Ha Ht Hv Hps. destruct (import_alike E W d HE [] g t Ha Ht) as (w & H1 & H2).
  assert (G : forall w0, shows_tree E t w0 -> contains_any E W d v g ps = contains E W v w0 ps ->
    exists w b, shows_tree E t w /\ contains_any E W d v g ps = Ok b /\
    (b = true <-> exists hs u, leads v ps hs u /\ contained (fun x y => forall W' path, equal W' path x y = true) u w)).
  { intros w0 Hw Heq. rewrite Heq. destruct (contains_spec E W v w0 ps Hv (shows_typed _ _ _ Hw) Hps) as (b & Hb & Hi).
    exists w0, b. auto. }
  assert (Hnn : v <> VNil) by (intros ->; contradiction).
  destruct g; try (apply (G w H2); unfold contains_any; destruct v; try congruence; rewrite H1; reflexivity).
  inversion Ht; subst; [cbn in Ha; contradiction|]. eapply (G v0); [split; [exact Ha|reflexivity]|]. unfold contains_any. destruct v; try congruence; reflexivity.
Qed.
Theorem contains_fault g v ps : tame g -> tidy g -> faulty E W d g -> contains_any E W d v g ps = Ok false.
Proof.
  intros H1 H2 H3. destruct (import_error E W d [] g H1 H2) as (H4 & _). destruct (H4 H3) as (e & He).
  destruct v; try reflexivity; destruct g; try (now inversion H3); unfold contains_any; rewrite He; reflexivity.
Qed.
End Data.

(** *** Append of data without JSON *)
Lemma not_json_leading_comma j : ~ json_doc (bs "[,true]") j.
Proof.
  intros H. match type of H with json_doc ?b _ => let b' := eval vm_compute in b in change b with b' in H end.
  apply doc_head in H as (t & w & E1 & Hj & Hw); [|unfold is_ws; lia].
  assert (w = []) by (eapply (ws_last_no w 93); [unfold is_ws; lia|symmetry; exact (E1 : [91; 44; 116; 114; 117; 101] ++ [93] = _)|assumption]).
  subst w. rewrite app_nil_r in E1. subst t.
  inversion Hj as [| | |lit neg ip fd e i Hn| |w Hw' E2|t l He E2| |]; subst.
  - apply num_lit_head in Hn. unfold digit in Hn. lia.
  - destruct w as [|a w]; [discriminate|]. injection E2 as -> _. inversion Hw' as [|? ? H1]. unfold is_ws in H1. lia.
  - assert (t = [44; 116; 114; 117; 101]) by (change (t ++ [93] = [44; 116; 114; 117; 101] ++ [93]) in E2; now apply app_inj_tail in E2). subst t. clear E2.
    assert (G : forall w1 t x, ws w1 -> (exists j, jval t j) -> w1 ++ t ++ x = [44; 116; 114; 117; 101] -> False).
    { intros w1 t x Hw1 (j0 & Ht) E3. destruct w1 as [|a w1]; [|injection E3 as -> _; inversion Hw1 as [|? ? Hx]; unfold is_ws in Hx; lia].
      apply jval_head in Ht. destruct Ht as (c & r & -> & Hc). injection E3 as -> _. unfold starts_value, digit in Hc. lia. }
    inversion He as [w1 t w2 j0 H1 Ht H2 E3|w1 t w2 j0 te l0 H1 Ht H2 Hte E3]; subst.
    + apply (G w1 t w2 H1); [exists j0; exact Ht|exact E3].
    + apply (G w1 t (w2 ++ 44 :: te) H1); [exists j0; exact Ht|exact E3].
Qed.
Theorem append_garbage : exists g, forall (E : Env) (W : World) (d : opt), faulty E W d g /\ exists x v,
  arg_any E W d g = Ok x /\ append_beginning E W (VArr [VBool true]) x [] = (v, Ok VNotExist) /\
  marshal E W opt0 [] v = Ok (bs "[,true]") /\ forall j, ~ json_doc (bs "[,true]") j.
Proof.
  exists GOther. intros E W d. split; [constructor|]. exists (VNotExist, Some EOther), (VArr [VNotExist; VBool true]).
  repeat split; try reflexivity. exact not_json_leading_comma.
Qed.
