(** C86: Marshal part by part. *)
From Verif Require Import Base Float64 Value Opt Marshal SpecJson SpecValue SpecText SpecOpts SpecOrder SpecNil SpecPieces
  ListLemmas ValueLemmas SortProof OrderProof MarshalTotal MarshalProof MarshalClaims.

Notation run := (option pinfo -> list key -> nat -> mres).
Definition mk_ent (f : V -> run) (x : kvt) : entry := Entry (fst x) (fst (snd x)) (snd (snd x)) (f (snd (snd x))).

Lemma nl_part o pi c k : nl_indent (part_opt o pi c) k = nl_indent o (c + k).
Proof.
  unfold nl_indent, write_indent. cbn. destruct (o_indent o); [|reflexivity]. now rewrite repeat_app, concat_app, <- app_assoc.
Qed.
Lemma glue_new pi pi' v k : Some (new_parent_info v (glue pi pi') k) = glue pi (Some (new_parent_info v pi' k)).
Proof. destruct pi as [p|], pi' as [q|]; cbn; try reflexivity. now rewrite app_assoc. Qed.
Lemma glue_none pi : glue pi None = pi.
Proof. destruct pi; reflexivity. Qed.
Lemma told o pi c pi' v k : (o_less o = None -> pi = None) ->
  match o_less o with Some _ => Some (new_parent_info v (glue pi pi') k) | None => None end =
  glue pi match o_less (part_opt o pi c) with Some _ => Some (new_parent_info v pi' k) | None => None end.
Proof. intros Hp. cbn. destruct (o_less o); [apply glue_new|]. now rewrite (Hp eq_refl). Qed.

Section Part.
Variable E : Env.
Variable W : World.
Variable o : opt.
Variable pi : option pinfo.
Variable path : list key.
Variable c : nat.
Hypothesis Hpi : o_less o = None -> pi = None.
Notation o' := (part_opt o pi c).
Notation W' := (inside W path).

Definition like (f g : run) : Prop := forall pi' path' k, f (glue pi pi') (path ++ path') (c + k)%nat = g pi' path' k.

Lemma members_part (f g : V -> run) kvs : Forall (fun e : kvt => like (f (snd (snd e))) (g (snd (snd e)))) kvs ->
  forall pi' path' k first,
  write_members o (glue pi pi') (path ++ path') (c + k) first (map (mk_ent f) kvs) = write_members o' pi' path' k first (map (mk_ent g) kvs).
Proof.
  induction 1 as [|[n [id x]] l Hx Hl IH]; intros pi' path' k first; [reflexivity|].
  cbn [map write_members mk_ent fst snd e_val e_run e_key] in *. rewrite !(told _ pi c pi') by exact Hpi.
  rewrite <- !app_assoc, !Hx, nl_part. destruct x; try rewrite !IH; reflexivity.
Qed.
Lemma elems_part v (f g : V -> run) l : Forall (fun x => like (f x) (g x)) l ->
  forall pi' path' k i, write_elems o v (glue pi pi') (path ++ path') (c + k) i (map f l) = write_elems o' v pi' path' k i (map g l).
Proof.
  induction 1 as [|x l Hx Hl IH]; intros pi' path' k i; [reflexivity|].
  cbn [map write_elems] in *. rewrite (told _ pi c pi') by exact Hpi.
  rewrite <- !app_assoc, !Hx, nl_part, IH. reflexivity.
Qed.

Lemma order_part pi' path' kvs : order_kvs W' o' pi' path' kvs = order_kvs W o (glue pi pi') (path ++ path') kvs.
Proof. unfold order_kvs, kv_less. cbn. destruct (o_less o); reflexivity. Qed.

Lemma number_part n src : marshal_number E o' n src = marshal_number E o n src.
Proof. reflexivity. Qed.

Lemma marshal_to_part v : like (marshal_to E W o v) (marshal_to E W' o' v).
Proof.
  induction v as [ |s|n src|i kvs lo IH|l IH|b| | | ] using V_ind'; intros pi' path' k; try reflexivity.
  - cbn [marshal_to].
    change (map (fun x : bytes * (Z * V) => Entry (fst x) (fst (snd x)) (snd (snd x)) (marshal_to E W o (snd (snd x)))) kvs)
      with (map (mk_ent (marshal_to E W o)) kvs).
    change (map (fun x : bytes * (Z * V) => Entry (fst x) (fst (snd x)) (snd (snd x)) (marshal_to E W' o' (snd (snd x)))) kvs)
      with (map (mk_ent (marshal_to E W' o')) kvs).
    rewrite !order_entries_map by (now intros [? [? ?]]). rewrite <- Nat.add_succ_r, order_part.
    rewrite (members_part _ (marshal_to E W' o')).
    + rewrite nl_part. destruct kvs; reflexivity.
    + eapply Permutation_Forall; [apply Permutation_sym, order_kvs_perm|exact IH].
  - cbn [marshal_to]. rewrite <- Nat.add_succ_r, (elems_part _ _ (marshal_to E W' o')) by exact IH. rewrite nl_part. destruct l; reflexivity.
Qed.
End Part.

(** What a part contributes, from Marshal of it alone. *)
Lemma to_opt E W o x : marshal_to E W o x None [] 0 =
  if panics (marshal_opt E W o x) then Panic
  else Ok (text_of (marshal_opt E W o x), match marshal_opt E W o x with Err e => match x with VNotExist => None | _ => Some e end | _ => None end).
Proof.
  assert (T := marshal_to_total E W o x None [] 0%nat). unfold marshal_opt.
  destruct x as [ |s|n src|i kvs lo|l|b| | | ]; try reflexivity.
  - cbn. unfold marshal_number, marshal_infp, marshal_infn, marshal_nan, mok, merr.
    destruct src; [|reflexivity].
    repeat match goal with |- context [if ?c then Ok _ else _] => destruct c; try reflexivity
                      | |- context [if ?c then (if _ then _ else _) else _] => destruct c; try reflexivity
                      | |- context [match ?c with [] => _ | _ :: _ => _ end] => destruct c; try reflexivity end.
  - destruct T as [(_ & [b e] & H)|(_ & H)]; rewrite H; [|reflexivity].
    cbn [marshal_to] in H. destruct kvs; [injection H as <- <-; reflexivity|].
    cbn [map] in H. destruct (write_members _ _ _ _ _ _); cbn in H; try discriminate. injection H as <- <-. reflexivity.
  - destruct T as [(_ & [b e] & H)|(_ & H)]; rewrite H; [|reflexivity].
    cbn [marshal_to] in H. destruct l; [injection H as <- <-; reflexivity|].
    destruct (write_elems _ _ _ _ _ _ _); cbn in H; try discriminate. injection H as <- <-. reflexivity.
Qed.

Lemma part_to E W o v k x :
  marshal_to E W o x (match o_less o with Some _ => Some (new_parent_info v None k) | None => None end) [k] 1 =
  marshal_to E (inside W [k]) (part_opt o (Some (PInfo v [k])) 1) x None [] 0.
Proof.
  assert (Hp : part_opt o (Some (PInfo v [k])) 1 = part_opt o (match o_less o with Some _ => Some (PInfo v [k]) | None => None end) 1).
  { unfold part_opt. destruct (o_less o); reflexivity. }
  rewrite Hp. pose proof (marshal_to_part E W o (match o_less o with Some _ => Some (PInfo v [k]) | None => None end) [k] 1) as H.
  assert (Hn : o_less o = None -> match o_less o with Some _ => Some (PInfo v [k]) | None => None end = None) by (intros ->; reflexivity).
  rewrite <- (H Hn x None [] 0%nat). rewrite glue_none. reflexivity.
Qed.

Definition line (o : opt) : bytes := if o_indent o then 10 :: o_prefix o ++ o_indent_str o else [].
Lemma nl1 o : nl_indent o 1 = line o.
Proof. unfold nl_indent, line, write_indent. cbn. rewrite app_nil_r. reflexivity. Qed.
Lemma nl0 o : nl_indent o 0 = if o_indent o then 10 :: o_prefix o else [].
Proof. unfold nl_indent, write_indent. cbn. rewrite app_nil_r. reflexivity. Qed.

(** With a comma in front of each. *)
Lemma commas_led l : flat_map (cons 44) l = match l with [] => [] | _ => 44 :: commas l end.
Proof.
  induction l as [|p l IH]; [reflexivity|]. cbn [flat_map]. rewrite IH. destruct l as [|q l]; cbn [commas]; [now rewrite app_nil_r|].
  reflexivity.
Qed.

Lemma elems_text E W o v l : forall i, 0 <= i ->
  write_elems o v None [] 1 i (map (marshal_to E W o) l) =
  if existsb panics (elements E W o v i l) then Panic
  else Ok (let t := map (app (line o)) (map text_of (elements E W o v i l)) in if 0 <? i then flat_map (cons 44) t else commas t).
Proof.
  induction l as [|x l IH]; intros i Hi; [cbn; destruct (0 <? i); reflexivity|].
  cbn [map write_elems elements existsb]. rewrite app_nil_l, part_to, to_opt. set (r := marshal_opt _ _ _ x).
  destruct (panics r); [reflexivity|]. cbn [rbind orb]. rewrite IH by lia.
  destruct (existsb panics (elements E W o v (i + 1) l)); [reflexivity|]. cbn [rbind]. f_equal. rewrite nl1.
  assert (H1 : (0 <? i + 1) = true) by (apply Z.ltb_lt; lia). rewrite H1. cbn zeta. cbn [map].
  destruct (0 <? i); cbn [flat_map app].
  - now rewrite <- app_assoc.
  - rewrite commas_led. cbn [app]. set (t := map (app (line o)) (map text_of (elements E W o v (i + 1) l))).
    cbn [commas]. destruct t; [now rewrite app_nil_r|]. now rewrite <- app_assoc.
Qed.

Theorem array_parts E W o l :
  marshal_opt E W o (VArr l) =
  if existsb panics (elements E W o (VArr l) 0 l) then Panic
  else Ok (bracketed o 91 93 (map text_of (elements E W o (VArr l) 0 l))).
Proof.
  unfold marshal_opt. cbn [marshal_to]. destruct l as [|x l]; [reflexivity|]. rewrite elems_text by lia.
  match goal with |- context [existsb panics ?e] => destruct (existsb panics e) end; [reflexivity|].
  cbn [rbind mok]. f_equal. rewrite nl0. unfold bracketed. cbn [elements map]. fold (line o). reflexivity.
Qed.

Lemma members_text E W o kvs : (o_omit_null o = true -> Forall (fun e : kvt => snd (snd e) <> VNull) kvs) -> forall first,
  write_members o None [] 1 first (map (mk_ent (marshal_to E W o)) kvs) =
  if existsb panics (map (member E W o) kvs) then Panic
  else Ok (let t := map (app (line o)) (map (named_part E W o) kvs) in if first then commas t else flat_map (cons 44) t).
Proof.
  intros Hom. induction kvs as [|[k [id x]] l IH]; intros first; [cbn; destruct first; reflexivity|].
  cbn [map write_members mk_ent fst snd e_val e_run e_key existsb]. rewrite !app_nil_l, !part_to, !to_opt. cbn [member].
  assert (Hx : o_omit_null o = true -> x <> VNull) by (intros H; specialize (Hom H); inversion Hom; assumption).
  assert (IH' := IH (fun H => Forall_inv_tail (Hom H)) false). clear IH Hom.
  set (r := marshal_opt _ _ _ x).
  match goal with |- match x with VNotExist => ?A | _ => _ end = ?R =>
    assert (G : A = R); [|destruct x; try exact G; destruct (o_omit_null o); [now elim (Hx eq_refl)|exact G]] end.
  destruct (panics r) eqn:Hr; [reflexivity|]. cbn [rbind orb]. rewrite IH'. destruct (existsb panics (map (member E W o) l)); [reflexivity|]. cbn [rbind]. f_equal. rewrite nl1.
  cbn zeta. cbn [map]. unfold named_part at 2 4. cbn [fst member]. fold r.
  destruct first; cbn [flat_map app].
  - rewrite commas_led. set (t := map (app (line o)) (map (named_part E W o) l)).
    cbn [commas]. destruct t; [now rewrite app_nil_r|]. now rewrite <- !app_assoc.
  - now rewrite <- !app_assoc.
Qed.

Lemma object_parts_at E W o i kvs lo : (o_omit_null o = true -> Forall (fun e : kvt => snd (snd e) <> VNull) kvs) ->
  marshal_opt E W o (VObj i kvs lo) =
  if existsb panics (map (member E W o) (order_kvs W o None [] kvs)) then Panic
  else Ok (bracketed o 123 125 (map (named_part E W o) (order_kvs W o None [] kvs))).
Proof.
  intros Hom. assert (HP := order_kvs_perm W o None [] kvs).
  unfold marshal_opt. cbn [marshal_to].
  change (map (fun x : bytes * (Z * V) => Entry (fst x) (fst (snd x)) (snd (snd x)) (marshal_to E W o (snd (snd x)))) kvs)
      with (map (mk_ent (marshal_to E W o)) kvs).
  rewrite order_entries_map by (now intros [? [? ?]]). rewrite members_text.
  2: { intros H. eapply Permutation_Forall; [apply Permutation_sym; exact HP|auto]. }
  set (kvs' := order_kvs W o None [] kvs) in *.
  destruct kvs as [|e kvs]; [apply Permutation_sym, Permutation_nil in HP; rewrite HP; reflexivity|].
  cbn [map]. destruct (existsb panics (map (member E W o) kvs')); [reflexivity|]. cbn [rbind mok]. f_equal. rewrite nl0. unfold bracketed.
  fold (line o). destruct kvs' as [|e' r']; [now apply Permutation_nil in HP|]. reflexivity.
Qed.
Theorem object_parts E W o i kvs lo : (o_omit_null o = true -> Forall (fun e : kvt => snd (snd e) <> VNull) kvs) ->
  exists kvs', Permutation kvs kvs' /\ (
  marshal_opt E W o (VObj i kvs lo) =
  if existsb panics (map (member E W o) kvs') then Panic
  else Ok (bracketed o 123 125 (map (named_part E W o) kvs'))).
Proof.
  intros Hom. exists (order_kvs W o None [] kvs). split; [symmetry; apply order_kvs_perm|now apply object_parts_at].
Qed.

(** *** With OptOmitNull *)
Lemma stretches_cons {A} (out : A -> bool) l : exists h t, stretches out l = h :: t.
Proof. induction l as [|x l (h & t & IH)]; cbn; [eauto|]. destruct (out x); [eauto|]. rewrite IH. eauto. Qed.

Definition led (first : bool) (t : list bytes) : bytes := if first then commas t else flat_map (cons 44) t.
Lemma led_cons first p t : led first (p :: t) = (if first then [] else [44]) ++ p ++ led false t.
Proof.
  unfold led. destruct first; cbn [flat_map app]; [|reflexivity]. rewrite commas_led. cbn [commas].
  destruct t; [now rewrite app_nil_r|reflexivity].
Qed.
Lemma led_nil first : led first [] = [].
Proof. destruct first; reflexivity. Qed.

Lemma members_stretches E W o kvs : forall first,
  write_members o None [] 1 first (map (mk_ent (marshal_to E W o)) kvs) =
  if existsb panics (map (member E W o) kvs) then Panic
  else Ok (match map (map (named_part E W o)) (stretches (omitted o) kvs) with
           | [] => []
           | h :: t => led first (map (app (line o)) h) ++ flat_map (fun run => commas (map (app (line o)) run)) t
           end).
Proof.
  induction kvs as [|[k [id x]] l IH]; intros first; [cbn; rewrite led_nil; reflexivity|].
  destruct (stretches_cons (omitted o) l) as (h & t & Hr).
  cbn [map write_members mk_ent fst snd e_val e_run e_key existsb stretches]. rewrite !app_nil_l, !part_to, !to_opt. cbn [member].
  assert (IH1 := IH false). assert (IH2 := IH true). clear IH. rewrite Hr in IH1, IH2.
  cbn [map] in IH1, IH2.
  destruct (omitted o (k, (id, x))) eqn:Ho; rewrite Hr.
  - unfold omitted in Ho. cbn in Ho. destruct x; try discriminate. rewrite Ho, IH2.
    change (panics (marshal_opt E (inside W [string_key k]) (part_opt o (Some (PInfo VNull [string_key k])) 1) VNull)) with false.
    cbn [orb]. destruct (existsb panics (map (member E W o) l)); [reflexivity|].
    cbn [map flat_map led]. rewrite led_nil. reflexivity.
  - set (r := marshal_opt _ _ _ x).
    match goal with |- match x with VNotExist => ?A | _ => _ end = ?R =>
      assert (G : A = R); [|destruct x; try exact G; cbn in Ho; rewrite Ho; exact G] end.
    destruct (panics r) eqn:Hp; [reflexivity|]. cbn [rbind orb]. rewrite IH1.
    destruct (existsb panics (map (member E W o) l)); [reflexivity|]. cbn [rbind]. f_equal. rewrite nl1.
    cbn [map]. rewrite led_cons. unfold named_part at 3. cbn [fst member]. fold r. now rewrite <- !app_assoc.
Qed.

Theorem object_stretches E W o i kvs lo : kvs <> [] ->
  exists kvs', Permutation kvs kvs' /\ (
  marshal_opt E W o (VObj i kvs lo) =
  if existsb panics (map (member E W o) kvs') then Panic
  else Ok (bracketed_stretches o 123 125 (map (map (named_part E W o)) (stretches (omitted o) kvs')))).
Proof.
  intros Hne. exists (order_kvs W o None [] kvs). split; [symmetry; apply order_kvs_perm|].
  assert (HP := order_kvs_perm W o None [] kvs).
  unfold marshal_opt. cbn [marshal_to].
  change (map (fun x : bytes * (Z * V) => Entry (fst x) (fst (snd x)) (snd (snd x)) (marshal_to E W o (snd (snd x)))) kvs)
      with (map (mk_ent (marshal_to E W o)) kvs).
  rewrite order_entries_map by (now intros [? [? ?]]). rewrite members_stretches.
  set (kvs' := order_kvs W o None [] kvs) in *.
  destruct kvs as [|e kvs]; [contradiction|].
  cbn [map]. destruct (existsb panics (map (member E W o) kvs')); [reflexivity|]. cbn [rbind mok]. f_equal. rewrite nl0. unfold bracketed_stretches.
  fold (line o). destruct (stretches_cons (omitted o) kvs') as (h & t & ->). cbn [map flat_map led]. now rewrite <- !app_assoc.
Qed.

(** *** Less functions that do not look at the path *)
Definition with_less (o : opt) (f : option less_func) : opt := {|
  o_omit_null := o_omit_null o; o_ignore_omitempty := o_ignore_omitempty o;
  o_less := f; o_keyseq := o_keyseq o; o_setseq := o_setseq o;
  o_nan := o_nan o; o_nan_str := o_nan_str o; o_nan_float := o_nan_float o;
  o_inf := o_inf o; o_inf_pos := o_inf_pos o; o_inf_neg := o_inf_neg o; o_inf_float := o_inf_float o;
  o_esc := o_esc o; o_indent := o_indent o; o_prefix := o_prefix o; o_indent_str := o_indent_str o |}.

Section Ext.
Variable E : Env.
Variable W : World.
Variable o : opt.
Variables f g : less_func.
Hypothesis Hf : o_less o = Some f.
Hypothesis Hfg : forall pi k1 k2 v1 v2, f pi k1 k2 v1 v2 = g pi k1 k2 v1 v2.
Notation o' := (with_less o (Some g)).

Lemma members_ext (a b : V -> run) kvs : Forall (fun e : kvt => forall pi path k, a (snd (snd e)) pi path k = b (snd (snd e)) pi path k) kvs ->
  forall pi path k first,
  write_members o pi path k first (map (mk_ent a) kvs) = write_members o' pi path k first (map (mk_ent b) kvs).
Proof.
  induction 1 as [|[n [id x]] l Hx Hl IH]; intros pi path k first; [reflexivity|].
  cbn [map write_members mk_ent fst snd e_val e_run e_key] in *. rewrite Hf. cbn [o_less with_less].
  rewrite !Hx. destruct x; try rewrite !IH; reflexivity.
Qed.
Lemma elems_ext v (a b : V -> run) l : Forall (fun x => forall pi path k, a x pi path k = b x pi path k) l ->
  forall pi path k i, write_elems o v pi path k i (map a l) = write_elems o' v pi path k i (map b l).
Proof.
  induction 1 as [|x l Hx Hl IH]; intros pi path k i; [reflexivity|].
  cbn [map write_elems] in *. rewrite Hf. cbn [o_less with_less]. rewrite Hx, IH. reflexivity.
Qed.
Lemma order_ext pi path kvs : order_kvs W o' pi path kvs = order_kvs W o pi path kvs.
Proof. unfold order_kvs, kv_less. cbn. rewrite Hf. apply go_sort_ext. intros x y _ _. symmetry. apply Hfg. Qed.
Lemma marshal_to_ext v : forall pi path k, marshal_to E W o v pi path k = marshal_to E W o' v pi path k.
Proof.
  induction v as [ |s|n src|i kvs lo IH|l IH|b| | | ] using V_ind'; intros pi path k; try reflexivity.
  - cbn [marshal_to].
    change (map (fun x : bytes * (Z * V) => Entry (fst x) (fst (snd x)) (snd (snd x)) (marshal_to E W o (snd (snd x)))) kvs)
      with (map (mk_ent (marshal_to E W o)) kvs).
    change (map (fun x : bytes * (Z * V) => Entry (fst x) (fst (snd x)) (snd (snd x)) (marshal_to E W o' (snd (snd x)))) kvs)
      with (map (mk_ent (marshal_to E W o')) kvs).
    rewrite !order_entries_map by (now intros [? [? ?]]). rewrite order_ext.
    rewrite (members_ext _ (marshal_to E W o')).
    + destruct kvs; reflexivity.
    + eapply Permutation_Forall; [apply Permutation_sym, order_kvs_perm|exact IH].
  - cbn [marshal_to]. rewrite (elems_ext _ _ (marshal_to E W o')) by exact IH. destruct l; reflexivity.
Qed.
Lemma marshal_opt_ext v : marshal_opt E W o v = marshal_opt E W o' v.
Proof. unfold marshal_opt. destruct v; try reflexivity; now rewrite marshal_to_ext. Qed.
End Ext.

Lemma part_blind E W o pi v : blind o -> marshal_opt E W (part_opt o pi 1) v = marshal_opt E W (deeper o) v.
Proof.
  intros Hb. unfold blind in Hb. destruct (o_less o) as [f|] eqn:Hf.
  - assert (Hd : part_opt o pi 1 = with_less (deeper o) (Some (fun pi' => f (glue pi pi')))).
    { unfold part_opt, with_less, deeper. rewrite Hf. cbn. now rewrite app_nil_r. }
    rewrite Hd. symmetry. apply (marshal_opt_ext E W (deeper o) f); [exact Hf|]. intros. apply Hb.
  - f_equal. unfold part_opt, deeper. rewrite Hf. cbn. now rewrite app_nil_r.
Qed.

Lemma typed_no_panic E W o v : json_typed v -> panics (marshal_opt E W o v) = false.
Proof.
  intros Ht. pose proof (to_opt E W o v) as H. destruct (panics (marshal_opt E W o v)); [|reflexivity]. exfalso.
  destruct (marshal_to_total E W o v None [] 0%nat) as [(_ & r & Hr)|(Hn & _)]; [congruence|]. exact (typed_not_nil _ Ht Hn).
Qed.

Lemma total_deeper o kvs : total_order o kvs -> total_order (deeper o) kvs.
Proof. exact (fun H => H). Qed.

Theorem array_plain E W o l : blind o -> json_typed (VArr l) -> all_objs (total_order o) (VArr l) ->
  marshal_opt E W o (VArr l) = Ok (bracketed o 91 93 (map (fun x => text_of (marshal_opt E W (deeper o) x)) l)).
Proof.
  intros Hb Ht Ho. rewrite array_parts.
  assert (G : forall v i, elements E W o v i l = map (fun x => marshal_opt E W (deeper o) x) l).
  { intros v. apply json_typed_arr in Ht. apply all_objs_arr in Ho. induction l as [|x l IH]; intros i; [reflexivity|]. cbn [elements map].
    inversion Ht; subst. inversion Ho; subst. rewrite IH by assumption. f_equal. rewrite part_blind by assumption.
    apply output_determined; assumption. }
  rewrite G. assert (Hn : existsb panics (map (fun x => marshal_opt E W (deeper o) x) l) = false).
  { apply json_typed_arr in Ht. clear -Ht. induction Ht as [|x l Hx Hl IH]; [reflexivity|]. cbn. now rewrite typed_no_panic, IH. }
  rewrite Hn, map_map. reflexivity.
Qed.

Lemma object_plain_at E W o i kvs lo : blind o -> json_typed (VObj i kvs lo) -> all_objs (total_order o) (VObj i kvs lo) ->
  (o_omit_null o = true -> Forall (fun e : kvt => snd (snd e) <> VNull) kvs) ->
  marshal_opt E W o (VObj i kvs lo) = Ok (bracketed o 123 125 (map (fun e : kvt => quoted (o_esc o) (fst e) ++ (if o_indent o then [58; 32] else [58]) ++
    text_of (marshal_opt E W (deeper o) (snd (snd e)))) (order_kvs W o None [] kvs))).
Proof.
  intros Hb Ht Ho Hom. rewrite (object_parts_at E W o i kvs lo Hom). assert (HP := Permutation_sym (order_kvs_perm W o None [] kvs)).
  set (kvs' := order_kvs W o None [] kvs) in *.
  apply json_typed_obj in Ht as (_ & Ht). apply all_objs_obj in Ho as (_ & Ho).
  assert (Ht' : Forall (fun e : kvt => json_typed (snd (snd e))) kvs') by (eapply Permutation_Forall; [exact HP|exact Ht]).
  assert (Ho' : Forall (fun e : kvt => all_objs (total_order o) (snd (snd e))) kvs') by (eapply Permutation_Forall; [exact HP|exact Ho]).
  assert (G : Forall (fun e => member E W o e = marshal_opt E W (deeper o) (snd (snd e))) kvs').
  { rewrite Forall_forall in *. intros [k [id x]] He. cbn [member snd]. rewrite part_blind by assumption.
    apply output_determined; [exact (Ht' _ He)|exact (Ho' _ He)]. }
  assert (Hn : existsb panics (map (member E W o) kvs') = false).
  { clear -Ht' G. induction kvs' as [|e l IH]; [reflexivity|]. inversion Ht'; subst. inversion G as [|? ? Ge Gl]; subst. cbn [map existsb].
    rewrite Ge, typed_no_panic by assumption. now apply IH. }
  rewrite Hn. do 2 f_equal. apply map_ext_in. intros e He. unfold named_part. rewrite Forall_forall in G. now rewrite (G _ He).
Qed.
Theorem object_plain E W o i kvs lo : blind o -> json_typed (VObj i kvs lo) -> all_objs (total_order o) (VObj i kvs lo) ->
  (o_omit_null o = true -> Forall (fun e : kvt => snd (snd e) <> VNull) kvs) ->
  exists kvs', Permutation kvs kvs' /\
  marshal_opt E W o (VObj i kvs lo) = Ok (bracketed o 123 125 (map (fun e : kvt => quoted (o_esc o) (fst e) ++ (if o_indent o then [58; 32] else [58]) ++
    text_of (marshal_opt E W (deeper o) (snd (snd e)))) kvs')).
Proof.
  intros Hb Ht Ho Hom. exists (order_kvs W o None [] kvs). split; [symmetry; apply order_kvs_perm|now apply object_plain_at].
Qed.

Lemma deeper_flat o : o_indent o = false -> deeper o = o.
Proof. destruct o; cbn. intros ->. reflexivity. Qed.
