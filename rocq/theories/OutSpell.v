(** The output is the spelling of a rearranged value. *)
From Verif Require Import Base Float64 Value Opt Marshal ListLemmas SpecJson SpecValue SpecLax SpecText SpecOpts SpecOrder SpecSpell
  UnmarshalProof ValueLemmas SortProof MarshalProof.

Section Spell.
Variable o : opt.

Definition out (x : V) : bool := o_omit_null o && is_null x.
Definition colon : bytes := if o_indent o then [58; 32] else [58].

Definition sp_members (f : V -> nat -> bytes) (cnt : nat) : bool -> list (bytes * (Z * V)) -> bytes :=
  fix go first l :=
    match l with
    | [] => []
    | (k, (_, x)) :: r =>
      if out x then go true r
      else (if first then [] else [44]) ++ nl_indent o cnt ++ quoted (o_esc o) k ++ colon ++ f x cnt ++ go false r
    end.
Definition sp_elems (f : V -> nat -> bytes) (cnt : nat) : bool -> list V -> bytes :=
  fix go first l :=
    match l with
    | [] => []
    | x :: r => (if first then [] else [44]) ++ nl_indent o cnt ++ f x cnt ++ go false r
    end.

Fixpoint spell (v : V) (cnt : nat) : bytes :=
  match v with
  | VStr s => quoted (o_esc o) s
  | VNum _ src => src
  | VBool b => if b then bs "true" else bs "false"
  | VNull => bs "null"
  | VObj _ kvs _ =>
    match kvs with
    | [] => [123; 125]
    | _ => 123 :: sp_members spell (S cnt) true kvs ++ nl_indent o cnt ++ [125]
    end
  | VArr l =>
    match l with
    | [] => [91; 93]
    | _ => 91 :: sp_elems spell (S cnt) true l ++ nl_indent o cnt ++ [93]
    end
  | _ => []
  end.

Variable E : Env.
Variable W : World.
Variable ORD : list (bytes * (Z * V)) -> Prop.
Hypothesis ORD_same : forall a b, map fst a = map fst b -> map (fun x => fst (snd x)) a = map (fun x => fst (snd x)) b -> ORD a -> ORD b.

Definition runs_as (v : V) (run : option pinfo -> list key -> nat -> mres) : Prop :=
  v <> VNil /\ forall pi path cnt, exists v' e, rearranged v v' /\ all_objs ORD v' /\ run pi path cnt = Ok (spell v' cnt, e) /\
    (e = None \/ exists n, v = VNum n []).

Lemma rearranged_null v v' : rearranged v v' -> is_null v = is_null v'.
Proof. intros []; reflexivity. Qed.

Lemma members_run pi path cnt : forall es,
  Forall (fun e => runs_as (e_val e) (e_run e)) es -> exists kvs', 
  Forall2 (fun e y => e_key e = fst y /\ e_id e = fst (snd y) /\ rearranged (e_val e) (snd (snd y))) es kvs' /\
  Forall (fun y => all_objs ORD (snd (snd y))) kvs' /\
  forall first, write_members o pi path cnt first es = Ok (sp_members spell cnt first kvs').
Proof.
  induction es as [|e r IH]; intros H; [exists []; repeat split; constructor|].
  inversion H as [|? ? [Hn Hr] Hes]; subst. destruct (IH Hes) as (kvs' & H1 & H2 & H3).
  destruct (Hr (match o_less o with
                | Some _ => Some (new_parent_info (e_val e) pi (string_key (e_key e)))
                | None => None end) (path ++ [string_key (e_key e)]) cnt) as (v' & er & Hra & Ho & Hrun & _).
  exists ((e_key e, (e_id e, v')) :: kvs'). split; [constructor; [auto|exact H1]|]. split; [constructor; assumption|].
  intros first. cbn [write_members sp_members]. fold (sp_members spell cnt).
  pose proof (rearranged_null _ _ Hra) as Hnull. unfold out. rewrite <- Hnull.
  destruct (e_val e) eqn:Ev; try congruence; cbn [is_null]; rewrite ?andb_false_r, ?andb_true_r;
    try (rewrite Hrun; cbn [rbind]; rewrite H3; cbn [rbind]; unfold colon; reflexivity).
  destruct (o_omit_null o); [apply H3|]. rewrite Hrun; cbn [rbind]; rewrite H3; cbn [rbind]; unfold colon; reflexivity.
Qed.

Lemma elems_run v pi path cnt : forall l runs i, 0 <= i -> Forall2 runs_as l runs -> exists l',
  Forall2 rearranged l l' /\ Forall (all_objs ORD) l' /\
  write_elems o v pi path cnt i runs = Ok (sp_elems spell cnt (negb (0 <? i)) l').
Proof.
  intros l runs i Hi H. revert i Hi. induction H as [|x run l runs [Hn Hr] _ IH]; intros i Hi.
  - exists []. repeat split; constructor.
  - destruct (IH (i + 1) ltac:(lia)) as (l' & H1 & H2 & H3).
    destruct (Hr (match o_less o with
                        | Some _ => Some (new_parent_info v pi (int_key i))
                        | None => None end)
                       (path ++ [int_key i]) cnt) as (x' & er & Hra & Ho & Hrun & _).
    exists (x' :: l'). split; [now constructor|]. split; [now constructor|].
    cbn [write_elems sp_elems]. fold (sp_elems spell cnt). rewrite Hrun. cbn [rbind]. rewrite H3. cbn [rbind].
    replace (0 <? i + 1) with true by lia. cbn [negb]. destruct (0 <? i); reflexivity.
Qed.

Lemma marshal_runs : forall v, json_typed v -> all_text (fun _ => True) (fun _ src => src <> [] \/ o_nan o = 0 /\ o_inf o = 0) v ->
  all_objs (in_order E W o ORD) v -> runs_as v (marshal_to E W o v).
Proof.
  induction v as [| s | n src | i kvs lo IH | l IH | b | | | ] using V_ind'; intros Ht Ha Ho; try contradiction.
  - split; [discriminate|]. intros pi path cnt. exists (VStr s), None. split; [constructor; discriminate|]. split; [exact I|]. split; [reflexivity|now left].
  - split; [discriminate|]. intros pi path cnt. cbn in Ha. destruct src as [|c src].
    + exists (VNum n []), (Some ErrUnsupportedFloat). split; [constructor; discriminate|]. split; [exact I|]. split; [|right; now exists n].
      destruct Ha as [Ha|[H1 H2]]; [congruence|]. cbn. unfold marshal_infp, marshal_infn, marshal_nan. rewrite H1, H2. cbn.
      destruct (is_infp (n_f64 n)), (is_infn (n_f64 n)); reflexivity.
    + exists (VNum n (c :: src)), None. split; [constructor; discriminate|]. split; [exact I|]. split; [reflexivity|now left].
  - split; [discriminate|]. intros pi path cnt.
    apply json_typed_obj in Ht. apply all_text_obj in Ha. apply all_objs_obj in Ho. destruct Ho as [Hord Ho].
    destruct Ht as [Hnd Ht].
    cbn [marshal_to]. change (map _ kvs) with (map (mk_entry E W o) kvs).
    destruct kvs as [|kv0 kvs0] eqn:Ek.
    { exists (VObj i [] lo), None. split; [apply (RA_obj i [] lo [] []); constructor|]. split; [|split; [reflexivity|now left]].
      apply all_objs_obj. split; [|constructor].
      apply (Hord None []); [|constructor]. apply Permutation_nil, Permutation_sym, order_entries_perm. }
    rewrite <- Ek in *. assert (Hne : kvs <> []) by (rewrite Ek; discriminate).
    assert (Hne' : map (mk_entry E W o) kvs <> []) by (rewrite Ek; discriminate).
    destruct (map (mk_entry E W o) kvs) as [|e0 es0] eqn:Ee; [congruence|]. rewrite <- Ee. clear e0 es0 Ee Hne' Ek kv0 kvs0.
    pose proof (order_entries_perm W o pi path (map (mk_entry E W o) kvs)) as P.
    set (es := order_entries W o pi path (map (mk_entry E W o) kvs)) in *.
    apply Permutation_map_inv in P as (kvs1 & Ees & P).
    destruct (members_run pi path (S cnt) es) as (kvs' & H1 & H2 & H3).
    { rewrite Ees. apply Forall_map. eapply Permutation_Forall; [exact P|].
      rewrite Forall_forall in IH, Ht, Ha, Ho |- *. intros x Hx.
      apply (IH x Hx); [now apply Ht|apply (Ha x Hx)|now apply Ho]. }
    rewrite Ees in H1. apply (proj1 (Forall2_map_l (mk_entry E W o) _ kvs1 kvs')) in H1.
    exists (VObj i kvs' lo), None. split; [apply (RA_obj i kvs lo kvs1 kvs'); assumption|]. split.
    + apply all_objs_obj. split; [|exact H2]. apply (ORD_same kvs1 kvs').
      * clear -H1. induction H1 as [|x y l l' (Hx & _) _ IHl]; [reflexivity|]. cbn [map]. rewrite IHl, <- Hx. reflexivity.
      * clear -H1. induction H1 as [|x y l l' (_ & Hx & _) _ IHl]; [reflexivity|]. cbn [map]. rewrite IHl, <- Hx. reflexivity.
      * apply (Hord pi path); assumption.
    + split; [|now left]. rewrite H3. cbn [rbind spell]. destruct kvs' as [|y kvs']; [|reflexivity].
      inversion H1; subst. apply Permutation_sym, Permutation_nil in P. congruence.
  - split; [discriminate|]. intros pi path cnt.
    apply json_typed_arr in Ht. apply all_text_arr in Ha. apply all_objs_arr in Ho.
    cbn [marshal_to]. destruct l as [|x l0] eqn:El.
    { exists (VArr []), None. split; [apply RA_arr; constructor|]. split; [exact I|]. split; [reflexivity|now left]. }
    rewrite <- El in *.
    destruct (elems_run (VArr l) pi path (S cnt) l (map (marshal_to E W o) l) 0) as (l' & H1 & H2 & ->); [lia| |].
    { clear El. induction l as [|y l IHl]; [constructor|].
      inversion IH; inversion Ht; inversion Ha; inversion Ho; subst. cbn [map]. constructor; auto. }
    exists (VArr l'), None. split; [now apply RA_arr|]. split; [now apply all_objs_arr|]. split; [|now left].
    cbn [rbind spell]. destruct l' as [|y l']; [|reflexivity]. subst l. inversion H1.
  - split; [discriminate|]. intros pi path cnt. exists (VBool b), None. split; [constructor; discriminate|]. split; [exact I|]. split; [reflexivity|now left].
  - split; [discriminate|]. intros pi path cnt. exists VNull, None. split; [constructor; discriminate|]. split; [exact I|]. split; [reflexivity|now left].
Qed.
End Spell.
