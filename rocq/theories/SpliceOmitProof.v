(** What an edit changes in the text under OptOmitNull (C92). *)
From Verif Require Import Base Float64 Value Opt Marshal Path Edit SpecJson SpecValue SpecText SpecOpts SpecOrder SpecPath SpecPieces SpecSplice
  ListLemmas ValueLemmas SortProof OrderProof MarshalTotal MarshalProof MarshalClaims IndentProof PiecesProof CanonProof ContainProof
  PathProof SetProof SetClaims EditClaims SetExact SpliceProof.

(** *** Stretches *)
Lemma stretches_app {A} (out : A -> bool) p : exists s1 a, forall l, exists h t, stretches out l = h :: t /\ stretches out (p ++ l) = s1 ++ (a ++ h) :: t.
Proof.
  induction p as [|x p (s1 & a & IH)].
  - exists [], []. intros l. destruct (stretches_cons out l) as (h & t & E). exists h, t. auto.
  - destruct (out x) eqn:Ex.
    + exists ([] :: s1), a. intros l. destruct (IH l) as (h & t & E1 & E2). exists h, t. split; [exact E1|]. cbn [app stretches]. now rewrite Ex, E2.
    + destruct s1 as [|b s1].
      * exists [], (x :: a). intros l. destruct (IH l) as (h & t & E1 & E2). exists h, t. split; [exact E1|]. cbn [app stretches]. now rewrite Ex, E2.
      * exists ((x :: b) :: s1), a. intros l. destruct (IH l) as (h & t & E1 & E2). exists h, t. split; [exact E1|]. cbn [app stretches]. now rewrite Ex, E2.
Qed.
(** Around the member at one place: the stretches before and after it, its neighbours on the left and on the right. *)
Lemma stretches_at {A} (out : A -> bool) p q : exists s1 a b s2,
  (forall x, out x = false -> stretches out (p ++ x :: q) = s1 ++ (a ++ x :: b) :: s2) /\
  (forall x, out x = true -> stretches out (p ++ x :: q) = s1 ++ a :: b :: s2) /\
  stretches out (p ++ q) = s1 ++ (a ++ b) :: s2.
Proof.
  destruct (stretches_app out p) as (s1 & a & H). destruct (H q) as (b & s2 & E1 & E2). exists s1, a, b, s2. split; [|split; [|exact E2]].
  - intros x Hx. destruct (H (x :: q)) as (h & t & G1 & G2). cbn [stretches] in G1. rewrite Hx, E1 in G1. injection G1 as <- <-. exact G2.
  - intros x Hx. destruct (H (x :: q)) as (h & t & G1 & G2). cbn [stretches] in G1. rewrite Hx, E1 in G1. injection G1 as <- <-.
    rewrite G2, app_nil_r. reflexivity.
Qed.

Section Brackets.
Variable o : opt.
Variables a z : Z.
Notation line := (if o_indent o then 10 :: o_prefix o ++ o_indent_str o else []).
Notation last := (if o_indent o then 10 :: o_prefix o else []).
Notation run r := (commas (map (app line) r)).

Definition before (l : list bytes) : bytes := match l with [] => [] | _ => [44] end.

Lemma run_around l r : exists pre post, (forall part, run (l ++ part :: r) = pre ++ (before l ++ line ++ part ++ before r) ++ post) /\
  run l = pre /\ run r = post /\ run (l ++ r) = pre ++ (match l, r with _ :: _, _ :: _ => [44] | _, _ => [] end) ++ post.
Proof.
  exists (run l), (run r). split; [|split; [reflexivity|split; [reflexivity|]]].
  - intros part. rewrite map_app. cbn [map]. rewrite commas_app. destruct l as [|x l]; destruct r as [|y r]; cbn [map before app commas];
      rewrite ?app_nil_r; repeat (rewrite <- app_assoc; cbn [app]); reflexivity.
  - rewrite map_app, commas_app. destruct l as [|x l]; destruct r as [|y r]; cbn [map before app]; rewrite ?app_nil_r; reflexivity.
Qed.

Lemma stretch_around s1 l r s2 : exists pre post,
  (forall part, bracketed_stretches o a z (s1 ++ (l ++ part :: r) :: s2) = pre ++ (before l ++ line ++ part ++ before r) ++ post) /\
  bracketed_stretches o a z (s1 ++ l :: r :: s2) = pre ++ post /\
  bracketed_stretches o a z (s1 ++ (l ++ r) :: s2) = pre ++ (match l, r with _ :: _, _ :: _ => [44] | _, _ => [] end) ++ post.
Proof.
  destruct (run_around l r) as (pre & post & H1 & H2 & H3 & H4). unfold bracketed_stretches.
  exists (a :: flat_map (fun r => run r) s1 ++ pre), (post ++ flat_map (fun r => run r) s2 ++ last ++ [z]).
  split; [|split].
  - intros part. rewrite flat_map_app. cbn [flat_map]. rewrite H1. cbn [app]. rewrite <- !app_assoc. reflexivity.
  - rewrite flat_map_app. cbn [flat_map]. rewrite H2, H3. cbn [app]. rewrite <- !app_assoc. reflexivity.
  - rewrite flat_map_app. cbn [flat_map]. rewrite H4. cbn [app]. rewrite <- !app_assoc. reflexivity.
Qed.
End Brackets.

Section Named.
Variable E : Env.
Variable W : World.

Lemma object_stretches_at o i kvs lo : kvs <> [] ->
  marshal_opt E W o (VObj i kvs lo) =
  if existsb panics (map (member E W o) (order_kvs W o None [] kvs)) then Panic
  else Ok (bracketed_stretches o 123 125 (map (map (named_part E W o)) (stretches (omitted o) (order_kvs W o None [] kvs)))).
Proof.
  intros Hne. assert (HP := order_kvs_perm W o None [] kvs).
  unfold marshal_opt. cbn [marshal_to].
  change (map (fun x : bytes * (Z * V) => Entry (fst x) (fst (snd x)) (snd (snd x)) (marshal_to E W o (snd (snd x)))) kvs)
      with (map (mk_ent (marshal_to E W o)) kvs).
  rewrite order_entries_map by (now intros [? [? ?]]). rewrite members_stretches.
  set (kvs' := order_kvs W o None [] kvs) in *.
  destruct kvs as [|e kvs]; [contradiction|].
  cbn [map]. destruct (existsb panics (map (member E W o) kvs')); [reflexivity|]. cbn [rbind mok]. f_equal. rewrite nl0. unfold bracketed_stretches.
  fold (line o). destruct (stretches_cons (omitted o) kvs') as (h & t & ->). cbn [map flat_map led]. now rewrite <- !app_assoc.
Qed.

Lemma in_stretches {A} (out : A -> bool) l r x : In r (stretches out l) -> In x r -> In x l.
Proof.
  revert r. induction l as [|y l IH]; intros r Hr Hx; cbn [stretches] in Hr.
  - destruct Hr as [<-|[]]. destruct Hx.
  - destruct (out y).
    + destruct Hr as [<-|Hr]; [destruct Hx|]. right. eauto.
    + destruct (stretches_cons out l) as (h & t & Es). rewrite Es in Hr, IH. destruct Hr as [<-|Hr].
      * destruct Hx as [->|Hx]; [now left|]. right. apply (IH h); [now left|exact Hx].
      * right. apply (IH r); [now right|exact Hx].
Qed.

Lemma object_named_omit o : by_name o -> exists lt : bytes -> bytes -> Prop,
  (forall a b, lt a b -> lt b a -> False) /\
  forall i kvs lo, json_typed (VObj i kvs lo) -> exists s, Permutation kvs s /\ by_key lt s /\
    marshal_opt E W o (VObj i kvs lo) = Ok (match s with [] => [123; 125] | _ => bracketed_stretches o 123 125 (map (map (mpart E W o)) (stretches (omitted o) s)) end).
Proof.
  intros Hn. destruct (name_order E W o Hn) as (lt & Has & Hin). exists lt. split; [exact Has|]. intros i kvs lo Ht.
  exists (order_kvs W o None [] kvs). assert (HP := Permutation_sym (order_kvs_perm W o None [] kvs)). split; [exact HP|].
  assert (Ht0 := Ht). apply json_typed_obj in Ht as [Hnd Ht]. split; [apply (Hin kvs Hnd None []); [apply order_mk|exact HP]|].
  destruct kvs as [|e0 r].
  { destruct (object_parts E W o i [] lo) as (kvs' & Hp & ->); [constructor|]. apply Permutation_nil in Hp. subst kvs'.
    apply Permutation_nil in HP. rewrite HP. reflexivity. }
  rewrite object_stretches_at by discriminate. assert (Ho := by_name_all o (VObj i (e0 :: r) lo) Hn). apply all_objs_obj in Ho as (_ & Ho).
  assert (Hne : order_kvs W o None [] (e0 :: r) <> []) by (intros Z; rewrite Z in HP; apply Permutation_sym, Permutation_nil in HP; discriminate).
  revert HP Hne Ht Ho. generalize (order_kvs W o None [] (e0 :: r)) as s. intros s HP Hne Ht Ho.
  apply (Permutation_Forall HP) in Ht, Ho.
  assert (G : Forall (fun e => member E W o e = marshal_opt E W (deeper o) (snd (snd e))) s).
  { rewrite Forall_forall in *. intros [k [id x]] He. cbn [member snd]. rewrite part_blind by now apply by_name_blind.
    apply output_determined; [exact (Ht _ He)|exact (Ho _ He)]. }
  assert (Hp : existsb panics (map (member E W o) s) = false).
  { clear -Ht G. induction s as [|e l IH]; [reflexivity|]. inversion Ht; subst. inversion G as [|? ? Ge Gl]; subst. cbn [map existsb].
    rewrite Ge, typed_no_panic by assumption. now apply IH. }
  rewrite Hp. destruct s as [|e s]; [contradiction|]. do 2 f_equal. apply map_ext_in. intros run Hr. apply map_ext_in. intros x Hx.
  unfold mpart, labelled, named_part. rewrite Forall_forall in G. rewrite (G x); [reflexivity|]. eapply in_stretches; eassumption.
Qed.

(** *** One object *)
Variable o : opt.
Hypothesis Hn : by_name o.
Notation txt x := (text_of (marshal_opt E W (deeper o) x)).
Notation line := (if o_indent o then 10 :: o_prefix o ++ o_indent_str o else []).
Notation last := (if o_indent o then 10 :: o_prefix o else []).
Notation obj s := (match s%list with [] => [123; 125] | _ => bracketed_stretches o 123 125 (map (map (mpart E W o)) (stretches (omitted o) s%list)) end).

Lemma obj_around p q : exists l r pre post,
  (forall e, omitted o e = false -> obj (p ++ e :: q) = pre ++ (before l ++ line ++ mpart E W o e ++ before r) ++ post) /\
  (forall e, omitted o e = true -> obj (p ++ e :: q) = pre ++ post) /\
  ((p ++ q <> [] /\ obj (p ++ q) = pre ++ (match l, r with _ :: _, _ :: _ => [44] | _, _ => [] end) ++ post) \/
   (p = [] /\ q = [] /\ l = [] /\ r = [] /\ pre = [123] /\ post = last ++ [125])).
Proof.
  destruct (stretches_at (omitted o) p q) as (s1 & a & b & s2 & H1 & H2 & H3).
  set (m := mpart E W o) in *.
  assert (Hne : forall e, p ++ e :: q <> []) by (destruct p; discriminate).
  destruct p as [|x p]; [destruct q as [|y q]|].
  - exists [], [], [123], (last ++ [125]). split; [|split].
    + intros e He. cbn [app stretches]. rewrite He. unfold bracketed_stretches. cbn [map flat_map commas app before]. rewrite <- !app_assoc. reflexivity.
    + intros e He. cbn [app stretches]. rewrite He. reflexivity.
    + right. auto 6.
  - destruct (stretch_around o 123 125 (map (map m) s1) (map m a) (map m b) (map (map m) s2)) as (pre & post & G1 & G2 & G3).
    exists (map m a), (map m b), pre, post. split; [|split].
    + intros e He. cbn [app]. cbn [app] in H1. rewrite (H1 e He), map_app. cbn [map]. rewrite map_app. cbn [map]. apply G1.
    + intros e He. cbn [app]. cbn [app] in H2. rewrite (H2 e He), map_app. cbn [map]. apply G2.
    + left. split; [discriminate|]. cbn [app] in H3 |- *. rewrite H3, map_app. cbn [map]. rewrite map_app. exact G3.
  - destruct (stretch_around o 123 125 (map (map m) s1) (map m a) (map m b) (map (map m) s2)) as (pre & post & G1 & G2 & G3).
    exists (map m a), (map m b), pre, post. split; [|split].
    + intros e He. cbn [app]. cbn [app] in H1. rewrite (H1 e He), map_app. cbn [map]. rewrite map_app. cbn [map]. apply G1.
    + intros e He. cbn [app]. cbn [app] in H2. rewrite (H2 e He), map_app. cbn [map]. apply G2.
    + left. split; [discriminate|]. cbn [app] in H3 |- *. rewrite H3, map_app. cbn [map]. rewrite map_app. exact G3.
Qed.

(** Two objects that differ in one member. *)
Lemma objects_apart i kvs lo i' kvs' lo' k id x id' x' : json_typed (VObj i kvs lo) -> json_typed (VObj i' kvs' lo') ->
  In (k, (id, x)) kvs -> In (k, (id', x')) kvs' -> (forall k' e, k' <> k -> (In (k', e) kvs' <-> In (k', e) kvs)) ->
  exists p q, marshal_opt E W o (VObj i kvs lo) = Ok (obj (p ++ (k, (id, x)) :: q)) /\ marshal_opt E W o (VObj i' kvs' lo') = Ok (obj (p ++ (k, (id', x')) :: q)).
Proof using Hn.
  intros Ht Ht' Hi Hi' Hs. destruct (object_named_omit o Hn) as (lt & Has & HO).
  destruct (HO _ _ _ Ht) as (s & Hp & Hb & ->). destruct (HO _ _ _ Ht') as (s' & Hp' & Hb' & ->).
  apply json_typed_obj in Ht as [Hnd _], Ht' as [Hnd' _].
  assert (Hsi : In (k, (id, x)) s) by (eapply Permutation_in; eassumption). apply in_split in Hsi as (p & q & ->).
  assert (Es : s' = p ++ (k, (id', x')) :: q).
  { symmetry. apply (sorted_same lt); [exact Has| |apply ord_app_cons; apply ord_app_cons in Hb; exact Hb|exact Hb'].
    assert (Hnk : NoDup (map fst (p ++ (k, (id, x)) :: q))) by (eapply Permutation_NoDup; [apply Permutation_map, Hp|exact Hnd]).
    assert (Hnk' : NoDup (map fst s')) by (eapply Permutation_NoDup; [apply Permutation_map, Hp'|exact Hnd']).
    apply NoDup_Permutation.
    - apply (NoDup_map_inv fst). rewrite map_app in *. exact Hnk.
    - now apply (NoDup_map_inv fst).
    - assert (Hk0 : forall e, In (k, e) (p ++ (k, (id', x')) :: q) <-> e = (id', x')).
      { intros e. split; [|intros ->; apply in_elt]. intros He. rewrite map_app in Hnk. cbn in Hnk. apply NoDup_remove_2 in Hnk.
        apply in_app_or in He as [He|[He|He]]; [|congruence|]; elim Hnk; apply in_or_app; [left|right]; apply in_map_iff; exists (k, e); auto. }
      intros [k' e]. destruct (list_eq_dec Z.eq_dec k' k) as [->|Hk].
      + rewrite Hk0. split; [intros ->; now apply (Permutation_in _ Hp')|]. intros He.
        apply (Permutation_in _ (Permutation_sym Hp')) in He.
        apply (alookup_NoDup_In _ _ _ Hnd') in He. apply (alookup_NoDup_In _ _ _ Hnd') in Hi'. congruence.
      + split; intros He.
        * apply (Permutation_in _ Hp'), Hs; [exact Hk|]. apply (Permutation_in _ (Permutation_sym Hp)).
          apply in_app_or in He as [He|[He|He]]; apply in_or_app; [now left|congruence|right; now right].
        * apply (Permutation_in _ (Permutation_sym Hp')) in He. apply Hs in He; [|exact Hk]. apply (Permutation_in _ Hp) in He.
          apply in_app_or in He as [He|[He|He]]; apply in_or_app; [now left|congruence|right; now right]. }
  subst s'. exists p, q. auto.
Qed.
Lemma object_more i kvs lo i' kvs' lo' k id x : json_typed (VObj i kvs lo) -> json_typed (VObj i' kvs' lo') ->
  ~ In k (map fst kvs) -> In (k, (id, x)) kvs' -> (forall k' e, k' <> k -> (In (k', e) kvs' <-> In (k', e) kvs)) ->
  exists p q, marshal_opt E W o (VObj i kvs lo) = Ok (obj (p ++ q)) /\ marshal_opt E W o (VObj i' kvs' lo') = Ok (obj (p ++ (k, (id, x)) :: q)).
Proof using Hn.
  intros Ht Ht' Hni Hi' Hs. destruct (object_named_omit o Hn) as (lt & Has & HO).
  destruct (HO _ _ _ Ht) as (s & Hp & Hb & ->). destruct (HO _ _ _ Ht') as (s' & Hp' & Hb' & ->).
  apply json_typed_obj in Ht as [Hnd _], Ht' as [Hnd' _].
  assert (Hsi : In (k, (id, x)) s') by (eapply Permutation_in; eassumption). apply in_split in Hsi as (p & q & ->).
  assert (Es : s = p ++ q).
  { symmetry. apply (sorted_same lt); [exact Has| |apply ord_app_cons in Hb'; apply Hb'|exact Hb].
    assert (Hnk : NoDup (map fst (p ++ (k, (id, x)) :: q))) by (eapply Permutation_NoDup; [apply Permutation_map, Hp'|exact Hnd']).
    assert (Hnk' : NoDup (map fst s)) by (eapply Permutation_NoDup; [apply Permutation_map, Hp|exact Hnd]).
    rewrite map_app in Hnk. cbn in Hnk. pose proof (NoDup_remove_1 _ _ _ Hnk) as N1. pose proof (NoDup_remove_2 _ _ _ Hnk) as N2. rewrite <- map_app in N1, N2.
    apply NoDup_Permutation; [now apply (NoDup_map_inv fst)|now apply (NoDup_map_inv fst)|].
    intros [k' e]. split; intros He.
    - assert (Hk : k' <> k) by (intros ->; apply N2, in_map_iff; exists (k, e); auto).
      apply (Permutation_in _ Hp), Hs; [exact Hk|]. apply (Permutation_in _ (Permutation_sym Hp')).
      apply in_app_or in He as [He|He]; apply in_or_app; [now left|right; now right].
    - apply (Permutation_in _ (Permutation_sym Hp)) in He.
      assert (Hk : k' <> k) by (intros ->; apply Hni, in_map_iff; exists (k, e); auto).
      apply Hs in He; [|exact Hk]. apply (Permutation_in _ Hp') in He.
      apply in_app_or in He as [He|[He|He]]; apply in_or_app; [now left|congruence|now right]. }
  subst s. exists p, q. auto.
Qed.

Lemma shown k id x : (o_omit_null o = true -> x <> VNull) -> omitted o (k, (id, x)) = false.
Proof. intros H. unfold omitted. cbn. destruct x; try reflexivity. destruct (o_omit_null o); [now elim H|reflexivity]. Qed.

Lemma object_replace_omit i kvs lo i' kvs' lo' k id x id' x' : json_typed (VObj i kvs lo) -> json_typed (VObj i' kvs' lo') ->
  In (k, (id, x)) kvs -> In (k, (id', x')) kvs' -> (forall k' e, k' <> k -> (In (k', e) kvs' <-> In (k', e) kvs)) ->
  (o_omit_null o = true -> x <> VNull /\ x' <> VNull) ->
  exists pre post, marshal_opt E W o (VObj i kvs lo) = Ok (pre ++ txt x ++ post) /\
    marshal_opt E W o (VObj i' kvs' lo') = Ok (pre ++ txt x' ++ post).
Proof using Hn.
  intros Ht Ht' Hi Hi' Hs Hx. destruct (objects_apart i kvs lo i' kvs' lo' k id x id' x' Ht Ht' Hi Hi' Hs) as (p & q & -> & ->).
  destruct (obj_around p q) as (l & r & pre & post & H1 & _ & _).
  rewrite !H1 by (apply shown; intros Z; now apply Hx in Z).
  set (nm := quoted (o_esc o) k ++ (if o_indent o then [58; 32] else [58])).
  assert (Hm : forall j y, mpart E W o (k, (j, y)) = nm ++ txt y) by (intros j y; unfold mpart, labelled, nm; cbn [fst snd]; now rewrite <- app_assoc).
  exists (pre ++ before l ++ line ++ nm), (before r ++ post). rewrite !Hm, <- !app_assoc. auto.
Qed.

Lemma object_insert_omit i kvs lo i' kvs' lo' k id x : json_typed (VObj i kvs lo) -> json_typed (VObj i' kvs' lo') ->
  ~ In k (map fst kvs) -> In (k, (id, x)) kvs' -> (forall k' e, k' <> k -> (In (k', e) kvs' <-> In (k', e) kvs)) ->
  (o_omit_null o = true -> x <> VNull) ->
  exists pre mid post, piece_omit o (labelled o (HKey k) (txt x)) mid /\
    marshal_opt E W o (VObj i' kvs' lo') = Ok (pre ++ mid ++ post) /\ marshal_opt E W o (VObj i kvs lo) = Ok (pre ++ post).
Proof using Hn.
  intros Ht Ht' Hni Hi' Hs Hx. destruct (object_more i kvs lo i' kvs' lo' k id x Ht Ht' Hni Hi' Hs) as (p & q & -> & ->).
  destruct (obj_around p q) as (l & r & pre & post & H1 & _ & H3). rewrite H1 by now apply shown. unfold piece_omit, piece.
  change (mpart E W o (k, (id, x))) with (labelled o (HKey k) (txt x)). set (part := labelled _ _ _).
  destruct H3 as [[_ ->]|(-> & -> & -> & -> & -> & ->)].
  - destruct l as [|l0 l]; destruct r as [|r0 r]; cbn [before app].
    + exists pre, (line ++ part), post. split; [right; reflexivity|]. rewrite app_nil_r. auto.
    + exists pre, (line ++ part ++ [44]), post. split; [left; right; left; reflexivity|]. auto.
    + exists pre, (44 :: line ++ part), post. split; [left; left; reflexivity|]. rewrite app_nil_r. auto.
    + exists pre, (44 :: line ++ part), (44 :: post). split; [left; left; reflexivity|]. cbn [app]. split; [|reflexivity].
      do 2 f_equal. cbn [app]. rewrite <- !app_assoc. reflexivity.
  - exists [123], (line ++ part ++ last), [125]. split; [left; right; right; reflexivity|]. cbn [before app]. split; [|reflexivity].
    do 2 f_equal. rewrite app_nil_r, <- !app_assoc. reflexivity.
Qed.

(** A null member comes or goes. *)
Lemma object_null_omit i kvs lo i' kvs' lo' k id : json_typed (VObj i kvs lo) -> json_typed (VObj i' kvs' lo') ->
  ~ In k (map fst kvs) -> In (k, (id, VNull)) kvs' -> (forall k' e, k' <> k -> (In (k', e) kvs' <-> In (k', e) kvs)) ->
  o_omit_null o = true ->
  exists pre mid mid' post, null_gone o mid mid' /\
    marshal_opt E W o (VObj i' kvs' lo') = Ok (pre ++ mid ++ post) /\ marshal_opt E W o (VObj i kvs lo) = Ok (pre ++ mid' ++ post).
Proof using Hn.
  intros Ht Ht' Hni Hi' Hs Ho. destruct (object_more i kvs lo i' kvs' lo' k id VNull Ht Ht' Hni Hi' Hs) as (p & q & -> & ->).
  destruct (obj_around p q) as (l & r & pre & post & _ & H2 & H3). rewrite H2 by exact Ho. unfold null_gone.
  destruct H3 as [[_ ->]|(-> & -> & -> & -> & -> & ->)].
  - exists pre, [], (match l, r with _ :: _, _ :: _ => [44] | _, _ => [] end), post. split; [|auto]. destruct l; [auto|]. destruct r; auto.
  - exists [123], last, [], [125]. split; [auto|]. auto.
Qed.
(** A member becomes null. *)
Lemma object_nulled i kvs lo i' kvs' lo' k id x id' : json_typed (VObj i kvs lo) -> json_typed (VObj i' kvs' lo') ->
  In (k, (id, x)) kvs -> In (k, (id', VNull)) kvs' -> (forall k' e, k' <> k -> (In (k', e) kvs' <-> In (k', e) kvs)) ->
  o_omit_null o = true -> x <> VNull ->
  exists pre mid post, piece_both o (labelled o (HKey k) (txt x)) mid /\
    marshal_opt E W o (VObj i kvs lo) = Ok (pre ++ mid ++ post) /\
    marshal_opt E W o (VObj i' kvs' lo') = Ok (pre ++ post).
Proof using Hn.
  intros Ht Ht' Hi Hi' Hs Ho Hx. destruct (objects_apart i kvs lo i' kvs' lo' k id x id' VNull Ht Ht' Hi Hi' Hs) as (p & q & -> & ->).
  destruct (obj_around p q) as (l & r & pre & post & H1 & H2 & _).
  rewrite H1 by now apply shown. rewrite H2 by exact Ho. exists pre, (before l ++ line ++ labelled o (HKey k) (txt x) ++ before r), post.
  split; [|auto]. exists (before l), (before r). unfold before. split; [destruct l; auto|]. split; [destruct r; auto|]. reflexivity.
Qed.
Lemma object_null_null i kvs lo i' kvs' lo' k id id' : json_typed (VObj i kvs lo) -> json_typed (VObj i' kvs' lo') ->
  In (k, (id, VNull)) kvs -> In (k, (id', VNull)) kvs' -> (forall k' e, k' <> k -> (In (k', e) kvs' <-> In (k', e) kvs)) ->
  o_omit_null o = true -> exists b, marshal_opt E W o (VObj i kvs lo) = Ok b /\ marshal_opt E W o (VObj i' kvs' lo') = Ok b.
Proof using Hn.
  intros Ht Ht' Hi Hi' Hs Ho. destruct (objects_apart i kvs lo i' kvs' lo' k id VNull id' VNull Ht Ht' Hi Hi' Hs) as (p & q & -> & ->).
  destruct (obj_around p q) as (l & r & pre & post & _ & H2 & _). rewrite !H2 by exact Ho. eauto.
Qed.
End Named.

(** *** Deep inside *)
Lemma changed_not_null (R : V -> V -> Prop) : (forall d d', R d d' -> d <> VNull /\ d' <> VNull) ->
  forall hs v v', changed R hs v v' -> v <> VNull /\ v' <> VNull.
Proof. intros HN hs v v' H. destruct H; [now apply HN|split; discriminate|split; discriminate]. Qed.
Lemma changed_text_omit E W (R : V -> V -> Prop) : (forall d d', R d d' -> d <> VNull /\ d' <> VNull) -> forall hs v v', changed R hs v v' -> forall o, by_name o ->
  json_typed v -> json_typed v' ->
  (hs = [] /\ R v v') \/
  exists d d' pre post, R d d' /\ json_typed d /\ json_typed d' /\ sits v hs d /\
    marshal_opt E W o v = Ok (pre ++ text_of (marshal_opt E W (deep (List.length hs) o) d) ++ post) /\
    marshal_opt E W o v' = Ok (pre ++ text_of (marshal_opt E W (deep (List.length hs) o) d') ++ post).
Proof.
  intros HN hs v v' H. induction H as [v v' H|i a k id x x' b lo hs H IH|a x x' b hs H IH]; intros o Hn Ht Ht'; [now left| |]; right.
  - assert (Hx : json_typed x /\ json_typed x').
    { apply json_typed_obj in Ht as [_ Ht], Ht' as [_ Ht']. apply Forall_app in Ht as [_ Ht], Ht' as [_ Ht']. inversion Ht; inversion Ht'; auto. }
    destruct Hx as [Hx Hx'].
    destruct (object_replace_omit E W o Hn i _ lo i _ lo k id x id x' Ht Ht') as (pre & post & G1 & G2); [apply in_elt|apply in_elt| |intros _; eapply changed_not_null; eassumption|].
    { intros k' e Hk. split; intros He; apply in_app_or in He as [He|[He|He]]; apply in_or_app; (now left) || congruence || (right; now right). }
    destruct (IH (deeper o) Hn Hx Hx') as [[-> HR]|(d & d' & pre' & post' & HR & Hd & Hd' & Hs & M1 & M2)].
    + exists x, x', pre, post. repeat (split; [assumption|]). split; [|split; assumption]. eapply sits_key; [apply in_elt|constructor].
    + exists d, d', (pre ++ pre'), (post' ++ post). repeat (split; [assumption|]). split; [eapply sits_key; [apply in_elt|exact Hs]|].
      rewrite M1 in G1. rewrite M2 in G2. cbn [text_of] in G1, G2. rewrite deep_deeper in G1, G2. cbn [List.length]. rewrite <- !app_assoc in *. auto.
  - assert (Hx : json_typed x /\ json_typed x').
    { apply json_typed_arr in Ht, Ht'. apply Forall_app in Ht as [_ Ht], Ht' as [_ Ht']. inversion Ht; inversion Ht'; auto. }
    destruct Hx as [Hx Hx'].
    destruct (array_replace E W o Hn a b x x' Ht Ht') as (pre & post & G1 & G2).
    destruct (IH (deeper o) Hn Hx Hx') as [[-> HR]|(d & d' & pre' & post' & HR & Hd & Hd' & Hs & M1 & M2)].
    + exists x, x', pre, post. repeat (split; [assumption|]). split; [|split; assumption]. apply sits_elem. constructor.
    + exists d, d', (pre ++ pre'), (post' ++ post). repeat (split; [assumption|]). split; [apply sits_elem; exact Hs|].
      rewrite M1 in G1. rewrite M2 in G2. cbn [text_of] in G1, G2. rewrite deep_deeper in G1, G2. cbn [List.length]. rewrite <- !app_assoc in *. auto.
Qed.

Lemma unwritten_dec o h x : {unwritten o h x} + {~ unwritten o h x}.
Proof.
  unfold unwritten. destruct (o_omit_null o); [|right; intros (H & _); discriminate].
  destruct x; try (right; intros (_ & H & _); discriminate).
  destruct h as [i|k]; [right; intros (_ & _ & k & H); discriminate|left]. split; [reflexivity|]. split; [reflexivity|now exists k].
Qed.

Section Lift.
Variable E : Env.
Variables W W' : World.
Variable o : opt.
Hypothesis Hn : by_name o.

Lemma lift_text_omit (R : V -> V -> Prop) (Q : V -> V -> bytes -> bytes -> Prop) hs v v' :
  (forall d d', R d d' -> d <> VNull /\ d' <> VNull) ->
  json_typed v -> json_typed v' -> changed R hs v v' ->
  (forall d d', R d d' -> json_typed d -> json_typed d' -> exists pre mid mid' post, Q d d' mid mid' /\
     marshal_opt E W (deep (List.length hs) o) d = Ok (pre ++ mid ++ post) /\ marshal_opt E W (deep (List.length hs) o) d' = Ok (pre ++ mid' ++ post)) ->
  exists d d' pre mid mid' post, R d d' /\ Q d d' mid mid' /\ marshal_opt E W o v = Ok (pre ++ mid ++ post) /\ marshal_opt E W' o v' = Ok (pre ++ mid' ++ post).
Proof using Hn.
  intros HN Ht Ht' Hc HQ. rewrite <- (output_determined E W W' o v' Ht' (by_name_all o v' Hn)).
  destruct (changed_text_omit E W R HN hs v v' Hc o Hn Ht Ht') as [[-> HR]|(d & d' & pre & post & HR & Hd & Hd' & _ & M & M')].
  - destruct (HQ v v' HR Ht Ht') as (pre & mid & mid' & post & A & B & C). exists v, v', pre, mid, mid', post. auto.
  - destruct (HQ d d' HR Hd Hd') as (pre1 & mid & mid' & post1 & A & B & C). exists d, d', (pre ++ pre1), mid, mid', (post1 ++ post).
    split; [exact HR|]. split; [exact A|]. rewrite B in M. rewrite C in M'. cbn [text_of] in M, M'. rewrite <- !app_assoc in *. auto.
Qed.

Notation at_depth n x := (text_of (marshal_opt E W (deep n o) x)).

(** Set at a path that leads somewhere changes one member or one element. *)
Definition replaced (h : hop) (old c x x' : V) : Prop :=
  (exists i kvs lo i' kvs' lo' k id id', h = HKey k /\ x = VObj i kvs lo /\ x' = VObj i' kvs' lo' /\ In (k, (id, old)) kvs /\
     In (k, (id', c)) kvs' /\ (forall k' e, k' <> k -> (In (k', e) kvs' <-> In (k', e) kvs))) \/
  (exists a b, h = HIdx (List.length a) /\ x = VArr (a ++ old :: b) /\ x' = VArr (a ++ c :: b)).
Lemma set_place v c p ps v' y hs old : json_typed v -> json_typed c -> Forall plain (p :: ps) ->
  leads v (p :: ps) hs old -> set_at E v (arg_v c) p ps = (v', Ok y) ->
  json_typed v' /\ exists hs0 h, hs = hs0 ++ [h] /\ changed (replaced h old c) hs0 v v'.
Proof using.
  intros Ht Hc Hp Hl Hs. assert (M := typed_maps v Ht). destruct (set_creates E v c p ps v' y M Hp Hs) as (-> & ps1 & q & ps2 & hs0 & d & Ep & L0 & Hch).
  rewrite Ep in Hl. destruct (leads_split v ps1 (q :: ps2) hs old Hl) as (hs1 & hs2 & d1 & -> & L1 & L2).
  destruct (leads_det _ _ _ _ L0 _ _ M L1) as (<- & <-).
  assert (Ht' : json_typed v').
  { eapply changed_typed; [|exact Hch|exact Ht]. intros x x' [-> Hw] Hd. eapply writes_typed; eassumption. }
  split; [exact Ht'|].
  assert (Md := leads_maps _ _ _ _ L0 M).
  assert (G : exists h, hs2 = [h] /\ forall x x', x = d /\ writes q ps2 c x x' -> replaced h old c x x').
  { assert (HW : exists x', writes q ps2 c d x') by (clear - Hch; induction Hch as [x x' [-> Hw]| |]; eauto).
    destruct HW as (x0 & Hw0).
    assert (Hh : exists h, hs2 = [h] /\ ps2 = []).
    { inversion Hw0 as [k c0 d0 d0' H|p0 i c0 d0 d0' Hi (a & z & b & -> & -> & Hr)|p0 c0 l d0' Hi H|k q0 r c0 w d0 d0' Hno Hb H|p0 i q0 r c0 w d0 d0' Hi Hno Hb H]; subst.
      - destruct H as (? & ? & ? & ? & ? & ? & -> & _). inversion L2 as [|? ? ? ? id ? ? hs3 ? Hk L3|]; subst. inversion L3; subst. eauto.
      - inversion L2 as [| |a' z' b' ? i' ? ? ? Hi' Hr' L3]; subst. inversion L3; subst. eauto.
      - exfalso. inversion L2 as [| |a z b ? i ? ? ? Hi' Hr L3]; subst. rewrite Hi in Hi'. injection Hi' as <-. rewrite app_length in Hr. cbn in Hr.
        destruct Hr as [Hr|Hr]; lia.
      - exfalso. destruct (leads_split d [PStr k] (q0 :: r) hs2 old L2) as (h1 & h2 & z & _ & L3 & _). exact (Hno _ _ L3).
      - exfalso. destruct (leads_split d [q] (q0 :: r) hs2 old L2) as (h1 & h2 & z & _ & L3 & _). exact (Hno _ _ L3). }
    destruct Hh as (h & -> & ->). exists h. split; [reflexivity|]. intros x x' [-> Hw].
    inversion Hw as [k c0 d0 d0' H|p0 i c0 d0 d0' Hi (a & z & b & -> & -> & Hr)|p0 c0 l d0' Hi H| |]; subst.
    - destruct H as (i & kvs & lo & i' & kvs' & lo' & -> & -> & _ & _ & Hin & Hoth).
      inversion L2 as [|? ? ? ? id ? ? hs3 ? Hk L3|]; subst. inversion L3; subst. left. exists i, kvs, lo. do 3 eexists. exists k, id. eexists. eauto 8.
    - right. assert (L4 : leads (VArr (a ++ z :: b)) [q] [HIdx (List.length a)] z) by (eapply leads_elem; [exact Hi|exact Hr|constructor]).
      destruct (leads_det _ _ _ _ L4 _ _ Md L2) as (E1 & <-). injection E1 as <-. eauto 6.
    - exfalso. inversion L2 as [| |a z b ? i ? ? ? Hi' Hr L3]; subst. rewrite Hi in Hi'. injection Hi' as <-. rewrite app_length in Hr. cbn in Hr.
      destruct Hr as [Hr|Hr]; lia. }
  destruct G as (h & -> & G). exists hs0, h. split; [reflexivity|]. clear - Hch G.
  induction Hch as [x x' H|i a k id x x' b lo hs H IH|a x x' b hs H IH]; [constructor; auto|constructor; auto|constructor; auto].
Qed.
Lemma replaced_not_null h old c d d' : replaced h old c d d' -> d <> VNull /\ d' <> VNull.
Proof. intros [(i & kvs & lo & i' & kvs' & lo' & k & id & id' & _ & -> & -> & _)|(a & b & _ & -> & ->)]; split; discriminate. Qed.

Theorem set_replaces_omit v c p ps v' y hs old : json_typed v -> json_typed c -> Forall plain (p :: ps) ->
  leads v (p :: ps) hs old -> set_at E v (arg_v c) p ps = (v', Ok y) ->
  (forall hs0 h, hs = hs0 ++ [h] -> ~ unwritten o h old /\ ~ unwritten o h c) ->
  exists pre post, marshal_opt E W o v = Ok (pre ++ at_depth (List.length hs) old ++ post) /\
    marshal_opt E W' o v' = Ok (pre ++ at_depth (List.length hs) c ++ post).
Proof using Hn.
  intros Ht Hc Hp Hl Hs HN. destruct (set_place v c p ps v' y hs old Ht Hc Hp Hl Hs) as (Ht' & hs0 & h & -> & Hch). set (n := List.length hs0) in *.
  assert (Hon := by_name_deep n o Hn).
  destruct (lift_text_omit _ (fun _ _ m m' => m = at_depth (S n) old /\ m' = at_depth (S n) c) hs0 v v' (replaced_not_null h old c) Ht Ht' Hch)
    as (x & x' & pre & mid & mid' & post & _ & (-> & ->) & G1 & G2); [|exists pre, post; rewrite app_length, Nat.add_1_r; auto].
  fold n. intros x x' HR Hd Hd'.
  assert (G : exists pre post, marshal_opt E W (deep n o) x = Ok (pre ++ at_depth (S n) old ++ post) /\
                               marshal_opt E W (deep n o) x' = Ok (pre ++ at_depth (S n) c ++ post));
    [|destruct G as (pre & post & G1 & G2); exists pre, (at_depth (S n) old), (at_depth (S n) c), post; auto].
  destruct HR as [(i & kvs & lo & i' & kvs' & lo' & k & id & id' & -> & -> & -> & Hi & Hi' & Hoth)|(a & b & -> & -> & ->)].
  - apply (object_replace_omit E W (deep n o) Hon i kvs lo i' kvs' lo' k id old id' c Hd Hd' Hi Hi' Hoth).
    rewrite omit_deep. intros Ho. destruct (HN hs0 (HKey k) eq_refl) as [N1 N2]. split; intros ->; [apply N1|apply N2]; (split; [exact Ho|split; [reflexivity|now exists k]]).
  - exact (array_replace E W (deep n o) Hon a b old c Hd Hd').
Qed.
Theorem set_null_omit v p ps v' y hs k old : json_typed v -> Forall plain (p :: ps) -> o_omit_null o = true ->
  leads v (p :: ps) (hs ++ [HKey k]) old -> old <> VNull -> set_at E v (arg_v VNull) p ps = (v', Ok y) ->
  exists pre mid post, piece_both (deep (List.length hs) o) (labelled (deep (List.length hs) o) (HKey k) (at_depth (S (List.length hs)) old)) mid /\
    marshal_opt E W o v = Ok (pre ++ mid ++ post) /\ marshal_opt E W' o v' = Ok (pre ++ post).
Proof using Hn.
  intros Ht Hp Ho Hl Hold Hs. destruct (set_place v VNull p ps v' y _ old Ht I Hp Hl Hs) as (Ht' & hs0 & h & Eh & Hch).
  apply app_inj_tail in Eh as [<- <-]. set (n := List.length hs) in *. assert (Hon := by_name_deep n o Hn).
  destruct (lift_text_omit _ (fun _ _ m m' => m' = [] /\ piece_both (deep n o) (labelled (deep n o) (HKey k) (at_depth (S n) old)) m) hs v v' (replaced_not_null _ old VNull) Ht Ht' Hch)
    as (x & x' & pre & mid & mid' & post & _ & (-> & Hpc) & G1 & G2); [|exists pre, mid, post; auto].
  fold n. intros x x' HR Hd Hd'.
  destruct HR as [(i & kvs & lo & i' & kvs' & lo' & k0 & id & id' & E0 & -> & -> & Hi & Hi' & Hoth)|(a & b & E0 & _)]; [|discriminate].
  injection E0 as <-. assert (Hoo := omit_deep n o). rewrite Ho in Hoo.
  destruct (object_nulled E W (deep n o) Hon i kvs lo i' kvs' lo' k id old id' Hd Hd' Hi Hi' Hoth Hoo Hold) as (pre & mid & post & A & B & C).
  exists pre, mid, [], post. auto.
Qed.
Theorem set_over_null_omit v c p ps v' y hs k : json_typed v -> json_typed c -> Forall plain (p :: ps) -> o_omit_null o = true ->
  leads v (p :: ps) (hs ++ [HKey k]) VNull -> c <> VNull -> set_at E v (arg_v c) p ps = (v', Ok y) ->
  exists pre mid post, piece_both (deep (List.length hs) o) (labelled (deep (List.length hs) o) (HKey k) (at_depth (S (List.length hs)) c)) mid /\
    marshal_opt E W o v = Ok (pre ++ post) /\ marshal_opt E W' o v' = Ok (pre ++ mid ++ post).
Proof using Hn.
  intros Ht Hc Hp Ho Hl Hold Hs. destruct (set_place v c p ps v' y _ VNull Ht Hc Hp Hl Hs) as (Ht' & hs0 & h & Eh & Hch).
  apply app_inj_tail in Eh as [<- <-]. set (n := List.length hs) in *. assert (Hon := by_name_deep n o Hn).
  destruct (lift_text_omit _ (fun _ _ m m' => m = [] /\ piece_both (deep n o) (labelled (deep n o) (HKey k) (at_depth (S n) c)) m') hs v v' (replaced_not_null _ VNull c) Ht Ht' Hch)
    as (x & x' & pre & mid & mid' & post & _ & (-> & Hpc) & G1 & G2); [|exists pre, mid', post; auto].
  fold n. intros x x' HR Hd Hd'.
  destruct HR as [(i & kvs & lo & i' & kvs' & lo' & k0 & id & id' & E0 & -> & -> & Hi & Hi' & Hoth)|(a & b & E0 & _)]; [|discriminate].
  injection E0 as <-. assert (Hoo := omit_deep n o). rewrite Ho in Hoo.
  destruct (object_nulled E W (deep n o) Hon i' kvs' lo' i kvs lo k id' c id Hd' Hd Hi' Hi (fun k' e H => iff_sym (Hoth k' e H)) Hoo Hold) as (pre & mid & post & A & B & C).
  exists pre, [], mid, post. auto.
Qed.

Theorem set_null_null_omit v p ps v' y hs k : json_typed v -> Forall plain (p :: ps) -> o_omit_null o = true ->
  leads v (p :: ps) (hs ++ [HKey k]) VNull -> set_at E v (arg_v VNull) p ps = (v', Ok y) ->
  marshal_opt E W o v = marshal_opt E W' o v'.
Proof using Hn.
  intros Ht Hp Ho Hl Hs. destruct (set_place v VNull p ps v' y _ VNull Ht I Hp Hl Hs) as (Ht' & hs0 & h & Eh & Hch).
  apply app_inj_tail in Eh as [<- <-]. set (n := List.length hs) in *. assert (Hon := by_name_deep n o Hn).
  destruct (lift_text_omit _ (fun _ _ m m' => m = m') hs v v' (replaced_not_null _ VNull VNull) Ht Ht' Hch)
    as (x & x' & pre & mid & mid' & post & _ & -> & G1 & G2); [|congruence].
  fold n. intros x x' HR Hd Hd'.
  destruct HR as [(i & kvs & lo & i' & kvs' & lo' & k0 & id & id' & E0 & -> & -> & Hi & Hi' & Hoth)|(a & b & E0 & _)]; [|discriminate].
  injection E0 as <-. assert (Hoo := omit_deep n o). rewrite Ho in Hoo.
  destruct (object_null_null E W (deep n o) Hon i kvs lo i' kvs' lo' k id id' Hd Hd' Hi Hi' Hoth Hoo) as (b & B & C).
  exists b, [], [], []. split; [reflexivity|]. rewrite app_nil_r. auto.
Qed.
Lemma at_writes q ps2 c (z : V) d d' : d = z /\ writes q ps2 c d d' -> d <> VNull /\ d' <> VNull.
Proof using.
  intros [_ H]. destruct H as [k c d d' H|p i c d d' Hi (a & x & b & -> & -> & _)|p c l d' Hi H|k q ps c w d d' _ Hb H|p i q ps c w d d' Hi _ Hb H].
  - destruct H as (i & kvs & lo & i' & kvs' & lo' & -> & -> & _). split; discriminate.
  - split; discriminate.
  - destruct H as (l0 & -> & ->). split; discriminate.
  - destruct H as (i & kvs & lo & i' & kvs' & lo' & -> & -> & _). split; discriminate.
  - destruct H as (l0 & -> & ->). split; discriminate.
Qed.
Theorem set_adds_member_omit v c p ps v' y ps1 k ps2 hs i kvs lo : json_typed v -> json_typed c -> Forall plain (p :: ps) ->
  p :: ps = ps1 ++ PStr k :: ps2 -> leads v ps1 hs (VObj i kvs lo) -> ~ In k (map fst kvs) ->
  set_at E v (arg_v c) p ps = (v', Ok y) ->
  exists w pre mid mid' post, built ps2 c w /\
    (unwritten o (HKey k) w /\ null_gone (deep (List.length hs) o) mid' mid \/
     ~ unwritten o (HKey k) w /\ mid = [] /\
       piece_omit (deep (List.length hs) o) (labelled (deep (List.length hs) o) (HKey k) (at_depth (S (List.length hs)) w)) mid') /\
    marshal_opt E W o v = Ok (pre ++ mid ++ post) /\ marshal_opt E W' o v' = Ok (pre ++ mid' ++ post).
Proof using Hn.
  intros Ht Hc Hp Ep L Hk Hs. assert (M := typed_maps v Ht). destruct (set_creates E v c p ps v' y M Hp Hs) as (-> & qs1 & q & qs2 & hs0 & d & Eq & L0 & Hch).
  rewrite Ep in Eq. clear Hs.
  assert (Hno : forall ts t w, ~ leads (VObj i kvs lo) (PStr k :: ts) t w).
  { intros ts t w H. inversion H as [|? ? ? ? id x ? ? ? Hin _|]; subst. apply Hk, in_map_iff. exists (k, (id, x)). auto. }
  assert (G : qs1 = ps1 /\ q = PStr k /\ qs2 = ps2 /\ hs0 = hs /\ d = VObj i kvs lo).
  { assert (HT : exists t, (ps1 = qs1 ++ t /\ q :: qs2 = t ++ PStr k :: ps2) \/ (qs1 = ps1 ++ t /\ PStr k :: ps2 = t ++ q :: qs2)).
    { clear - Eq. revert qs1 Eq. induction ps1 as [|x r IH]; intros qs1 Eq.
      - exists qs1. right. auto.
      - destruct qs1 as [|z s]; [exists (x :: r); left; auto|]. cbn in Eq. injection Eq as <- Eq.
        destruct (IH _ Eq) as (t & [[-> B]|[-> B]]); exists t; [left|right]; auto. }
    destruct HT as (t & [[E1 E2]|[E1 E2]]).
    - destruct t as [|t0 t].
      + rewrite app_nil_r in E1. cbn in E2. injection E2 as -> ->. subst qs1. destruct (leads_det _ _ _ _ L0 _ _ M L) as (-> & ->). auto.
      + exfalso. cbn in E2. injection E2 as <- ->. subst ps1. destruct (leads_split v qs1 _ _ _ L) as (h1 & h2 & d1 & _ & L1 & L2).
        destruct (leads_det _ _ _ _ L0 _ _ M L1) as (<- & <-).
        destruct (leads_split d [q] t _ _ L2) as (h3 & h4 & d2 & _ & L3 & _).
        assert (HW : exists z z', writes q (t ++ PStr k :: ps2) c z z' /\ z = d).
        { clear - Hch. induction Hch as [x x' [-> Hw]| |]; eauto. }
        destruct HW as (z & z' & Hw & ->). destruct t as [|t1 t]; cbn in Hw; inversion Hw; subst; match goal with HH : forall hs x, ~ leads _ _ hs x |- _ => exact (HH _ _ L3) end.
    - destruct t as [|t0 t].
      + rewrite app_nil_r in E1. cbn in E2. injection E2 as <- <-. subst qs1. destruct (leads_det _ _ _ _ L0 _ _ M L) as (-> & ->). auto.
      + exfalso. cbn in E2. injection E2 as <- ->. subst qs1. destruct (leads_split v ps1 _ _ _ L0) as (h1 & h2 & d1 & _ & L1 & L2).
        destruct (leads_det _ _ _ _ L _ _ M L1) as (_ & <-). exact (Hno _ _ _ L2). }
  destruct G as (-> & -> & -> & -> & ->).
  assert (Ht' : json_typed v').
  { eapply changed_typed; [|exact Hch|exact Ht]. intros x x' [-> Hw] Hd. eapply writes_typed; eassumption. }
  set (n := List.length hs) in *.
  destruct (lift_text_omit _ (fun _ _ m m' => exists w, built ps2 c w /\
      (unwritten o (HKey k) w /\ null_gone (deep n o) m' m \/
       ~ unwritten o (HKey k) w /\ m = [] /\ piece_omit (deep n o) (labelled (deep n o) (HKey k) (at_depth (S n) w)) m')) hs v v' (at_writes _ _ _ _) Ht Ht' Hch)
    as (x & x' & pre & mid & mid' & post & _ & (w & Hb & Hpc) & G1 & G2); [|exists w, pre, mid, mid', post; auto].
  intros x x' [-> Hw] Hd Hd'. fold n.
  assert (HM : exists w, built ps2 c w /\ member_set k w (VObj i kvs lo) x').
  { inversion Hw as [k0 c0 d0 d0' H|p0 i0 c0 d0 d0' Hi _|p0 c0 l d0' Hi H|k0 q0 r c0 w d0 d0' _ Hb H|p0 i0 q0 r c0 w d0 d0' Hi _ Hb H]; subst; try discriminate.
    - exists c. split; [constructor|exact H].
    - eauto. }
  destruct HM as (w & Hb & i0 & kvs0 & lo0 & i' & kvs' & lo' & E0 & -> & _ & _ & Hin & Hoth). injection E0 as <- <- <-.
  assert (Hoo := omit_deep n o).
  destruct (unwritten_dec o (HKey k) w) as [Hu|Hu].
  - destruct Hu as (Ho & -> & Hu). rewrite Ho in Hoo.
    destruct (object_null_omit E W (deep n o) (by_name_deep n o Hn) i kvs lo _ kvs' lo' k _ Hd Hd' Hk Hin Hoth Hoo) as (pre & mid & mid' & post & A & B & C).
    exists pre, mid', mid, post. split; [|auto]. exists VNull. split; [exact Hb|]. left. split; [|exact A]. split; [exact Ho|]. split; [reflexivity|exact Hu].
  - destruct (object_insert_omit E W (deep n o) (by_name_deep n o Hn) i kvs lo _ kvs' lo' k _ w Hd Hd' Hk Hin Hoth) as (pre & mid & post & A & B & C).
    { rewrite Hoo. intros Z ->. apply Hu. split; [exact Z|]. split; [reflexivity|now exists k]. }
    exists pre, [], mid, post. split; [|auto]. exists w. split; [exact Hb|]. right. auto.
Qed.

Lemma arrays_not_null (l l' : list V) d d' : d = VArr l /\ d' = VArr l' -> d <> VNull /\ d' <> VNull.
Proof using. intros [-> ->]. split; discriminate. Qed.
Lemma array_grows_omit v v' hs a b c : json_typed v -> json_typed c -> changed (fun x x' => x = VArr (a ++ b) /\ x' = VArr (a ++ c :: b)) hs v v' ->
  exists pre mid post, piece (deep (List.length hs) o) (at_depth (S (List.length hs)) c) mid /\
    marshal_opt E W o v = Ok (pre ++ post) /\ marshal_opt E W' o v' = Ok (pre ++ mid ++ post).
Proof using Hn.
  intros Ht Hc Hch.
  assert (Ht' : json_typed v').
  { eapply changed_typed; [|exact Hch|exact Ht]. intros x x' [-> ->] Hd. apply json_typed_arr in Hd. apply Forall_app in Hd as [H1 H2].
    apply json_typed_arr, Forall_app. split; [exact H1|]. now constructor. }
  set (n := List.length hs) in *.
  destruct (lift_text_omit _ (fun _ _ m m' => m = [] /\ piece (deep n o) (at_depth (S n) c) m') hs v v' (arrays_not_null _ _) Ht Ht' Hch)
    as (x & x' & pre & mid & mid' & post & _ & (-> & Hpc) & G1 & G2); [|exists pre, mid', post; auto].
  intros x x' [-> ->] Hd Hd'. fold n.
  destruct (array_insert E W (deep n o) (by_name_deep n o Hn) a b c Hd' Hd) as (pre & mid & post & A & B & C).
  exists pre, [], mid, post. split; [split; [reflexivity|exact A]|]. auto.
Qed.
Theorem append_text_omit front v c ps v' y hs l : json_typed v -> json_typed c -> Forall plain ps -> leads v ps hs (VArr l) ->
  append_at E W front v (arg_v c) ps = (v', Ok y) ->
  exists pre mid post, piece (deep (List.length hs) o) (at_depth (S (List.length hs)) c) mid /\
    marshal_opt E W o v = Ok (pre ++ post) /\ marshal_opt E W' o v' = Ok (pre ++ mid ++ post).
Proof using Hn.
  intros Ht Hc Hp L Ha. assert (M := typed_maps v Ht). apply (append_iff E W front v c ps v' y M Hp) in Ha as (-> & [(hs0 & l0 & L0 & Hch)|(q & r & z & _ & Hm & _)]).
  - destruct (leads_det _ _ _ _ L _ _ M L0) as (<- & E0). injection E0 as <-.
    destruct front; cbn [end_added] in Hch.
    + apply (array_grows_omit v v' hs [] l c Ht Hc Hch).
    + apply (array_grows_omit v v' hs l [] c Ht Hc). clear - Hch. rewrite app_nil_r. exact Hch.
  - elim (leads_not_missing ps v hs _ L M Hm).
Qed.
Theorem insert_text_omit (after : bool) v c ps p first others v' y : json_typed v -> json_typed c -> Forall plain (first :: others) -> first :: others = ps ++ [p] ->
  (if after then insert_after E W v (arg_v c) first others else insert_before E W v (arg_v c) first others) = (v', Ok y) ->
  exists hs d pre mid post, leads v ps hs d /\ piece (deep (List.length hs) o) (at_depth (S (List.length hs)) c) mid /\
    marshal_opt E W o v = Ok (pre ++ post) /\ marshal_opt E W' o v' = Ok (pre ++ mid ++ post).
Proof using Hn.
  intros Ht Hc Hp Ep Hi. assert (M := typed_maps v Ht). apply (insert_iff E W after v c ps p first others v' y M Hp Ep) in Hi as (-> & hs & d & i & L & Hi & Hch).
  exists hs, d. 
  assert (G : exists a b, changed (fun x x' => x = VArr (a ++ b) /\ x' = VArr (a ++ c :: b)) hs v v').
  { clear - Hch. induction Hch as [x x' [-> Hw]|i0 a k id x x' b lo hs H (a0 & b0 & IH)|a x x' b hs H (a0 & b0 & IH)].
    - destruct after; destruct Hw as (a & e & b & -> & _ & ->).
      + exists (a ++ [e]), b. constructor. rewrite <- !app_assoc. auto.
      + exists a, (e :: b). constructor. auto.
    - exists a0, b0. constructor. exact IH.
    - exists a0, b0. constructor. exact IH. }
  destruct G as (a & b & G). destruct (array_grows_omit v v' hs a b c Ht Hc G) as (pre & mid & post & A & B & C). exists pre, mid, post. auto.
Qed.
Theorem delete_text_omit v ps p first others v' : json_typed v -> Forall plain (first :: others) -> first :: others = ps ++ [p] ->
  delete_at E W false v first others = (v', Ok tt) ->
  exists hs h x pre mid mid' post, leads v (first :: others) (hs ++ [h]) x /\
    (unwritten o h x /\ null_gone (deep (List.length hs) o) mid mid' \/
     ~ unwritten o h x /\ mid' = [] /\
       piece_omit (deep (List.length hs) o) (labelled (deep (List.length hs) o) h (at_depth (S (List.length hs)) x)) mid) /\
    marshal_opt E W o v = Ok (pre ++ mid ++ post) /\ marshal_opt E W' o v' = Ok (pre ++ mid' ++ post).
Proof using Hn.
  intros Ht Hp Ep Hdel. assert (M := typed_maps v Ht).
  destruct (proj2 (delete_effect E W v ps p first others M Hp Ep) v' Hdel) as (hs & d & d' & L & Hch & _ & Hrem & _).
  set (n := List.length hs) in *. assert (Hon := by_name_deep n o Hn). assert (Hoo := omit_deep n o).
  assert (Ht' : json_typed v').
  { eapply changed_typed; [|exact Hch|exact Ht]. intros x x' [-> ->] Hd. inversion Hrem as [i a k e b lo lo' Hk|a e b p0 i Hi Hr]; subst.
    - apply json_typed_obj in Hd as [Hnd Hd]. apply Forall_app in Hd as [H1 H2]. inversion H2; subst. apply json_typed_obj. unfold akeys in *. rewrite map_app in *. cbn in Hnd.
      split; [now apply NoDup_remove_1 in Hnd|]. now apply Forall_app.
    - apply json_typed_arr in Hd. apply Forall_app in Hd as [H1 H2]. inversion H2; subst. apply json_typed_arr. now apply Forall_app. }
  rewrite Ep.
  assert (HN : forall a a', a = d /\ a' = d' -> a <> VNull /\ a' <> VNull) by (intros a a' [-> ->]; inversion Hrem; split; discriminate).
  destruct (lift_text_omit _ (fun _ _ m m' => exists h x, leads v (ps ++ [p]) (hs ++ [h]) x /\
      (unwritten o h x /\ null_gone (deep n o) m m' \/
       ~ unwritten o h x /\ m' = [] /\ piece_omit (deep n o) (labelled (deep n o) h (at_depth (S n) x)) m)) hs v v' HN Ht Ht' Hch)
    as (x & x' & pre & mid & mid' & post & _ & (h & z & L2 & Hpc) & G1 & G2); [|exists hs, h, z, pre, mid, mid', post; auto].
  intros x x' [-> ->] Hd Hd'. fold n. inversion Hrem as [i a k [id e] b lo lo' Hk|a e b p0 i Hi Hr]; subst.
  - assert (Hoth : forall k' z, k' <> k -> (In (k', z) (a ++ (k, (id, e)) :: b) <-> In (k', z) (a ++ b))).
    { intros k' z Hz. split; intros H; apply in_app_or in H; apply in_or_app; [|destruct H; [now left|right; now right]].
      destruct H as [H|[H|H]]; [now left|congruence|now right]. }
    assert (Hle : leads v (ps ++ [PStr k]) (hs ++ [HKey k]) e) by (eapply leads_app; [exact L|]; eapply leads_key; [apply in_elt|constructor]).
    assert (Hin : In (k, (id, e)) (a ++ (k, (id, e)) :: b)) by apply in_elt.
    destruct (unwritten_dec o (HKey k) e) as [Hu|Hu].
    + destruct Hu as (Ho & -> & Hu). rewrite Ho in Hoo.
      destruct (object_null_omit E W (deep n o) Hon i (a ++ b) lo' i (a ++ (k, (id, VNull)) :: b) lo k id Hd' Hd Hk Hin Hoth Hoo) as (pre & mid & mid' & post & A & B & C).
      exists pre, mid, mid', post. split; [|auto]. exists (HKey k), VNull. split; [exact Hle|]. left. split; [|exact A]. split; [exact Ho|]. split; [reflexivity|exact Hu].
    + destruct (object_insert_omit E W (deep n o) Hon i (a ++ b) lo' i (a ++ (k, (id, e)) :: b) lo k id e Hd' Hd Hk Hin Hoth) as (pre & mid & post & A & B & C).
      { rewrite Hoo. intros Z ->. apply Hu. split; [exact Z|]. split; [reflexivity|now exists k]. }
      exists pre, mid, [], post. split; [|auto]. exists (HKey k), e. split; [exact Hle|]. right. auto.
  - destruct (array_insert E W (deep n o) Hon a b e Hd Hd') as (pre & mid & post & A & B & C).
    exists pre, mid, [], post. split; [|auto]. exists (HIdx (List.length a)), e.
    split; [eapply leads_app; [exact L|]; eapply leads_elem; [exact Hi|exact Hr|constructor]|]. right.
    split; [intros (_ & _ & k & H); discriminate|]. split; [reflexivity|]. left. exact A.
Qed.
End Lift.
