(** What an edit changes in the text (C88). *)
From Verif Require Import Base Float64 Value Opt Marshal Path Edit SpecJson SpecValue SpecText SpecOpts SpecOrder SpecPath SpecPieces SpecSplice
  ListLemmas ValueLemmas SortProof OrderProof MarshalTotal MarshalProof MarshalClaims IndentProof PiecesProof CanonProof ContainProof
  PathProof SetProof SetClaims EditClaims SetExact.

(** *** Brackets around parts *)
Lemma commas_app p q : commas (p ++ q) = match p, q with [], _ => commas q | _, [] => commas p | _, _ => commas p ++ 44 :: commas q end.
Proof.
  induction p as [|x p IH]; [reflexivity|]. destruct q as [|y q]; [now rewrite app_nil_r|].
  cbn [app]. destruct p as [|z p]; [reflexivity|]. cbn [app commas] in *. rewrite IH, <- app_assoc. reflexivity.
Qed.
Lemma bracketed_replace o a z p q : exists pre post, forall part, bracketed o a z (p ++ part :: q) = pre ++ part ++ post.
Proof.
  unfold bracketed. set (line := if o_indent o then _ else _). set (last := if o_indent o then _ else _).
  exists (a :: match p with [] => [] | _ => commas (map (app line) p) ++ [44] end ++ line),
         (match q with [] => [] | _ => 44 :: commas (map (app line) q) end ++ last ++ [z]).
  intros part. destruct (p ++ part :: q) eqn:E; [destruct p; discriminate|]. rewrite <- E. clear E.
  rewrite map_app. cbn [map]. rewrite commas_app.
  assert (H : commas ((line ++ part) :: map (app line) q) = line ++ part ++ match q with [] => [] | _ => 44 :: commas (map (app line) q) end).
  { destruct q; cbn [map commas]; [now rewrite app_nil_r|]. now rewrite <- app_assoc. }
  destruct p as [|x p]; cbn [map]; cbn [map] in H; rewrite H; cbn [app]; f_equal.
  - now rewrite <- !app_assoc.
  - repeat first [rewrite <- app_assoc|progress cbn [app]]. reflexivity.
Qed.
Lemma bracketed_insert o a z p part q : exists pre mid post, piece o part mid /\
  bracketed o a z (p ++ part :: q) = pre ++ mid ++ post /\ bracketed o a z (p ++ q) = pre ++ post.
Proof.
  unfold bracketed, piece. set (line := if o_indent o then _ else _). set (last := if o_indent o then _ else _).
  destruct (p ++ part :: q) eqn:E; [destruct p; discriminate|]. rewrite <- E. clear E l.
  rewrite map_app. cbn [map]. rewrite commas_app.
  destruct p as [|x p].
  - cbn [map app]. destruct q as [|y q].
    + exists [a], (line ++ part ++ last), [z]. split; [now right; right|]. cbn [map commas app]. split; [|reflexivity]. now rewrite <- !app_assoc.
    + exists [a], (line ++ part ++ [44]), (commas (map (app line) (y :: q)) ++ last ++ [z]). split; [now right; left|].
      cbn [map commas app]. split; [|reflexivity]. f_equal. repeat (rewrite <- app_assoc; cbn [app]). reflexivity.
  - cbn [map app]. exists (a :: commas (map (app line) (x :: p))), (44 :: line ++ part), (match q with [] => [] | _ => 44 :: commas (map (app line) q) end ++ last ++ [z]).
    split; [now left|]. split.
    + cbn [app map]. f_equal. destruct q as [|y q]; cbn [map commas]; repeat (rewrite <- app_assoc; cbn [app]); reflexivity.
    + cbn [app map]. f_equal. change ((line ++ x) :: map (app line) (p ++ q)) with (map (app line) (x :: p ++ q)).
      change (x :: p ++ q) with ((x :: p) ++ q). rewrite map_app, commas_app. cbn [map].
      destruct q as [|y q]; cbn [map]; [reflexivity|]. rewrite <- app_assoc. reflexivity.
Qed.

(** *** Options that order by name *)
Lemma by_name_blind o : by_name o -> blind o.
Proof. unfold blind. intros [->|[-> _]]; [reflexivity|exact I]. Qed.
Lemma by_name_total o kvs : by_name o -> total_order o kvs.
Proof. unfold total_order. intros [->|[-> H]]; [exact default_total|]. destruct (o_keyseq o); [now elim H|exact I]. Qed.
Lemma by_name_all o v : by_name o -> all_objs (total_order o) v.
Proof. intros H. apply all_objs_all. intros kvs. now apply by_name_total. Qed.
Lemma by_name_deep n : forall o, by_name o -> by_name (deep n o).
Proof. induction n as [|n IH]; intros o H; [exact H|]. exact (IH o H). Qed.
Lemma omit_deep n : forall o, o_omit_null (deep n o) = o_omit_null o.
Proof. induction n as [|n IH]; intros o; [reflexivity|]. exact (IH o). Qed.
Lemma deep_deeper n o : deep n (deeper o) = deep (S n) o.
Proof. induction n as [|n IH]; [reflexivity|]. change (deep (S n) (deeper o)) with (deeper (deep n (deeper o))). now rewrite IH. Qed.

Section Named.
Variable E : Env.
Variable W : World.

Definition mpart (o : opt) (e : kvt) : bytes := labelled o (HKey (fst e)) (text_of (marshal_opt E W (deeper o) (snd (snd e)))).

Lemma name_order o : by_name o -> exists lt : bytes -> bytes -> Prop, (forall a b, lt a b -> lt b a -> False) /\
  forall kvs, NoDup (akeys kvs) -> in_order E W o (by_key lt) kvs.
Proof.
  intros [H|[H1 H2]].
  - exists blt. split; [exact blt_asym|]. intros kvs Hn. now apply in_order_default.
  - exists (seq_before (o_keyseq o)). split; [exact (seq_asym _)|]. intros kvs Hn. now apply in_order_keyseq.
Qed.
(** Members in order; any order of the same members is that one. *)
Lemma object_named o : by_name o -> o_omit_null o = false -> exists lt : bytes -> bytes -> Prop,
  (forall a b, lt a b -> lt b a -> False) /\
  forall i kvs lo, json_typed (VObj i kvs lo) -> exists s, Permutation kvs s /\ by_key lt s /\
    marshal_opt E W o (VObj i kvs lo) = Ok (bracketed o 123 125 (map (mpart o) s)).
Proof.
  intros Hn Hom. destruct (name_order o Hn) as (lt & Has & Hin). exists lt. split; [exact Has|]. intros i kvs lo Ht.
  exists (order_kvs W o None [] kvs). assert (HP := order_kvs_perm W o None [] kvs). split; [now symmetry|]. split.
  - apply json_typed_obj in Ht as [Hnd _]. apply (Hin kvs Hnd None []); [apply order_mk|now symmetry].
  - rewrite (object_plain_at E W o i kvs lo); [reflexivity|now apply by_name_blind|exact Ht|now apply by_name_all|congruence].
Qed.
Lemma sorted_same (lt : bytes -> bytes -> Prop) (s s' : list kvt) : (forall a b, lt a b -> lt b a -> False) ->
  Permutation s s' -> by_key lt s -> by_key lt s' -> s = s'.
Proof. intros Has Hp H1 H2. eapply (sorted_unique (fun x y : kvt => lt (fst x) (fst y))); eauto. intros x y _ _ A B. elim (Has _ _ A B). Qed.
Lemma ord_app_cons {A} (R : A -> A -> Prop) p x q :
  ForallOrdPairs R (p ++ x :: q) <-> ForallOrdPairs R (p ++ q) /\ Forall (fun y => R y x) p /\ Forall (R x) q.
Proof.
  induction p as [|y p IH]; cbn [app].
  - split; [intros H; inversion H; subst; auto|intros (H1 & _ & H2); now constructor].
  - split.
    + intros H. inversion H as [|? ? Hy Hr]; subst. apply IH in Hr as (H1 & H2 & H3).
      apply Forall_app in Hy as [Hy1 Hy2]. inversion Hy2; subst. split; [constructor; [now apply Forall_app|exact H1]|]. split; [now constructor|exact H3].
    + intros (H1 & H2 & H3). inversion H1 as [|? ? Hy Hr]; subst. inversion H2; subst. apply Forall_app in Hy as [Hy1 Hy2].
      constructor; [apply Forall_app; split; [exact Hy1|now constructor]|]. apply IH. auto.
Qed.

(** *** One container *)
Variable o : opt.
Hypothesis Hn : by_name o.
Hypothesis Hom : o_omit_null o = false.
Notation txt x := (text_of (marshal_opt E W (deeper o) x)).

Lemma array_text l : json_typed (VArr l) -> marshal_opt E W o (VArr l) = Ok (bracketed o 91 93 (map (fun x => txt x) l)).
Proof using Hn. intros Ht. apply array_plain; [now apply by_name_blind|exact Ht|now apply by_name_all]. Qed.

Lemma array_replace a b x x' : json_typed (VArr (a ++ x :: b)) -> json_typed (VArr (a ++ x' :: b)) ->
  exists pre post, marshal_opt E W o (VArr (a ++ x :: b)) = Ok (pre ++ txt x ++ post) /\
    marshal_opt E W o (VArr (a ++ x' :: b)) = Ok (pre ++ txt x' ++ post).
Proof using Hn.
  intros H H'. rewrite !array_text by assumption. rewrite !map_app. cbn [map].
  destruct (bracketed_replace o 91 93 (map (fun x => txt x) a) (map (fun x => txt x) b)) as (pre & post & G).
  exists pre, post. now rewrite !G.
Qed.
Lemma array_insert a b x : json_typed (VArr (a ++ x :: b)) -> json_typed (VArr (a ++ b)) ->
  exists pre mid post, piece o (txt x) mid /\ marshal_opt E W o (VArr (a ++ x :: b)) = Ok (pre ++ mid ++ post) /\
    marshal_opt E W o (VArr (a ++ b)) = Ok (pre ++ post).
Proof using Hn.
  intros H H'. rewrite !array_text by assumption. rewrite !map_app. cbn [map].
  destruct (bracketed_insert o 91 93 (map (fun x => txt x) a) (txt x) (map (fun x => txt x) b)) as (pre & mid & post & G & G1 & G2).
  exists pre, mid, post. split; [exact G|]. now rewrite G1, G2.
Qed.

(** Two objects that differ in one member. *)
Lemma object_replace i kvs lo i' kvs' lo' k id x id' x' : json_typed (VObj i kvs lo) -> json_typed (VObj i' kvs' lo') ->
  In (k, (id, x)) kvs -> In (k, (id', x')) kvs' -> (forall k' e, k' <> k -> (In (k', e) kvs' <-> In (k', e) kvs)) ->
  exists pre post, marshal_opt E W o (VObj i kvs lo) = Ok (pre ++ txt x ++ post) /\
    marshal_opt E W o (VObj i' kvs' lo') = Ok (pre ++ txt x' ++ post).
Proof using Hn Hom.
  intros Ht Ht' Hi Hi' Hs. destruct (object_named o Hn Hom) as (lt & Has & HO).
  destruct (HO _ _ _ Ht) as (s & Hp & Hb & ->). destruct (HO _ _ _ Ht') as (s' & Hp' & Hb' & ->).
  apply json_typed_obj in Ht as [Hnd _], Ht' as [Hnd' _].
  assert (Hsi : In (k, (id, x)) s) by (eapply Permutation_in; eassumption). apply in_split in Hsi as (p & q & ->).
  assert (Es : s' = p ++ (k, (id', x')) :: q).
  { symmetry. apply (sorted_same lt); [exact Has| |apply ord_app_cons; apply ord_app_cons in Hb; exact Hb|exact Hb'].
    assert (Hnk : NoDup (map fst (p ++ (k, (id, x)) :: q))) by (eapply Permutation_NoDup; [apply Permutation_map, Hp|exact Hnd]).
    assert (Hnk' : NoDup (map fst s')) by (eapply Permutation_NoDup; [apply Permutation_map, Hp'|exact Hnd']).
    apply NoDup_Permutation.
    - apply (NoDup_map_inv fst). rewrite map_app in *. exact Hnk.
    - now apply (NoDup_map_inv fst).
    - assert (Hk0 : forall e, In (k, e) (p ++ (k, (id', x')) :: q) <-> e = (id', x')).
      { intros e. split; [|intros ->; apply in_elt]. intros He. rewrite map_app in Hnk. cbn in Hnk. apply NoDup_remove_2 in Hnk.
        apply in_app_or in He as [He|[He|He]]; [|congruence|]; elim Hnk; apply in_or_app; [left|right]; apply in_map_iff; exists (k, e); auto. }
      intros [k' e]. destruct (list_eq_dec Z.eq_dec k' k) as [->|Hk].
      + rewrite Hk0. split; [intros ->; now apply (Permutation_in _ Hp')|]. intros He.
        apply (Permutation_in _ (Permutation_sym Hp')) in He.
        apply (alookup_NoDup_In _ _ _ Hnd') in He. apply (alookup_NoDup_In _ _ _ Hnd') in Hi'. congruence.
      + split; intros He.
        * apply (Permutation_in _ Hp'), Hs; [exact Hk|]. apply (Permutation_in _ (Permutation_sym Hp)).
          apply in_app_or in He as [He|[He|He]]; apply in_or_app; [now left|congruence|right; now right].
        * apply (Permutation_in _ (Permutation_sym Hp')) in He. apply Hs in He; [|exact Hk]. apply (Permutation_in _ Hp) in He.
          apply in_app_or in He as [He|[He|He]]; apply in_or_app; [now left|congruence|right; now right]. }
  subst s'. rewrite !map_app. cbn [map].
  destruct (bracketed_replace o 123 125 (map (mpart o) p) (map (mpart o) q)) as (pre & post & G).
  set (nm := quoted (o_esc o) k ++ (if o_indent o then [58; 32] else [58])).
  assert (Hm : forall j y, mpart o (k, (j, y)) = nm ++ txt y) by (intros j y; unfold mpart, labelled, nm; cbn [fst snd]; now rewrite <- app_assoc).
  exists (pre ++ nm), post. rewrite !G, !Hm. rewrite <- !app_assoc. auto.
Qed.
Lemma object_insert i kvs lo i' kvs' lo' k id x : json_typed (VObj i kvs lo) -> json_typed (VObj i' kvs' lo') ->
  ~ In k (map fst kvs) -> In (k, (id, x)) kvs' -> (forall k' e, k' <> k -> (In (k', e) kvs' <-> In (k', e) kvs)) ->
  exists pre mid post, piece o (labelled o (HKey k) (txt x)) mid /\
    marshal_opt E W o (VObj i' kvs' lo') = Ok (pre ++ mid ++ post) /\ marshal_opt E W o (VObj i kvs lo) = Ok (pre ++ post).
Proof using Hn Hom.
  intros Ht Ht' Hni Hi' Hs. destruct (object_named o Hn Hom) as (lt & Has & HO).
  destruct (HO _ _ _ Ht) as (s & Hp & Hb & ->). destruct (HO _ _ _ Ht') as (s' & Hp' & Hb' & ->).
  apply json_typed_obj in Ht as [Hnd _], Ht' as [Hnd' _].
  assert (Hsi : In (k, (id, x)) s') by (eapply Permutation_in; eassumption). apply in_split in Hsi as (p & q & ->).
  assert (Es : s = p ++ q).
  { symmetry. apply (sorted_same lt); [exact Has| |apply ord_app_cons in Hb'; apply Hb'|exact Hb].
    assert (Hnk : NoDup (map fst (p ++ (k, (id, x)) :: q))) by (eapply Permutation_NoDup; [apply Permutation_map, Hp'|exact Hnd']).
    assert (Hnk' : NoDup (map fst s)) by (eapply Permutation_NoDup; [apply Permutation_map, Hp|exact Hnd]).
    rewrite map_app in Hnk. cbn in Hnk. pose proof (NoDup_remove_1 _ _ _ Hnk) as N1. pose proof (NoDup_remove_2 _ _ _ Hnk) as N2. rewrite <- map_app in N1, N2.
    apply NoDup_Permutation; [now apply (NoDup_map_inv fst)|now apply (NoDup_map_inv fst)|].
    intros [k' e]. split; intros He.
    - assert (Hk : k' <> k) by (intros ->; apply N2, in_map_iff; exists (k, e); auto).
      apply (Permutation_in _ Hp), Hs; [exact Hk|]. apply (Permutation_in _ (Permutation_sym Hp')).
      apply in_app_or in He as [He|He]; apply in_or_app; [now left|right; now right].
    - apply (Permutation_in _ (Permutation_sym Hp)) in He.
      assert (Hk : k' <> k) by (intros ->; apply Hni, in_map_iff; exists (k, e); auto).
      apply Hs in He; [|exact Hk]. apply (Permutation_in _ Hp') in He.
      apply in_app_or in He as [He|[He|He]]; apply in_or_app; [now left|congruence|now right]. }
  subst s. rewrite !map_app. cbn [map].
  destruct (bracketed_insert o 123 125 (map (mpart o) p) (mpart o (k, (id, x))) (map (mpart o) q)) as (pre & mid & post & G & G1 & G2).
  exists pre, mid, post. split; [exact G|]. now rewrite G1, G2.
Qed.
End Named.

(** *** Deep inside *)
Lemma changed_typed (R : V -> V -> Prop) : (forall d d', R d d' -> json_typed d -> json_typed d') ->
  forall hs v v', changed R hs v v' -> json_typed v -> json_typed v'.
Proof.
  intros HR hs v v' H. induction H as [v v' H|i a k id x x' b lo hs H IH|a x x' b hs H IH]; intros Ht; [eauto| |].
  - apply json_typed_obj in Ht as [Hn Ht]. apply json_typed_obj. unfold akeys in *. rewrite map_app in *. split; [exact Hn|].
    apply Forall_app in Ht as [H1 H2]. inversion H2; subst. apply Forall_app. split; [exact H1|]. constructor; [now apply IH|assumption].
  - apply json_typed_arr in Ht. apply json_typed_arr. apply Forall_app in Ht as [H1 H2]. inversion H2; subst. apply Forall_app. split; [exact H1|].
    constructor; [now apply IH|assumption].
Qed.
Lemma changed_text E W (R : V -> V -> Prop) : forall hs v v', changed R hs v v' -> forall o, by_name o -> o_omit_null o = false ->
  json_typed v -> json_typed v' ->
  (hs = [] /\ R v v') \/
  exists d d' pre post, R d d' /\ json_typed d /\ json_typed d' /\ sits v hs d /\
    marshal_opt E W o v = Ok (pre ++ text_of (marshal_opt E W (deep (List.length hs) o) d) ++ post) /\
    marshal_opt E W o v' = Ok (pre ++ text_of (marshal_opt E W (deep (List.length hs) o) d') ++ post).
Proof.
  intros hs v v' H. induction H as [v v' H|i a k id x x' b lo hs H IH|a x x' b hs H IH]; intros o Hn Hom Ht Ht'; [now left| |]; right.
  - assert (Hx : json_typed x /\ json_typed x').
    { apply json_typed_obj in Ht as [_ Ht], Ht' as [_ Ht']. apply Forall_app in Ht as [_ Ht], Ht' as [_ Ht']. inversion Ht; inversion Ht'; auto. }
    destruct Hx as [Hx Hx'].
    destruct (object_replace E W o Hn Hom i _ lo i _ lo k id x id x' Ht Ht') as (pre & post & G1 & G2); [apply in_elt|apply in_elt| |].
    { intros k' e Hk. split; intros He; apply in_app_or in He as [He|[He|He]]; apply in_or_app; (now left) || congruence || (right; now right). }
    destruct (IH (deeper o) Hn Hom Hx Hx') as [[-> HR]|(d & d' & pre' & post' & HR & Hd & Hd' & Hs & M1 & M2)].
    + exists x, x', pre, post. repeat (split; [assumption|]). split; [|split; assumption]. eapply sits_key; [apply in_elt|constructor].
    + exists d, d', (pre ++ pre'), (post' ++ post). repeat (split; [assumption|]). split; [eapply sits_key; [apply in_elt|exact Hs]|].
      rewrite M1 in G1. rewrite M2 in G2. cbn [text_of] in G1, G2. rewrite deep_deeper in G1, G2. cbn [List.length]. rewrite <- !app_assoc in *. auto.
  - assert (Hx : json_typed x /\ json_typed x').
    { apply json_typed_arr in Ht, Ht'. apply Forall_app in Ht as [_ Ht], Ht' as [_ Ht']. inversion Ht; inversion Ht'; auto. }
    destruct Hx as [Hx Hx'].
    destruct (array_replace E W o Hn a b x x' Ht Ht') as (pre & post & G1 & G2).
    destruct (IH (deeper o) Hn Hom Hx Hx') as [[-> HR]|(d & d' & pre' & post' & HR & Hd & Hd' & Hs & M1 & M2)].
    + exists x, x', pre, post. repeat (split; [assumption|]). split; [|split; assumption]. apply sits_elem. constructor.
    + exists d, d', (pre ++ pre'), (post' ++ post). repeat (split; [assumption|]). split; [apply sits_elem; exact Hs|].
      rewrite M1 in G1. rewrite M2 in G2. cbn [text_of] in G1, G2. rewrite deep_deeper in G1, G2. cbn [List.length]. rewrite <- !app_assoc in *. auto.
Qed.

(** *** The calls *)
Lemma built_typed ps c w : built ps c w -> json_typed c -> json_typed w.
Proof.
  induction 1 as [c|k ps c w H IH|p ps c w Hi H IH]; intros Hc; [exact Hc| |].
  - apply json_typed_obj. split; [repeat constructor; intros []|]. constructor; [now apply IH|constructor].
  - apply json_typed_arr. constructor; [now apply IH|constructor].
Qed.
Lemma member_set_typed k c d d' : member_set k c d d' -> json_typed c -> json_typed d -> json_typed d'.
Proof.
  intros (i & kvs & lo & i' & kvs' & lo' & -> & -> & _ & Hn & Hi & Hs) Hc Hd.
  apply json_typed_obj in Hd as [Hnd Hd]. apply json_typed_obj. split; [exact Hn|]. apply Forall_forall. intros [k' e] He.
  destruct (list_eq_dec Z.eq_dec k' k) as [->|Hk].
  - apply (alookup_NoDup_In _ _ _ Hn) in He. apply (alookup_NoDup_In _ _ _ Hn) in Hi. assert (e = (i', c)) by congruence. subst e. exact Hc.
  - apply Hs in He; [|exact Hk]. rewrite Forall_forall in Hd. exact (Hd _ He).
Qed.
Lemma appended_typed c d d' : elem_appended c d d' -> json_typed c -> json_typed d -> json_typed d'.
Proof. intros (l & -> & ->) Hc Hd. apply json_typed_arr in Hd. apply json_typed_arr, Forall_app. split; [exact Hd|]. now constructor. Qed.
Lemma writes_typed p ps c d d' : writes p ps c d d' -> json_typed c -> json_typed d -> json_typed d'.
Proof.
  intros H Hc Hd. destruct H as [k c d d' H|p i c d d' Hi (a & x & b & -> & -> & _)|p c l d' Hi H|k q ps c w d d' _ Hb H|p i q ps c w d d' Hi _ Hb H].
  - eapply member_set_typed; eassumption.
  - apply json_typed_arr in Hd. apply Forall_app in Hd as [H1 H2]. inversion H2; subst. apply json_typed_arr, Forall_app. split; [exact H1|]. now constructor.
  - eapply appended_typed; eassumption.
  - eapply member_set_typed; eauto using built_typed.
  - eapply appended_typed; eauto using built_typed.
Qed.

Section Lift.
Variable E : Env.
Variables W W' : World.
Variable o : opt.
Hypothesis Hn : by_name o.
Hypothesis Hom : o_omit_null o = false.

Lemma lift_text (R : V -> V -> Prop) (Q : V -> V -> bytes -> bytes -> Prop) hs v v' :
  json_typed v -> json_typed v' -> changed R hs v v' ->
  (forall d d', R d d' -> json_typed d -> json_typed d' -> exists pre mid mid' post, Q d d' mid mid' /\
     marshal_opt E W (deep (List.length hs) o) d = Ok (pre ++ mid ++ post) /\ marshal_opt E W (deep (List.length hs) o) d' = Ok (pre ++ mid' ++ post)) ->
  exists d d' pre mid mid' post, R d d' /\ Q d d' mid mid' /\ marshal_opt E W o v = Ok (pre ++ mid ++ post) /\ marshal_opt E W' o v' = Ok (pre ++ mid' ++ post).
Proof using Hn Hom.
  intros Ht Ht' Hc HQ. rewrite <- (output_determined E W W' o v' Ht' (by_name_all o v' Hn)).
  destruct (changed_text E W R hs v v' Hc o Hn Hom Ht Ht') as [[-> HR]|(d & d' & pre & post & HR & Hd & Hd' & _ & M & M')].
  - destruct (HQ v v' HR Ht Ht') as (pre & mid & mid' & post & A & B & C). exists v, v', pre, mid, mid', post. auto.
  - destruct (HQ d d' HR Hd Hd') as (pre1 & mid & mid' & post1 & A & B & C). exists d, d', (pre ++ pre1), mid, mid', (post1 ++ post).
    split; [exact HR|]. split; [exact A|]. rewrite B in M. rewrite C in M'. cbn [text_of] in M, M'. rewrite <- !app_assoc in *. auto.
Qed.

Notation at_depth n x := (text_of (marshal_opt E W (deep n o) x)).

Theorem set_replaces v c p ps v' y hs old : json_typed v -> json_typed c -> Forall plain (p :: ps) ->
  leads v (p :: ps) hs old -> set_at E v (arg_v c) p ps = (v', Ok y) ->
  exists pre post, marshal_opt E W o v = Ok (pre ++ at_depth (List.length hs) old ++ post) /\
    marshal_opt E W' o v' = Ok (pre ++ at_depth (List.length hs) c ++ post).
Proof using Hn Hom.
  intros Ht Hc Hp Hl Hs. assert (M := typed_maps v Ht). destruct (set_creates E v c p ps v' y M Hp Hs) as (-> & ps1 & q & ps2 & hs0 & d & Ep & L0 & Hch).
  rewrite Ep in Hl. destruct (leads_split v ps1 (q :: ps2) hs old Hl) as (hs1 & hs2 & d1 & -> & L1 & L2).
  destruct (leads_det _ _ _ _ L0 _ _ M L1) as (<- & <-).
  assert (Ht' : json_typed v').
  { eapply changed_typed; [|exact Hch|exact Ht]. intros x x' [-> Hw] Hd. eapply writes_typed; eassumption. }
  destruct (lift_text _ (fun _ _ m m' => m = at_depth (List.length (hs0 ++ hs2)) old /\ m' = at_depth (List.length (hs0 ++ hs2)) c) hs0 v v' Ht Ht' Hch)
    as (x & x' & pre & mid & mid' & post & _ & (-> & ->) & G1 & G2); [|exists pre, post; auto].
  intros x x' [-> Hw] Hd Hd'.
  assert (G : exists pre post, marshal_opt E W (deep (List.length hs0) o) d = Ok (pre ++ at_depth (List.length (hs0 ++ hs2)) old ++ post) /\
                               marshal_opt E W (deep (List.length hs0) o) x' = Ok (pre ++ at_depth (List.length (hs0 ++ hs2)) c ++ post));
    [|destruct G as (pre & post & G1 & G2); exists pre, (at_depth (List.length (hs0 ++ hs2)) old), (at_depth (List.length (hs0 ++ hs2)) c), post; auto].
  assert (Hon := by_name_deep (List.length hs0) o Hn). assert (Hoo := omit_deep (List.length hs0) o). rewrite Hom in Hoo. assert (Md := typed_maps d Hd).
  inversion Hw as [k c0 d0 d0' H|p0 i c0 d0 d0' Hi (a & z & b & -> & -> & Hr)|p0 c0 l d0' Hi H|k q0 r c0 w d0 d0' Hno Hb H|p0 i q0 r c0 w d0 d0' Hi Hno Hb H]; subst.
  - destruct H as (i & kvs & lo & i' & kvs' & lo' & -> & -> & _ & _ & Hin & Hoth).
    inversion L2 as [|? ? ? ? id ? ? hs3 ? Hk L3|]; subst. inversion L3; subst.
    rewrite app_length, Nat.add_1_r.
    exact (object_replace E W (deep (List.length hs0) o) Hon Hoo i kvs lo _ kvs' lo' k id old _ c Hd Hd' Hk Hin Hoth).
  - assert (L4 : leads (VArr (a ++ z :: b)) [q] [HIdx (List.length a)] z) by (eapply leads_elem; [exact Hi|exact Hr|constructor]).
    destruct (leads_det _ _ _ _ L4 _ _ Md L2) as (<- & <-). rewrite app_length, Nat.add_1_r.
    exact (array_replace E W (deep (List.length hs0) o) Hon a b z c Hd Hd').
  - exfalso. inversion L2 as [| |a z b ? i ? ? ? Hi' Hr L3]; subst. rewrite Hi in Hi'. injection Hi' as <-. rewrite app_length in Hr. cbn in Hr.
    destruct Hr as [Hr|Hr]; lia.
  - exfalso. destruct (leads_split d [PStr k] (q0 :: r) hs2 old L2) as (h1 & h2 & z & _ & L3 & _). exact (Hno _ _ L3).
  - exfalso. destruct (leads_split d [q] (q0 :: r) hs2 old L2) as (h1 & h2 & z & _ & L3 & _). exact (Hno _ _ L3).
Qed.

Theorem set_adds_member v c p ps v' y ps1 k ps2 hs i kvs lo : json_typed v -> json_typed c -> Forall plain (p :: ps) ->
  p :: ps = ps1 ++ PStr k :: ps2 -> leads v ps1 hs (VObj i kvs lo) -> ~ In k (map fst kvs) ->
  set_at E v (arg_v c) p ps = (v', Ok y) ->
  exists w pre mid post, built ps2 c w /\
    piece (deep (List.length hs) o) (labelled (deep (List.length hs) o) (HKey k) (at_depth (S (List.length hs)) w)) mid /\
    marshal_opt E W o v = Ok (pre ++ post) /\ marshal_opt E W' o v' = Ok (pre ++ mid ++ post).
Proof using Hn Hom.
  intros Ht Hc Hp Ep L Hk Hs. assert (M := typed_maps v Ht). destruct (set_creates E v c p ps v' y M Hp Hs) as (-> & qs1 & q & qs2 & hs0 & d & Eq & L0 & Hch).
  rewrite Ep in Eq. clear Hs.
  assert (Hno : forall ts t w, ~ leads (VObj i kvs lo) (PStr k :: ts) t w).
  { intros ts t w H. inversion H as [|? ? ? ? id x ? ? ? Hin _|]; subst. apply Hk, in_map_iff. exists (k, (id, x)). auto. }
  assert (G : qs1 = ps1 /\ q = PStr k /\ qs2 = ps2 /\ hs0 = hs /\ d = VObj i kvs lo).
  { assert (HT : exists t, (ps1 = qs1 ++ t /\ q :: qs2 = t ++ PStr k :: ps2) \/ (qs1 = ps1 ++ t /\ PStr k :: ps2 = t ++ q :: qs2)).
    { clear - Eq. revert qs1 Eq. induction ps1 as [|x r IH]; intros qs1 Eq.
      - exists qs1. right. auto.
      - destruct qs1 as [|z s]; [exists (x :: r); left; auto|]. cbn in Eq. injection Eq as <- Eq.
        destruct (IH _ Eq) as (t & [[-> B]|[-> B]]); exists t; [left|right]; auto. }
    destruct HT as (t & [[E1 E2]|[E1 E2]]).
    - destruct t as [|t0 t].
      + rewrite app_nil_r in E1. cbn in E2. injection E2 as -> ->. subst qs1. destruct (leads_det _ _ _ _ L0 _ _ M L) as (-> & ->). auto.
      + exfalso. cbn in E2. injection E2 as <- ->. subst ps1. destruct (leads_split v qs1 _ _ _ L) as (h1 & h2 & d1 & _ & L1 & L2).
        destruct (leads_det _ _ _ _ L0 _ _ M L1) as (<- & <-).
        destruct (leads_split d [q] t _ _ L2) as (h3 & h4 & d2 & _ & L3 & _).
        assert (HW : exists z z', writes q (t ++ PStr k :: ps2) c z z' /\ z = d).
        { clear - Hch. induction Hch as [x x' [-> Hw]| |]; eauto. }
        destruct HW as (z & z' & Hw & ->). destruct t as [|t1 t]; cbn in Hw; inversion Hw; subst; match goal with HH : forall hs x, ~ leads _ _ hs x |- _ => exact (HH _ _ L3) end.
    - destruct t as [|t0 t].
      + rewrite app_nil_r in E1. cbn in E2. injection E2 as <- <-. subst qs1. destruct (leads_det _ _ _ _ L0 _ _ M L) as (-> & ->). auto.
      + exfalso. cbn in E2. injection E2 as <- ->. subst qs1. destruct (leads_split v ps1 _ _ _ L0) as (h1 & h2 & d1 & _ & L1 & L2).
        destruct (leads_det _ _ _ _ L _ _ M L1) as (_ & <-). exact (Hno _ _ _ L2). }
  destruct G as (-> & -> & -> & -> & ->).
  assert (Ht' : json_typed v').
  { eapply changed_typed; [|exact Hch|exact Ht]. intros x x' [-> Hw] Hd. eapply writes_typed; eassumption. }
  set (n := List.length hs) in *.
  destruct (lift_text _ (fun _ _ m m' => m = [] /\ exists w, built ps2 c w /\ piece (deep n o) (labelled (deep n o) (HKey k) (at_depth (S n) w)) m') hs v v' Ht Ht' Hch)
    as (x & x' & pre & mid & mid' & post & _ & (-> & w & Hb & Hpc) & G1 & G2); [|exists w, pre, mid', post; auto].
  intros x x' [-> Hw] Hd Hd'. fold n.
  assert (HM : exists w, built ps2 c w /\ member_set k w (VObj i kvs lo) x').
  { inversion Hw as [k0 c0 d0 d0' H|p0 i0 c0 d0 d0' Hi _|p0 c0 l d0' Hi H|k0 q0 r c0 w d0 d0' _ Hb H|p0 i0 q0 r c0 w d0 d0' Hi _ Hb H]; subst; try discriminate.
    - exists c. split; [constructor|exact H].
    - eauto. }
  destruct HM as (w & Hb & i0 & kvs0 & lo0 & i' & kvs' & lo' & E0 & -> & _ & _ & Hin & Hoth). injection E0 as <- <- <-.
  assert (Hoo := omit_deep n o). rewrite Hom in Hoo.
  destruct (object_insert E W (deep n o) (by_name_deep n o Hn) Hoo i kvs lo _ kvs' lo' k _ w Hd Hd' Hk Hin Hoth) as (pre & mid & post & A & B & C).
  exists pre, [], mid, post. split; [split; [reflexivity|]; exists w; split; [exact Hb|exact A]|]. cbn [app]. auto.
Qed.

Lemma array_grows v v' hs a b c : json_typed v -> json_typed c -> changed (fun x x' => x = VArr (a ++ b) /\ x' = VArr (a ++ c :: b)) hs v v' ->
  exists pre mid post, piece (deep (List.length hs) o) (at_depth (S (List.length hs)) c) mid /\
    marshal_opt E W o v = Ok (pre ++ post) /\ marshal_opt E W' o v' = Ok (pre ++ mid ++ post).
Proof using Hn Hom.
  intros Ht Hc Hch.
  assert (Ht' : json_typed v').
  { eapply changed_typed; [|exact Hch|exact Ht]. intros x x' [-> ->] Hd. apply json_typed_arr in Hd. apply Forall_app in Hd as [H1 H2].
    apply json_typed_arr, Forall_app. split; [exact H1|]. now constructor. }
  set (n := List.length hs) in *.
  destruct (lift_text _ (fun _ _ m m' => m = [] /\ piece (deep n o) (at_depth (S n) c) m') hs v v' Ht Ht' Hch)
    as (x & x' & pre & mid & mid' & post & _ & (-> & Hpc) & G1 & G2); [|exists pre, mid', post; auto].
  intros x x' [-> ->] Hd Hd'. fold n.
  destruct (array_insert E W (deep n o) (by_name_deep n o Hn) a b c Hd' Hd) as (pre & mid & post & A & B & C).
  exists pre, [], mid, post. split; [split; [reflexivity|exact A]|]. auto.
Qed.
Theorem append_text front v c ps v' y hs l : json_typed v -> json_typed c -> Forall plain ps -> leads v ps hs (VArr l) ->
  append_at E W front v (arg_v c) ps = (v', Ok y) ->
  exists pre mid post, piece (deep (List.length hs) o) (at_depth (S (List.length hs)) c) mid /\
    marshal_opt E W o v = Ok (pre ++ post) /\ marshal_opt E W' o v' = Ok (pre ++ mid ++ post).
Proof using Hn Hom.
  intros Ht Hc Hp L Ha. assert (M := typed_maps v Ht). apply (append_iff E W front v c ps v' y M Hp) in Ha as (-> & [(hs0 & l0 & L0 & Hch)|(q & r & z & _ & Hm & _)]).
  - destruct (leads_det _ _ _ _ L _ _ M L0) as (<- & E0). injection E0 as <-.
    destruct front; cbn [end_added] in Hch.
    + apply (array_grows v v' hs [] l c Ht Hc Hch).
    + apply (array_grows v v' hs l [] c Ht Hc). clear - Hch. rewrite app_nil_r. exact Hch.
  - elim (leads_not_missing ps v hs _ L M Hm).
Qed.
Theorem insert_text (after : bool) v c ps p first others v' y : json_typed v -> json_typed c -> Forall plain (first :: others) -> first :: others = ps ++ [p] ->
  (if after then insert_after E W v (arg_v c) first others else insert_before E W v (arg_v c) first others) = (v', Ok y) ->
  exists hs d pre mid post, leads v ps hs d /\ piece (deep (List.length hs) o) (at_depth (S (List.length hs)) c) mid /\
    marshal_opt E W o v = Ok (pre ++ post) /\ marshal_opt E W' o v' = Ok (pre ++ mid ++ post).
Proof using Hn Hom.
  intros Ht Hc Hp Ep Hi. assert (M := typed_maps v Ht). apply (insert_iff E W after v c ps p first others v' y M Hp Ep) in Hi as (-> & hs & d & i & L & Hi & Hch).
  exists hs, d. 
  assert (G : exists a b, changed (fun x x' => x = VArr (a ++ b) /\ x' = VArr (a ++ c :: b)) hs v v').
  { clear - Hch. induction Hch as [x x' [-> Hw]|i0 a k id x x' b lo hs H (a0 & b0 & IH)|a x x' b hs H (a0 & b0 & IH)].
    - destruct after; destruct Hw as (a & e & b & -> & _ & ->).
      + exists (a ++ [e]), b. constructor. rewrite <- !app_assoc. auto.
      + exists a, (e :: b). constructor. auto.
    - exists a0, b0. constructor. exact IH.
    - exists a0, b0. constructor. exact IH. }
  destruct G as (a & b & G). destruct (array_grows v v' hs a b c Ht Hc G) as (pre & mid & post & A & B & C). exists pre, mid, post. auto.
Qed.
Theorem delete_text v ps p first others v' : json_typed v -> Forall plain (first :: others) -> first :: others = ps ++ [p] ->
  delete_at E W false v first others = (v', Ok tt) ->
  exists hs h x pre mid post, leads v (first :: others) (hs ++ [h]) x /\
    piece (deep (List.length hs) o) (labelled (deep (List.length hs) o) h (at_depth (S (List.length hs)) x)) mid /\
    marshal_opt E W o v = Ok (pre ++ mid ++ post) /\ marshal_opt E W' o v' = Ok (pre ++ post).
Proof using Hn Hom.
  intros Ht Hp Ep Hdel. assert (M := typed_maps v Ht).
  destruct (proj2 (delete_effect E W v ps p first others M Hp Ep) v' Hdel) as (hs & d & d' & L & Hch & _ & Hrem & _).
  set (n := List.length hs) in *. assert (Hon := by_name_deep n o Hn). assert (Hoo := omit_deep n o). rewrite Hom in Hoo.
  assert (Ht' : json_typed v').
  { eapply changed_typed; [|exact Hch|exact Ht]. intros x x' [-> ->] Hd. inversion Hrem as [i a k e b lo lo' Hk|a e b p0 i Hi Hr]; subst.
    - apply json_typed_obj in Hd as [Hnd Hd]. apply Forall_app in Hd as [H1 H2]. inversion H2; subst. apply json_typed_obj. unfold akeys in *. rewrite map_app in *. cbn in Hnd.
      split; [now apply NoDup_remove_1 in Hnd|]. now apply Forall_app.
    - apply json_typed_arr in Hd. apply Forall_app in Hd as [H1 H2]. inversion H2; subst. apply json_typed_arr. now apply Forall_app. }
  rewrite Ep.
  destruct (lift_text _ (fun _ _ m m' => m' = [] /\ exists h x, leads v (ps ++ [p]) (hs ++ [h]) x /\ piece (deep n o) (labelled (deep n o) h (at_depth (S n) x)) m) hs v v' Ht Ht' Hch)
    as (x & x' & pre & mid & mid' & post & _ & (-> & h & z & L2 & Hpc) & G1 & G2); [|exists hs, h, z, pre, mid, post; auto].
  intros x x' [-> ->] Hd Hd'. fold n. inversion Hrem as [i a k [id e] b lo lo' Hk|a e b p0 i Hi Hr]; subst.
  - destruct (object_insert E W (deep n o) Hon Hoo i (a ++ b) lo' i (a ++ (k, (id, e)) :: b) lo k id e Hd' Hd Hk) as (pre & mid & post & A & B & C).
    + apply in_elt.
    + intros k' z Hz. split; intros H; apply in_app_or in H; apply in_or_app; [|destruct H; [now left|right; now right]].
      destruct H as [H|[H|H]]; [now left|congruence|now right].
    + exists pre, mid, [], post. split; [|auto]. split; [reflexivity|]. exists (HKey k), e. split; [|exact A].
      eapply leads_app; [exact L|]. eapply leads_key; [apply in_elt|constructor].
  - destruct (array_insert E W (deep n o) Hon a b e Hd Hd') as (pre & mid & post & A & B & C).
    exists pre, mid, [], post. split; [|auto]. split; [reflexivity|]. exists (HIdx (List.length a)), e. split; [|exact A].
    eapply leads_app; [exact L|]. eapply leads_elem; [exact Hi|exact Hr|constructor].
Qed.
End Lift.
