(** What an edit changes in a text written in the order of setting (C90). *)
From Verif Require Import Base Float64 Value Opt Marshal Path Edit SpecJson SpecValue SpecText SpecOpts SpecOrder SpecPath SpecHistory SpecPieces SpecSplice
  SpecSetSplice ListLemmas ValueLemmas SortProof OrderProof MarshalTotal MarshalProof MarshalClaims IndentProof PiecesProof CanonProof ContainProof
  PathProof SetProof SetClaims EditClaims SetExact HistoryProof OrderHistory SpliceProof.

(** *** Brackets: the last place, and a part that moves there *)
Lemma commas_last p x : commas (p ++ [x]) = match p with [] => x | _ => commas p ++ 44 :: x end.
Proof. rewrite commas_app. destruct p; reflexivity. Qed.
Definition front (p : list bytes) : bytes := match p with [] => [] | _ => commas p ++ [44] end.
Lemma commas_front p l : l <> [] -> commas (p ++ l) = front p ++ commas l.
Proof. intros H. rewrite commas_app. destruct p; [reflexivity|]. destruct l; [now elim H|]. cbn [front]. now rewrite <- app_assoc. Qed.
Lemma commas_cons x l : l <> [] -> commas (x :: l) = x ++ 44 :: commas l.
Proof. intros H. destruct l; [now elim H|reflexivity]. Qed.
Lemma bracketed_last o p part : exists pre mid post, piece o part mid /\ closes o post /\
  bracketed o 123 125 (p ++ [part]) = pre ++ mid ++ post /\ bracketed o 123 125 p = pre ++ post.
Proof.
  unfold bracketed, piece, closes. set (line := if o_indent o then _ else _). set (last := if o_indent o then _ else _).
  destruct (p ++ [part]) eqn:E; [destruct p; discriminate|]. rewrite <- E. clear E l.
  rewrite map_app. cbn [map]. rewrite commas_last. destruct p as [|x p].
  - exists [123], (line ++ part ++ last), [125]. split; [now right; right|]. split; [exists []; now left|]. cbn [map app]. now rewrite <- !app_assoc.
  - exists (123 :: commas (map (app line) (x :: p))), (44 :: line ++ part), (last ++ [125]). split; [now left|]. split; [exists []; now right|].
    cbn [map app]. split; [|reflexivity]. f_equal. repeat (rewrite <- app_assoc; cbn [app]). reflexivity.
Qed.
Lemma bracketed_move o p x q x' : exists pre mid between mid' post, piece o x mid /\ piece o x' mid' /\ closes o post /\
  bracketed o 123 125 (p ++ x :: q) = pre ++ mid ++ between ++ post /\
  bracketed o 123 125 (p ++ q ++ [x']) = pre ++ between ++ mid' ++ post.
Proof.
  unfold bracketed, piece, closes. set (line := if o_indent o then _ else _). set (last := if o_indent o then _ else _).
  destruct (p ++ x :: q) eqn:E; [destruct p; discriminate|]. rewrite <- E. clear E l.
  destruct (p ++ q ++ [x']) eqn:E; [destruct p; [destruct q|]; discriminate|]. rewrite <- E. clear E l.
  destruct q as [|y q].
  - cbn [app]. rewrite !map_app. cbn [map]. rewrite !commas_last. destruct p as [|z p].
    + exists [123], (line ++ x ++ last), [], (line ++ x' ++ last), [125].
      split; [now right; right|]. split; [now right; right|]. split; [exists []; now left|]. cbn [map app]. rewrite <- !app_assoc. auto.
    + exists (123 :: commas (map (app line) (z :: p))), (44 :: line ++ x), [], (44 :: line ++ x'), (last ++ [125]).
      split; [now left|]. split; [now left|]. split; [exists []; now right|]. cbn [map app].
      split; f_equal; repeat (rewrite <- app_assoc; cbn [app]); reflexivity.
  - exists (123 :: front (map (app line) p)), (line ++ x ++ [44]), (commas (map (app line) (y :: q))), (44 :: line ++ x'), (last ++ [125]).
    split; [now right; left|]. split; [now left|]. split; [exists []; now right|].
    rewrite !map_app. rewrite !commas_front by discriminate. cbn [map]. set (m := (line ++ y) :: map (app line) q). assert (Hm : m <> []) by discriminate.
    rewrite (commas_cons (line ++ x) m Hm). assert (Hf : front m = commas m ++ [44]) by reflexivity. rewrite Hf. change (commas [line ++ x']) with (line ++ x'). clearbody m.
    split; cbn [app]; f_equal; repeat (rewrite <- app_assoc; cbn [app]); reflexivity.
Qed.

(** *** Options that order by setting, documents with distinct numbers *)
Lemma setting_blind o : by_setting o -> blind o.
Proof. intros (H & _). unfold blind. now rewrite H. Qed.
Lemma setting_deep n : forall o, by_setting o -> by_setting (deep n o).
Proof. induction n as [|n IH]; intros o H; [exact H|]. exact (IH o H). Qed.

Definition kept_doc (n : nat) (v : V) : Prop := json_typed v /\ all_obj (dated n) v.
Lemma kept_arr n l : kept_doc n (VArr l) <-> Forall (kept_doc n) l.
Proof.
  unfold kept_doc. rewrite json_typed_arr, all_obj_arr. rewrite !Forall_forall. split; [intros [A B] x Hx; auto|]. intros H. split; intros x Hx; apply (H x Hx).
Qed.
Lemma kept_obj n i kvs lo : kept_doc n (VObj i kvs lo) ->
  NoDup (akeys kvs) /\ dated n i kvs lo /\ Forall (fun e : kvt => kept_doc n (snd (snd e))) kvs.
Proof.
  intros [Ht Ha]. apply json_typed_obj in Ht as [Hn Ht]. apply all_obj_obj in Ha as [Hd Ha]. split; [exact Hn|]. split; [exact Hd|].
  rewrite Forall_forall in *. intros e He. split; [exact (Ht _ He)|exact (Ha _ He)].
Qed.
Lemma kept_total o n v : by_setting o -> Z.of_nat n < two32 -> kept_doc n v -> all_objs (total_order o) v.
Proof.
  intros (H1 & H2 & H3) Hn [_ H]. induction v as [ |s|nn src|i kvs lo IH|l IH|b| | | ] using V_ind'; try exact I.
  - apply all_obj_obj in H as ((_ & Hd) & H). destruct (Hd Hn) as (Hd' & _). apply all_objs_obj. split.
    + unfold total_order. rewrite H1, H2. auto.
    + rewrite Forall_forall in *. auto.
  - apply all_obj_arr in H. apply all_objs_arr. rewrite Forall_forall in *. auto.
Qed.
Lemma kept_history E n v : history E n v -> json_typed v -> kept_doc n v.
Proof. intros H Ht. split; [exact Ht|]. now apply history_dated in H. Qed.

Section Set_order.
Variable E : Env.
Variable W : World.
Variable o : opt.
Hypothesis Hs : by_setting o.
Hypothesis Hom : o_omit_null o = false.
Variables n n' : nat.
Hypothesis Hn : Z.of_nat n < two32.
Hypothesis Hn' : Z.of_nat n' < two32.
Notation txt x := (text_of (marshal_opt E W (deeper o) x)).
Notation mpart := (mpart E W o).

Lemma object_set m i kvs lo : Z.of_nat m < two32 -> kept_doc m (VObj i kvs lo) -> exists s, Permutation kvs s /\ by_id s /\
    marshal_opt E W o (VObj i kvs lo) = Ok (bracketed o 123 125 (map mpart s)).
Proof using Hs Hom.
  intros Hm Hk. exists (order_kvs W o None [] kvs). assert (HP := order_kvs_perm W o None [] kvs). split; [now symmetry|].
  destruct (kept_obj _ _ _ _ Hk) as (Hnd & (_ & Hd) & _). destruct (Hd Hm) as (Hi & _). split.
  - destruct Hs as (H1 & H2 & H3). apply (in_order_setseq E W o kvs Hnd Hi H1 H2 H3 None []); [apply order_mk|now symmetry].
  - rewrite (object_plain_at E W o i kvs lo); [reflexivity|now apply setting_blind|apply Hk|now apply (kept_total o m)|congruence].
Qed.
Lemma set_sorted_same (s s' : list kvt) : Permutation s s' -> by_id s -> by_id s' -> s = s'.
Proof. intros Hp H1 H2. eapply (OrderProof.sorted_unique (fun x y : kvt => fst (snd x) < fst (snd y))); eauto. intros x y _ _ A B. lia. Qed.
Lemma array_set m l : Z.of_nat m < two32 -> kept_doc m (VArr l) -> marshal_opt E W o (VArr l) = Ok (bracketed o 91 93 (map (fun x => txt x) l)).
Proof using Hs. intros Hm Hk. apply array_plain; [now apply setting_blind|apply Hk|now apply (kept_total o m)]. Qed.

Lemma set_array_replace a b x x' : kept_doc n (VArr (a ++ x :: b)) -> kept_doc n' (VArr (a ++ x' :: b)) ->
  exists pre post, marshal_opt E W o (VArr (a ++ x :: b)) = Ok (pre ++ txt x ++ post) /\
    marshal_opt E W o (VArr (a ++ x' :: b)) = Ok (pre ++ txt x' ++ post).
Proof using Hs Hn Hn'.
  intros H H'. rewrite (array_set n _ Hn H), (array_set n' _ Hn' H'). rewrite !map_app. cbn [map].
  destruct (bracketed_replace o 91 93 (map (fun x => txt x) a) (map (fun x => txt x) b)) as (pre & post & G).
  exists pre, post. now rewrite !G.
Qed.
Lemma set_array_insert a b x : kept_doc n (VArr (a ++ b)) -> kept_doc n' (VArr (a ++ x :: b)) ->
  exists pre mid post, piece o (txt x) mid /\ marshal_opt E W o (VArr (a ++ x :: b)) = Ok (pre ++ mid ++ post) /\
    marshal_opt E W o (VArr (a ++ b)) = Ok (pre ++ post).
Proof using Hs Hn Hn'.
  intros H H'. rewrite (array_set n _ Hn H), (array_set n' _ Hn' H'). rewrite !map_app. cbn [map].
  destruct (bracketed_insert o 91 93 (map (fun x => txt x) a) (txt x) (map (fun x => txt x) b)) as (pre & mid & post & G & G1 & G2).
  exists pre, mid, post. split; [exact G|]. now rewrite G1, G2.
Qed.

(** The entries of two objects with the same members but for [k]. *)
Lemma others_same (kvs kvs' : list kvt) k e : NoDup (akeys kvs) -> NoDup (akeys kvs') -> In (k, e) kvs' ->
  (forall k' x, k' <> k -> (In (k', x) kvs' <-> In (k', x) kvs)) ->
  forall r, (forall x, In x r <-> In x kvs /\ fst x <> k) -> NoDup r -> Permutation kvs' (r ++ [(k, e)]).
Proof.
  intros H1 H2 Hi Ho r Hr Hnr. apply NoDup_Permutation; [now apply (NoDup_map_inv fst)| |].
  - apply NoDup_app_single; [exact Hnr|]. intros H. apply Hr in H as [_ H]. now elim H.
  - intros [k' x]. rewrite in_app_iff. cbn [In]. rewrite (Hr (k', x)). cbn [fst].
    destruct (list_eq_dec Z.eq_dec k' k) as [->|Hk].
    + split.
      * intros H. apply (alookup_NoDup_In _ _ _ H2) in H. apply (alookup_NoDup_In _ _ _ H2) in Hi. right. left. congruence.
      * intros [[_ H]|[[= <-]|[]]]; [now elim H|exact Hi].
    + rewrite (Ho k' x Hk). split; [auto|]. intros [[H _]|[H|[]]]; [exact H|congruence].
Qed.

Lemma ord_app_single {A} (R : A -> A -> Prop) l x : ForallOrdPairs R l -> Forall (fun y => R y x) l -> ForallOrdPairs R (l ++ [x]).
Proof. intros H1 H2. apply ord_app_cons. rewrite app_nil_r. auto. Qed.

(** A member goes on having its number. *)
Lemma set_object_replace i a k id x x' b lo : kept_doc n (VObj i (a ++ (k, (id, x)) :: b) lo) -> kept_doc n' (VObj i (a ++ (k, (id, x')) :: b) lo) ->
  exists pre post, marshal_opt E W o (VObj i (a ++ (k, (id, x)) :: b) lo) = Ok (pre ++ txt x ++ post) /\
    marshal_opt E W o (VObj i (a ++ (k, (id, x')) :: b) lo) = Ok (pre ++ txt x' ++ post).
Proof using Hs Hom Hn Hn'.
  intros Hk Hk'. destruct (object_set n _ _ _ Hn Hk) as (s & Hp & Hb & ->). destruct (object_set n' _ _ _ Hn' Hk') as (s' & Hp' & Hb' & ->).
  assert (Hsi : In (k, (id, x)) s) by (eapply Permutation_in; [exact Hp|apply in_elt]). apply in_split in Hsi as (p & q & ->).
  assert (Es : s' = p ++ (k, (id, x')) :: q).
  { symmetry. apply set_sorted_same; [|apply ord_app_cons; apply ord_app_cons in Hb; exact Hb|exact Hb'].
    rewrite <- Hp'. apply Permutation_sym. apply Permutation_elt. eapply Permutation_app_inv. exact Hp. }
  subst s'. rewrite !map_app. cbn [map].
  destruct (bracketed_replace o 123 125 (map mpart p) (map mpart q)) as (pre & post & G).
  set (nm := quoted (o_esc o) k ++ (if o_indent o then [58; 32] else [58])).
  assert (Hm : forall j y, mpart (k, (j, y)) = nm ++ txt y) by (intros j y; unfold SpliceProof.mpart, labelled, nm; cbn [fst snd]; now rewrite <- app_assoc).
  exists (pre ++ nm), post. rewrite !G, !Hm. rewrite <- !app_assoc. auto.
Qed.
(** A member goes. *)
Lemma set_object_remove i a k id x b lo i' lo' : kept_doc n (VObj i (a ++ (k, (id, x)) :: b) lo) -> kept_doc n' (VObj i' (a ++ b) lo') ->
  exists pre mid post, piece o (labelled o (HKey k) (txt x)) mid /\
    marshal_opt E W o (VObj i (a ++ (k, (id, x)) :: b) lo) = Ok (pre ++ mid ++ post) /\ marshal_opt E W o (VObj i' (a ++ b) lo') = Ok (pre ++ post).
Proof using Hs Hom Hn Hn'.
  intros Hk Hk'. destruct (object_set n _ _ _ Hn Hk) as (s & Hp & Hb & ->). destruct (object_set n' _ _ _ Hn' Hk') as (s' & Hp' & Hb' & ->).
  assert (Hsi : In (k, (id, x)) s) by (eapply Permutation_in; [exact Hp|apply in_elt]). apply in_split in Hsi as (p & q & ->).
  assert (Es : s' = p ++ q).
  { symmetry. apply set_sorted_same; [|apply ord_app_cons in Hb; apply Hb|exact Hb'].
    rewrite <- Hp'. apply Permutation_sym. eapply Permutation_app_inv. exact Hp. }
  subst s'. rewrite !map_app. cbn [map].
  destruct (bracketed_insert o 123 125 (map mpart p) (mpart (k, (id, x))) (map mpart q)) as (pre & mid & post & G & G1 & G2).
  exists pre, mid, post. split; [exact G|]. now rewrite G1, G2.
Qed.
(** A new member. *)
Lemma set_object_add k w i kvs lo d' : (n < n')%nat -> kept_doc n (VObj i kvs lo) -> kept_doc n' d' -> ~ In k (map fst kvs) -> member_set k w (VObj i kvs lo) d' ->
  exists pre mid post, piece o (labelled o (HKey k) (txt w)) mid /\ closes o post /\
    marshal_opt E W o d' = Ok (pre ++ mid ++ post) /\ marshal_opt E W o (VObj i kvs lo) = Ok (pre ++ post).
Proof using Hs Hom Hn Hn'.
  intros Hnn Hk Hk' Hni (i0 & kvs0 & lo0 & i' & kvs' & lo' & [= <- <- <-] & -> & Ei & Hnd' & Hin & Hoth).
  destruct (object_set n _ _ _ Hn Hk) as (s & Hp & Hb & ->). destruct (object_set n' _ _ _ Hn' Hk') as (s' & Hp' & Hb' & ->).
  destruct (kept_obj _ _ _ _ Hk) as (Hnd & (_ & Hd) & _). destruct (Hd Hn) as (_ & Hle & Hi).
  assert (Ew : i' = i + 1) by (subst i'; unfold wrap_u32; apply Z.mod_small; lia).
  assert (Es : s' = s ++ [(k, (i', w))]).
  { symmetry. apply set_sorted_same; [|apply ord_app_single; [exact Hb|]|exact Hb'].
    - rewrite <- Hp'. apply Permutation_sym. eapply others_same; [exact Hnd|exact Hnd'|exact Hin|exact Hoth| |].
      + intros y. split.
        * intros H. apply (Permutation_in _ (Permutation_sym Hp)) in H. split; [exact H|]. intros <-. apply Hni. now apply in_map.
        * intros [H _]. now apply (Permutation_in _ Hp).
      + eapply Permutation_NoDup; [exact Hp|]. now apply (NoDup_map_inv fst).
    - eapply Permutation_Forall; [exact Hp|]. revert Hle. apply Forall_impl. intros y. cbn. lia. }
  subst s'. rewrite !map_app. cbn [map].
  destruct (bracketed_last o (map mpart s) (mpart (k, (i', w)))) as (pre & mid & post & G & Gc & G1 & G2).
  exists pre, mid, post. split; [exact G|]. split; [exact Gc|]. now rewrite G1, G2.
Qed.
(** A member set again. *)
Lemma set_object_move k id x w i kvs lo d' : (n < n')%nat -> kept_doc n (VObj i kvs lo) -> kept_doc n' d' -> In (k, (id, x)) kvs -> member_set k w (VObj i kvs lo) d' ->
  exists pre mid between mid' post, piece o (labelled o (HKey k) (txt x)) mid /\ piece o (labelled o (HKey k) (txt w)) mid' /\ closes o post /\
    marshal_opt E W o (VObj i kvs lo) = Ok (pre ++ mid ++ between ++ post) /\ marshal_opt E W o d' = Ok (pre ++ between ++ mid' ++ post).
Proof using Hs Hom Hn Hn'.
  intros Hnn Hk Hk' Hix (i0 & kvs0 & lo0 & i' & kvs' & lo' & [= <- <- <-] & -> & Ei & Hnd' & Hin & Hoth).
  destruct (object_set n _ _ _ Hn Hk) as (s & Hp & Hb & ->). destruct (object_set n' _ _ _ Hn' Hk') as (s' & Hp' & Hb' & ->).
  destruct (kept_obj _ _ _ _ Hk) as (Hnd & (_ & Hd) & _). destruct (Hd Hn) as (_ & Hle & Hi).
  assert (Ew : i' = i + 1) by (subst i'; unfold wrap_u32; apply Z.mod_small; lia).
  assert (Hsi : In (k, (id, x)) s) by (eapply Permutation_in; eassumption). apply in_split in Hsi as (p & q & ->).
  assert (Hnk : NoDup (map fst (p ++ (k, (id, x)) :: q))) by (eapply Permutation_NoDup; [apply Permutation_map, Hp|exact Hnd]).
  rewrite map_app in Hnk. cbn in Hnk. pose proof (NoDup_remove_1 _ _ _ Hnk) as N1. pose proof (NoDup_remove_2 _ _ _ Hnk) as N2. rewrite <- map_app in N1, N2.
  assert (Es : s' = p ++ q ++ [(k, (i', w))]).
  { rewrite app_assoc. symmetry. apply set_sorted_same; [|apply ord_app_single; [apply ord_app_cons in Hb; apply Hb|]|exact Hb'].
    - rewrite <- Hp'. apply Permutation_sym. eapply others_same; [exact Hnd|exact Hnd'|exact Hin|exact Hoth| |now apply (NoDup_map_inv fst)].
      intros y. split.
      + intros H. split; [|intros <-; apply N2; now apply in_map]. apply (Permutation_in _ (Permutation_sym Hp)).
        apply in_app_or in H as [H|H]; apply in_or_app; [now left|right; now right].
      + intros [H Hy]. apply (Permutation_in _ Hp) in H. apply in_app_or in H as [H|[<-|H]]; apply in_or_app; [now left|now elim Hy|now right].
    - assert (Hle' : Forall (fun e : kvt => fst (snd e) <= i) (p ++ (k, (id, x)) :: q)) by (eapply Permutation_Forall; [exact Hp|exact Hle]).
      apply Forall_app in Hle' as [L1 L2]. inversion L2; subst. apply Forall_app. split; [revert L1|revert H2]; apply Forall_impl; intros y; cbn; lia. }
  subst s'. rewrite !map_app. cbn [map].
  destruct (bracketed_move o (map mpart p) (mpart (k, (id, x))) (map mpart q) (mpart (k, (i', w)))) as (pre & mid & bt & mid' & post & A & B & C & G1 & G2).
  exists pre, mid, bt, mid', post. split; [exact A|]. split; [exact B|]. split; [exact C|]. now rewrite G1, G2.
Qed.
End Set_order.

(** *** Deep inside *)
Lemma kept_child n i a k id x b lo : kept_doc n (VObj i (a ++ (k, (id, x)) :: b) lo) -> kept_doc n x.
Proof. intros H. apply kept_obj in H as (_ & _ & H). apply Forall_app in H as [_ H]. inversion H; auto. Qed.
Lemma kept_elem n a x b : kept_doc n (VArr (a ++ x :: b)) -> kept_doc n x.
Proof. intros H. apply kept_arr in H. apply Forall_app in H as [_ H]. inversion H; auto. Qed.
Lemma set_changed_text E W n n' (R : V -> V -> Prop) : Z.of_nat n < two32 -> Z.of_nat n' < two32 ->
  forall hs v v', changed R hs v v' -> forall o, by_setting o -> o_omit_null o = false -> kept_doc n v -> kept_doc n' v' ->
  exists d d' pre post, R d d' /\ kept_doc n d /\ kept_doc n' d' /\
    text_of (marshal_opt E W o v) = pre ++ text_of (marshal_opt E W (deep (List.length hs) o) d) ++ post /\
    text_of (marshal_opt E W o v') = pre ++ text_of (marshal_opt E W (deep (List.length hs) o) d') ++ post.
Proof.
  intros Hn Hn' hs v v' H. induction H as [v v' H|i a k id x x' b lo hs H IH|a x x' b hs H IH]; intros o Hs Hom Hk Hk'.
  - exists v, v', [], []. cbn [List.length app]. change (deep 0 o) with o. rewrite !app_nil_r. auto.
  - destruct (set_object_replace E W o Hs Hom n n' Hn Hn' i a k id x x' b lo Hk Hk') as (pre & post & G1 & G2).
    destruct (IH (deeper o) Hs Hom (kept_child _ _ _ _ _ _ _ _ Hk) (kept_child _ _ _ _ _ _ _ _ Hk')) as (d & d' & pre' & post' & HR & Hd & Hd' & M1 & M2).
    exists d, d', (pre ++ pre'), (post' ++ post). repeat (split; [assumption|]). rewrite G1, G2. cbn [text_of List.length]. rewrite M1, M2, deep_deeper.
    rewrite <- !app_assoc. auto.
  - destruct (set_array_replace E W o Hs n n' Hn Hn' a b x x' Hk Hk') as (pre & post & G1 & G2).
    destruct (IH (deeper o) Hs Hom (kept_elem _ _ _ _ Hk) (kept_elem _ _ _ _ Hk')) as (d & d' & pre' & post' & HR & Hd & Hd' & M1 & M2).
    exists d, d', (pre ++ pre'), (post' ++ post). repeat (split; [assumption|]). rewrite G1, G2. cbn [text_of List.length]. rewrite M1, M2, deep_deeper.
    rewrite <- !app_assoc. auto.
Qed.

Lemma closes_app o a b : closes o a -> closes o (a ++ b).
Proof. intros (r & [->| ->]); exists (r ++ b); [left|right]; [reflexivity|]. now rewrite <- app_assoc. Qed.

Definition container (v : V) : Prop := match v with VObj _ _ _ | VArr _ => True | _ => False end.
Lemma leads_container v p ps hs x : leads v (p :: ps) hs x -> container v.
Proof. intros H. inversion H; subst; exact I. Qed.
Lemma changed_container (R : V -> V -> Prop) hs v v' : changed R hs v v' -> (forall d d', R d d' -> container d') -> container v'.
Proof. intros H HR. destruct H; [eauto|exact I|exact I]. Qed.
Lemma writes_container p ps c d d' : writes p ps c d d' -> container d'.
Proof.
  intros H. destruct H as [k c d d' H|p i c d d' Hi (a & x & b & -> & -> & _)|p c l d' Hi (l0 & _ & ->)|k q ps c w d d' _ Hb H|p i q ps c w d d' Hi _ Hb (l0 & _ & ->)]; try exact I.
  - destruct H as (? & ? & ? & ? & ? & ? & _ & -> & _). exact I.
  - destruct H as (? & ? & ? & ? & ? & ? & _ & -> & _). exact I.
Qed.

(** Set writes where the path ends in the document. *)
Lemma same_place v ps1 k ps2 hs i kvs lo c qs1 q qs2 hs0 d v' : maps_ok v -> leads v ps1 hs (VObj i kvs lo) -> ~ In k (map fst kvs) ->
  ps1 ++ PStr k :: ps2 = qs1 ++ q :: qs2 -> leads v qs1 hs0 d -> changed (fun x x' => x = d /\ writes q qs2 c x x') hs0 v v' ->
  qs1 = ps1 /\ q = PStr k /\ qs2 = ps2 /\ hs0 = hs /\ d = VObj i kvs lo.
Proof.
  intros M L Hk Eq L0 Hch.
  assert (Hno : forall ts t w, ~ leads (VObj i kvs lo) (PStr k :: ts) t w).
  { intros ts t w H. inversion H as [|? ? ? ? id x ? ? ? Hin _|]; subst. apply Hk, in_map_iff. exists (k, (id, x)). auto. }
  assert (HT : exists t, (ps1 = qs1 ++ t /\ q :: qs2 = t ++ PStr k :: ps2) \/ (qs1 = ps1 ++ t /\ PStr k :: ps2 = t ++ q :: qs2)).
    { clear - Eq. revert qs1 Eq. induction ps1 as [|x r IH]; intros qs1 Eq.
      - exists qs1. right. auto.
      - destruct qs1 as [|z s]; [exists (x :: r); left; auto|]. cbn in Eq. injection Eq as <- Eq.
        destruct (IH _ Eq) as (t & [[-> B]|[-> B]]); exists t; [left|right]; auto. }
    destruct HT as (t & [[E1 E2]|[E1 E2]]).
    - destruct t as [|t0 t].
      + rewrite app_nil_r in E1. cbn in E2. injection E2 as -> ->. subst qs1. destruct (leads_det _ _ _ _ L0 _ _ M L) as (-> & ->). auto.
      + exfalso. cbn in E2. injection E2 as <- ->. subst ps1. destruct (leads_split v qs1 _ _ _ L) as (h1 & h2 & d1 & _ & L1 & L2).
        destruct (leads_det _ _ _ _ L0 _ _ M L1) as (<- & <-).
        destruct (leads_split d [q] t _ _ L2) as (h3 & h4 & d2 & _ & L3 & _).
        assert (HW : exists z z', writes q (t ++ PStr k :: ps2) c z z' /\ z = d).
        { clear - Hch. induction Hch as [x x' [-> Hw]| |]; eauto. }
        destruct HW as (z & z' & Hw & ->). destruct t as [|t1 t]; cbn in Hw; inversion Hw; subst; match goal with HH : forall hs x, ~ leads _ _ hs x |- _ => exact (HH _ _ L3) end.
    - destruct t as [|t0 t].
      + rewrite app_nil_r in E1. cbn in E2. injection E2 as <- <-. subst qs1. destruct (leads_det _ _ _ _ L0 _ _ M L) as (-> & ->). auto.
      + exfalso. cbn in E2. injection E2 as <- ->. subst qs1. destruct (leads_split v ps1 _ _ _ L0) as (h1 & h2 & d1 & _ & L1 & L2).
        destruct (leads_det _ _ _ _ L _ _ M L1) as (_ & <-). exact (Hno _ _ _ L2).
Qed.

(** *** The calls *)
Section Calls.
Variable E : Env.
Variables W W' : World.
Variable o : opt.
Hypothesis Hs : by_setting o.
Hypothesis Hom : o_omit_null o = false.
Notation at_depth n x := (text_of (marshal_opt E W (deep n o) x)).
Notation text W v := (text_of (marshal_opt E W o v)).

Lemma text_world n v : Z.of_nat n < two32 -> kept_doc n v -> text W v = text W' v.
Proof using Hs. intros Hn Hk. rewrite (output_determined E W W' o v); [reflexivity|apply Hk|now apply (kept_total o n)]. Qed.

Lemma text_ok W0 n v : Z.of_nat n < two32 -> kept_doc n v -> container v -> marshal_opt E W0 o v = Ok (text W0 v).
Proof using Hs Hom.
  intros Hn Hk Hc. destruct v as [| | |i kvs lo|l| | | | ]; try contradiction.
  - destruct (object_set E W0 o Hs Hom n i kvs lo Hn Hk) as (s & _ & _ & ->). reflexivity.
  - now rewrite (array_set E W0 o Hs n l Hn Hk).
Qed.

(** What a Set writes, and where. *)
Lemma set_kinds n m v c p ps v' y : history E n v -> history E m c -> json_typed v -> json_typed c -> Z.of_nat (S (n + m)) < two32 ->
  Forall plain (p :: ps) -> set_at E v (arg_v c) p ps = (v', Ok y) ->
  kept_doc n v /\ kept_doc (S (n + m)) v' /\ container v' /\ exists ps1 q ps2 hs d, p :: ps = ps1 ++ q :: ps2 /\ leads v ps1 hs d /\
    changed (fun x x' => x = d /\ writes q ps2 c x x') hs v v'.
Proof using.
  intros Hv Hc Ht Htc Hnm Hp Hset. assert (M := typed_maps v Ht).
  destruct (set_creates E v c p ps v' y M Hp Hset) as (-> & ps1 & q & ps2 & hs & d & Ep & L & Hch).
  split; [now apply (kept_history E)|]. split.
  - apply (kept_history E).
    + replace v' with (fst (set_at E v (arg_v c) p ps)) by now rewrite Hset. now apply h_set.
    + eapply changed_typed; [|exact Hch|exact Ht]. intros x x' [-> Hw] Hd. eapply writes_typed; eassumption.
  - split; [|exists ps1, q, ps2, hs, d; auto]. eapply changed_container; [exact Hch|]. intros x x' [_ Hw]. now apply writes_container in Hw.
Qed.

(** A member set again goes to the end of its object. *)
Theorem set_moves n m v c p ps v' y ps1 k hs old : history E n v -> history E m c -> json_typed v -> json_typed c -> Z.of_nat (S (n + m)) < two32 ->
  Forall plain (p :: ps) -> p :: ps = ps1 ++ [PStr k] -> leads v (p :: ps) (hs ++ [HKey k]) old ->
  set_at E v (arg_v c) p ps = (v', Ok y) ->
  exists pre mid between mid' post,
    piece (deep (List.length hs) o) (labelled (deep (List.length hs) o) (HKey k) (at_depth (S (List.length hs)) old)) mid /\
    piece (deep (List.length hs) o) (labelled (deep (List.length hs) o) (HKey k) (at_depth (S (List.length hs)) c)) mid' /\
    closes (deep (List.length hs) o) post /\
    marshal_opt E W o v = Ok (pre ++ mid ++ between ++ post) /\ marshal_opt E W' o v' = Ok (pre ++ between ++ mid' ++ post).
Proof using Hs Hom.
  intros Hv Hc Ht Htc Hnm Hp Ep Hl Hset. assert (M := typed_maps v Ht).
  destruct (set_kinds n m v c p ps v' y Hv Hc Ht Htc Hnm Hp Hset) as (Kv & Kv' & Cv & qs1 & q & qs2 & hs0 & d & Eq & L0 & Hch).
  assert (Hn : Z.of_nat n < two32) by lia.
  rewrite (text_ok W n v Hn Kv (leads_container _ _ _ _ _ Hl)), (text_ok W' (S (n + m)) v' Hnm Kv' Cv).
  rewrite Eq in Hl. destruct (leads_split v qs1 (q :: qs2) _ old Hl) as (hs1 & hs2 & d1 & Eh & L1 & L2).
  destruct (leads_det _ _ _ _ L0 _ _ M L1) as (<- & <-).
  destruct (set_changed_text E W n (S (n + m)) _ Hn Hnm hs0 v v' Hch o Hs Hom Kv Kv') as (x & x' & pre & post & (-> & Hw) & Kd & Kd' & G1 & G2).
  assert (Md : maps_ok d) by apply typed_maps, Kd.
  rewrite <- (text_world (S (n + m)) v' Hnm Kv').
  assert (Hq : q = PStr k /\ qs2 = [] /\ member_set k c d x').
  { inversion Hw as [k0 c0 d0 d0' H|p0 i c0 d0 d0' Hi (a & z & b & -> & -> & Hr)|p0 c0 l d0' Hi H|k0 q0 r c0 w d0 d0' Hno Hb H|p0 i q0 r c0 w d0 d0' Hi Hno Hb H]; subst.
    - rewrite Ep in Eq. apply app_inj_tail in Eq as [_ Eq]. injection Eq as <-. auto.
    - rewrite Ep in Eq. apply app_inj_tail in Eq as [_ Eq]. subst q. discriminate.
    - rewrite Ep in Eq. apply app_inj_tail in Eq as [_ Eq]. subst q. discriminate.
    - exfalso. destruct (leads_split d [PStr k0] (q0 :: r) hs2 old L2) as (h1 & h2 & z & _ & L3 & _). exact (Hno _ _ L3).
    - exfalso. destruct (leads_split d [q] (q0 :: r) hs2 old L2) as (h1 & h2 & z & _ & L3 & _). exact (Hno _ _ L3). }
  destruct Hq as (-> & -> & Hm). inversion L2 as [|i kvs lo ? id ? ? hs3 ? Hk L3|]; [subst|subst; discriminate]. inversion L3; subst.
  apply app_inj_tail in Eh as [-> _].
  destruct (set_object_move E W (deep (List.length hs0) o) (setting_deep _ _ Hs) (eq_trans (omit_deep _ _) Hom) n (S (n + m)) Hn Hnm k id old c i kvs lo x')
    as (pre1 & mid & bt & mid' & post1 & A & B & C & D & F); [lia|exact Kd|exact Kd'|exact Hk|exact Hm|].
  exists (pre ++ pre1), mid, bt, mid', (post1 ++ post). split; [exact A|]. split; [exact B|]. split; [now apply closes_app|].
  rewrite G1, G2, D, F. cbn [text_of]. rewrite <- !app_assoc. auto.
Qed.

(** An element stays where it is. *)
Theorem set_stays n m v c p ps v' y hs j old : history E n v -> history E m c -> json_typed v -> json_typed c -> Z.of_nat (S (n + m)) < two32 ->
  Forall plain (p :: ps) -> leads v (p :: ps) (hs ++ [HIdx j]) old ->
  set_at E v (arg_v c) p ps = (v', Ok y) ->
  exists pre post, marshal_opt E W o v = Ok (pre ++ at_depth (S (List.length hs)) old ++ post) /\
    marshal_opt E W' o v' = Ok (pre ++ at_depth (S (List.length hs)) c ++ post).
Proof using Hs Hom.
  intros Hv Hc Ht Htc Hnm Hp Hl Hset. assert (M := typed_maps v Ht).
  destruct (set_kinds n m v c p ps v' y Hv Hc Ht Htc Hnm Hp Hset) as (Kv & Kv' & Cv & qs1 & q & qs2 & hs0 & d & Eq & L0 & Hch).
  assert (Hn : Z.of_nat n < two32) by lia.
  rewrite (text_ok W n v Hn Kv (leads_container _ _ _ _ _ Hl)), (text_ok W' (S (n + m)) v' Hnm Kv' Cv).
  rewrite Eq in Hl. destruct (leads_split v qs1 (q :: qs2) _ old Hl) as (hs1 & hs2 & d1 & Eh & L1 & L2).
  destruct (leads_det _ _ _ _ L0 _ _ M L1) as (<- & <-).
  destruct (set_changed_text E W n (S (n + m)) _ Hn Hnm hs0 v v' Hch o Hs Hom Kv Kv') as (x & x' & pre & post & (-> & Hw) & Kd & Kd' & G1 & G2).
  assert (Md : maps_ok d) by apply typed_maps, Kd.
  rewrite <- (text_world (S (n + m)) v' Hnm Kv').
  inversion Hw as [k c0 d0 d0' H|p0 i c0 d0 d0' Hi (a & z & b & -> & -> & Hr)|p0 c0 l d0' Hi H|k q0 r c0 w d0 d0' Hno Hb H|p0 i q0 r c0 w d0 d0' Hi Hno Hb H]; subst.
  - exfalso. inversion L2 as [|? ? ? ? id ? ? hs3 ? Hk L3|]; subst; [|discriminate]. inversion L3; subst.
    apply app_inj_tail in Eh as [_ Eh]. discriminate.
  - assert (L4 : leads (VArr (a ++ z :: b)) [q] [HIdx (List.length a)] z) by (eapply leads_elem; [exact Hi|exact Hr|constructor]).
    destruct (leads_det _ _ _ _ L4 _ _ Md L2) as (<- & <-). apply app_inj_tail in Eh as [-> _].
    destruct (set_array_replace E W (deep (List.length hs0) o) (setting_deep _ _ Hs) n (S (n + m)) Hn Hnm a b z c Kd Kd') as (pre1 & post1 & D & F).
    exists (pre ++ pre1), (post1 ++ post). rewrite G1, G2, D, F. cbn [text_of]. rewrite <- !app_assoc. auto.
  - exfalso. inversion L2 as [| |a z b ? i ? ? ? Hi' Hr L3]; subst. rewrite Hi in Hi'. injection Hi' as <-. rewrite app_length in Hr. cbn in Hr.
    destruct Hr as [Hr|Hr]; lia.
  - exfalso. destruct (leads_split d [PStr k] (q0 :: r) hs2 old L2) as (h1 & h2 & z & _ & L3 & _). exact (Hno _ _ L3).
  - exfalso. destruct (leads_split d [q] (q0 :: r) hs2 old L2) as (h1 & h2 & z & _ & L3 & _). exact (Hno _ _ L3).
Qed.

(** A new member comes at the end of its object. *)
Theorem set_adds_last n m v c p ps v' y ps1 k ps2 hs i kvs lo : history E n v -> history E m c -> json_typed v -> json_typed c -> Z.of_nat (S (n + m)) < two32 ->
  Forall plain (p :: ps) -> p :: ps = ps1 ++ PStr k :: ps2 -> leads v ps1 hs (VObj i kvs lo) -> ~ In k (map fst kvs) ->
  set_at E v (arg_v c) p ps = (v', Ok y) ->
  exists w pre mid post, built ps2 c w /\
    piece (deep (List.length hs) o) (labelled (deep (List.length hs) o) (HKey k) (at_depth (S (List.length hs)) w)) mid /\
    closes (deep (List.length hs) o) post /\
    marshal_opt E W o v = Ok (pre ++ post) /\ marshal_opt E W' o v' = Ok (pre ++ mid ++ post).
Proof using Hs Hom.
  intros Hv Hc Ht Htc Hnm Hp Ep L Hk Hset. assert (M := typed_maps v Ht).
  destruct (set_kinds n m v c p ps v' y Hv Hc Ht Htc Hnm Hp Hset) as (Kv & Kv' & Cv & qs1 & q & qs2 & hs0 & d & Eq & L0 & Hch).
  assert (Hn : Z.of_nat n < two32) by lia. rewrite Ep in Eq.
  destruct (same_place v ps1 k ps2 hs i kvs lo c qs1 q qs2 hs0 d v' M L Hk Eq L0 Hch) as (-> & -> & -> & -> & ->).
  assert (Cv0 : container v) by (destruct ps1; inversion L; subst; exact I).
  rewrite (text_ok W n v Hn Kv Cv0), (text_ok W' (S (n + m)) v' Hnm Kv' Cv).
  destruct (set_changed_text E W n (S (n + m)) _ Hn Hnm hs v v' Hch o Hs Hom Kv Kv') as (x & x' & pre & post & (-> & Hw) & Kd & Kd' & G1 & G2).
  rewrite <- (text_world (S (n + m)) v' Hnm Kv').
  assert (HM : exists w, built ps2 c w /\ member_set k w (VObj i kvs lo) x').
  { inversion Hw as [k0 c0 d0 d0' H|p0 i0 c0 d0 d0' Hi _|p0 c0 l d0' Hi H|k0 q0 r c0 w d0 d0' _ Hb H|p0 i0 q0 r c0 w d0 d0' Hi _ Hb H]; subst; try discriminate.
    - exists c. split; [constructor|exact H].
    - eauto. }
  destruct HM as (w & Hb & Hm).
  destruct (set_object_add E W (deep (List.length hs) o) (setting_deep _ _ Hs) (eq_trans (omit_deep _ _) Hom) n (S (n + m)) Hn Hnm k w i kvs lo x')
    as (pre1 & mid & post1 & A & C & D & F); [lia|exact Kd|exact Kd'|exact Hk|exact Hm|].
  exists w, (pre ++ pre1), mid, (post1 ++ post). split; [exact Hb|]. split; [exact A|]. split; [now apply closes_app|].
  rewrite G1, G2, D, F. cbn [text_of]. rewrite <- !app_assoc. auto.
Qed.

(** An element put in. *)
Lemma set_grows n n' v v' hs a b c : Z.of_nat n < two32 -> Z.of_nat n' < two32 -> kept_doc n v -> kept_doc n' v' -> container v ->
  changed (fun x x' => x = VArr (a ++ b) /\ x' = VArr (a ++ c :: b)) hs v v' ->
  exists pre mid post, piece (deep (List.length hs) o) (at_depth (S (List.length hs)) c) mid /\
    marshal_opt E W o v = Ok (pre ++ post) /\ marshal_opt E W' o v' = Ok (pre ++ mid ++ post).
Proof using Hs Hom.
  intros Hn Hn' Kv Kv' Cv Hch.
  assert (Cv' : container v') by (eapply changed_container; [exact Hch|]; intros ? ? [_ ->]; exact I).
  rewrite (text_ok W n v Hn Kv Cv), (text_ok W' n' v' Hn' Kv' Cv').
  destruct (set_changed_text E W n n' _ Hn Hn' hs v v' Hch o Hs Hom Kv Kv') as (x & x' & pre & post & (-> & ->) & Kd & Kd' & G1 & G2).
  rewrite <- (text_world n' v' Hn' Kv').
  destruct (set_array_insert E W (deep (List.length hs) o) (setting_deep _ _ Hs) n n' Hn Hn' a b c Kd Kd') as (pre1 & mid & post1 & A & D & F).
  exists (pre ++ pre1), mid, (post1 ++ post). split; [exact A|]. rewrite G1, G2, D, F. cbn [text_of]. rewrite <- !app_assoc. auto.
Qed.
Lemma grown_typed v v' hs a b c : json_typed v -> json_typed c -> changed (fun x x' => x = VArr (a ++ b) /\ x' = VArr (a ++ c :: b)) hs v v' -> json_typed v'.
Proof using.
  intros Ht Hc Hch. eapply changed_typed; [|exact Hch|exact Ht]. intros x x' [-> ->] Hd. apply json_typed_arr in Hd. apply Forall_app in Hd as [H1 H2].
  apply json_typed_arr, Forall_app. split; [exact H1|]. now constructor.
Qed.
Theorem set_order_append n m front v c ps v' y hs l : history E n v -> history E m c -> json_typed v -> json_typed c -> Z.of_nat (S (n + m)) < two32 ->
  Forall plain ps -> leads v ps hs (VArr l) -> append_at E W front v (arg_v c) ps = (v', Ok y) ->
  exists pre mid post, piece (deep (List.length hs) o) (at_depth (S (List.length hs)) c) mid /\
    marshal_opt E W o v = Ok (pre ++ post) /\ marshal_opt E W' o v' = Ok (pre ++ mid ++ post).
Proof using Hs Hom.
  intros Hv Hc Ht Htc Hnm Hp L Ha. assert (M := typed_maps v Ht).
  assert (Hv' : history E (S (n + m)) v') by (replace v' with (fst (append_at E W front v (arg_v c) ps)) by (now rewrite Ha); now apply h_append).
  assert (Cv : container v) by (inversion L; subst; exact I). assert (Hn : Z.of_nat n < two32) by lia.
  apply (append_iff E W front v c ps v' y M Hp) in Ha as (-> & [(hs0 & l0 & L0 & Hch)|(q & r & z & _ & Hm & _)]); [|elim (leads_not_missing ps v hs _ L M Hm)].
  destruct (leads_det _ _ _ _ L _ _ M L0) as (<- & E0). injection E0 as <-.
  assert (G : exists a b, changed (fun x x' => x = VArr (a ++ b) /\ x' = VArr (a ++ c :: b)) hs v v').
  { destruct front; cbn [end_added] in Hch; [exists [], l; exact Hch|]. exists l, []. clear - Hch. rewrite app_nil_r. exact Hch. }
  destruct G as (a & b & G).
  apply (set_grows n (S (n + m)) v v' hs a b c Hn Hnm); [now apply (kept_history E)| |exact Cv|exact G].
  apply (kept_history E); [exact Hv'|]. exact (grown_typed v v' hs a b c Ht Htc G).
Qed.
Theorem set_order_insert n m (after : bool) v c ps p first others v' y : history E n v -> history E m c -> json_typed v -> json_typed c -> Z.of_nat (n + m) < two32 ->
  Forall plain (first :: others) -> first :: others = ps ++ [p] ->
  (if after then insert_after E W v (arg_v c) first others else insert_before E W v (arg_v c) first others) = (v', Ok y) ->
  exists hs d pre mid post, leads v ps hs d /\ piece (deep (List.length hs) o) (at_depth (S (List.length hs)) c) mid /\
    marshal_opt E W o v = Ok (pre ++ post) /\ marshal_opt E W' o v' = Ok (pre ++ mid ++ post).
Proof using Hs Hom.
  intros Hv Hc Ht Htc Hnm Hp Ep Hi. assert (M := typed_maps v Ht). assert (Hn : Z.of_nat n < two32) by lia.
  assert (Hv' : history E (n + m) v').
  { destruct after.
    - replace v' with (fst (insert_after E W v (arg_v c) first others)) by now rewrite Hi. now apply h_after.
    - replace v' with (fst (insert_before E W v (arg_v c) first others)) by now rewrite Hi. now apply h_before. }
  apply (insert_iff E W after v c ps p first others v' y M Hp Ep) in Hi as (-> & hs & d & i & L & Hi & Hch).
  assert (G : exists a b, changed (fun x x' => x = VArr (a ++ b) /\ x' = VArr (a ++ c :: b)) hs v v').
  { clear - Hch. induction Hch as [x x' [-> Hw]|i0 a k id x x' b lo hs H (a0 & b0 & IH)|a x x' b hs H (a0 & b0 & IH)].
    - destruct after; destruct Hw as (a & e & b & -> & _ & ->).
      + exists (a ++ [e]), b. constructor. rewrite <- !app_assoc. auto.
      + exists a, (e :: b). constructor. auto.
    - exists a0, b0. constructor. exact IH.
    - exists a0, b0. constructor. exact IH. }
  destruct G as (a & b & G). exists hs, d.
  assert (Cv : container v) by (clear - G; inversion G as [? ? [-> _]| |]; subst; exact I).
  destruct (set_grows n (n + m) v v' hs a b c Hn Hnm) as (pre & mid & post & A & B & C); [now apply (kept_history E)| |exact Cv|exact G|].
  { apply (kept_history E); [exact Hv'|]. exact (grown_typed v v' hs a b c Ht Htc G). }
  exists pre, mid, post. auto.
Qed.

(** A member or element taken out. *)
Theorem set_order_delete n v ps p first others v' : history E n v -> json_typed v -> Z.of_nat n < two32 ->
  Forall plain (first :: others) -> first :: others = ps ++ [p] -> delete_at E W false v first others = (v', Ok tt) ->
  exists hs h x pre mid post, leads v (first :: others) (hs ++ [h]) x /\
    piece (deep (List.length hs) o) (labelled (deep (List.length hs) o) h (at_depth (S (List.length hs)) x)) mid /\
    marshal_opt E W o v = Ok (pre ++ mid ++ post) /\ marshal_opt E W' o v' = Ok (pre ++ post).
Proof using Hs Hom.
  intros Hv Ht Hn Hp Ep Hdel. assert (M := typed_maps v Ht).
  assert (Hv' : history E n v') by (replace v' with (fst (delete_at E W false v first others)) by (now rewrite Hdel); now apply h_delete).
  destruct (proj2 (delete_effect E W v ps p first others M Hp Ep) v' Hdel) as (hs & d & d' & L & Hch & _ & Hrem & _).
  assert (Ht' : json_typed v').
  { eapply changed_typed; [|exact Hch|exact Ht]. intros x x' [-> ->] Hd. inversion Hrem as [i a k e b lo lo' Hk|a e b p0 i Hi Hr]; subst.
    - apply json_typed_obj in Hd as [Hnd Hd]. apply Forall_app in Hd as [H1 H2]. inversion H2; subst. apply json_typed_obj. unfold akeys in *. rewrite map_app in *. cbn in Hnd.
      split; [now apply NoDup_remove_1 in Hnd|]. now apply Forall_app.
    - apply json_typed_arr in Hd. apply Forall_app in Hd as [H1 H2]. inversion H2; subst. apply json_typed_arr. now apply Forall_app. }
  assert (Kv := kept_history E n v Hv Ht). assert (Kv' := kept_history E n v' Hv' Ht').
  assert (Cv : container v) by (clear - L Hrem; inversion L; subst; inversion Hrem; subst; exact I).
  assert (Cv' : container v') by (eapply changed_container; [exact Hch|]; intros ? ? [_ ->]; inversion Hrem; subst; exact I).
  rewrite (text_ok W n v Hn Kv Cv), (text_ok W' n v' Hn Kv' Cv'). rewrite <- (text_world n v' Hn Kv').
  destruct (set_changed_text E W n n _ Hn Hn hs v v' Hch o Hs Hom Kv Kv') as (x & x' & pre & post & (-> & ->) & Kd & Kd' & G1 & G2).
  rewrite Ep. inversion Hrem as [i a k [id e] b lo lo' Hk|a e b p0 i Hi Hr]; subst.
  - destruct (set_object_remove E W (deep (List.length hs) o) (setting_deep _ _ Hs) (eq_trans (omit_deep _ _) Hom) n n Hn Hn i a k id e b lo i lo' Kd Kd') as (pre1 & mid & post1 & A & D & F).
    exists hs, (HKey k), e, (pre ++ pre1), mid, (post1 ++ post). split; [eapply leads_app; [exact L|]; eapply leads_key; [apply in_elt|constructor]|].
    split; [exact A|]. rewrite G1, G2, D, F. cbn [text_of]. rewrite <- !app_assoc. auto.
  - destruct (set_array_insert E W (deep (List.length hs) o) (setting_deep _ _ Hs) n n Hn Hn a b e Kd' Kd) as (pre1 & mid & post1 & A & D & F).
    exists hs, (HIdx (List.length a)), e, (pre ++ pre1), mid, (post1 ++ post). split; [eapply leads_app; [exact L|]; eapply leads_elem; [exact Hi|exact Hr|constructor]|].
    split; [exact A|]. rewrite G1, G2, D, F. cbn [text_of]. rewrite <- !app_assoc. auto.
Qed.
End Calls.
