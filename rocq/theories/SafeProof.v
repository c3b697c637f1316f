(** No series of calls panics. *)
From Coq Require Import Permutation.
From Verif Require Import Base Utf8 Float64 Value Scan Unmarshal Opt Marshal Access Path Edit Iter SpecJson SpecValue SpecNil SpecPath SpecGet SpecSafe
  ListLemmas ValueLemmas PathProof EditProof SortProof IterProof EditClaims GetClaims MarshalTotal ContainProof ParseMore.

Lemma no_nil_iff v : no_nil v <-> ~ nil_at v.
Proof.
  induction v as [ |s|n src|i kvs lo IH|l IH|b| | | ] using V_ind'; try (split; [intros _ H; inversion H|intros _; exact I]).
  - rewrite no_nil_obj. split.
    + intros F H. inversion H as [| |i0 kvs0 lo0 k id x Hi Hx]; subst. rewrite Forall_forall in *. specialize (F _ Hi). cbn [snd] in F.
      apply (IH _ Hi) in F. contradiction.
    + intros H. rewrite Forall_forall in *. intros [k [id x]] Hi. apply (IH _ Hi). intros Hx. apply H. econstructor; eassumption.
  - rewrite no_nil_arr. split.
    + intros F H. inversion H as [|l0 x Hi Hx|]; subst. rewrite Forall_forall in *. specialize (F _ Hi). apply (IH _ Hi) in F. contradiction.
    + intros H. rewrite Forall_forall in *. intros x Hi. apply (IH _ Hi). intros Hx. apply H. econstructor; eassumption.
  - split; [intros []|intros H; exfalso; apply H; constructor].
Qed.

Lemma put_at_no_nil : forall hs v c, no_nil v -> no_nil c -> no_nil (put_at v hs c).
Proof.
  induction hs as [|h hs IH]; intros v c Nv Nc; [exact Nc|]. cbn [put_at]. destruct (child_at v h) as [x|] eqn:Ex; [|exact Nv].
  apply put_child_no_nil; [exact Nv|]. apply IH; [exact (child_no_nil _ _ _ Nv Ex)|exact Nc].
Qed.
Lemma aset_no_nil i i' k id c kvs lo lo' : no_nil (VObj i kvs lo) -> no_nil c -> no_nil (VObj i' (aset k (id, c) kvs) lo').
Proof.
  rewrite !no_nil_obj. intros H Hc. rewrite Forall_forall in *. intros e He.
  assert (G : e = (k, (id, c)) \/ In e kvs).
  { clear -He. induction kvs as [|[k0 y] kvs IH]; cbn [aset] in He; [destruct He as [<-|[]]; now left|].
    destruct (beqb_spec k k0) as [->|]; cbn [In] in *; (destruct He as [<-|He]; [auto|]); auto. destruct (IH He); auto. }
  destruct G as [->|Hi]; [exact Hc|exact (H _ Hi)].
Qed.
Lemma set_nth_no_nil n c l : Forall no_nil l -> no_nil c -> Forall no_nil (set_nth n c l).
Proof. intros H Hc. revert n. induction H as [|x l Hx H IH]; intros [|n]; cbn; constructor; auto. Qed.
Lemma set_to_object_no_nil E v k c v' : set_to_object E v k c = Ok v' -> no_nil v -> no_nil c -> no_nil v'.
Proof.
  destruct v; cbn [set_to_object]; intros H Nv Nc; try discriminate. injection H as <-. eapply aset_no_nil; eassumption.
Qed.
Lemma set_at_index_no_nil l c pos l' : set_at_index l c pos = Ok l' -> Forall no_nil l -> no_nil c -> Forall no_nil l'.
Proof.
  unfold set_at_index. destruct (pos =? _); [intros [= <-] H Hc; apply Forall_app; auto|].
  destruct (pos_read _ _); [intros [= <-] H Hc; now apply set_nth_no_nil|discriminate].
Qed.
Lemma new_container_no_nil q v : new_container q = Ok v -> no_nil v.
Proof.
  unfold new_container. destruct (any_to_string q); [intros [= <-]; exact I| | |];
    (destruct (any_to_int q) as [i| | |]; try discriminate; destruct (i =? 0); try discriminate; intros [= <-]; exact I).
Qed.
Lemma set_f_no_nil E c : no_nil c -> forall n v p o, no_nil v -> no_nil (fst (set_f E n v c p o)).
Proof.
  intros Hc. induction n as [|n IH]; intros v p o N; [exact N|]. cbn [set_f]. destruct (peel p o) as [[p' r]|]; [|exact N].
  destruct (uninitialized v); [exact N|]. destruct (uninitialized c); [exact N|]. destruct r as [|q r].
  - unfold at_last_param. destruct v; try exact N.
    + destruct (any_to_string p'); try exact N. destruct (set_to_object _ _ _ _) eqn:Es; try exact N. eapply set_to_object_no_nil; eassumption.
    + destruct (any_to_int p'); try exact N. destruct (set_at_index _ _ _) eqn:Es; try exact N. cbn [fst]. apply no_nil_arr.
      apply no_nil_arr in N. eapply set_at_index_no_nil; eassumption.
  - destruct v as [ |s|m src|i kvs lo|l|b| | | ]; try exact N.
    + destruct (any_to_string p') as [k| | |]; try exact N. destruct (alookup k kvs) as [[id child]|] eqn:El.
      * assert (Nch : no_nil child) by (apply no_nil_obj in N; rewrite Forall_forall in N; exact (N _ (alookup_In _ _ _ El))).
        pose proof (IH child q r Nch) as I1. destruct (set_f E n child c q r) as [child' res]. cbn [fst] in *. eapply aset_no_nil; eassumption.
      * destruct (new_container q) as [child| | |] eqn:En; try exact N. pose proof (IH child q r (new_container_no_nil _ _ En)) as I1.
        destruct (set_f E n child c q r) as [child' res]. cbn [fst] in I1. destruct res; try exact N.
        destruct (set_to_object _ _ _ _) eqn:Es; try exact N. eapply set_to_object_no_nil; eassumption.
    + destruct (any_to_int p') as [pos| | |]; try exact N. destruct (pos_read _ _) as [m|] eqn:Ep.
      * apply no_nil_arr in N. destruct (nth_in_or_default m l VNil) as [Hi|Hd].
        -- assert (Nch : no_nil (nth m l VNil)) by (rewrite Forall_forall in N; exact (N _ Hi)).
           pose proof (IH _ q r Nch) as I1. destruct (set_f E n (nth m l VNil) c q r) as [child' res]. cbn [fst] in *.
           apply no_nil_arr. now apply set_nth_no_nil.
        -- (* the position is in range *)
           exfalso. assert (m < List.length l)%nat.
           { clear -Ep. unfold pos_read in Ep. destruct (Z.of_nat (List.length l) =? 0) eqn:E0; [discriminate|].
             destruct (pos <? 0) eqn:E1; [destruct (pos + _ <? 0) eqn:E2; [discriminate|]|destruct (_ <=? pos) eqn:E2; [discriminate|]]; injection Ep as <-; lia. }
           pose proof (nth_In l VNil H) as Hi. rewrite Hd in Hi. rewrite Forall_forall in N. exact (N _ Hi).
      * destruct (new_container q) as [child| | |] eqn:En; try exact N. pose proof (IH child q r (new_container_no_nil _ _ En)) as I1.
        destruct (set_f E n child c q r) as [child' res]. cbn [fst] in I1. destruct res; try exact N. cbn [fst]. apply no_nil_arr.
        apply no_nil_arr in N. apply Forall_app. auto.
Qed.
Lemma set_at_no_nil E v x p o : no_nil v -> no_nil (fst x) -> no_nil (fst (set_at E v x p o)).
Proof. intros N Nx. unfold set_at. destruct (snd x); [exact N|]. now apply set_f_no_nil. Qed.

Lemma insert_to_no_nil l n c : Forall no_nil l -> no_nil c -> Forall no_nil (insert_to_arr l n c).
Proof.
  intros H Hc. unfold insert_to_arr. rewrite <- (firstn_skipn n l) in H. apply Forall_app in H as (H1 & H2). apply Forall_app. auto.
Qed.
Lemma insert_last_no_nil af v c p : no_nil v -> no_nil c -> no_nil (fst (insert_last af v c p)).
Proof.
  intros N Nc. unfold insert_last. destruct v; try exact N. destruct (any_to_int p); try exact N.
  destruct (if af then _ else _); try exact N. cbn [fst]. apply no_nil_arr. apply no_nil_arr in N. now apply insert_to_no_nil.
Qed.
Lemma insert_f_no_nil E W af c : no_nil c -> forall n v p o, no_nil v -> no_nil (fst (insert_f E W n af v c p o)).
Proof.
  intros Nc. induction n as [|n IH]; intros v p o N; [exact N|]. cbn [insert_f]. destruct (peel p o) as [[p' r]|]; [|exact N].
  destruct (is_nil v); [exact N|]. destruct (not_exist v); [exact N|]. destruct r as [|q r]; [now apply insert_last_no_nil|].
  destruct (locate_ends E W false v p' (removelast (q :: r)) N) as (_ & L2 & _).
  destruct (locate E W false v p' (removelast (q :: r))) as [v' [hs|e| |]]; try exact L2. cbn [fst] in L2.
  destruct (sub_at v' hs) as [d|] eqn:Ed; [|exact L2]. pose proof (sub_no_nil _ _ _ L2 Ed) as Nd. destruct d as [ |s|m src|i kvs lo|l|b| | | ]; try exact L2.
  pose proof (IH (VArr l) (last (q :: r) PNil) [] Nd) as I1. destruct (insert_f E W n af (VArr l) c (last (q :: r) PNil) []). cbn [fst] in *.
  now apply put_at_no_nil.
Qed.
Lemma append_no_nil E W fr v x ps : no_nil v -> no_nil (fst x) -> no_nil (fst (append_at E W fr v x ps)).
Proof.
  intros N Nx. unfold append_at. destruct (is_nil v); [exact N|]. destruct (not_exist v); [exact N|].
  assert (Ha : forall l, no_nil (VArr l) -> no_nil (VArr (if fr then fst x :: l else l ++ [fst x]))).
  { intros l Hl. apply no_nil_arr. apply no_nil_arr in Hl. destruct fr; [now constructor|]. apply Forall_app. auto. }
  destruct (joint_params ps) as [[|p r]|]; [destruct v; try exact N; now apply Ha| |exact N].
  destruct (locate_ends E W false v p r N) as (_ & L2 & _).
  destruct (locate E W false v p r) as [v' [hs|e| |]]; try exact L2; cbn [fst] in L2.
  - destruct (sub_at v' hs) as [d|] eqn:Ed; [|exact L2]. pose proof (sub_no_nil _ _ _ L2 Ed) as Nd. destruct d; try exact L2.
    cbn [fst]. apply put_at_no_nil; [exact L2|now apply Ha].
  - destruct e; try exact L2. pose proof (set_at_no_nil E v' (arg_v (VArr [fst x])) p r L2) as I1.
    destruct (set_at E v' (arg_v (VArr [fst x])) p r) as [v2 []]; apply I1; apply no_nil_arr; auto.
Qed.
Lemma delete_here_no_nil E W cl v p : no_nil v -> no_nil (fst (delete_here E W cl v p)).
Proof.
  intros N. unfold delete_here. destruct v as [ |s|m src|i kvs lo|l|b| | | ]; try exact N.
  - destruct (any_to_string p) as [k| | |]; try exact N. unfold del_from_object.
    assert (Hr : forall k lo', no_nil (VObj i (aremove k kvs) lo')).
    { intros k0 lo'. apply no_nil_obj. apply no_nil_obj in N. rewrite Forall_forall in *. intros e He. apply N.
      clear -He. induction kvs as [|[k1 y] kvs IH]; cbn [aremove] in He; [contradiction|]. destruct (beqb k0 k1); cbn [In] in *; tauto. }
    destruct (alookup k kvs); [apply Hr|]. destruct cl; [|exact N]. destruct (first_existing _ _); [apply Hr|]. exact N.
  - destruct (any_to_int p); try exact N. destruct (pos_read _ _) as [m|]; try exact N. cbn [fst]. apply no_nil_arr. apply no_nil_arr in N.
    unfold delete_in_arr. rewrite Forall_forall in *. intros x Hx. apply N. apply in_app_or in Hx. destruct Hx as [Hx|Hx].
    + rewrite <- (firstn_skipn m l). apply in_or_app. now left.
    + rewrite <- (firstn_skipn (S m) l). apply in_or_app. now right.
Qed.
Lemma delete_f_no_nil E W cl : forall n v p o, no_nil v -> no_nil (fst (delete_f E W n cl v p o)).
Proof.
  induction n as [|n IH]; intros v p o N; [exact N|]. cbn [delete_f]. destruct (peel p o) as [[p' [|q r]]|]; [now apply delete_here_no_nil| |exact N].
  destruct (locate_ends E W cl v p' (removelast (q :: r)) N) as (_ & L2 & _).
  destruct (locate E W cl v p' (removelast (q :: r))) as [v' [hs|e| |]]; try exact L2. cbn [fst] in L2.
  destruct (sub_at v' hs) as [d|] eqn:Ed; [|exact L2]. pose proof (sub_no_nil _ _ _ L2 Ed) as Nd.
  pose proof (IH d (last (q :: r) PNil) [] Nd) as I1. destruct (delete_f E W n cl d (last (q :: r) PNil) []). cbn [fst] in *.
  now apply put_at_no_nil.
Qed.

Lemma get_doc E W cl v p o : fst (get E W cl v p o) = fst (locate E W cl v p o).
Proof. unfold get. destruct (locate E W cl v p o) as [v' []]; reflexivity. Qed.
Lemma ends_outcome {A} (r : res A) : ends r -> ends (outcome r).
Proof. destruct r; auto. Qed.

Lemma perform_safe E W d v a : no_nil v -> Forall no_nil (given a) ->
  ends (snd (perform E W d v a)) /\ no_nil (fst (perform E W d v a)).
Proof.
  intros N Hg.
  destruct a as [cl p o|cl p o|cl p o|x p o|x p o|x p o|fr x ps|cl p o|less|b|opts|opts| | ]; cbn [perform given both_of fst snd] in *.
  - split; [apply ends_outcome, get_all_ends, N|]. rewrite get_doc. apply (locate_ends E W cl v p o N).
  - pose proof (get_result E W cl v p o N) as G. pose proof (get_doc E W cl v p o) as D. destruct (locate_ends E W cl v p o N) as (_ & L2 & _).
    destruct (get E W cl v p o) as [v' [c|e| |]]; cbn [fst snd outcome] in *; try contradiction; split; auto; try exact I. now rewrite D.
  - pose proof (get_all_ends E W cl v p o N) as G. pose proof (get_doc E W cl v p o) as D. destruct (locate_ends E W cl v p o N) as (_ & L2 & _).
    unfold must_get. destruct (get E W cl v p o) as [v' [c|e| |]]; cbn [fst snd outcome] in *; try contradiction; split; try exact I; now rewrite D.
  - inversion Hg; subst. split; [apply ends_outcome, set_at_ends|now apply set_at_no_nil].
  - inversion Hg; subst. split; [now apply ends_outcome, insert_before_ends|]. unfold insert_before. destruct (snd x); [exact N|now apply insert_f_no_nil].
  - inversion Hg; subst. split; [now apply ends_outcome, insert_after_ends|]. unfold insert_after. destruct (snd x); [exact N|now apply insert_f_no_nil].
  - inversion Hg; subst. split; [now apply ends_outcome, append_ends|now apply append_no_nil].
  - split; [now apply ends_outcome, delete_ends|now apply delete_f_no_nil].
  - unfold sort_array. destruct less as [f|]; [|split; [exact I|exact N]].
    destruct v as [ |s|m src|i kvs lo|l|b| | | ]; try (split; [exact I|exact N]); [|contradiction].
    split; [exact I|]. cbn [fst api_is_array on_value vtype_of vtype_eqb rbind negb array_of]. apply no_nil_arr. apply no_nil_arr in N.
    rewrite Forall_forall in *. intros x Hx. apply N. eapply Permutation_in; [apply go_sort_perm|exact Hx].
  - unfold unmarshal_json. destruct (C01_proof E b) as ((w & e & Hu & Hx) & _).
    rewrite Hu. destruct e as [e|]; [split; [exact I|exact N]|]. pose proof (typed_no_nil _ Hx) as Nw.
    destruct v; try contradiction; destruct w; try contradiction; split; auto; exact I.
  - split; [|exact N]. apply ends_outcome. destruct (marshal_total E W d opts v) as (H & _). rewrite <- no_nil_iff in H.
    destruct (H N) as [(t & ->)|(e & ->)]; exact I.
  - split; [|exact N]. apply ends_outcome. destruct (marshal_total E W d opts v) as (_ & _ & H). rewrite <- no_nil_iff in H.
    destruct (H N) as (t & ->). exact I.
  - split; [|exact N]. destruct v; try contradiction; exact I.
  - split; [|exact N]. destruct v; try contradiction; exact I.
Qed.

Theorem series_safe E l : forall v, ~ nil_at v -> Forall (fun x => Forall (fun w => ~ nil_at w) (given (snd x))) l ->
  Forall ends (snd (series E v l)) /\ ~ nil_at (fst (series E v l)).
Proof.
  induction l as [|[[W d] a] l IH]; intros v N Hl; [split; [constructor|exact N]|]. inversion Hl as [|? ? Ha Hl']; subst. cbn [snd] in Ha. cbn [series].
  destruct (perform_safe E W d v a) as (P1 & P2).
  - now apply no_nil_iff.
  - eapply Forall_impl; [|exact Ha]. intros w. apply no_nil_iff.
  - destruct (perform E W d v a) as [v' x]. cbn [fst snd] in *. apply no_nil_iff in P2. destruct (IH v' P2 Hl') as (I1 & I2).
    destruct (series E v' l) as [v'' xs]. cbn [fst snd] in *. auto.
Qed.
