(** What holds of every object of a document is kept by all calls. *)
From Verif Require Import Base Utf8 Float64 Value Scan Unmarshal Pure Opt Marshal Access Path Edit Iter GoValue Import
  SpecJson SpecText SpecLax SpecOrder SpecPath SpecHistory
  ListLemmas ValueLemmas ParseFacts ParseComplete SortProof LaxParse SeqProof PathProof EditProof SetProof EditClaims.

Definition lower_t := option (list (bytes * list bytes)).

Fixpoint all_obj (P : Z -> list kv -> lower_t -> Prop) (v : V) : Prop :=
  match v with
  | VArr l => (fix go (l : list V) : Prop :=
                 match l with [] => True | x :: r => all_obj P x /\ go r end) l
  | VObj i kvs lo => P i kvs lo /\
                 (fix go (l : list (bytes * (Z * V))) : Prop :=
                    match l with [] => True | (_, (_, x)) :: r => all_obj P x /\ go r end) kvs
  | _ => True
  end.

Lemma all_obj_arr P l : all_obj P (VArr l) <-> Forall (all_obj P) l.
Proof.
  cbn. induction l as [|x l IH]; [split; constructor|]. split.
  - intros (H1 & H2). constructor; [exact H1|]. now apply IH.
  - intros H. split; [exact (Forall_inv H)|]. apply IH. exact (Forall_inv_tail H).
Qed.
Lemma all_obj_obj P i kvs lo : all_obj P (VObj i kvs lo) <->
  P i kvs lo /\ Forall (fun e : kv => all_obj P (snd (snd e))) kvs.
Proof.
  cbn. apply and_iff_compat_l. induction kvs as [|[k [id x]] r IH]; [split; constructor|]. split.
  - intros (H1 & H2). constructor; [exact H1|]. now apply IH.
  - intros H. split; [exact (Forall_inv H)|]. apply IH. exact (Forall_inv_tail H).
Qed.

Lemma Forall_cut {A} (Q : A -> Prop) n l : Forall Q l -> Forall Q (firstn n l) /\ Forall Q (skipn n l).
Proof. intros H. rewrite <- (firstn_skipn n l) in H. now apply Forall_app in H. Qed.

Section Keep.
Variable E : Env.
Variable P : nat -> Z -> list kv -> lower_t -> Prop.
Hypothesis P_new : P 0 0 [] None.
Hypothesis P_more : forall n m i kvs lo, (n <= m)%nat -> P n i kvs lo -> P m i kvs lo.
Hypothesis P_put : forall n i kvs lo k id x c, P n i kvs lo -> alookup k kvs = Some (id, x) -> P n i (aset k (id, c) kvs) lo.
Hypothesis P_set : forall n i kvs lo k c, P n i kvs lo ->
  P (S n) (wrap_u32 (i + 1)) (aset k (wrap_u32 (i + 1), c) kvs) (add_caseless_key E k lo).
Hypothesis P_del : forall n i kvs lo k, P n i kvs lo -> In k (akeys kvs) -> P n i (aremove k kvs) (del_caseless_key E k lo).
Hypothesis P_copy : forall n i kvs lo (f : V -> V), P n i kvs lo ->
  P n i (map (fun e : kv => (fst e, (fst (snd e), f (snd (snd e))))) kvs) None.
Hypothesis P_init : forall n i kvs lo, P n i kvs lo -> P n i kvs (init_caseless E kvs lo).

Notation good N := (all_obj (P N)).

Lemma good_more n m v : (n <= m)%nat -> good n v -> good m v.
Proof.
  intros Hn. induction v as [ |s|nn src|i kvs lo IH|l IH|b| | | ] using V_ind'; intros H; try exact I.
  - apply all_obj_obj in H as (HP & H). apply all_obj_obj. split; [eauto|]. rewrite Forall_forall in *. auto.
  - apply all_obj_arr in H. apply all_obj_arr. rewrite Forall_forall in *. auto.
Qed.
Lemma goods_more n m l : (n <= m)%nat -> Forall (fun e : kv => good n (snd (snd e))) l -> Forall (fun e : kv => good m (snd (snd e))) l.
Proof. intros Hn. apply Forall_impl. intros e. now apply good_more. Qed.
Lemma arr_more n m l : (n <= m)%nat -> Forall (good n) l -> Forall (good m) l.
Proof. intros Hn. apply Forall_impl. intros e. now apply good_more. Qed.

Section Same.
Variable c0 : nat.

Lemma good_child v h c : good c0 v -> child_at v h = Some c -> good c0 c.
Proof.
  intros N Ec. destruct v as [ |s|nn src|i kvs lo|l|b| | | ], h as [n|k]; cbn in Ec; try discriminate.
  - destruct (alookup k kvs) as [[id x]|] eqn:El; [|discriminate]. injection Ec as ->.
    apply all_obj_obj in N as [_ N]. rewrite Forall_forall in N. exact (N _ (alookup_In _ _ _ El)).
  - apply all_obj_arr in N. rewrite Forall_forall in N. apply N. exact (nth_error_In _ _ Ec).
Qed.
Lemma good_sub : forall hs v c, good c0 v -> sub_at v hs = Some c -> good c0 c.
Proof.
  induction hs as [|h hs IH]; intros v c N H; cbn in H; [injection H as <-; exact N|].
  destruct (child_at v h) as [x|] eqn:Ex; [|discriminate]. exact (IH _ _ (good_child _ _ _ N Ex) H).
Qed.
Lemma good_aset k e (kvs : list kv) : good c0 (snd e) -> Forall (fun e : kv => good c0 (snd (snd e))) kvs ->
  Forall (fun e : kv => good c0 (snd (snd e))) (aset k e kvs).
Proof.
  intros He H. induction H as [|[k' e'] r H1 H2 IH]; cbn; [constructor; [exact He|constructor]|].
  destruct (beqb k k'); constructor; auto.
Qed.
Lemma good_set_nth n c l : good c0 c -> Forall (good c0) l -> Forall (good c0) (set_nth n c l).
Proof. intros Hc H. revert n. induction H as [|x l Hx N IH]; intros [|n]; cbn; constructor; auto. Qed.
Lemma good_put v h c : good c0 v -> good c0 c -> good c0 (put_child v h c).
Proof.
  intros N Nc. destruct v as [ |s|nn src|i kvs lo|l|b| | | ], h as [n|k]; try exact N; cbn [put_child].
  - destruct (alookup k kvs) as [[id x]|] eqn:El; [|exact N].
    apply all_obj_obj in N as [HP N]. apply all_obj_obj. split; [eapply P_put; eassumption|]. now apply good_aset.
  - apply all_obj_arr in N. apply all_obj_arr. now apply good_set_nth.
Qed.
Lemma good_put_at : forall hs v c, good c0 v -> good c0 c -> good c0 (put_at v hs c).
Proof.
  induction hs as [|h hs IH]; intros v c N Nc; cbn [put_at]; [exact Nc|].
  destruct (child_at v h) as [x|] eqn:Ex; [|exact N]. apply good_put; [exact N|]. apply IH; [|exact Nc].
  exact (good_child _ _ _ N Ex).
Qed.
Lemma good_find W cl v p : good c0 v -> good c0 (fst (find_child E W cl v p)).
Proof.
  intros N. destruct v as [ |s|nn src|i kvs lo|l|b| | | ]; cbn [find_child]; try exact N.
  destruct (any_to_string p) as [key| | |]; try exact N. unfold find_key.
  destruct (alookup key kvs); [exact N|]. destruct cl; [|exact N].
  cbn [fst]. apply all_obj_obj in N as [HP N]. apply all_obj_obj. split; [now apply P_init|exact N].
Qed.
Lemma good_locate_f W cl : forall n v p o, good c0 v -> good c0 (fst (locate_f E W n cl v p o)).
Proof.
  induction n as [|n IH]; intros v p o N; [exact N|]. cbn [locate_f].
  destruct (peel p o) as [[q r]|]; [|exact N].
  pose proof (good_find W cl v q N) as F. destruct (find_child E W cl v q) as [v' [h|e| |]]; cbn [fst] in F; try exact F.
  destruct r as [|q' r']; [exact F|]. destruct (child_at v' h) as [c|] eqn:Ec; [|exact F].
  pose proof (IH c q' r' (good_child _ _ _ F Ec)) as Ic. destruct (locate_f E W n cl c q' r') as [c' t]. cbn [fst] in *.
  now apply good_put.
Qed.
Lemma good_locate W cl v p o : good c0 v -> good c0 (fst (locate E W cl v p o)).
Proof. apply good_locate_f. Qed.
Lemma good_get W cl v p o : good c0 v -> good c0 (fst (get E W cl v p o)) /\ forall c, snd (get E W cl v p o) = Ok c -> good c0 c.
Proof.
  intros N. unfold get. pose proof (good_locate W cl v p o N) as F. destruct (locate E W cl v p o) as [v' r].
  cbn [fst snd] in *. split; [exact F|]. intros c H. apply rbind_ok in H as (hs & _ & H).
  destruct (sub_at v' hs) as [d|] eqn:Es; [|discriminate]. injection H as <-. exact (good_sub _ _ _ F Es).
Qed.

Lemma good_insert_f W af : forall n v c p o, good c0 v -> good c0 c -> good c0 (fst (insert_f E W n af v c p o)).
Proof.
  induction n as [|n IH]; intros v c p o N Nc; [exact N|]. cbn [insert_f].
  destruct (peel p o) as [[q r]|]; [|exact N]. destruct (is_nil v); [exact N|]. destruct (not_exist v); [exact N|].
  destruct r as [|q' r'].
  - unfold insert_last. destruct v as [ |s|nn src|i kvs lo|l|b| | | ]; try exact N.
    destruct (any_to_int q) as [z| | |]; try exact N.
    match goal with |- context [match ?x with Some _ => _ | None => _ end] => destruct x as [m|] end; [|exact N].
    cbn [fst]. apply all_obj_arr in N. apply all_obj_arr. unfold insert_to_arr.
    rewrite <- (firstn_skipn m l) in N. apply Forall_app in N as [N1 N2]. apply Forall_app. auto.
  - pose proof (good_locate W false v q (removelast (q' :: r')) N) as F.
    destruct (locate E W false v q (removelast (q' :: r'))) as [v' [hs| | |]]; cbn [fst] in F; try exact F.
    destruct (sub_at v' hs) as [d|] eqn:Es; [|exact F]. destruct d as [ |s|nn src|i kvs lo|l|b| | | ]; try exact F.
    pose proof (IH (VArr l) c (last (q' :: r') PNil) [] (good_sub _ _ _ F Es) Nc) as Id.
    destruct (insert_f E W n af (VArr l) c (last (q' :: r') PNil) []) as [d' r]. now apply good_put_at.
Qed.
Lemma good_before W v x p o : good c0 v -> good c0 (fst x) -> good c0 (fst (insert_before E W v x p o)).
Proof. intros N Nx. unfold insert_before. destruct (snd x); [exact N|]. now apply good_insert_f. Qed.
Lemma good_after W v x p o : good c0 v -> good c0 (fst x) -> good c0 (fst (insert_after E W v x p o)).
Proof. intros N Nx. unfold insert_after. destruct (snd x); [exact N|]. now apply good_insert_f. Qed.

Lemma good_aremove k (kvs : list kv) : Forall (fun e : kv => good c0 (snd (snd e))) kvs ->
  Forall (fun e : kv => good c0 (snd (snd e))) (aremove k kvs).
Proof. intros H. induction H as [|[k' e'] r H1 H2 IH]; cbn; [constructor|]. destruct (beqb k k'); [exact IH|constructor; auto]. Qed.
Lemma first_existing_In kvs ks k : first_existing (kvs : list kv) ks = Some k -> In k ks /\ In k (akeys kvs).
Proof.
  induction ks as [|x r IH]; [discriminate|]. cbn. destruct (alookup x kvs) eqn:El.
  - intros [= ->]. split; [now left|]. eapply alookup_Some_key; eassumption.
  - intros H. destruct (IH H). tauto.
Qed.
Lemma good_delete_here W cl v p : good c0 v -> good c0 (fst (delete_here E W cl v p)).
Proof.
  intros N. unfold delete_here. destruct v as [ |s|nn src|i kvs lo|l|b| | | ]; try exact N.
  - destruct (any_to_string p) as [k| | |]; try exact N. unfold del_from_object. pose proof N as N0.
    apply all_obj_obj in N as [HP N]. destruct (alookup k kvs) eqn:El.
    + cbn [fst]. apply all_obj_obj. split; [apply P_del; [exact HP|]|now apply good_aremove]. eapply alookup_Some_key; eassumption.
    + destruct cl; [|exact N0]. destruct (first_existing _ _) as [k'|] eqn:Ef; cbn [fst]; apply all_obj_obj.
      * split; [|now apply good_aremove]. apply P_del; [now apply P_init|]. apply (first_existing_In _ _ _ Ef).
      * split; [now apply P_init|exact N].
  - destruct (any_to_int p) as [z| | |]; try exact N. destruct (pos_read _ _) as [m|]; [|exact N].
    cbn [fst]. apply all_obj_arr in N. apply all_obj_arr. unfold delete_in_arr.
    apply Forall_app. split; [apply (proj1 (Forall_cut _ m l N))|apply (proj2 (Forall_cut _ (S m) l N))].
Qed.
Lemma good_delete_f W cl : forall n v p o, good c0 v -> good c0 (fst (delete_f E W n cl v p o)).
Proof.
  induction n as [|n IH]; intros v p o N; [exact N|]. cbn [delete_f].
  destruct (peel p o) as [[q [|q' r']]|]; [now apply good_delete_here| |exact N].
  pose proof (good_locate W cl v q (removelast (q' :: r')) N) as F.
  destruct (locate E W cl v q (removelast (q' :: r'))) as [v' [hs|e| |]]; cbn [fst] in F; try exact F.
  destruct (sub_at v' hs) as [d|] eqn:Es; [|exact F].
  pose proof (IH d (last (q' :: r') PNil) [] (good_sub _ _ _ F Es)) as Id.
  destruct (delete_f E W n cl d (last (q' :: r') PNil) []) as [d' r]. now apply good_put_at.
Qed.

End Same.

Lemma good_new N q c : new_container q = Ok c -> good N c.
Proof.
  unfold new_container. destruct (any_to_string q); [intros [= <-]; cbn; split; [|exact I]; apply (P_more 0); [lia|exact P_new]|..];
    (destruct (any_to_int q) as [z| | |]; try discriminate; destruct (z =? 0); [intros [= <-]; exact I|discriminate]).
Qed.
Lemma good_set_obj N v k c v' : good N v -> good (S N) c -> set_to_object E v k c = Ok v' -> good (S N) v'.
Proof.
  intros H Hc. destruct v as [ |s|nn src|i kvs lo|l|b| | | ]; try discriminate. intros [= <-].
  apply all_obj_obj in H as [HP H]. apply all_obj_obj. split; [now apply P_set|]. apply good_aset; [exact Hc|].
  now apply (goods_more N); [lia|].
Qed.
Lemma good_set_f N : forall n v c p o, good N v -> good N c -> good (S N) (fst (set_f E n v c p o)).
Proof.
  assert (HS : (N <= S N)%nat) by lia.
  induction n as [|n IH]; intros v c p o H Hc; [now apply (good_more N)|].
  pose proof (good_more N (S N) v HS H) as H'. pose proof (good_more N (S N) c HS Hc) as Hc'. cbn [set_f].
  destruct (peel p o) as [[q r]|]; [|exact H'].
  destruct (uninitialized v); [exact H'|]. destruct (uninitialized c); [exact H'|].
  destruct r as [|q' r'].
  - unfold at_last_param. destruct v as [ |s|nn src|i kvs lo|l|b| | | ]; try exact H'.
    + destruct (any_to_string q) as [k| | |]; try exact H'.
      destruct (set_to_object E (VObj i kvs lo) k c) as [v'| | |] eqn:Es; try exact H'. exact (good_set_obj _ _ _ _ _ H Hc' Es).
    + destruct (any_to_int q) as [z| | |]; try exact H'. unfold set_at_index.
      apply all_obj_arr in H'. destruct (z =? _).
      * cbn [fst]. apply all_obj_arr, Forall_app. auto.
      * destruct (pos_read _ z); cbn [fst]; apply all_obj_arr; [|exact H']. now apply good_set_nth.
  - destruct v as [ |s|nn src|i kvs lo|l|b| | | ]; try exact H'.
    + destruct (any_to_string q) as [k| | |]; try exact H'. destruct (alookup k kvs) as [[id x]|] eqn:El.
      * assert (Hx : good N x). { apply (good_child N _ (HKey k) _ H). cbn. now rewrite El. }
        pose proof (IH x c q' r' Hx Hc) as Ix. destruct (set_f E n x c q' r') as [x' r]. cbn [fst] in *.
        apply all_obj_obj in H' as [HP H']. apply all_obj_obj. split; [eapply P_put; eassumption|]. now apply good_aset.
      * destruct (new_container q') as [x| | |] eqn:En; try exact H'.
        pose proof (IH x c q' r' (good_new N _ _ En) Hc) as Ix. destruct (set_f E n x c q' r') as [x' [r| | |]]; cbn [fst] in *; try exact H'.
        destruct (set_to_object E (VObj i kvs lo) k x') as [v'| | |] eqn:Es; try exact H'. exact (good_set_obj _ _ _ _ _ H Ix Es).
    + destruct (any_to_int q) as [z| | |]; try exact H'. destruct (pos_read (List.length l) z) as [m|] eqn:Ep.
      * assert (Hx : good N (nth m l VNil)).
        { destruct (nth_in_or_default m l VNil) as [Hi| ->]; [|exact I]. apply all_obj_arr in H. rewrite Forall_forall in H. now apply H. }
        pose proof (IH _ c q' r' Hx Hc) as Ix. destruct (set_f E n (nth m l VNil) c q' r') as [x' r]. cbn [fst] in *.
        apply all_obj_arr in H'. apply all_obj_arr. now apply good_set_nth.
      * destruct (new_container q') as [x| | |] eqn:En; try exact H'.
        pose proof (IH x c q' r' (good_new N _ _ En) Hc) as Ix. destruct (set_f E n x c q' r') as [x' [r| | |]]; cbn [fst] in *; try exact H'.
        apply all_obj_arr in H'. apply all_obj_arr, Forall_app. auto.
Qed.
Lemma good_set N v x p o : good N v -> good N (fst x) -> good (S N) (fst (set_at E v x p o)).
Proof. intros H Hx. unfold set_at. destruct (snd x); [now apply (good_more N); [lia|]|]. now apply good_set_f. Qed.

Lemma good_append N W fr v x ps : good N v -> good N (fst x) -> good (S N) (fst (append_at E W fr v x ps)).
Proof.
  intros H Hx. unfold append_at.
  assert (Hadd : forall l, Forall (good N) l -> good N (VArr (if fr then fst x :: l else l ++ [fst x]))).
  { intros l Hl. apply all_obj_arr. destruct fr; [now constructor|]. apply Forall_app. auto. }
  assert (Hm : forall u, good N u -> good (S N) u) by (intros u; apply good_more; lia).
  destruct (is_nil v); [now apply Hm|]. destruct (not_exist v); [now apply Hm|].
  destruct (joint_params ps) as [[|p r]|]; [| |now apply Hm].
  - destruct v as [ |s|nn src|i kvs lo|l|b| | | ]; try (now apply Hm). apply Hm, Hadd. now apply all_obj_arr.
  - pose proof (good_locate N W false v p r H) as F.
    destruct (locate E W false v p r) as [v' [hs|e| |]]; cbn [fst] in F; try (now apply Hm).
    + destruct (sub_at v' hs) as [d|] eqn:Es; [|now apply Hm]. destruct d as [ |s|nn src|i kvs lo|l|b| | | ]; try (now apply Hm).
      apply Hm. apply good_put_at; [exact F|]. apply Hadd. apply all_obj_arr. exact (good_sub _ _ _ _ F Es).
    + destruct e; try (now apply Hm).
      assert (Hc : good N (fst (arg_v (VArr [fst x])))) by (cbn; auto).
      pose proof (good_set N v' (arg_v (VArr [fst x])) p r F Hc) as G.
      destruct (set_at E v' (arg_v (VArr [fst x])) p r) as [v'' [u| | |]]; exact G.
Qed.

Lemma good_put_all N l : Forall (fun m => good N (to_V E (snd m))) l -> forall m i kvs lo,
  P m i kvs lo -> Forall (fun e : kv => good N (snd (snd e))) kvs -> (m + List.length l <= N)%nat ->
  good N (put_all E l (VObj i kvs lo)).
Proof.
  induction 1 as [|[k x] l Hx Hl IH]; intros m i kvs lo HP Hk Hn.
  - apply all_obj_obj. split; [|exact Hk]. apply (P_more m); [cbn in Hn; lia|exact HP].
  - cbn [put_all fold_left]. unfold oput at 2. cbn [set_to_object fst snd].
    apply (IH (S m)); [now apply P_set|now apply good_aset|]. cbn in Hn. lia.
Qed.
Lemma good_to_V N j : small (Z.of_nat N + 1) j -> good N (to_V E j).
Proof.
  induction j as [ |b|lit|s|l IH|l IH] using jv_ind'; intros Hsm; try exact I.
  - cbn [to_V]. destruct (q_number E lit) as [[v r]| | |] eqn:Eq; try exact I.
    apply q_number_num in Eq as (n & src & -> & _). exact I.
  - apply small_arr in Hsm. cbn [to_V]. apply all_obj_arr, Forall_map. rewrite Forall_forall in *. auto.
  - apply small_obj in Hsm as [Hlen Hsm]. cbn [to_V].
    change (good N (put_all E l (VObj 0 [] None))). apply (good_put_all N l) with (m := 0%nat); [|exact P_new|constructor|lia].
    rewrite Forall_forall in *. auto.
Qed.
Lemma good_parsed b v : Forall is_byte b -> unmarshal E b = Ok (v, None) -> good (List.length b) v.
Proof.
  intros Hb H. apply unmarshal_lax in H as (j & (w1 & t & w2 & -> & _ & Hj & _) & ->); [|assumption].
  apply good_to_V. apply (proj1 (lax_small _) t j Hj). rewrite !app_length. lia.
Qed.

(** *** Copies, sorting, Import *)

Lemma copy_obj i kvs lo : deep_copy (VObj i kvs lo) =
  VObj i (map (fun e : kv => (fst e, (fst (snd e), deep_copy (snd (snd e))))) kvs) None.
Proof. cbn [deep_copy]. f_equal. apply map_ext. now intros [k [id x]]. Qed.
Lemma good_copy N v : good N v -> good N (deep_copy v).
Proof.
  induction v as [ |s|nn src|i kvs lo IH|l IH|b| | | ] using V_ind'; intros H; try exact I.
  - rewrite copy_obj. apply all_obj_obj in H as (HP & H). apply all_obj_obj. split; [exact (P_copy _ _ _ _ _ HP)|].
    apply Forall_map. rewrite Forall_forall in *. cbn [fst snd]. auto.
  - cbn [deep_copy]. apply all_obj_arr in H. apply all_obj_arr, Forall_map. rewrite Forall_forall in *. auto.
Qed.

Lemma good_sort N W v less v' : good N v -> sort_array W v less = Ok v' -> good N v'.
Proof.
  intros H Hs. destruct less as [f|]; [|now injection Hs as <-].
  destruct v as [ |s|nn src|i kvs lo|l|b| | | ]; cbn [sort_array api_is_array on_value vtype_of vtype_eqb rbind negb] in Hs; try discriminate Hs; injection Hs as <-; try exact H.
  apply all_obj_arr in H. apply all_obj_arr. cbn [array_of]. eapply Permutation_Forall; [apply Permutation_sym, go_sort_perm|exact H].
Qed.

(** The number of members. *)
Definition width (v : V) : nat := match v with VObj _ kvs _ => List.length kvs | _ => 0 end.

Lemma length_aset {A} k (e : A) l : (List.length (aset k e l) <= S (List.length l))%nat.
Proof. induction l as [|[k' e'] r IH]; cbn; [lia|]. destruct (beqb k k'); cbn; lia. Qed.
Lemma width_put_all l : forall i kvs lo, (width (put_all E l (VObj i kvs lo)) <= List.length kvs + List.length l)%nat.
Proof.
  induction l as [|[k x] l IH]; intros i kvs lo; [cbn; lia|]. cbn [put_all fold_left]. unfold oput at 2. cbn [set_to_object fst snd].
  etransitivity; [apply IH|]. pose proof (length_aset k (wrap_u32 (i + 1), to_V E x) kvs). cbn [List.length]. lia.
Qed.
Lemma width_parsed b v : Forall is_byte b -> unmarshal E b = Ok (v, None) -> (width v <= List.length b)%nat.
Proof.
  intros Hb H. apply unmarshal_lax in H as (j & (w1 & t & w2 & -> & _ & Hj & _) & ->); [|assumption].
  destruct j as [ |b|lit|s|l|l]; try (cbn; lia).
  - cbn [to_V]. destruct (q_number E lit) as [[v r]| | |] eqn:Eq; try (cbn; lia).
    apply q_number_num in Eq as (n & src & -> & _). cbn. lia.
  - change (width (put_all E l (VObj 0 [] None)) <= List.length (w1 ++ t ++ w2))%nat.
    pose proof (width_put_all l 0 [] None). cbn [List.length] in H.
    assert (Hs : small (Z.of_nat (List.length t) + 1) (JObj l)) by (apply (proj1 (lax_small _) t _ Hj); lia).
    apply small_obj in Hs as (Hs & _). rewrite !app_length. lia.
Qed.

(** An object under construction: the object was set to [m] times, what is inside
    is good. *)
Definition growing (N m : nat) (v : V) : Prop :=
  exists i kvs lo, v = VObj i kvs lo /\ P m i kvs lo /\ Forall (fun e : kv => good N (snd (snd e))) kvs /\ (List.length kvs <= m)%nat.

Lemma grow_set N m v c k v' : growing N m v -> good N c -> must_op (set_at E v (arg_v c) (PStr k) []) = Ok v' -> growing N (S m) v'.
Proof.
  intros (i & kvs & lo & -> & HP & HG & HL) Hc. unfold set_at, arg_v. cbn [snd fst set_f peel psum]. cbn [uninitialized is_nil not_exist orb].
  fold (uninitialized c). destruct (uninitialized c).
  - unfold must_op. cbn [fst snd]. intros H. injection H as <-. exists i, kvs, lo. repeat split; try assumption; [|lia]. apply (P_more m); [lia|exact HP].
  - cbn [at_last_param any_to_string set_to_object]. unfold must_op. cbn [snd fst]. intros H. injection H as <-.
    do 3 eexists. split; [reflexivity|]. split; [now apply P_set|]. split; [now apply good_aset|].
    pose proof (length_aset k (wrap_u32 (i + 1), c) kvs). lia.
Qed.
Lemma grow_more N N' m m' v : (N <= N')%nat -> (m <= m')%nat -> growing N m v -> growing N' m' v.
Proof.
  intros H1 H2 (i & kvs & lo & -> & HP & HG & HL). exists i, kvs, lo. repeat split; [now apply (P_more m)|now apply (goods_more N)|lia].
Qed.
Lemma grow_all N kcs : Forall (fun e : bytes * V => good N (snd e)) kcs -> forall m v v', growing N m v -> set_all E v kcs = Ok v' ->
  growing N (m + List.length kcs) v'.
Proof.
  induction 1 as [|[k c] r Hc _ IH]; intros m v v' Hv H; cbn [set_all] in H.
  - injection H as <-. now rewrite Nat.add_0_r.
  - destruct (must_op _) as [acc| | |] eqn:Em; try discriminate. cbn [rbind] in H.
    pose proof (grow_set _ _ _ _ _ _ Hv Hc Em) as G. cbn [List.length]. rewrite <- Nat.add_succ_comm. exact (IH _ _ _ G H).
Qed.
Lemma grow_entries N l : Forall (fun e : bytes * res V => forall c, snd e = Ok c -> good N c) l -> forall m v v', growing N m v ->
  set_entries E v l = Ok v' -> growing N (m + List.length l) v'.
Proof.
  induction 1 as [|[k c] r Hc _ IH]; intros m v v' Hv H; cbn [set_entries] in H.
  - injection H as <-. now rewrite Nat.add_0_r.
  - destruct c as [c| | |]; try discriminate. cbn [rbind snd] in *.
    destruct (must_op _) as [acc| | |] eqn:Em; try discriminate. cbn [rbind] in H.
    pose proof (grow_set _ _ _ _ _ _ Hv (Hc _ eq_refl) Em) as G. cbn [List.length]. rewrite <- Nat.add_succ_comm. exact (IH _ _ _ G H).
Qed.
Lemma grow_fields N (ws : list nat) l :
  Forall2 (fun w (e : res (list (bytes * V))) => forall kcs, e = Ok kcs -> (List.length kcs <= w)%nat /\ Forall (fun e : bytes * V => good N (snd e)) kcs) ws l ->
  forall m v v', growing N m v -> set_fields E v l = Ok v' -> growing N (m + fold_right Nat.add 0%nat ws) v'.
Proof.
  induction 1 as [|w c ws r Hc _ IH]; intros m v v' Hv H; cbn [set_fields] in H.
  - injection H as <-. cbn [fold_right]. now rewrite Nat.add_0_r.
  - destruct c as [kcs| | |]; try discriminate. cbn [rbind] in *. destruct (Hc _ eq_refl) as (HL & HG).
    destruct (set_all E v kcs) as [acc| | |] eqn:Em; try discriminate. cbn [rbind] in H.
    pose proof (grow_all N kcs HG _ _ _ Hv Em) as G. cbn [fold_right]. rewrite Nat.add_assoc.
    refine (IH _ _ _ _ H). revert G. apply grow_more; lia.
Qed.
Lemma good_append_all W N l : Forall (fun e : res V => forall c, e = Ok c -> good N c) l -> forall a v', Forall (good N) a ->
  append_all E W (VArr a) l = Ok v' -> good N v' /\ width v' = 0%nat.
Proof.
  induction 1 as [|c r Hc _ IH]; intros a v' Ha H; cbn [append_all] in H.
  - injection H as <-. split; [now apply all_obj_arr|reflexivity].
  - destruct c as [c| | |]; try discriminate. cbn [rbind] in H.
    change (must_op (append_end E W (VArr a) (arg_v c) [])) with (Ok (VArr (a ++ [c]))) in H. cbn [rbind] in H.
    refine (IH _ _ _ H). apply Forall_app. split; [exact Ha|]. constructor; [now apply Hc|constructor].
Qed.
Lemma growing_new N : growing N 0 new_object.
Proof. exists 0, [], None. repeat split; [exact P_new|constructor|cbn; lia]. Qed.
Lemma growing_good N m v : (m <= N)%nat -> growing N m v -> good N v /\ (width v <= m)%nat.
Proof.
  intros Hm (i & kvs & lo & -> & HP & HG & HL). split; [|exact HL]. apply all_obj_obj. split; [now apply (P_more m)|exact HG].
Qed.

Section Data.
Variable W : World.
Variable d : opt.
Variable n0 : nat.
Notation imp := (import_val E W d).
Notation dsz := (data_size E W d).
Definition fine (g : gov) : Prop :=
  (forall x, contains_value g x -> good n0 x) /\ (forall b, contains_text E W d g b -> Forall is_byte b).
(** What Import makes of [g]. *)
Definition made (g : gov) (v : V) : Prop := good (n0 + dsz g) v /\ (width v <= dsz g)%nat.

Lemma plain_made g v : (forall N, good N v) -> width v = 0%nat -> made g v.
Proof. intros H1 H2. split; [apply H1|lia]. Qed.
Lemma omit_made g ex b x v : omit_or ex b x = Ok v -> made g x -> made g v.
Proof. intros H Hx. unfold omit_or in H. injection H as <-. destruct (b && should_omit ex); [apply plain_made; [exact (fun _ => I)|reflexivity]|exact Hx]. Qed.
Lemma interface_ok r x v : interface r x = Ok v -> x = Ok v.
Proof. unfold interface. now destruct (can_interface r). Qed.

Lemma json_made m ex v : (forall b, m = MOut (Ok b) -> Forall is_byte b) -> parse_json_marshaler E m ex = Ok v ->
  (exists b, m = MOut (Ok b) /\ good (List.length b) v /\ (width v <= List.length b)%nat) \/ v = VNil.
Proof.
  intros Hb H. destruct m as [| |r]; cbn [parse_json_marshaler] in H; [injection H as <-; now right|injection H as <-; now right|].
  destruct r as [b| | |]; try discriminate. cbn [rbind] in H. specialize (Hb b eq_refl).
  destruct (unmarshal E b) as [[w [e|]]| | |] eqn:Eu; try discriminate. cbn [rbind] in H.
  unfold omit_or in H. injection H as <-. match goal with |- context [if ?c then VNil else w] => destruct c end; [now right|].
  left. exists b. split; [reflexivity|]. split; [now apply good_parsed|now apply width_parsed].
Qed.
Lemma nil_made g : made g VNil.
Proof. apply plain_made; [exact (fun _ => I)|reflexivity]. Qed.

Lemma float_made g f h ex v : (exists a b, f = VNum a b) -> parse_float E W d f h ex = Ok v -> made g v.
Proof.
  intros (a & b & ->) H. unfold parse_float in H. destruct (_ && _); [injection H as <-; apply nil_made|].
  destruct (x_str ex).
  - destruct (must_marshal _ _ _ _ _) as [s| | |]; try discriminate. injection H as <-. apply plain_made; [exact (fun _ => I)|reflexivity].
  - injection H as <-. apply plain_made; [exact (fun _ => I)|reflexivity].
Qed.

Lemma sum_in {A} (f : A -> nat) l x : In x l -> (f x < fold_right (fun y n => S (f y + n)) 0 l)%nat.
Proof. induction l as [|y l IH]; [contradiction|]. cbn [fold_right]. intros [->|H]; [lia|]. apply IH in H. lia. Qed.
Lemma sum_len {A} (f : A -> nat) l : (List.length l <= fold_right (fun y n => S (f y + n)) 0 l)%nat.
Proof. induction l as [|y l IH]; [cbn; lia|]. cbn [fold_right List.length]. lia. Qed.

Lemma text_size_ok v b : marshal E W d [] v = Ok b -> text_size E W d v = List.length b.
Proof. intros H. unfold text_size. now rewrite H. Qed.
Lemma method_ok v b : v_method E W d v = MOut (Ok b) -> marshal E W d [] v = Ok b.
Proof. intros H. assert (H0 : MOut (marshal E W d [] v) = MOut (Ok b)) by (destruct v; try exact H; discriminate H). revert H0. generalize (marshal E W d [] v). intros r H0. injection H0 as H0. exact H0. Qed.

Lemma good_entries N kvs : Forall (fun e : kv => good N (snd (snd e))) kvs -> Forall (fun e : bytes * V => good N (snd e)) (entries kvs).
Proof. intros H. apply Forall_map. exact H. Qed.
Lemma collect (l acc : list (bytes * V)) : range_list (fun (s : list (bytes * V)) e => (s ++ [e], true)) l acc = acc ++ l.
Proof. revert acc. induction l as [|x l IH]; intros acc; cbn [range_list]; [now rewrite app_nil_r|]. rewrite IH, <- app_assoc. reflexivity. Qed.

Lemma good_import_val g : fine g -> forall r ex v, imp g r ex = Ok v -> made g v.
Proof.
  induction g as [ |b|z|z|f|f|l IH| |l IH|b|x| |m IH| | |g IH|g IH|fs IH|w|w|m|m| ] using gov_ind'; intros (HV & HT) r ex v H.
  - exact (omit_made _ _ _ _ _ H (plain_made _ VNull (fun _ => I) eq_refl)).
  - refine (omit_made _ _ _ _ _ H (plain_made _ _ _ _)); destruct (x_str ex); try reflexivity; exact (fun _ => I).
  - refine (omit_made _ _ _ _ _ H (plain_made _ _ _ _)); destruct (x_str ex); try reflexivity; exact (fun _ => I).
  - refine (omit_made _ _ _ _ _ H (plain_made _ _ _ _)); destruct (x_str ex); try reflexivity; exact (fun _ => I).
  - eapply float_made; [|exact H]. do 2 eexists. reflexivity.
  - eapply float_made; [|exact H]. do 2 eexists. reflexivity.
  - cbn [import_val] in H. eapply (good_append_all W (n0 + dsz (GArray l))) in H; [| |constructor].
    + destruct H as (H1 & H2). split; [exact H1|lia].
    + apply Forall_map, Forall_forall. intros x Hx c Hc. rewrite Forall_forall in IH.
      destruct (IH x Hx (conj (fun y Hy => HV y (cv_array l x y Hx Hy)) (fun y Hy => HT y (ct_array E W d l x y Hx Hy))) _ _ _ Hc) as (G & _).
      revert G. apply good_more. pose proof (sum_in dsz l x Hx). cbn [data_size]. lia.
  - exact (omit_made _ _ _ _ _ H (plain_made _ new_array (fun _ => I) eq_refl)).
  - assert (H' : append_all E W new_array (map (fun x => imp x (ro_inside r) (Ext false (x_str ex) (x_priv ex) (x_ign ex))) l) = Ok v \/ v = VNil \/ v = new_array).
    { destruct l as [|x l]; [|now left]. right. cbn [import_val] in H. unfold omit_or in H. match type of H with Ok (if ?c then _ else _) = _ => destruct c end; injection H as <-; auto. }
    destruct H' as [H'|[->| ->]]; [|apply nil_made|apply plain_made; [exact (fun _ => I)|reflexivity]].
    eapply (good_append_all W (n0 + dsz (GSlice (Some l)))) in H'; [| |constructor].
    + destruct H' as (H1 & H2). split; [exact H1|lia].
    + apply Forall_map, Forall_forall. intros x Hx c Hc. rewrite Forall_forall in IH.
      destruct (IH x Hx (conj (fun y Hy => HV y (cv_slice l x y Hx Hy)) (fun y Hy => HT y (ct_slice E W d l x y Hx Hy))) _ _ _ Hc) as (G & _).
      revert G. apply good_more. pose proof (sum_in dsz l x Hx). cbn [data_size]. lia.
  - cbn [import_val] in H. apply interface_ok in H. exact (omit_made _ _ _ _ _ H (plain_made _ (Base64.new_bytes _) (fun _ => I) eq_refl)).
  - exact (omit_made _ _ _ _ _ H (plain_made _ (new_string x) (fun _ => I) eq_refl)).
  - exact (omit_made _ _ _ _ _ H (plain_made _ VNull (fun _ => I) eq_refl)).
  - assert (H' : set_entries E new_object (map (fun e : gkey * gov => let '(k, x) := e in (key_string_of k, imp x (ro_inside r) ex)) m) = Ok v \/ v = VNil \/ v = new_object).
    { destruct m as [|x m]; [|now left]. right. cbn [import_val] in H. unfold omit_or in H. match type of H with Ok (if ?c then _ else _) = _ => destruct c end; injection H as <-; auto. }
    destruct H' as [H'|[->| ->]]; [|apply nil_made|].
    + eapply (grow_entries (n0 + dsz (GMap (Some m)))) in H'; [| |apply growing_new].
      * rewrite map_length in H'. cbn [Nat.add] in H'. pose proof (sum_len (fun e => dsz (snd e)) m) as HL.
        apply growing_good in H' as (H1 & H2); [|cbn [data_size]; lia]. split; [exact H1|cbn [data_size]; lia].
      * apply Forall_map, Forall_forall. intros [k x] Hx c Hc. cbn [snd] in Hc. rewrite Forall_forall in IH. specialize (IH _ Hx). cbn [snd] in IH.
        destruct (IH (conj (fun y Hy => HV y (cv_map m k x y Hx Hy)) (fun y Hy => HT y (ct_map E W d m k x y Hx Hy))) _ _ _ Hc) as (G & _).
        revert G. apply good_more. pose proof (sum_in (fun e => dsz (snd e)) m (k, x) Hx). cbn [data_size snd] in *. lia.
    + destruct (growing_good (n0 + dsz (GMap (Some m))) 0 new_object ltac:(lia) (growing_new _)) as (H1 & H2). split; [exact H1|lia].
  - discriminate.
  - exact (omit_made _ _ _ _ _ H (plain_made _ VNull (fun _ => I) eq_refl)).
  - assert (HG : fine g) by (split; [intros y Hy; exact (HV y (cv_ptr g y Hy))|intros y Hy; exact (HT y (ct_ptr E W d g y Hy))]).
    assert (H' : (imp g r ex = Ok v) \/ exists w, g = GVal w /\ parse_json_marshaler E (v_method E W d w) ex = Ok v).
    { destruct g; try (left; exact H). right. exists v0. split; [reflexivity|]. exact (interface_ok _ _ _ H). }
    destruct H' as [H'|(w & -> & H')].
    + destruct (IH HG _ _ _ H') as (G1 & G2). cbn [data_size] in *. split; [revert G1; apply good_more; cbn [data_size]; lia|cbn [data_size]; lia].
    + apply json_made in H' as [(b & Em & G1 & G2)| ->]; [|apply nil_made|].
      * apply method_ok in Em. pose proof (text_size_ok _ _ Em) as Es. assert (Hs : (List.length b <= dsz (GPtr (Some (GVal w))))%nat) by (cbn [data_size]; lia).
        split; [revert G1; apply good_more; lia|lia].
      * intros b Em. apply method_ok in Em. exact (HT b (ct_pointer E W d w b Em)).
  - cbn [import_val] in H.
    refine (IH _ _ _ _ H). split; [intros y Hy; exact (HV y (cv_iface g y Hy))|intros y Hy; exact (HT y (ct_iface E W d g y Hy))].
  - cbn [import_val] in H. eapply (grow_fields (n0 + dsz (GStruct fs)) (map (fun e => S (dsz (snd e))) fs)) in H; [| |apply growing_new].
    + cbn [Nat.add] in H.
      assert (HE : fold_right Nat.add 0%nat (map (fun e : gfield * gov => S (dsz (snd e))) fs) = dsz (GStruct fs)).
      { cbn [data_size]. clear. induction fs as [|e fs IH]; [reflexivity|]. cbn [map fold_right]. rewrite IH. lia. }
      rewrite HE in H. apply growing_good in H as (H1 & H2); [|lia]. split; [exact H1|exact H2].
    + assert (HI : Forall (fun e => In e fs) fs) by now apply Forall_forall.
      assert (GG : forall fs', Forall (fun e => In e fs) fs' -> Forall2
         (fun w (e : res (list (bytes * V))) => forall kcs, e = Ok kcs ->
            (List.length kcs <= w)%nat /\ Forall (fun e0 : bytes * V => good (n0 + dsz (GStruct fs)) (snd e0)) kcs)
         (map (fun e => S (dsz (snd e))) fs')
         (map (fun e : gfield * gov => let '(f, x) := e in if gf_anon f then parse_anonymous W (imp x) (is_nil_ptr x) f r ex else parse_field (imp x) f r ex) fs')); [|exact (GG fs HI)].
      clear HI H. intros fs' HI. induction HI as [|[f x] fs' Hx _ IHl]; cbn [map]; constructor; [|exact IHl].
      rewrite Forall_forall in IH. specialize (IH _ Hx). cbn [snd] in *.
      assert (IHx : forall r ex v, imp x r ex = Ok v -> good (n0 + dsz (GStruct fs)) v /\ (width v <= dsz x)%nat).
      { intros r' ex' v' H'.
        destruct (IH (conj (fun y Hy => HV y (cv_struct fs f x y Hx Hy)) (fun y Hy => HT y (ct_struct E W d fs f x y Hx Hy))) _ _ _ H') as (G1 & G2).
        split; [|exact G2]. revert G1. apply good_more. pose proof (sum_in (fun e => dsz (snd e)) fs (f, x) Hx). cbn [data_size snd] in *. lia. }
      intros kcs H. destruct (gf_anon f).
      * unfold parse_anonymous in H. destruct (read_anonymous_tag f ex) as [name ex'].
        destruct (beqb name (bs "-")); [injection H as <-; split; [cbn; lia|constructor]|].
        destruct (is_nil_ptr x); [injection H as <-; destruct (should_omit ex'); (split; [cbn; lia|repeat constructor])|].
        destruct (imp x (ro_field r f) ex') as [c| | |] eqn:Ei; try discriminate. cbn [rbind] in H. destruct (IHx _ _ _ Ei) as (G1 & G2).
        assert (GS : forall kcs, (if x_priv ex' then [] else [(name, c)]) = kcs -> (List.length kcs <= S (dsz x))%nat /\ Forall (fun e0 : bytes * V => good (n0 + dsz (GStruct fs)) (snd e0)) kcs).
        { intros k <-. destruct (x_priv ex'); (split; [cbn; lia|repeat constructor; exact G1]). }
        destruct c as [ |s|nn src|i kvs lo|l|b| | | ]; try (injection H as H; exact (GS _ H)); try (injection H as <-; split; [cbn; lia|constructor]).
        cbn [range_objects_by_set api_is_object on_value vtype_of vtype_eqb rbind negb object_of] in H. injection H as <-.
        rewrite collect. cbn [app]. set (kvs' := go_sort _ _ _).
        assert (Hp : Permutation kvs' kvs) by (unfold kvs'; rewrite go_sort_perm; apply go_range_perm).
        apply all_obj_obj in G1 as (_ & G1). cbn [width] in G2. split.
        -- unfold entries. rewrite map_length, (Permutation_length Hp). exact (le_S _ _ G2).
        -- apply good_entries. eapply Permutation_Forall; [apply Permutation_sym, Hp|exact G1].
      * unfold parse_field in H. destruct (negb _); [injection H as <-; split; [cbn; lia|constructor]|].
        destruct (read_field_tag f ex) as [name ex']. destruct (beqb name (bs "-")); [injection H as <-; split; [cbn; lia|constructor]|].
        destruct (imp x (ro_field r f) ex') as [c| | |] eqn:Ei; try discriminate. cbn [rbind] in H. injection H as <-.
        destruct (is_nil c); (split; [cbn; lia|repeat constructor]). exact (proj1 (IHx _ _ _ Ei)).
  - cbn [import_val] in H. apply interface_ok in H. injection H as <-.
    assert (G : made (GVal w) (deep_copy w)).
    { split; [apply good_more with (n := n0); [lia|]; apply good_copy; apply HV; constructor|].
      destruct w; try (cbn; lia). rewrite copy_obj. cbn [width data_size]. now rewrite map_length. }
    destruct w; exact G.
  - cbn [import_val] in H. apply interface_ok in H. apply json_made in H as [(b & Em & G1 & G2)| ->]; [|apply nil_made|].
    + apply method_ok in Em. cbn [data_size]. unfold made. cbn [data_size]. rewrite (text_size_ok _ _ Em). split; [revert G1; apply good_more; lia|lia].
    + intros b Em. apply method_ok in Em. exact (HT b (ct_value E W d w b Em)).
  - cbn [import_val] in H. apply interface_ok in H. apply json_made in H as [(b & -> & G1 & G2)| ->]; [|apply nil_made|].
    + split; [revert G1; apply good_more; cbn [data_size]; lia|exact G2].
    + intros b ->. exact (HT b (ct_json E W d b)).
  - cbn [import_val] in H. apply interface_ok in H. destruct m as [| |[b| | |]]; try discriminate; cbn [parse_text_marshaler rbind] in H.
    + injection H as <-. apply nil_made.
    + injection H as <-. apply plain_made; [exact (fun _ => I)|reflexivity].
    + exact (omit_made _ _ _ _ _ H (plain_made _ (VStr b) (fun _ => I) eq_refl)).
  - discriminate.
Qed.

Lemma good_import opts g v e : fine g -> import E W d opts g = Ok (v, e) -> good (n0 + dsz g) v.
Proof.
  intros Hg H. unfold import in H. destruct (import_val _ _ _ _ _ _) as [w| | |] eqn:Ei; try discriminate; injection H as <- _.
  - exact (proj1 (good_import_val g Hg _ _ _ Ei)).
  - exact I.
Qed.
End Data.

Theorem history_good n v : (forall n v, fresh n v -> good n v) -> history E n v -> good n v.
Proof.
  intros Hf H. induction H.
  - auto.
  - now apply good_parsed.
  - now apply good_get.
  - apply (good_get n W cl v p o IHhistory). now rewrite H0.
  - apply good_set; eapply good_more; try eassumption; lia.
  - apply good_before; eapply good_more; try eassumption; lia.
  - apply good_after; eapply good_more; try eassumption; lia.
  - apply good_append; eapply good_more; try eassumption; lia.
  - now apply good_delete_f.
  - eapply good_sort; eassumption.
  - unfold unmarshal_json. assert (Hm : good (n + List.length b) v) by (apply (good_more n); [lia|exact IHhistory]).
    destruct (unmarshal E b) as [[w [e|]]| | |] eqn:Eu; try exact Hm.
    assert (G : good (n + List.length b) w) by (apply (good_more (List.length b)); [lia|now apply good_parsed]).
    destruct v, w; try exact Hm; exact G.
  - eapply good_import; [split; eassumption|eassumption].
  - apply good_put_at; [|apply (good_more m); [lia|assumption]].
    pose proof (good_locate n W cl v p o IHhistory1) as G. rewrite H0 in G. cbn [fst] in G. apply (good_more n); [lia|exact G].
Qed.
End Keep.
