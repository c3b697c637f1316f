(** Proofs about reading along a path. *)
From Verif Require Import Base Utf8 Float64 Value Scan Opt Marshal ListLemmas ValueLemmas Access Path SpecPath.

(** ** Fuel *)

Lemma psum_slice l : psize (PSlice l) = S (S (psum l)).
Proof. reflexivity. Qed.

Lemma psize_pos p : (1 <= psize p)%nat.
Proof. destruct p; cbn; lia. Qed.

Lemma peel_spec : forall n p o q r, (psum (p :: o) <= n)%nat -> peel p o = Some (q, r) ->
  plain q /\ (psum (q :: r) <= psum (p :: o))%nat.
Proof.
  induction n as [|n IH]; intros p o q r Hn H.
  - exfalso. cbn [psum] in Hn. pose proof (psize_pos p). lia.
  - destruct p as [i|u|s|l| |]; cbn [peel] in H;
      try (injection H as <- <-; split; [exact I|apply Nat.le_refl]).
    destruct o as [|o1 o2]; [|discriminate]. destruct l as [|p1 p2].
    + injection H as <- <-. split; [exact I|]. cbn. lia.
    + cbn [psum] in Hn. rewrite psum_slice in Hn. cbn [psum] in Hn.
      assert (B : (psum (p1 :: p2) <= n)%nat) by (cbn [psum]; lia).
      destruct (IH p1 p2 q r B H) as (P & S). split; [exact P|].
      cbn [psum]. rewrite psum_slice. cbn [psum] in S |- *. lia.
Qed.

Lemma peel_plain p o : plain p -> peel p o = Some (p, o).
Proof. destruct p; cbn; [reflexivity..|intros []|reflexivity|reflexivity]. Qed.

Lemma locate_fuel E W cl : forall n m v p o,
  (psum (p :: o) < n)%nat -> (psum (p :: o) < m)%nat ->
  locate_f E W n cl v p o = locate_f E W m cl v p o.
Proof.
  induction n as [|n IH]; intros m v p o Hn Hm; [lia|]. destruct m as [|m]; [lia|].
  cbn [locate_f]. destruct (peel p o) as [[q r]|] eqn:Ep; [|reflexivity].
  destruct (peel_spec _ _ _ _ _ (Nat.le_refl _) Ep) as (_ & S).
  destruct (find_child E W cl v q) as [v' [h|e| |]]; try reflexivity.
  destruct r as [|q' r']; [reflexivity|]. destruct (child_at v' h) as [c|]; [|reflexivity].
  cbn [psum] in *. pose proof (psize_pos q). rewrite (IH m c q' r') by (cbn [psum]; lia). reflexivity.
Qed.

(** One step of [locate] on a parameter that is no slice. *)
Lemma locate_one E W cl v p : plain p ->
  locate E W cl v p [] =
  let '(v', h) := find_child E W cl v p in (v', let* h := h in Ok [h]).
Proof.
  intros P. unfold locate. cbn [locate_f]. rewrite (peel_plain _ _ P).
  destruct (find_child E W cl v p) as [v' [h|e| |]]; reflexivity.
Qed.

Lemma locate_more E W cl v p q r : plain p ->
  locate E W cl v p (q :: r) =
  let '(v', h) := find_child E W cl v p in
  match h with
  | Ok h =>
    match child_at v' h with
    | None => (v', Panic)
    | Some c => let '(c', t) := locate E W cl c q r in (put_child v' h c', let* t := t in Ok (h :: t))
    end
  | Err e => (v', Err e) | Panic => (v', Panic) | Fuel => (v', Fuel)
  end.
Proof.
  intros P. unfold locate at 1. cbn [locate_f]. rewrite (peel_plain _ _ P).
  destruct (find_child E W cl v p) as [v' [h|e| |]]; try reflexivity.
  destruct (child_at v' h) as [c|]; [|reflexivity]. unfold locate.
  rewrite (locate_fuel E W cl (psum (p :: q :: r)) (S (psum (q :: r))) c q r); [reflexivity| |lia].
  cbn [psum]. pose proof (psize_pos p). lia.
Qed.

Lemma locate_peel E W cl v p o q r : peel p o = Some (q, r) -> locate E W cl v p o = locate E W cl v q r.
Proof.
  intros Ep. destruct (peel_spec _ _ _ _ _ (Nat.le_refl _) Ep) as (P & S).
  unfold locate. rewrite <- (locate_fuel E W cl (Datatypes.S (psum (p :: o))) (Datatypes.S (psum (q :: r))) v q r) by lia.
  cbn [locate_f]. rewrite Ep, (peel_plain _ _ P). reflexivity.
Qed.

Lemma locate_multi E W cl v p o : peel p o = None -> locate E W cl v p o = (v, Err ErrMultipleParam).
Proof. intros Ep. unfold locate. cbn [locate_f]. now rewrite Ep. Qed.

Lemma find_child_nofuel E W cl v p : snd (find_child E W cl v p) <> Fuel.
Proof.
  destruct v as [ |s|n src|i kvs lo|l|b| | | ]; cbn [find_child]; try discriminate.
  - destruct p; cbn; try discriminate.
    destruct (find_key E W cl s kvs lo) as [lo' [k|]]; discriminate.
  - destruct p; cbn; try discriminate; destruct pos_read; discriminate.
Qed.

Lemma locate_f_nofuel E W cl : forall n v p o, (psum (p :: o) < n)%nat -> snd (locate_f E W n cl v p o) <> Fuel.
Proof.
  induction n as [|n IH]; intros v p o Hn; [lia|]. cbn [locate_f].
  destruct (peel p o) as [[q r]|] eqn:Ep; [|discriminate].
  destruct (peel_spec _ _ _ _ _ (Nat.le_refl _) Ep) as (_ & S).
  pose proof (find_child_nofuel E W cl v q) as F.
  destruct (find_child E W cl v q) as [v' [h|e| |]]; cbn [snd] in F; try discriminate; try (now destruct F).
  destruct r as [|q' r']; [discriminate|]. destruct (child_at v' h) as [c|]; [|discriminate].
  assert (B : (psum (q' :: r') < n)%nat) by (cbn [psum] in *; pose proof (psize_pos q); lia).
  pose proof (IH c q' r' B) as I. destruct (locate_f E W n cl c q' r') as [c' [t|e| |]]; cbn in *; congruence.
Qed.
Lemma locate_nofuel E W cl v p o : snd (locate E W cl v p o) <> Fuel.
Proof. unfold locate. apply locate_f_nofuel. lia. Qed.

(** ** Places *)

Lemma set_nth_id {A} n (l : list A) x : nth_error l n = Some x -> set_nth n x l = l.
Proof.
  revert n; induction l as [|y l IH]; intros [|n] H; cbn in *; try discriminate.
  - now injection H as ->.
  - now rewrite IH.
Qed.
Lemma set_nth_app {A} (a : list A) x b y : set_nth (List.length a) y (a ++ x :: b) = a ++ y :: b.
Proof. induction a as [|z a IH]; cbn; [reflexivity|]. now rewrite IH. Qed.
Lemma length_set_nth {A} n (x : A) l : List.length (set_nth n x l) = List.length l.
Proof. revert n; induction l as [|y l IH]; intros [|n]; cbn; auto. Qed.
Lemma nth_error_split' {A} (l : list A) n x : nth_error l n = Some x ->
  exists a b, l = a ++ x :: b /\ List.length a = n.
Proof. apply nth_error_split. Qed.

Lemma aset_id {A} k (a : A) l : alookup k l = Some a -> aset k a l = l.
Proof.
  induction l as [|[k' a'] l IH]; cbn; [discriminate|].
  destruct (beqb_spec k k') as [->|H]; intros H'; [now injection H' as ->|]. now rewrite IH.
Qed.

Lemma alookup_split {A} k (a : A) l : alookup k l = Some a ->
  exists x y, l = x ++ (k, a) :: y /\ ~ In k (akeys x) /\ (forall b, aset k b l = x ++ (k, b) :: y).
Proof.
  induction l as [|[k' a'] l IH]; cbn; [discriminate|].
  destruct (beqb_spec k k') as [->|H]; intros H'.
  - injection H' as ->. exists [], l. cbn. split; [reflexivity|]. split; [intros []|reflexivity].
  - destruct (IH H') as (x & y & -> & Hn & Ha). exists ((k', a') :: x), y. cbn.
    split; [reflexivity|]. split.
    + intros [->|I]; [contradiction|auto].
    + intros b. now rewrite Ha.
Qed.

Lemma put_child_id v h c : child_at v h = Some c -> put_child v h c = v.
Proof.
  destruct v as [ |s|n src|i kvs lo|l|b| | | ], h as [m|k]; cbn; try discriminate.
  - destruct (alookup k kvs) as [[id x]|] eqn:El; [|discriminate]. injection 1 as ->.
    now rewrite aset_id.
  - intros H. now rewrite set_nth_id.
Qed.

Lemma put_at_id : forall hs v c, sub_at v hs = Some c -> put_at v hs c = v.
Proof.
  induction hs as [|h hs IH]; cbn; intros v c H; [now injection H as ->|].
  destruct (child_at v h) as [x|] eqn:Ex; [|discriminate]. rewrite (IH _ _ H). now apply put_child_id.
Qed.

(** ** Reading an index *)

Lemma pos_read_some (l : list V) i n : pos_read (List.length l) i = Some n ->
  exists a x b, l = a ++ x :: b /\ List.length a = n /\ refers i a b.
Proof.
  unfold pos_read. intros H.
  destruct (Z.eqb_spec (Z.of_nat (List.length l)) 0) as [|Hz]; [discriminate|].
  assert (B : (n < List.length l)%nat /\ (i = Z.of_nat n \/ i = Z.of_nat n - Z.of_nat (List.length l))).
  { destruct (Z.ltb_spec i 0).
    - destruct (Z.ltb_spec (i + Z.of_nat (List.length l)) 0); [discriminate|]. injection H as <-. lia.
    - destruct (Z.leb_spec (Z.of_nat (List.length l)) i); [discriminate|]. injection H as <-. lia. }
  destruct B as (B & Hi). destruct (nth_error l n) as [x|] eqn:En.
  - destruct (nth_error_split' _ _ _ En) as (a & b & -> & La). exists a, x, b.
    split; [reflexivity|]. split; [exact La|]. unfold refers. rewrite app_length in Hi. cbn [List.length] in Hi. lia.
  - apply nth_error_None in En. lia.
Qed.

Lemma pos_read_refers i a x b : refers i a b -> pos_read (List.length (a ++ x :: b)) i = Some (List.length a).
Proof.
  intros H. unfold pos_read. rewrite app_length. cbn [List.length].
  destruct (Z.eqb_spec (Z.of_nat (List.length a + S (List.length b))) 0); [lia|].
  unfold refers in H.
  destruct (Z.ltb_spec i 0).
  - destruct (Z.ltb_spec (i + Z.of_nat (List.length a + S (List.length b))) 0); [lia|].
    f_equal. lia.
  - destruct (Z.leb_spec (Z.of_nat (List.length a + S (List.length b))) i); [lia|]. f_equal. lia.
Qed.

Lemma pos_read_none (l : list V) i : pos_read (List.length l) i = None <-> ~ (- Z.of_nat (List.length l) <= i < Z.of_nat (List.length l)).
Proof.
  unfold pos_read.
  destruct (Z.eqb_spec (Z.of_nat (List.length l)) 0) as [|Hz]; [split; [lia|auto]|].
  destruct (Z.ltb_spec i 0).
  - destruct (Z.ltb_spec (i + Z.of_nat (List.length l)) 0); split; intros; try discriminate; try lia; auto.
  - destruct (Z.leb_spec (Z.of_nat (List.length l)) i); split; intros; try discriminate; try lia; auto.
Qed.

Lemma fits_any_to_int p i : index_value p = Some i -> any_to_int p = Ok i.
Proof. destruct p; cbn; intros H; try discriminate; now injection H as <-. Qed.
Lemma any_to_int_fits p i : any_to_int p = Ok i -> index_value p = Some i.
Proof. destruct p; cbn; intros H; try discriminate; now injection H as <-. Qed.
Lemma index_any_to_int p : index_value p = None -> exists e, any_to_int p = Err e.
Proof. destruct p; cbn; intros H; try discriminate; eauto. Qed.

(** ** [find_child] without caseless access *)

Lemma find_child_same E W v p : fst (find_child E W false v p) = v.
Proof.
  destruct v as [ |s|n src|i kvs lo|l|b| | | ]; cbn [find_child]; try reflexivity.
  destruct p; cbn; try reflexivity. unfold find_key. now destruct (alookup s kvs).
Qed.

Lemma locate_f_same E W : forall n v p o, fst (locate_f E W n false v p o) = v.
Proof.
  induction n as [|n IH]; intros v p o; [reflexivity|]. cbn [locate_f].
  destruct (peel p o) as [[q r]|]; [|reflexivity].
  pose proof (find_child_same E W v q) as F.
  destruct (find_child E W false v q) as [v' [h|e| |]]; cbn [fst] in F; subst v'; try reflexivity.
  destruct r as [|q' r']; [reflexivity|]. destruct (child_at v h) as [c|] eqn:Ec; [|reflexivity].
  pose proof (IH c q' r') as I. destruct (locate_f E W n false c q' r') as [c' t]. cbn [fst] in *. subst c'.
  now apply put_child_id.
Qed.
Lemma locate_same E W v p o : fst (locate E W false v p o) = v.
Proof. apply locate_f_same. Qed.
Lemma get_same E W v p o : fst (get E W false v p o) = v.
Proof.
  unfold get. pose proof (locate_same E W v p o) as H. destruct (locate E W false v p o) as [v' r]. exact H.
Qed.

(** The document is not changed by an ordinary read; read off the result only. *)
Definition find1 (E : Env) (W : World) (v : V) (p : param) : res hop := snd (find_child E W false v p).
Lemma find_child_pair E W v p : find_child E W false v p = (v, find1 E W v p).
Proof.
  unfold find1. pose proof (find_child_same E W v p) as H. destruct (find_child E W false v p). cbn in *. congruence.
Qed.
Definition loc (E : Env) (W : World) (v : V) (p : param) (o : list param) : res (list hop) :=
  snd (locate E W false v p o).
Lemma locate_pair E W v p o : locate E W false v p o = (v, loc E W v p o).
Proof.
  unfold loc. pose proof (locate_same E W v p o) as H. destruct (locate E W false v p o). cbn in *. congruence.
Qed.
Lemma loc_one E W v p : plain p -> loc E W v p [] = let* h := find1 E W v p in Ok [h].
Proof.
  intros P. unfold loc. rewrite (locate_one E W false v p P), find_child_pair. reflexivity.
Qed.
Lemma loc_more E W v p q r : plain p -> loc E W v p (q :: r) =
  let* h := find1 E W v p in
  match child_at v h with
  | None => Panic
  | Some c => let* t := loc E W c q r in Ok (h :: t)
  end.
Proof.
  intros P. unfold loc at 1. rewrite (locate_more E W false v p q r P), find_child_pair.
  destruct (find1 E W v p) as [h|e| |]; try reflexivity. cbn [rbind].
  destruct (child_at v h) as [c|]; [|reflexivity]. rewrite locate_pair. reflexivity.
Qed.

Lemma maps_ok_arr l : maps_ok (VArr l) <-> Forall maps_ok l.
Proof. induction l as [|x r IH]; [cbn; intuition|]. rewrite Forall_cons_iff, <- IH. reflexivity. Qed.
Lemma maps_ok_obj i kvs lo : maps_ok (VObj i kvs lo) <->
  NoDup (map fst kvs) /\ Forall (fun e => maps_ok (snd (snd e))) kvs.
Proof.
  cbn [maps_ok]. apply and_iff_compat_l. induction kvs as [|[k [id x]] r IH]; [cbn; intuition|].
  rewrite Forall_cons_iff, <- IH. reflexivity.
Qed.
Lemma no_nil_arr l : no_nil (VArr l) <-> Forall no_nil l.
Proof. induction l as [|x r IH]; [cbn; intuition|]. rewrite Forall_cons_iff, <- IH. reflexivity. Qed.
Lemma no_nil_obj i kvs lo : no_nil (VObj i kvs lo) <-> Forall (fun e => no_nil (snd (snd e))) kvs.
Proof.
  cbn [no_nil]. induction kvs as [|[k [id x]] r IH]; [cbn; intuition|].
  rewrite Forall_cons_iff, <- IH. reflexivity.
Qed.

(** What [find1] finds. *)
Lemma find1_ok E W v p h : find1 E W v p = Ok h -> 
  (exists i kvs lo k id x, v = VObj i kvs lo /\ p = PStr k /\ h = HKey k /\ alookup k kvs = Some (id, x)) \/
  (exists a x b i, v = VArr (a ++ x :: b) /\ index_value p = Some i /\ h = HIdx (List.length a) /\ refers i a b).
Proof.
  unfold find1. intros H. destruct v as [ |s|n src|i kvs lo|l|b| | | ]; cbn [find_child snd] in H; try discriminate.
  - left. destruct p as [j|u|k|ps| |]; cbn in H; try discriminate. unfold find_key in H.
    destruct (alookup k kvs) as [[id x]|] eqn:El; [|discriminate]. cbn in H. injection H as <-.
    exists i, kvs, lo, k, id, x. auto.
  - right. destruct (any_to_int p) as [j|e| |] eqn:Ej; try discriminate. cbn [rbind] in H.
    destruct (pos_read (List.length l) j) as [n|] eqn:En; [|discriminate]. injection H as <-.
    destruct (pos_read_some _ _ _ En) as (a & x & b & -> & <- & R). exists a, x, b, j.
    pose proof (any_to_int_fits p j Ej). auto.
Qed.

Lemma find1_key E W i kvs lo k id x : alookup k kvs = Some (id, x) -> find1 E W (VObj i kvs lo) (PStr k) = Ok (HKey k).
Proof. intros H. unfold find1. cbn. unfold find_key. rewrite H. reflexivity. Qed.
Lemma find1_elem E W a x b p i : index_value p = Some i -> refers i a b ->
  find1 E W (VArr (a ++ x :: b)) p = Ok (HIdx (List.length a)).
Proof.
  intros Hp R. unfold find1. cbn [find_child snd]. rewrite (fits_any_to_int p i Hp). cbn [rbind].
  rewrite pos_read_refers by exact R. reflexivity.
Qed.

(** ** [Get] follows the path *)
Lemma index_plain p i : index_value p = Some i -> plain p.
Proof. destruct p; cbn; intros H; try discriminate; exact I. Qed.

Lemma loc_sound E W : forall ps v p hs, Forall plain (p :: ps) -> loc E W v p ps = Ok hs -> exists c, leads v (p :: ps) hs c /\ sub_at v hs = Some c.
Proof.
  induction ps as [|q r IH]; intros v p hs HP H.
  - rewrite (loc_one E W v p (Forall_inv HP)) in H. destruct (find1 E W v p) as [h|e| |] eqn:E1; try discriminate.
    cbn in H. injection H as <-.
    destruct (find1_ok E W v p h E1) as [(i & kvs & lo & k & id & x & -> & -> & -> & Hl)|(a & x & b & i & -> & Hp & -> & R)].
    + exists x. split; [|cbn; now rewrite Hl]. eapply leads_key; [apply alookup_In; eassumption|constructor].
    + exists x. split; [|cbn; now rewrite nth_error_app_here]. eapply leads_elem; [exact Hp|exact R|constructor].
  - rewrite (loc_more E W v p q r (Forall_inv HP)) in H. destruct (find1 E W v p) as [h|e| |] eqn:E1; try discriminate.
    cbn [rbind] in H. destruct (child_at v h) as [y|] eqn:Ec; [|discriminate].
    destruct (loc E W y q r) as [t|e| |] eqn:Et; try discriminate. cbn in H. injection H as <-.
    destruct (IH y q t (Forall_inv_tail HP) Et) as (c & Hl & Hs). exists c.
    split; [|cbn [sub_at]; now rewrite Ec].
    destruct (find1_ok E W v p h E1) as [(i & kvs & lo & k & id & x & -> & -> & -> & Hk)|(a & x & b & i & -> & Hp & -> & R)].
    + cbn in Ec. rewrite Hk in Ec. injection Ec as <-. eapply leads_key; [apply alookup_In; eassumption|exact Hl].
    + cbn in Ec. rewrite nth_error_app_here in Ec. injection Ec as <-. eapply leads_elem; eauto.
Qed.

Lemma leads_sub v ps hs c : leads v ps hs c -> maps_ok v -> sub_at v hs = Some c.
Proof.
  induction 1 as [v|i kvs lo k id x ps hs c Hin Hl IH|a x b p i ps hs c Hp R Hl IH]; intros M; [reflexivity| |].
  - apply maps_ok_obj in M as (ND & MF). cbn [sub_at child_at].
    rewrite (alookup_NoDup_In _ _ _ ND Hin). apply IH. rewrite Forall_forall in MF. apply (MF _ Hin).
  - apply maps_ok_arr in M. cbn [sub_at child_at]. rewrite nth_error_app_here. apply IH.
    apply Forall_app in M as (_ & M). exact (Forall_inv M).
Qed.

Lemma loc_complete E W : forall ps v p hs c, maps_ok v -> leads v (p :: ps) hs c -> loc E W v p ps = Ok hs.
Proof.
  induction ps as [|q r IH]; intros v p hs c M H.
  - inversion H as [|i kvs lo k id x ps0 hs0 c0 Hin Hl|a x b p0 i ps0 hs0 c0 Hp R Hl]; subst.
    + inversion Hl; subst. rewrite loc_one by exact I. apply maps_ok_obj in M as (ND & _).
      rewrite (find1_key E W i kvs lo k id c (alookup_NoDup_In _ _ _ ND Hin)). reflexivity.
    + inversion Hl; subst. rewrite loc_one by (eapply index_plain; eassumption).
      rewrite (find1_elem E W a c b p i Hp R). reflexivity.
  - inversion H as [|i kvs lo k id x ps0 hs0 c0 Hin Hl|a x b p0 i ps0 hs0 c0 Hp R Hl]; subst.
    + rewrite loc_more by exact I. apply maps_ok_obj in M as (ND & MF).
      pose proof (alookup_NoDup_In _ _ _ ND Hin) as La.
      rewrite (find1_key E W i kvs lo k id x La). cbn [rbind child_at]. rewrite La.
      rewrite (IH x q hs0 c); [reflexivity| |exact Hl].
      rewrite Forall_forall in MF. apply (MF _ Hin).
    + rewrite loc_more by (eapply index_plain; eassumption).
      rewrite (find1_elem E W a x b p i Hp R). cbn [rbind child_at]. rewrite nth_error_app_here.
      apply maps_ok_arr, Forall_app in M as (_ & M).
      rewrite (IH x q hs0 c); [reflexivity|exact (Forall_inv M)|exact Hl].
Qed.

Lemma get_pair E W v p o : get E W false v p o =
  (v, let* hs := loc E W v p o in match sub_at v hs with Some c => Ok c | None => Panic end).
Proof. unfold get. rewrite locate_pair. reflexivity. Qed.

(** Get succeeds with [c] exactly when the path leads to [c]. *)
Theorem get_leads E W v p ps c : maps_ok v -> Forall plain (p :: ps) -> get E W false v p ps = (v, Ok c) <-> exists hs, leads v (p :: ps) hs c.
Proof.
  intros M HP. rewrite get_pair. split.
  - intros H. injection H as H. destruct (loc E W v p ps) as [hs|e| |] eqn:El; try discriminate. cbn [rbind] in H.
    destruct (loc_sound E W ps v p hs HP El) as (c' & Hl & Hs). rewrite Hs in H. injection H as ->. eauto.
  - intros (hs & H). rewrite (loc_complete E W ps v p hs c M H). cbn [rbind].
    now rewrite (leads_sub v _ hs c H M).
Qed.

(** No panic on values without nil pointers. *)
Lemma find1_nopanic E W v p : v <> VNil -> find1 E W v p <> Panic.
Proof.
  intros N. unfold find1. destruct v as [ |s|n src|i kvs lo|l|b| | | ]; cbn [find_child snd]; try discriminate; try congruence.
  - destruct p; cbn; try discriminate. unfold find_key. destruct (alookup s kvs); discriminate.
  - destruct p; cbn; try discriminate; destruct pos_read; discriminate.
Qed.
Lemma find_child_h E W cl v p : forall v' h, find_child E W cl v p = (v', Ok h) -> exists c, child_at v' h = Some c.
Proof.
  intros v' h. destruct v as [ |s|n src|i kvs lo|l|b| | | ]; cbn [find_child]; try discriminate.
  - destruct (any_to_string p) as [k|e| |]; try discriminate. unfold find_key.
    destruct (alookup k kvs) as [[id x]|] eqn:El.
    + injection 1 as <- <-. cbn. rewrite El. eauto.
    + destruct cl; [|discriminate]. 
      assert (FE : forall ks k', first_existing kvs ks = Some k' -> exists e, alookup k' kvs = Some e).
      { induction ks as [|k1 ks IH]; cbn; intros k' H; [discriminate|].
        destruct (alookup k1 kvs) eqn:E1; [injection H as <-; eauto|auto]. }
      destruct (first_existing kvs _) as [k'|] eqn:Ef; [|discriminate].
      injection 1 as <- <-. destruct (FE _ _ Ef) as ([id x] & Hx). cbn. rewrite Hx. eauto.
  - destruct (any_to_int p) as [j|e| |]; try discriminate. cbn [rbind].
    destruct (pos_read (List.length l) j) as [n|] eqn:En; [|discriminate]. injection 1 as <- <-.
    destruct (pos_read_some _ _ _ En) as (a & x & b & -> & <- & _). cbn. rewrite nth_error_app_here. eauto.
Qed.
