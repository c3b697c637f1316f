(** Proofs for C64. *)
From Verif Require Import Base Utf8 Float64 Value Scan Unmarshal Opt Marshal Access Path Edit Iter Compare Contain Base64
  SpecJson SpecValue SpecPath SpecGet SpecNil SpecPanic
  ListLemmas ValueLemmas GetProof PathProof EditProof SetClaims EditClaims GetClaims HistoryClaims.
Open Scope nat_scope.

Section Panic.
Variable E : Env.
Variable W : World.

Lemma find_child_panic cl v p : snd (find_child E W cl v p) = Panic <-> v = VNil.
Proof.
  destruct v as [ |s|n src|i kvs lo|l|b| | | ]; cbn [find_child]; try (split; [discriminate|discriminate]).
  - destruct p; cbn; try (split; discriminate). destruct (find_key E W cl s kvs lo) as [lo' [k|]]; split; discriminate.
  - destruct p; cbn; try (split; discriminate); destruct pos_read; split; discriminate.
  - split; reflexivity.
Qed.

Lemma get_single cl v p : plain p -> snd (get E W cl v p []) =
  match snd (find_child E W cl v p) with
  | Ok h => match child_at (fst (find_child E W cl v p)) h with Some c => Ok c | None => Panic end
  | Err e => Err e | Panic => Panic | Fuel => Fuel
  end.
Proof.
  intros P. unfold get. rewrite (locate_one _ _ _ _ _ P). destruct (find_child E W cl v p) as [v' [h|e| |]]; cbn [fst snd rbind]; try reflexivity.
  cbn [sub_at]. now destruct (child_at v' h).
Qed.
Lemma get_single_panic cl v p : plain p -> snd (get E W cl v p []) = Panic <-> v = VNil.
Proof.
  intros P. rewrite (get_single _ _ _ P), <- (find_child_panic cl v p). destruct (find_child E W cl v p) as [v' [h|e| |]] eqn:Ef; cbn [fst snd]; try (split; [discriminate|discriminate]).
  - destruct (find_child_h _ _ _ _ _ _ _ Ef) as (c & ->). split; discriminate.
  - split; reflexivity.
Qed.
(** Get goes step by step. *)
Lemma get_more cl v p q r : plain p -> snd (get E W cl v p (q :: r)) = let* c := snd (get E W cl v p []) in snd (get E W cl c q r).
Proof.
  intros P. rewrite (get_single _ _ _ P). unfold get. rewrite (locate_more _ _ _ _ _ _ _ P).
  destruct (find_child E W cl v p) as [v' [h|e| |]] eqn:Ef; cbn [fst snd rbind]; try reflexivity.
  destruct (find_child_h _ _ _ _ _ _ _ Ef) as (c & Ec). rewrite Ec. cbn [rbind].
  destruct (locate E W cl c q r) as [c' [t|e| |]]; cbn [fst snd rbind]; try reflexivity.
  cbn [sub_at]. rewrite (child_put_same _ _ _ _ Ec). reflexivity.
Qed.
Lemma got_more cl v p a c : plain p -> got E W cl v (p :: a) c <-> exists d, snd (get E W cl v p []) = Ok d /\ got E W cl d a c.
Proof.
  intros P. destruct a as [|q a]; cbn [got].
  - split; [intros H; exists c; auto|intros (d & H & <-); exact H].
  - rewrite (get_more _ _ _ _ _ P). destruct (snd (get E W cl v p [])) as [d|e| |]; cbn [rbind]; split; try discriminate; try (intros (d' & H & _); discriminate).
    + intros H. exists d. auto.
    + intros (d' & [= <-] & H). exact H.
Qed.

Lemma on_way_nil cl v : ~ nil_on_way E W cl v [].
Proof. intros (a & q & b & H & _). destruct a; discriminate. Qed.
Lemma on_way_cons cl v p r : plain p -> nil_on_way E W cl v (p :: r) <-> v = VNil \/ exists d, snd (get E W cl v p []) = Ok d /\ nil_on_way E W cl d r.
Proof.
  intros P. split.
  - intros ([|p' a] & q & b & Hp & Hg).
    + left. exact Hg.
    + injection Hp as <- ->. apply (got_more _ _ _ _ _ P) in Hg as (d & Hd & Hg). right. exists d. split; [exact Hd|]. exists a, q, b. auto.
  - intros [-> |(d & Hd & a & q & b & -> & Hg)].
    + exists [], p, r. split; reflexivity.
    + exists (p :: a), q, b. split; [reflexivity|]. apply (got_more _ _ _ _ _ P). exists d. auto.
Qed.
Lemma on_way_snoc cl v a x : nil_on_way E W cl v (a ++ [x]) <-> nil_on_way E W cl v a \/ got E W cl v a VNil.
Proof.
  split.
  - intros (a' & q & b & Hp & Hg). destruct b as [|y b] using rev_ind.
    + apply app_inj_tail in Hp as (-> & _). now right.
    + clear IHb. rewrite app_comm_cons, app_assoc in Hp. apply app_inj_tail in Hp as (-> & _). left. exists a', q, b. auto.
  - intros [(a' & q & b & -> & Hg)|Hg].
    + exists a', q, (b ++ [x]). split; [now rewrite <- app_assoc|exact Hg].
    + exists a, x, []. auto.
Qed.
Lemma met_iff cl v ps : nil_met E W cl v ps <-> nil_on_way E W cl v ps \/ got E W cl v ps VNil.
Proof.
  split.
  - intros (a & [|q b] & -> & Hg); [right; now rewrite app_nil_r|left; exists a, q, b; auto].
  - intros [(a & q & b & -> & Hg)|Hg]; [exists a, (q :: b); auto|exists ps, []; split; [now rewrite app_nil_r|exact Hg]].
Qed.

Theorem get_panics cl : forall ps v p, Forall plain (p :: ps) -> (snd (get E W cl v p ps) = Panic <-> nil_on_way E W cl v (p :: ps)).
Proof.
  induction ps as [|q r IH]; intros v p HP; inversion HP as [|? ? P HP']; subst; rewrite (on_way_cons _ _ _ _ P).
  - rewrite (get_single_panic _ _ _ P). split; [now left|]. intros [H|(d & _ & H)]; [exact H|]. now apply on_way_nil in H.
  - rewrite (get_more _ _ _ _ _ P). rewrite <- (get_single_panic cl v p P). destruct (snd (get E W cl v p [])) as [d|e| |]; cbn [rbind].
    + rewrite (IH d q HP'). split; [intros H; right; exists d; auto|]. intros [H|(d' & [= <-] & H)]; [discriminate|exact H].
    + split; [discriminate|]. intros [H|(d' & H & _)]; discriminate.
    + split; auto.
    + split; [discriminate|]. intros [H|(d' & H & _)]; discriminate.
Qed.
Lemma get_no_fuel cl v p o : snd (get E W cl v p o) <> Fuel.
Proof.
  unfold get. pose proof (locate_nofuel E W cl v p o) as F. destruct (locate E W cl v p o) as [v' [hs|e| |]]; cbn in *; try discriminate; [|congruence].
  destruct (sub_at v' hs); discriminate.
Qed.
(** What is located is there. *)
Lemma locate_f_found cl : forall n v p o v' hs, locate_f E W n cl v p o = (v', Ok hs) -> exists c, sub_at v' hs = Some c.
Proof.
  induction n as [|n IH]; intros v p o v' hs; cbn [locate_f]; [discriminate|]. destruct (peel p o) as [[q r]|]; [|discriminate].
  destruct (find_child E W cl v q) as [v1 [h|e| |]] eqn:Ef; try discriminate. destruct (find_child_h _ _ _ _ _ _ _ Ef) as (c & Ec).
  destruct r as [|q' r'].
  - intros [= <- <-]. cbn [sub_at]. rewrite Ec. eauto.
  - rewrite Ec. destruct (locate_f E W n cl c q' r') as [c' [t|e| |]] eqn:El; cbn [rbind]; try discriminate. intros [= <- <-].
    cbn [sub_at]. rewrite (child_put_same _ _ _ _ Ec). exact (IH _ _ _ _ _ El).
Qed.
Lemma locate_got cl v p o : snd (get E W cl v p o) =
  match snd (locate E W cl v p o) with
  | Ok hs => match sub_at (fst (locate E W cl v p o)) hs with Some c => Ok c | None => Panic end
  | Err e => Err e | Panic => Panic | Fuel => Fuel
  end.
Proof. unfold get. destruct (locate E W cl v p o) as [v' [hs|e| |]]; reflexivity. Qed.
Lemma locate_found cl v p o hs : snd (locate E W cl v p o) = Ok hs -> exists c, sub_at (fst (locate E W cl v p o)) hs = Some c.
Proof. unfold locate. destruct (locate_f E W (S (psum (p :: o))) cl v p o) as [v' r] eqn:El. cbn. intros ->. exact (locate_f_found _ _ _ _ _ _ _ El). Qed.

(** *** Typed getters *)
Lemma trim_nil s : trim_space s = [] <-> spaces s.
Proof.
  split; [|apply trim_space_blank]. intros H. destruct (trim_space_split s) as (w1 & w2 & H1 & H2 & Heq). rewrite H in Heq. rewrite Heq. cbn. now apply spaces_app.
Qed.
Lemma text_panic s : number_of_text E s = Panic <-> spaces s.
Proof.
  split.
  - intros H. apply trim_nil. destruct (trim_space s) as [|c t] eqn:Et; [reflexivity|]. exfalso.
    assert (N : ~ spaces s) by (intros HS; apply trim_nil in HS; congruence).
    destruct (number_of_text_spec E s N) as [(lit & n & _ & _ & H1)|(_ & e & H1)]; congruence.
  - intros H. unfold number_of_text. now rewrite (trim_space_blank s H).
Qed.
Lemma text_nofuel s : number_of_text E s <> Fuel.
Proof.
  destruct (trim_space s) as [|c t] eqn:Et.
  - apply trim_nil, text_panic in Et. congruence.
  - assert (N : ~ spaces s) by (intros HS; apply trim_nil in HS; congruence).
    destruct (number_of_text_spec E s N) as [(lit & n & _ & _ & ->)|(_ & e & ->)]; discriminate.
Qed.
Lemma text_number s v : number_of_text E s = Ok v -> exists n t, v = VNum n t.
Proof.
  intros H. assert (N : ~ spaces s) by (intros HS; apply text_panic in HS; congruence).
  destruct (number_of_text_spec E s N) as [(lit & n & _ & _ & H1)|(_ & e & H1)]; [|congruence]. rewrite H in H1. injection H1 as ->. eauto.
Qed.

Lemma num_conv_panic {A} (x : V -> res A) c : (forall n t, exists a, x (VNum n t) = Ok a) -> num_conv E x c = Panic <-> c = VNil \/ blank_string c.
Proof.
  intros Hx. assert (K : forall n t e, (let* a := x (VNum n t) in Ok (a, e : option err)) = Panic -> c = VNil \/ blank_string c).
  { intros n t e. destruct (Hx n t) as (a & ->). discriminate. }
  unfold num_conv. destruct c as [ |s|n src|i kvs lo|l|b| | | ]; cbn [number_and_error rbind].
  2: { split.
    - intros H. right. exists s. split; [reflexivity|]. apply text_panic. destruct (number_of_text E s) as [v|e| |] eqn:En; cbn [rbind] in H; try discriminate; [| |reflexivity].
      + destruct (text_number _ _ En) as (n & t & ->). destruct (Hx n t) as (a & Ha). rewrite Ha in H. discriminate.
      + unfold new_int64 in H. match type of H with context [x (VNum ?n ?t)] => destruct (Hx n t) as (a & Ha) end. rewrite Ha in H. discriminate.
    - intros [H|(s' & [= <-] & H)]; [discriminate|]. apply text_panic in H. now rewrite H. }
  8: { split; auto. }
  all: split; [|intros [H|(s' & H & _)]; discriminate]; apply K.
Qed.
Lemma typed_panic {A} (zero : A) conv r (Bad : V -> Prop) : r <> Fuel -> (forall c, conv c = Panic <-> Bad c) ->
  typed zero conv r = Panic <-> r = Panic \/ exists c, r = Ok c /\ Bad c.
Proof.
  intros F HB. destruct r as [c|e| |]; cbn [typed]; [rewrite HB| | |congruence].
  - split; [intros H; right; eauto|]. intros [H|(c' & [= <-] & H)]; [discriminate|exact H].
  - split; [discriminate|]. intros [H|(c & H & _)]; discriminate.
  - split; auto.
Qed.

Lemma number_getter {A} (zero : A) x : (forall n t, exists a, x (VNum n t) = Ok a) ->
  number_panics E W (fun cl v p o => typed zero (num_conv E x) (snd (get E W cl v p o))).
Proof. intros Hx cl v p o. apply typed_panic; [apply get_no_fuel|]. intros c. now apply num_conv_panic. Qed.
Lemma other_getter {A} (zero : A) conv : (forall c, conv c = Panic <-> c = VNil) ->
  other_panics E W (fun cl v p o => typed zero conv (snd (get E W cl v p o))).
Proof.
  intros Hc cl v p o. rewrite (typed_panic zero conv _ (fun c => c = VNil)); [|apply get_no_fuel|exact Hc].
  split; intros [H|H]; auto; [destruct H as (c & H & ->); auto|right; eauto].
Qed.

Theorem getters_panic :
  number_panics E W (get_int E W) /\ number_panics E W (get_uint E W) /\ number_panics E W (get_int64 E W) /\ number_panics E W (get_uint64 E W) /\
  number_panics E W (get_int32 E W) /\ number_panics E W (get_uint32 E W) /\ number_panics E W (get_float64 E W) /\ number_panics E W (get_float32 E W) /\
  other_panics E W (get_bool E W) /\ other_panics E W (get_string E W) /\ other_panics E W (get_bytes E W) /\ other_panics E W (get_null E W) /\
  other_panics E W (get_object E W) /\ other_panics E W (get_array E W).
Proof.
  repeat split; try (apply number_getter; intros n t; eexists; reflexivity); try (apply other_getter; intros c; destruct c; cbn; split; try discriminate; try reflexivity).
  all: destruct (b64_decode s); discriminate.
Qed.

(** *** Edits *)
Lemma set_f_nopanic c : forall n v p o, snd (set_f E n v c p o) <> Panic.
Proof.
  induction n as [|n IH]; intros v p o; cbn [set_f]; [discriminate|]. destruct (peel p o) as [[q r]|]; [|discriminate].
  destruct (uninitialized v); [discriminate|]. destruct (uninitialized c); [discriminate|].
  assert (NC : forall q, new_container q <> Panic).
  { intros x. unfold new_container. destruct (any_to_string x); try discriminate; destruct (any_to_int x) as [i| | |]; try discriminate; destruct (i =? 0)%Z; discriminate. }
  assert (SI : forall (l : list V) pos, set_at_index l c pos <> Panic).
  { intros l pos. unfold set_at_index. destruct (_ =? _)%Z; [discriminate|]. destruct (pos_read _ _); discriminate. }
  assert (AS : forall x, any_to_string x <> Panic) by (intros x; destruct x; discriminate).
  assert (AI : forall x, any_to_int x <> Panic) by (intros x; destruct x; discriminate).
  destruct r as [|q' r'].
  - unfold at_last_param. destruct v as [ |s|nn src|i kvs lo|l|b| | | ]; try discriminate.
    + specialize (AS q). destruct (any_to_string q); try discriminate; congruence.
    + specialize (AI q). destruct (any_to_int q) as [pos| | |]; try discriminate; [|congruence]. specialize (SI l pos). destruct (set_at_index l c pos); try discriminate. congruence.
  - destruct v as [ |s|nn src|i kvs lo|l|b| | | ]; try discriminate.
    + specialize (AS q). destruct (any_to_string q) as [k| | |]; try discriminate; [|congruence]. destruct (alookup k kvs) as [[id ch]|].
      * specialize (IH ch q' r'). destruct (set_f E n ch c q' r'). exact IH.
      * specialize (NC q'). destruct (new_container q') as [ch| | |]; try discriminate; [|congruence]. specialize (IH ch q' r'). destruct (set_f E n ch c q' r') as [ch' o']. cbn [snd] in IH.
        destruct o'; try discriminate; congruence.
    + specialize (AI q). destruct (any_to_int q) as [pos| | |]; try discriminate; [|congruence]. destruct (pos_read _ _) as [m|].
      * specialize (IH (nth m l VNil) q' r'). destruct (set_f E n (nth m l VNil) c q' r'). exact IH.
      * specialize (NC q'). destruct (new_container q') as [ch| | |]; try discriminate; [|congruence]. specialize (IH ch q' r'). destruct (set_f E n ch c q' r') as [ch' o']. cbn [snd] in IH.
        destruct o'; try discriminate. congruence.
Qed.
Theorem set_no_panic v x p o : snd (set_at E v x p o) <> Panic.
Proof. unfold set_at. destruct (snd x); [discriminate|]. apply set_f_nopanic. Qed.

Lemma removelast_last (q : param) r : exists a, q :: r = a ++ [last (q :: r) PNil] /\ removelast (q :: r) = a.
Proof.
  exists (removelast (q :: r)). split; [|reflexivity]. apply app_removelast_last. discriminate.
Qed.
Lemma plain_prefix a b : Forall plain (a ++ b) -> Forall plain a.
Proof. intros H. now apply Forall_app in H. Qed.

Lemma insert_last_panic af v c p : v <> VNil -> snd (insert_last af v c p) <> Panic.
Proof.
  intros N. unfold insert_last. destruct v; try discriminate. assert (AI : any_to_int p <> Panic) by (destruct p; discriminate).
  destruct (any_to_int p); try discriminate; [|congruence]. destruct (if af then _ else _); discriminate.
Qed.
Lemma insert_f_panic af c n v p ps : psum (p :: ps) < n -> Forall plain (p :: ps) ->
  (snd (insert_f E W n af v c p ps) = Panic <-> nil_on_way E W false v (p :: ps) /\ (af = true -> v <> VNil)).
Proof.
  intros Hn HP. inversion HP as [|? ? P HP']; subst. destruct n as [|n]; [lia|]. cbn [insert_f]. rewrite (peel_plain _ _ P).
  destruct (is_nil v) eqn:Ev.
  { destruct v; try discriminate. destruct af; cbn [snd].
    - split; [discriminate|]. intros [_ H]. now destruct (H eq_refl).
    - split; [|reflexivity]. intros _. split; [|discriminate]. exists [], p, ps. split; reflexivity. }
  assert (Nv : v <> VNil) by (intros ->; discriminate).
  assert (T : (nil_on_way E W false v (p :: ps) /\ (af = true -> v <> VNil)) <-> nil_on_way E W false v (p :: ps)) by tauto. rewrite T. clear T.
  destruct (not_exist v) eqn:Ex.
  { destruct v; try discriminate. cbn [snd]. split; [discriminate|]. intros H. apply (on_way_cons _ _ _ _ P) in H as [H|(d & H & _)]; [discriminate|].
    rewrite (get_single _ _ _ P) in H. discriminate. }
  destruct ps as [|q r].
  { split; [intros H; exfalso; exact (insert_last_panic af v c p Nv H)|]. intros H. apply (on_way_cons _ _ _ _ P) in H as [H|(d & _ & H)]; [congruence|]. now apply on_way_nil in H. }
  destruct (removelast_last q r) as (a & Ea & Er). rewrite Er.
  rewrite Ea. rewrite app_comm_cons, on_way_snoc.
  assert (HPa : Forall plain (p :: a)) by (rewrite Ea, app_comm_cons in HP; exact (plain_prefix _ _ HP)).
  assert (PL : plain (last (q :: r) PNil)) by (rewrite Ea in HP'; apply Forall_app in HP' as (_ & H); now inversion H).
  rewrite <- (get_panics false a v p HPa). cbn [got]. rewrite (locate_got false v p a). pose proof (locate_nofuel E W false v p a) as NF. pose proof (locate_found false v p a) as LF.
  destruct (locate E W false v p a) as [v' [hs|e| |]]; cbn [fst snd] in *.
  - destruct (LF hs eq_refl) as (d & Hd). rewrite Hd. destruct d as [ |s|nn src|i kvs lo|l|b| | | ]; cbn [snd];
      try (split; [discriminate|intros [H|H]; discriminate]); [|split; auto].
    assert (I : snd (insert_f E W n af (VArr l) c (last (a ++ [last (q :: r) PNil]) PNil) []) <> Panic).
    { rewrite <- Ea. destruct n as [|n]; [discriminate|]. cbn [insert_f]. rewrite (peel_plain _ _ PL). cbn [is_nil not_exist]. apply insert_last_panic. discriminate. }
    destruct (insert_f E W n af (VArr l) c (last (a ++ [last (q :: r) PNil]) PNil) []) as [ch res]. cbn [snd] in *.
    split; [congruence|]. intros [H|H]; discriminate.
  - split; [discriminate|intros [H|H]; discriminate].
  - split; auto.
  - congruence.
Qed.
Theorem insert_before_panics v c p ps : Forall plain (p :: ps) ->
  (snd (insert_before E W v (arg_v c) p ps) = Panic <-> nil_on_way E W false v (p :: ps)).
Proof.
  intros HP. unfold insert_before. cbn [snd arg_v fst]. rewrite (insert_f_panic false c _ v p ps); [|lia|exact HP]. split; [tauto|]. split; [assumption|discriminate].
Qed.
Theorem insert_after_panics v c p ps : Forall plain (p :: ps) ->
  (snd (insert_after E W v (arg_v c) p ps) = Panic <-> v <> VNil /\ nil_on_way E W false v (p :: ps)).
Proof.
  intros HP. unfold insert_after. cbn [snd arg_v fst]. rewrite (insert_f_panic true c _ v p ps); [|lia|exact HP]. split; intros [H1 H2]; auto.
Qed.

Lemma joint_plain ps : Forall plain ps -> joint_params ps = Some ps.
Proof.
  intros H. destruct ps as [|p [|q r]]; [reflexivity| |]; inversion H as [|? ? P _]; subst; destruct p; try contradiction; reflexivity.
Qed.
Lemma append_panic front v x ps : Forall plain ps ->
  (snd (append_at E W front v x ps) = Panic <-> nil_met E W false v ps /\ (front = true -> v <> VNil)).
Proof.
  intros HP. unfold append_at. destruct (is_nil v) eqn:Ev.
  { destruct v; try discriminate. destruct front; cbn [snd].
    - split; [discriminate|]. intros [_ H]. now destruct (H eq_refl).
    - split; [|reflexivity]. intros _. split; [|discriminate]. exists [], ps. split; reflexivity. }
  assert (Nv : v <> VNil) by (intros ->; discriminate).
  assert (T : (nil_met E W false v ps /\ (front = true -> v <> VNil)) <-> nil_met E W false v ps) by tauto. rewrite T, met_iff. clear T.
  rewrite (joint_plain _ HP).
  destruct (not_exist v) eqn:Ex.
  { destruct v; try discriminate. cbn [snd]. split; [discriminate|]. intros H. exfalso. destruct ps as [|p r].
    - destruct H as [H|H]; [now apply on_way_nil in H|discriminate].
    - inversion HP as [|? ? P _]; subst. destruct H as [H|H].
      + apply (on_way_cons _ _ _ _ P) in H as [H|(d & H & _)]; [discriminate|]. rewrite (get_single _ _ _ P) in H. discriminate.
      + apply (got_more _ _ _ _ _ P) in H as (d & H & _). rewrite (get_single _ _ _ P) in H. discriminate. }
  destruct ps as [|p r].
  { split; [destruct v; discriminate|]. intros [H|H]; [now apply on_way_nil in H|]. cbn in H. congruence. }
  rewrite <- (get_panics false r v p HP). cbn [got]. rewrite (locate_got false v p r). pose proof (locate_nofuel E W false v p r) as NF. pose proof (locate_found false v p r) as LF.
  destruct (locate E W false v p r) as [v' [hs|e| |]]; cbn [fst snd] in *.
  - destruct (LF hs eq_refl) as (d & Hd). rewrite Hd. destruct d; cbn [snd]; try (split; [discriminate|intros [H|H]; discriminate]). split; auto.
  - assert (N : snd (match e with ErrNotFound => let '(v'', res) := set_at E v' (arg_v (VArr [fst x])) p r in match res with Ok _ => (v'', Ok (fst x)) | e => (v'', e) end | e => (v', Err e) end) <> Panic).
    { pose proof (set_no_panic v' (arg_v (VArr [fst x])) p r) as S. destruct e; try discriminate. destruct (set_at E v' (arg_v (VArr [fst x])) p r) as [v'' res]. destruct res; cbn in *; try discriminate. congruence. }
    destruct e; (split; [intros H; exfalso; exact (N H)|intros [H|H]; discriminate]).
  - split; auto.
  - congruence.
Qed.
Theorem append_beginning_panics v x ps : Forall plain ps ->
  (snd (append_beginning E W v x ps) = Panic <-> v <> VNil /\ nil_met E W false v ps).
Proof. intros HP. unfold append_beginning. rewrite (append_panic true v x ps HP). split; intros [H1 H2]; auto. Qed.
Theorem append_end_panics v x ps : Forall plain ps -> (snd (append_end E W v x ps) = Panic <-> nil_met E W false v ps).
Proof. intros HP. unfold append_end. rewrite (append_panic false v x ps HP). split; [tauto|]. split; [assumption|discriminate]. Qed.

Lemma delete_here_panic cl v p : snd (delete_here E W cl v p) = Panic <-> v = VNil.
Proof.
  destruct v as [ |s|n src|i kvs lo|l|b| | | ]; cbn [delete_here]; try (split; discriminate); [| |split; reflexivity].
  - destruct p; cbn; try (split; discriminate). destruct (del_from_object E W cl s i kvs lo) as [v' [|]]; split; discriminate.
  - destruct p; cbn; try (split; discriminate); destruct (pos_read _ _); split; discriminate.
Qed.
Theorem delete_panics cl v p ps : Forall plain (p :: ps) -> (snd (delete_at E W cl v p ps) = Panic <-> nil_on_way E W cl v (p :: ps)).
Proof.
  intros HP. inversion HP as [|? ? P HP']; subst. unfold delete_at. cbn [delete_f]. rewrite (peel_plain _ _ P). destruct ps as [|q r].
  { rewrite delete_here_panic, (on_way_cons _ _ _ _ P). split; [now left|]. intros [H|(d & _ & H)]; [exact H|]. now apply on_way_nil in H. }
  destruct (removelast_last q r) as (a & Ea & Er). rewrite Er.
  assert (HPa : Forall plain (p :: a)) by (rewrite Ea, app_comm_cons in HP; exact (plain_prefix _ _ HP)).
  assert (PL : plain (last (q :: r) PNil)) by (rewrite Ea in HP'; apply Forall_app in HP' as (_ & H); now inversion H).
  assert (D : forall d n, snd (delete_f E W (S n) cl d (last (q :: r) PNil) []) = Panic <-> d = VNil).
  { intros d n. cbn [delete_f]. rewrite (peel_plain _ _ PL). apply delete_here_panic. }
  assert (F : exists n, psum (p :: q :: r) = S n) by (cbn [psum]; pose proof (psize_pos p); exists (psize p + (psize q + psum r) - 1); lia). destruct F as (n & ->).
  replace (p :: q :: r) with ((p :: a) ++ [last (q :: r) PNil]) by (cbn [app]; now rewrite <- Ea). rewrite on_way_snoc.
  rewrite <- (get_panics cl a v p HPa). cbn [got]. rewrite (locate_got cl v p a). pose proof (locate_nofuel E W cl v p a) as NF. pose proof (locate_found cl v p a) as LF.
  destruct (locate E W cl v p a) as [v' [hs|e| |]]; cbn [fst snd] in *.
  - destruct (LF hs eq_refl) as (d & Hd). rewrite Hd. specialize (D d n). destruct (delete_f E W (S n) cl d (last (q :: r) PNil) []) as [ch res]. cbn [snd] in *. rewrite D.
    split; [intros ->; auto|]. intros [H|H]; [discriminate|]. now injection H.
  - split; [discriminate|intros [H|H]; discriminate].
  - split; auto.
  - congruence.
Qed.
End Panic.
