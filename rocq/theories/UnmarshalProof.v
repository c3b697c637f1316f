(** Refinement of the in-place parser (Unmarshal.v) by the copying parser
    (Pure.v), with the effects on the buffer. *)
From Verif Require Import Base Float64 Value Scan Unmarshal Pure ListLemmas PureProof.

Lemma bget_skipn b off c t : skipn off b = c :: t -> bget b off = Ok c.
Proof.
  revert b; induction off as [|off IH]; intros b H.
  - simpl in H. subst b. reflexivity.
  - destruct b as [|x b]; [discriminate|]. unfold bget in *. simpl in *. apply IH. exact H.
Qed.

Lemma skipn_S {A} (b : list A) off c t : skipn off b = c :: t -> skipn (S off) b = t.
Proof.
  revert b; induction off as [|off IH]; intros b H.
  - simpl in H. subst b. reflexivity.
  - destruct b as [|x b]; [discriminate|]. simpl in *. apply IH. exact H.
Qed.

Lemma skipn_len {A} (b : list A) off r :
  skipn off b = r -> (off <= List.length b)%nat -> (off + List.length r = List.length b)%nat.
Proof. intros <- H. rewrite skipn_length. lia. Qed.

Lemma skipn_cons_lt {A} (b : list A) off c t : skipn off b = c :: t -> (off < List.length b)%nat.
Proof.
  intros H. destruct (Nat.ltb_spec off (List.length b)); [assumption|].
  rewrite skipn_all2 in H by assumption. discriminate.
Qed.

Lemma skipn_prefix {A} (b : list A) off u r :
  skipn off b = u ++ r -> skipn (off + List.length u) b = r.
Proof.
  intros H. rewrite Nat.add_comm, <- skipn_skipn, H. apply skipn_app_len.
Qed.

Lemma skip_blanks_spec b off R :
  skipn off b = R -> (off <= List.length b)%nat ->
  match q_skip R with
  | [] => skip_blanks b off (List.length b) = Ok (List.length b, true)
  | c :: t =>
    exists off', skip_blanks b off (List.length b) = Ok (off', false)
      /\ skipn off' b = c :: t /\ (off <= off')%nat /\ (off' < List.length b)%nat
  end.
Proof.
  unfold skip_blanks. intros H Hle.
  pose proof (skipn_len _ _ _ H Hle) as HL.
  replace (List.length b - off)%nat with (List.length R) by lia.
  clear HL Hle. revert off H. induction R as [|c R IH]; intros off H.
  - reflexivity.
  - cbn [q_skip List.length skip_blanks_aux].
    rewrite (bget_skipn _ _ _ _ H). cbn [rbind].
    change ((c =? 32) || (c =? 13) || (c =? 10) || (c =? 9) || (c =? 8)) with (is_blank c).
    destruct (is_blank c).
    + specialize (IH (S off) (skipn_S _ _ _ _ H)).
      destruct (q_skip R) as [|c' t]; [exact IH|].
      destruct IH as (off' & -> & H1 & H2 & H3). exists off'. repeat split; auto; lia.
    + exists off. repeat split; auto. apply skipn_cons_lt in H. exact H.
Qed.

Lemma match_lit_spec b lit : forall off R,
  skipn off b = R -> (List.length lit <= List.length R)%nat ->
  match q_prefix lit R with
  | Some t => match_lit b off lit = Ok true /\ R = lit ++ t
  | None => match_lit b off lit = Ok false
  end.
Proof.
  induction lit as [|c lit IH]; intros off R H HL; cbn [q_prefix match_lit].
  - split; reflexivity.
  - destruct R as [|x R]; cbn [List.length] in HL; [lia|].
    rewrite (bget_skipn _ _ _ _ H). cbn [rbind].
    destruct (Z.eqb_spec x c) as [->|]; [|reflexivity].
    specialize (IH (S off) R (skipn_S _ _ _ _ H) ltac:(lia)).
    destruct (q_prefix lit R) as [t|]; [|exact IH].
    destruct IH as [-> ->]. split; reflexivity.
Qed.

Lemma parse_lit_spec lit v e1 e2 b off R :
  skipn off b = R -> (off <= List.length b)%nat -> lit <> [] ->
  match q_lit lit v e1 e2 R with
  | Ok (v', rest) =>
      exists e, v' = v /\ parse_lit lit e1 e2 b off = Ok e /\ skipn e b = rest
                /\ (off < e)%nat /\ (e <= List.length b)%nat
  | Err e => parse_lit lit e1 e2 b off = Err e
  | _ => False
  end.
Proof.
  intros H Hle Hne. unfold q_lit, parse_lit.
  pose proof (skipn_len _ _ _ H Hle) as HL.
  replace (List.length b - off)%nat with (List.length R) by lia.
  destruct (Nat.ltb_spec (List.length R) (List.length lit)); [reflexivity|].
  pose proof (match_lit_spec b lit off R H ltac:(lia)) as M.
  destruct (q_prefix lit R) as [t|].
  - destruct M as [-> HR]. cbn [rbind]. eexists. split; [reflexivity|]. split; [reflexivity|].
    subst R. rewrite HR in *. split; [now apply skipn_prefix|].
    destruct lit; [congruence|]. simpl in *. lia.
  - rewrite M. reflexivity.
Qed.

(** *** Numbers *)

Lemma num_loop_spec b offset : forall R pos s,
  skipn (offset + pos) b = R ->
  match q_num_loop R pos s with
  | Ok (sf, src, rest) =>
      num_loop (List.length R) b offset (offset + pos) s = Ok (sf, (offset + pos + List.length src)%nat)
      /\ R = src ++ rest
  | Err e => num_loop (List.length R) b offset (offset + pos) s = Err e
  | _ => False
  end.
Proof.
  induction R as [|c R IH]; intros pos s H; cbn [q_num_loop num_loop List.length].
  - split; [|reflexivity]. f_equal. f_equal. lia.
  - rewrite (bget_skipn _ _ _ _ H). cbn [rbind].
    replace (offset + pos =? offset)%nat with (pos =? 0)%nat
      by (destruct (Nat.eqb_spec pos 0), (Nat.eqb_spec (offset + pos) offset); lia).
    replace (offset + pos =? S offset)%nat with (pos =? 1)%nat
      by (destruct (Nat.eqb_spec pos 1), (Nat.eqb_spec (offset + pos) (S offset)); lia).
    assert (Hst : forall s0 c0 x y, (exists o, num_step s0 c0 x y = Ok o) \/ num_step s0 c0 x y = Err EOther).
    { intros. unfold num_step.
      repeat match goal with |- context [if ?x then _ else _] => destruct x end; eauto. }
    destruct (Hst s c (pos =? 0)%nat (pos =? 1)%nat) as [(o & ->)| ->]; [|reflexivity].
    cbn [rbind]. destruct o as [s'|].
    + specialize (IH (S pos) s'). replace (offset + S pos)%nat with (S (offset + pos)) in IH by lia.
      specialize (IH (skipn_S _ _ _ _ H)).
      destruct (q_num_loop R (S pos) s') as [[[sf src] rest]|e| |]; cbn [rbind]; try exact IH.
      destruct IH as [-> ->]. split; [|reflexivity]. f_equal. f_equal. cbn [List.length]. lia.
    + split; [|reflexivity]. f_equal. f_equal. cbn [List.length]. lia.
Qed.

Lemma num_step_first c :
  is_num_start c = true -> exists s', num_step nst0 c true false = Ok (Some s').
Proof.
  unfold is_num_start, is_digit, num_step, nst0; simpl. intros H.
  destruct (Z.eqb_spec c 48); [eauto|].
  destruct ((49 <=? c) && (c <=? 57)) eqn:E; [eauto|].
  assert (c = 45) by lia. subst c. simpl. eauto.
Qed.

Lemma q_num_value_cases E s src :
  src <> [] ->
  (exists n, q_num_value E s src = Ok (VNum n src)) \/ (exists e, q_num_value E s src = Err e).
Proof.
  intros H. unfold q_num_value. destruct src as [|c0 r]; [congruence|].
  unfold q_float, q_neg, q_pos.
  destruct (s_flt s).
  - destruct (s_dot s && negb (s_iad s)); [eauto|].
    destruct (parse_float (c0 :: r)); eauto.
  - destruct (s_neg s);
    repeat match goal with |- context [if ?x then _ else _] => destruct x end; eauto.
Qed.

Lemma parse_number_spec E b off c t :
  skipn off b = c :: t -> is_num_start c = true ->
  match q_number E (c :: t) with
  | Ok (v, rest) =>
      exists e reach n src,
        parse_number E b off = Ok (v, e, reach) /\ v = VNum n src /\ skipn e b = rest
        /\ (off < e)%nat /\ (e <= List.length b)%nat /\ firstn (e - off) (skipn off b) = src
  | Err e => parse_number E b off = Err e
  | _ => False
  end.
Proof.
  intros H Hc. unfold q_number, parse_number.
  pose proof (skipn_cons_lt _ _ _ _ H) as Hlt.
  pose proof (skipn_len _ _ _ H ltac:(lia)) as HL.
  replace (List.length b - off)%nat with (List.length (c :: t)) by lia.
  pose proof (num_loop_spec b off (c :: t) 0 nst0) as P.
  rewrite Nat.add_0_r in P. specialize (P H).
  assert (Hne : forall sf src rest, q_num_loop (c :: t) 0 nst0 = Ok (sf, src, rest) -> exists src', src = c :: src').
  { intros sf src rest. cbn [q_num_loop].
    destruct (num_step_first c Hc) as (s' & Hs'). change ((0 =? 0)%nat) with true.
    change ((0 =? 1)%nat) with false. rewrite Hs'. cbn [rbind].
    destruct (q_num_loop t 1 s') as [[[? ?] ?]|?| |]; cbn [rbind]; try discriminate.
    intros E'. inversion E'. eauto. }
  destruct (q_num_loop (c :: t) 0 nst0) as [[[sf src] rest]|e| |]; cbn [rbind];
    try contradiction; [|rewrite P; reflexivity].
  destruct (Hne _ _ _ eq_refl) as (src' & Hsrc).
  destruct P as [HP HR]. rewrite HP. cbn [rbind].
  set (idx := (off + List.length src)%nat) in *.
  assert (Hslice : bslice b off idx = Ok src).
  { destruct (skipn_decomp _ _ _ H ltac:(lia)) as (A & Hb & HA).
    rewrite Hb, HR. apply bslice_app; [lia|]. unfold idx. lia. }
  assert (Hsk : skipn idx b = rest).
  { apply skipn_prefix. rewrite H. exact HR. }
  assert (Hidx : (off < idx)%nat /\ (idx <= List.length b)%nat).
  { unfold idx. rewrite HR, app_length in HL. subst src. simpl in *. lia. }
  assert (Hfs : firstn (idx - off) (skipn off b) = src).
  { rewrite H, HR. apply firstn_app_at. unfold idx. lia. }
  assert (Hle : (idx - off)%nat = List.length src) by (unfold idx; lia).
  assert (Q : (let* v := q_num_value E sf src in
               Ok (v, idx, (List.length b - idx =? 0)%nat)) =
     (let reach := (List.length b - idx =? 0)%nat in
      if s_flt sf
      then if s_dot sf && negb (s_iad sf) then Err EOther
           else let* v := parse_float_result E b off idx in Ok (v, idx, reach)
      else
        let* c0 := bget b off in
        if (0 <? s_int sf) && (c0 =? 48) then Err EOther
        else if (idx - off =? 1)%nat && negb ((48 <=? c0) && (c0 <=? 57)) then Err EOther
        else let* v := (if s_neg sf then parse_neg_result b off idx (s_int sf)
                        else parse_pos_result b off idx (s_int sf)) in Ok (v, idx, reach))).
  { cbn zeta. unfold q_num_value. rewrite (bget_skipn _ _ _ _ H). cbn [rbind].
    unfold parse_float_result, parse_neg_result, parse_pos_result, q_float, q_neg, q_pos.
    rewrite Hslice, Hle. cbn [rbind]. rewrite Hsrc.
    repeat match goal with |- context [if ?x then _ else _] => destruct x; try reflexivity end;
    destruct (parse_float (c :: src')); reflexivity. }
  cbn zeta in Q. rewrite <- Q.
  destruct (q_num_value_cases E sf src) as [(n & ->)|(e & ->)]; [congruence| |reflexivity].
  cbn [rbind]. eexists; eexists; eexists; eexists.
  split; [reflexivity|]. split; [reflexivity|]. tauto.
Qed.

(** *** State evolution *)

Definition log_ok (b : bytes) (lo hi : nat) (x : nat * nat * bytes) : Prop :=
  let '(i, j, c) := x in
  (lo <= i)%nat /\ (i <= j)%nat /\ (j <= hi)%nat /\ firstn (j - i) (skipn i b) = c.

Definition ext (s s' : pst) (off e : nat) : Prop :=
  frame (p_buf s) (p_buf s') off e
  /\ (exists new, p_log s' = new ++ p_log s /\ Forall (log_ok (p_buf s') off e) new)
  /\ (p_act s' <= p_act s + (e - off))%nat.

Lemma frame_refl b off e : (off <= e)%nat -> (e <= List.length b)%nat -> frame b b off e.
Proof. unfold frame. auto. Qed.

Lemma firstn_eq_le {A} (x y : list A) n m : (m <= n)%nat -> firstn n x = firstn n y -> firstn m x = firstn m y.
Proof.
  intros H E. rewrite <- (Nat.min_l m n H), <- !firstn_firstn, E. reflexivity.
Qed.

Lemma skipn_eq_ge {A} (x y : list A) n m : (n <= m)%nat -> skipn n x = skipn n y -> skipn m x = skipn m y.
Proof.
  intros H E. replace m with ((m - n) + n)%nat by lia.
  rewrite <- !skipn_skipn, E. reflexivity.
Qed.

Lemma slice_firstn {A} (b : list A) i j : firstn (j - i) (skipn i b) = skipn i (firstn j b).
Proof.
  revert i b. induction j as [|j IH]; intros [|i] b; try reflexivity.
  destruct b; [cbn [skipn firstn]; now rewrite firstn_nil|]. exact (IH i b).
Qed.

Lemma slice_frame {A} (b b' : list A) i j k :
  (j <= k)%nat -> firstn k b' = firstn k b ->
  firstn (j - i) (skipn i b') = firstn (j - i) (skipn i b).
Proof.
  intros H E. rewrite !slice_firstn. f_equal. apply (firstn_eq_le _ _ k); assumption.
Qed.

Lemma ext_refl s off e : (off <= e)%nat -> (e <= List.length (p_buf s))%nat -> ext s s off e.
Proof.
  intros. split; [now apply frame_refl|]. split; [exists []; auto|lia].
Qed.

Lemma ext_trans s1 s2 s3 a b c : ext s1 s2 a b -> ext s2 s3 b c -> ext s1 s3 a c.
Proof.
  intros ((L1 & O1 & B1 & F1 & S1) & (n1 & N1 & A1) & P1)
         ((L2 & O2 & B2 & F2 & S2) & (n2 & N2 & A2) & P2).
  split; [|split].
  - unfold frame. repeat split; try lia.
    + rewrite <- F1. apply (firstn_eq_le _ _ b); assumption.
    + rewrite S2. apply (skipn_eq_ge _ _ b); [assumption|]. exact S1.
  - exists (n2 ++ n1). split; [now rewrite N2, N1, app_assoc|].
    apply Forall_app. split.
    + eapply Forall_impl; [|exact A2]. intros [[i j] x]. unfold log_ok. intuition lia.
    + eapply Forall_impl; [|exact A1]. intros [[i j] x]. unfold log_ok.
      intros (h1 & h2 & h3 & h4). repeat split; try lia.
      rewrite <- h4. apply (slice_frame _ _ _ _ b); assumption.
  - lia.
Qed.

(** Starting earlier. *)
Lemma ext_weaken s s' a b c : (a <= b)%nat -> ext s s' b c -> ext s s' a c.
Proof.
  intros H ((L1 & O1 & B1 & F1 & S1) & (n1 & N1 & A1) & P1).
  split; [|split].
  - unfold frame. repeat split; try lia; try assumption.
    apply (firstn_eq_le _ _ b); assumption.
  - exists n1. split; [assumption|]. eapply Forall_impl; [|exact A1].
    intros [[i j] x]. unfold log_ok. intuition lia.
  - lia.
Qed.

Lemma ext_len s s' a b : ext s s' a b -> List.length (p_buf s') = List.length (p_buf s).
Proof. intros ((H & _) & _). exact H. Qed.
Lemma ext_order s s' a b : ext s s' a b -> (a <= b <= List.length (p_buf s))%nat.
Proof. intros ((_ & H1 & H2 & _) & _). lia. Qed.
Lemma ext_prefix s s' a b : ext s s' a b -> firstn a (p_buf s') = firstn a (p_buf s).
Proof. intros ((_ & _ & _ & H & _) & _). exact H. Qed.
Lemma ext_suffix s s' a b : ext s s' a b -> skipn b (p_buf s') = skipn b (p_buf s).
Proof. intros ((_ & _ & _ & _ & H) & _). exact H. Qed.
Lemma ext_act s s' a b : ext s s' a b -> (p_act s' <= p_act s + (b - a))%nat.
Proof. intros (_ & _ & H). exact H. Qed.

(** Taking one value from the pool pays for the byte at [off]. *)
Lemma ext_pool s s' off off' e :
  (off <= off')%nat -> ext (pool_get s) s' (S off') e -> ext s s' off e.
Proof.
  intros Ho ((L1 & O1 & B1 & F1 & S1) & (n1 & N1 & A1) & P1).
  cbn [pool_get p_buf p_act p_log] in *.
  split; [|split].
  - unfold frame. repeat split; try lia; try assumption.
    apply (firstn_eq_le _ _ (S off')); [lia|assumption].
  - exists n1. split; [assumption|]. eapply Forall_impl; [|exact A1].
    intros [[i j] x]. unfold log_ok. intuition lia.
  - lia.
Qed.

(** What a parser step guarantees, relative to the pure result. *)
Definition refines {A} (q : res (A * bytes)) (p : pres (A * nat)) (s : pst) (off : nat) : Prop :=
  match q with
  | Ok (v, rest) =>
      exists e s', p = POk (v, e) s' /\ skipn e (p_buf s') = rest /\ ext s s' off e
  | Err er =>
      exists s', p = PErr er s' /\ (p_act s' <= p_act s + (List.length (p_buf s) - off))%nat
  | Panic => p = PPanic
  | Fuel => p = PFuel
  end.

Lemma p_string_refines s off t :
  skipn off (p_buf s) = 34 :: t ->
  refines (q_str (S (List.length t)) t)
    (pbind (p_string s off) (fun '(str, _, e) s' => POk (str, e) s')) s off.
Proof.
  intros H. pose proof (p_string_spec s off t H) as P. unfold refines.
  destruct (q_str (S (List.length t)) t) as [[str rest]|e| |]; try contradiction.
  - destruct P as (e & s' & -> & H1 & H2 & H3 & H4 & H5 & H6). cbn [pbind].
    exists e, s'. split; [reflexivity|]. split; [assumption|].
    apply (ext_weaken _ _ _ (S off)); [lia|]. split; [assumption|]. split; [|lia].
    exists [(S off, (S off + List.length str)%nat, str)]. split; [assumption|].
    constructor; [|constructor]. unfold log_ok. repeat split; try lia.
    replace (S off + List.length str - S off)%nat with (List.length str) by lia. assumption.
  - rewrite P. cbn [pbind]. eexists. split; [reflexivity|cbn [set_buf p_act]; lia].
Qed.

Lemma p_scalar_refines E s c off t :
  skipn off (p_buf s) = c :: t ->
  match q_scalar E c (c :: t) with
  | Some q => exists p, p_scalar E s c off = Some p /\ refines q p s off
                        /\ q <> Panic /\ q <> Fuel
  | None => p_scalar E s c off = None
  end.
Proof.
  intros H. unfold q_scalar, p_scalar.
  pose proof (skipn_cons_lt _ _ _ _ H) as Hlt.
  assert (L : forall lit v e1 e2, lit <> [] ->
    exists p, Some (lift (parse_lit lit e1 e2 (p_buf s) off) s (fun e => POk (v, e) s)) = Some p
              /\ refines (q_lit lit v e1 e2 (c :: t)) p s off
              /\ q_lit lit v e1 e2 (c :: t) <> Panic /\ q_lit lit v e1 e2 (c :: t) <> Fuel).
  { intros lit v e1 e2 Hne. eexists; split; [reflexivity|].
    pose proof (parse_lit_spec lit v e1 e2 (p_buf s) off _ H ltac:(lia) Hne) as P.
    destruct (q_lit lit v e1 e2 (c :: t)) as [[v' rest]|e| |]; try contradiction.
    - destruct P as (e & -> & -> & H1 & H2 & H3). cbn [lift refines].
      split; [|split; discriminate]. exists e, s. split; [reflexivity|]. split; [assumption|].
      apply ext_refl; lia.
    - rewrite P. cbn [lift refines]. split; [|split; discriminate].
      exists s. split; [reflexivity|lia]. }
  destruct (is_num_start c) eqn:En.
  - eexists; split; [reflexivity|].
    pose proof (parse_number_spec E (p_buf s) off c t H En) as P. unfold p_number.
    destruct (q_number E (c :: t)) as [[v rest]|e| |]; try contradiction.
    + destruct P as (e & reach & n & src & -> & -> & H1 & H2 & H3 & H4).
      cbn [lift refines]. split; [|split; discriminate].
      eexists; eexists; split; [reflexivity|]. cbn [log_slice pool_get p_buf p_act p_log].
      split; [assumption|]. split; [apply frame_refl; cbn; lia|].
      cbn [log_slice pool_get p_buf p_act p_log]. split; [|lia].
      exists [(off, e, src)]. split; [reflexivity|]. constructor; [|constructor].
      unfold log_ok. repeat split; try lia. assumption.
    + rewrite P. cbn [lift refines]. split; [|split; discriminate].
      exists s. split; [reflexivity|lia].
  - destruct (c =? 116); [apply L; discriminate|].
    destruct (c =? 102); [apply L; discriminate|].
    destruct (c =? 110); [apply L; discriminate|reflexivity].
Qed.

(** Sequencing. *)
Lemma refines_ext {A} (q : res (A * bytes)) (p : pres (A * nat)) s s' off e :
  ext s s' off e -> refines q p s' e -> refines q p s off.
Proof.
  intros X. unfold refines. destruct q as [[v rest]|er| |]; auto.
  - intros (e' & s2 & -> & H1 & H2). exists e', s2. split; [reflexivity|]. split; [assumption|].
    eapply ext_trans; eassumption.
  - intros (s2 & -> & H). exists s2. split; [reflexivity|].
    pose proof (ext_len _ _ _ _ X). pose proof (ext_order _ _ _ _ X). pose proof (ext_act _ _ _ _ X). lia.
Qed.

Lemma refines_weaken {A} (q : res (A * bytes)) (p : pres (A * nat)) s off off' :
  (off <= off')%nat -> (off' <= List.length (p_buf s))%nat ->
  refines q p s off' -> refines q p s off.
Proof. intros H1 H2. apply refines_ext. now apply ext_refl. Qed.

Lemma refines_pool {A} (q : res (A * bytes)) (p : pres (A * nat)) s off off' :
  (off <= off')%nat -> (off' < List.length (p_buf s))%nat ->
  refines q p (pool_get s) (S off') -> refines q p s off.
Proof.
  intros H1 H2. unfold refines. destruct q as [[v rest]|er| |]; auto.
  - intros (e & s' & -> & H3 & H4). exists e, s'. split; [reflexivity|]. split; [assumption|].
    eapply ext_pool; eassumption.
  - intros (s' & -> & H3). exists s'. split; [reflexivity|]. cbn [pool_get p_act p_buf] in H3. lia.
Qed.

Lemma refines_bind {A B} (q : res (A * bytes)) (p : pres (A * nat))
      (kq : A -> bytes -> res (B * bytes)) (kp : A -> nat -> pst -> pres (B * nat)) s off :
  refines q p s off ->
  (forall v rest e s', q = Ok (v, rest) -> skipn e (p_buf s') = rest -> ext s s' off e ->
      refines (kq v rest) (kp v e s') s' e) ->
  refines (let* (v, r) := q in kq v r) (pbind p (fun '(v, e) s' => kp v e s')) s off.
Proof.
  intros R K. unfold refines in R. destruct q as [[v rest]|er| |]; cbn [rbind].
  - destruct R as (e & s' & -> & H1 & H2). cbn [pbind].
    eapply refines_ext; [exact H2|]. apply K; auto.
  - destruct R as (s' & -> & H). cbn [pbind refines]. eauto.
  - subst p. reflexivity.
  - subst p. reflexivity.
Qed.

Lemma refines_err {A} er s s' off :
  (off <= List.length (p_buf s))%nat -> p_act s' = p_act s ->
  refines (A := A) (Err er) (PErr er s') s off.
Proof. intros H1 H2. exists s'. split; [reflexivity|lia]. Qed.

Definition krel (b : bytes) (off : nat) (key : option bytes) (ks ke : nat) : Prop :=
  match key with
  | None => ke = 0%nat
  | Some k => (0 < ke)%nat /\ (ks <= ke)%nat /\ (ke <= off)%nat /\ firstn (ke - ks) (skipn ks b) = k
  end.

Lemma krel_ext s s' off off' e key ks ke :
  krel (p_buf s) off key ks ke -> (off <= off')%nat -> ext s s' off' e ->
  krel (p_buf s') e key ks ke.
Proof.
  destruct key as [k|]; cbn [krel]; [|auto].
  intros (H1 & H2 & H3 & H4) Ho X. pose proof (ext_order _ _ _ _ X).
  repeat split; try lia. rewrite <- H4.
  apply (slice_frame _ _ _ _ off'); [lia|]. now apply ext_prefix in X.
Qed.

Lemma krel_le b off off' key ks ke :
  krel b off key ks ke -> (off <= off')%nat -> krel b off' key ks ke.
Proof. destruct key; cbn [krel]; intuition lia. Qed.

Lemma bslice_ok b i j k :
  (i <= j)%nat -> (j <= List.length b)%nat -> firstn (j - i) (skipn i b) = k -> bslice b i j = Ok k.
Proof.
  intros H1 H2 <-. unfold bslice.
  destruct (Nat.leb_spec i j); [|lia]. destruct (Nat.leb_spec j (List.length b)); [|lia]. reflexivity.
Qed.

Section Main.
Variable E : Env.

Lemma loops_refine fuel :
  (forall s off right R acc,
     skipn off (p_buf s) = R -> (off <= right)%nat -> right = List.length (p_buf s) ->
     refines (q_arr E fuel R acc) (arr_loop E fuel s off right acc) s off)
  /\
  (forall s off right R obj key ks ke colon,
     skipn off (p_buf s) = R -> (off <= right)%nat -> right = List.length (p_buf s) ->
     krel (p_buf s) off key ks ke ->
     refines (q_obj E fuel R obj key colon) (obj_loop E fuel s off right obj ks ke colon) s off).
Proof.
  induction fuel as [|f [IHa IHo]].
  { split; intros; reflexivity. }
  split.
  - intros s off right R acc HR Hle Hright. subst right.
    cbn [q_arr arr_loop].
    pose proof (skip_blanks_spec _ _ _ HR Hle) as SB.
    pose proof (skipn_len _ _ _ HR Hle) as HLR.
    destruct (Nat.ltb_spec off (List.length (p_buf s))) as [Hlt|Hge].
    2:{ destruct R; [|simpl in HLR; lia]. cbn [q_skip]. now apply refines_err. }
    destruct (q_skip R) as [|c t].
    { rewrite SB. cbn [lift]. now apply refines_err. }
    destruct SB as (off' & -> & H1 & H2 & H3). cbn [lift].
    rewrite (bget_skipn _ _ _ _ H1). cbn [lift].
    pose proof (skipn_S _ _ _ _ H1) as H4.
    assert (Hpool : forall (A : Type) (q : res (A * bytes)) p, refines q p (pool_get s) (S off') -> refines q p s off).
    { intros A q p. apply refines_pool; assumption. }
    destruct (c =? 93).
    { exists (S off'), s. split; [reflexivity|]. split; [exact H4|]. apply ext_refl; lia. }
    destruct (c =? 44).
    { eapply refines_weaken; [| |apply IHa; [exact H4|lia|reflexivity]]; lia. }
    destruct (c =? 123).
    { apply refines_bind.
      - apply Hpool. apply IHo; try assumption; try reflexivity.
      - intros v rest e s' _ Hs' X. apply IHa; [assumption|..];
          pose proof (ext_order _ _ _ _ X); pose proof (ext_len _ _ _ _ X); lia. }
    destruct (c =? 91).
    { apply refines_bind.
      - apply Hpool. apply IHa; try assumption; try reflexivity.
      - intros v rest e s' _ Hs' X. apply IHa; [assumption|..];
          pose proof (ext_order _ _ _ _ X); pose proof (ext_len _ _ _ _ X); lia. }
    destruct (Z.eqb_spec c 34) as [->|Hc34].
    { pose proof (p_string_refines s off' t H1) as PS.
      apply (refines_weaken _ _ _ off) in PS; [|lia|lia].
      assert (Hp : forall k, pbind (p_string s off') (fun '(str, _, e) s' => k str e s') =
                pbind (pbind (p_string s off') (fun '(str, _, e) s' => POk (str, e) s'))
                 (fun '(str, e) s' => k str e s' : pres (V * nat))).
      { intros k. destruct (p_string s off') as [[[? ?] ?] ?|? ?| |]; reflexivity. }
      rewrite Hp.
      apply (refines_bind _ _ (fun str r' => q_arr E f r' (acc ++ [VStr str]))
               (fun str e s' => arr_loop E f s' e (List.length (p_buf s)) (acc ++ [VStr str]))); [exact PS|].
      intros v rest e s' _ Hs' X. apply IHa; [assumption|..];
          pose proof (ext_order _ _ _ _ X); pose proof (ext_len _ _ _ _ X); lia. }
    pose proof (p_scalar_refines E s c off' t H1) as SC.
    destruct (q_scalar E c (c :: t)) as [q|].
    2:{ rewrite SC. now apply refines_err. }
    destruct SC as (p & -> & RF & _ & _).
    apply (refines_weaken _ _ _ off) in RF; [|lia|lia].
    apply refines_bind; [exact RF|].
    intros v rest e s' _ Hs' X. apply IHa; [assumption|..];
          pose proof (ext_order _ _ _ _ X); pose proof (ext_len _ _ _ _ X); lia.
  - intros s off right R obj key ks ke colon HR Hle Hright HK. subst right.
    cbn [q_obj obj_loop].
    pose proof (skip_blanks_spec _ _ _ HR Hle) as SB.
    pose proof (skipn_len _ _ _ HR Hle) as HLR.
    destruct (Nat.ltb_spec off (List.length (p_buf s))) as [Hlt|Hge].
    2:{ destruct R; [|simpl in HLR; lia]. cbn [q_skip]. now apply refines_err. }
    destruct (q_skip R) as [|c t].
    { rewrite SB. cbn [lift]. now apply refines_err. }
    destruct SB as (off' & -> & H1 & H2 & H3). cbn [lift].
    rewrite (bget_skipn _ _ _ _ H1). cbn [lift].
    pose proof (skipn_S _ _ _ _ H1) as H4.
    assert (Hpool : forall (A : Type) (q : res (A * bytes)) p, refines q p (pool_get s) (S off') -> refines q p s off).
    { intros A q p. apply refines_pool; assumption. }
    assert (Hkey : (0 <? ke)%nat = match key with None => false | Some _ => true end).
    { destruct key; cbn [krel] in HK; [destruct HK; now apply Nat.ltb_lt|subst; reflexivity]. }
    assert (Hmiss : key_missing ke colon = match key with None => true | Some _ => negb colon end).
    { unfold key_missing. destruct key; cbn [krel] in HK; [|subst; reflexivity].
      destruct HK as [HK _]. destruct (Nat.eqb_spec ke 0); [lia|reflexivity]. }
    assert (Hmisst : key_missing ke true = match key with None => true | Some _ => false end).
    { unfold key_missing. destruct key; cbn [krel] in HK; [|subst; reflexivity].
      destruct HK as [HK _]. destruct (Nat.eqb_spec ke 0); [lia|reflexivity]. }
    rewrite Hkey, Hmiss, Hmisst.
    assert (Hstore : forall k, key = Some k -> forall v rest e s', skipn e (p_buf s') = rest -> ext s s' off e ->
       refines (let* obj' := set_to_object E obj k v in q_obj E f rest obj' None false)
         (lift (bslice (p_buf s') ks ke) s' (fun key0 =>
          lift (set_to_object E obj key0 v) s' (fun obj' =>
          obj_loop E f s' e (List.length (p_buf s)) obj' ks 0 false))) s' e).
    { intros k -> v rest e s' Hs' X. pose proof (ext_order _ _ _ _ X); pose proof (ext_len _ _ _ _ X).
      pose proof (krel_ext _ _ _ _ _ _ _ _ HK (le_n _) X) as HK'. destruct HK' as (K1 & K2 & K3 & K4).
      rewrite (bslice_ok _ _ _ k) by (try assumption; lia). cbn [lift].
      destruct (set_to_object E obj k v) as [obj'|er| |]; cbn [lift rbind].
      - apply IHo; [assumption|lia|lia|reflexivity].
      - apply refines_err; [lia|reflexivity].
      - reflexivity.
      - reflexivity. }
    destruct (c =? 125).
    { destruct key; [now apply refines_err|].
      exists (S off'), s. split; [reflexivity|]. split; [exact H4|]. apply ext_refl; lia. }
    destruct (c =? 44).
    { destruct key; [now apply refines_err|].
      eapply refines_weaken; [| |apply IHo; [exact H4|lia|reflexivity|exact HK]]; lia. }
    destruct (c =? 58).
    { destruct colon; [now apply refines_err|].
      destruct key; [|now apply refines_err]. cbn [negb].
      eapply refines_weaken; [| |apply IHo; [exact H4|lia|reflexivity|eapply krel_le; [exact HK|lia]]]; lia. }
    destruct (c =? 123).
    { destruct key as [k|]; [|now apply refines_err].
      destruct (negb colon); [now apply refines_err|].
      apply (refines_bind _ _ (fun v r' => let* obj' := set_to_object E obj k v in q_obj E f r' obj' None false)
              (fun v e s' => lift (bslice (p_buf s') ks ke) s' (fun key0 =>
          lift (set_to_object E obj key0 v) s' (fun obj' =>
          obj_loop E f s' e (List.length (p_buf s)) obj' ks 0 false)))).
      - apply Hpool. apply IHo; try assumption; try reflexivity.
      - intros v rest e s' _ Hs' X. apply Hstore; auto. }
    destruct (c =? 91).
    { destruct key as [k|]; [|now apply refines_err].
      destruct (negb colon); [now apply refines_err|].
      apply (refines_bind _ _ (fun v r' => let* obj' := set_to_object E obj k v in q_obj E f r' obj' None false)
              (fun v e s' => lift (bslice (p_buf s') ks ke) s' (fun key0 =>
          lift (set_to_object E obj key0 v) s' (fun obj' =>
          obj_loop E f s' e (List.length (p_buf s)) obj' ks 0 false)))).
      - apply Hpool. apply IHa; try assumption; try reflexivity.
      - intros v rest e s' _ Hs' X. apply Hstore; auto. }
    destruct (Z.eqb_spec c 34) as [->|Hc34].
    { destruct key as [k|].
      - destruct (negb colon); [now apply refines_err|].
        pose proof (p_string_refines s off' t H1) as PS.
        apply (refines_weaken _ _ _ off) in PS; [|lia|lia].
        assert (Hp : forall k, pbind (p_string s off') (fun '(str, _, e) s' => k str e s') =
                pbind (pbind (p_string s off') (fun '(str, _, e) s' => POk (str, e) s'))
                 (fun '(str, e) s' => k str e s' : pres (V * nat))).
        { intros k'. destruct (p_string s off') as [[[? ?] ?] ?|? ?| |]; reflexivity. }
        rewrite Hp.
        apply (refines_bind _ _ (fun str r' => let* obj' := set_to_object E obj k (VStr str) in q_obj E f r' obj' None false)
              (fun str e s' => lift (bslice (p_buf s') ks ke) s' (fun key0 =>
          lift (set_to_object E obj key0 (VStr str)) s' (fun obj' =>
          obj_loop E f s' e (List.length (p_buf s)) obj' ks 0 false)))); [exact PS|].
        intros v rest e s' _ Hs' X. apply Hstore; auto.
      - pose proof (p_string_spec s off' t H1) as PS.
        pose proof (p_string_refines s off' t H1) as PR.
        destruct (q_str (S (List.length t)) t) as [[str rest]|e| |]; try contradiction.
        + destruct PS as (e & s' & Hps & Q1 & Q2 & Q3 & Q4 & Q5 & Q6). rewrite Hps in *.
          cbn [pbind rbind] in *.
          destruct PR as (e2 & s2 & PR1 & PR2 & PR3). inversion PR1; subst e2 s2.
          apply (refines_ext _ _ s s' off e); [eapply ext_weaken; [|exact PR3]; lia|].
          pose proof (ext_order _ _ _ _ PR3). pose proof (ext_len _ _ _ _ PR3).
          apply IHo; [assumption|lia|lia|].
          cbn [krel]. repeat split; try lia.
          replace (S off' + List.length str - S off')%nat with (List.length str) by lia. exact Q4.
        + rewrite PS. cbn [pbind rbind]. now apply refines_err. }
    pose proof (p_scalar_refines E s c off' t H1) as SC.
    destruct (q_scalar E c (c :: t)) as [q|].
    2:{ rewrite SC. now apply refines_err. }
    destruct SC as (p & -> & RF & _ & _).
    destruct key as [k|]; [|now apply refines_err].
    destruct (negb colon); [now apply refines_err|].
    apply (refines_weaken _ _ _ off) in RF; [|lia|lia].
    apply (refines_bind _ _ (fun v r' => let* obj' := set_to_object E obj k v in q_obj E f r' obj' None false)
              (fun v e s' => lift (bslice (p_buf s') ks ke) s' (fun key0 =>
          lift (set_to_object E obj key0 v) s' (fun obj' =>
          obj_loop E f s' e (List.length (p_buf s)) obj' ks 0 false)))); [exact RF|].
    intros v rest e s' _ Hs' X. apply Hstore; auto.
Qed.

Lemma q_skip_length r : (List.length (q_skip r) <= List.length r)%nat.
Proof. induction r as [|c r IH]; simpl; [lia|]. destruct (is_blank c); simpl; lia. Qed.

Lemma q_str_shorter f : forall r s r1, q_str f r = Ok (s, r1) -> (List.length r1 < List.length r)%nat.
Proof.
  induction f as [|f IH]; intros r s r1; [discriminate|].
  cbn [q_str]. destruct r as [|c t]; [discriminate|].
  destruct (c =? 34); [intros X; inversion X; subst; simpl; lia|].
  destruct (q_char c t) as [[w r2]|e| |] eqn:Ec; try discriminate.
  cbn [rbind]. apply q_char_shorter in Ec.
  destruct (q_str f r2) as [[s2 r3]|e| |] eqn:Es; try discriminate.
  cbn [rbind]. apply IH in Es. intros X; inversion X; subst. simpl. lia.
Qed.

Lemma q_num_loop_split : forall r pos s sf src rest,
  q_num_loop r pos s = Ok (sf, src, rest) -> r = src ++ rest.
Proof.
  induction r as [|c r IH]; intros pos s sf src rest; cbn [q_num_loop].
  - intros X; inversion X; reflexivity.
  - destruct (num_step s c (pos =? 0)%nat (pos =? 1)%nat) as [[s'|]|e| |]; cbn [rbind]; try discriminate.
    + destruct (q_num_loop r (S pos) s') as [[[? ?] ?]|e| |] eqn:Er; cbn [rbind]; try discriminate.
      intros X; inversion X; subst. apply IH in Er. subst r. reflexivity.
    + intros X; inversion X; subst. reflexivity.
Qed.

Lemma q_prefix_split lit : forall r t, q_prefix lit r = Some t -> r = lit ++ t.
Proof.
  induction lit as [|c lit IH]; intros r t; cbn [q_prefix].
  - intros X; inversion X; reflexivity.
  - destruct r as [|x r]; [discriminate|]. destruct (Z.eqb_spec x c) as [->|]; [|discriminate].
    intros X. apply IH in X. subst r. reflexivity.
Qed.

Lemma q_scalar_total c t q :
  q_scalar E c (c :: t) = Some q ->
  (exists v rest, q = Ok (v, rest) /\ (List.length rest <= List.length t)%nat) \/ (exists e, q = Err e).
Proof.
  intros H.
  pose proof (p_scalar_refines E (pst0 (c :: t)) c 0 t eq_refl) as P. rewrite H in P.
  destruct P as (p & HP & RF & N1 & N2).
  destruct q as [[v rest]|e| |]; [left|right; eauto|congruence|congruence].
  exists v, rest. split; [reflexivity|]. clear N1 N2 HP RF.
  unfold q_scalar in H.
  assert (L : forall lit v0 e1 e2 v rest, lit <> [] -> q_lit lit v0 e1 e2 (c :: t) = Ok (v, rest) ->
              (List.length rest <= List.length t)%nat).
  { intros lit v0 e1 e2 v' rest' Hne. unfold q_lit.
    destruct (_ <? _)%nat; [discriminate|].
    destruct (q_prefix lit (c :: t)) eqn:Ep; [|discriminate].
    intros X; inversion X; subst. apply q_prefix_split in Ep.
    destruct lit; [congruence|]. inversion Ep. rewrite app_length. lia. }
  destruct (is_num_start c) eqn:En.
  - inversion H as [H']. clear H. unfold q_number in H'.
    destruct (q_num_loop (c :: t) 0 nst0) as [[[sf src] rest']|e| |] eqn:El; cbn [rbind] in H'; try discriminate.
    destruct (q_num_value E sf src) eqn:Ev; cbn [rbind] in H'; try discriminate.
    inversion H'; subst. pose proof (q_num_loop_split _ _ _ _ _ _ El) as Hs.
    destruct src as [|x src]; [discriminate Ev|]. inversion Hs. rewrite app_length. lia.
  - destruct (c =? 116); [inversion H; subst; eapply L; [|eassumption]; discriminate|].
    destruct (c =? 102); [inversion H; subst; eapply L; [|eassumption]; discriminate|].
    destruct (c =? 110); [inversion H; subst; eapply L; [|eassumption]; discriminate|discriminate].
Qed.

Definition is_obj (v : V) : Prop := exists i k l, v = VObj i k l.

Definition shrinks (q : res (V * bytes)) (r : bytes) : Prop :=
  (exists v rest, q = Ok (v, rest) /\ (List.length rest < List.length r)%nat) \/ (exists e, q = Err e).

Lemma q_total fuel :
  (forall r acc, (List.length r < fuel)%nat -> shrinks (q_arr E fuel r acc) r)
  /\ (forall r obj key colon, (List.length r < fuel)%nat -> is_obj obj ->
        shrinks (q_obj E fuel r obj key colon) r).
Proof.
  induction fuel as [|f [IHa IHo]]; [split; intros; lia|].
  assert (Obj : is_obj new_object) by (repeat eexists).
  split.
  - intros r acc Hr. cbn [q_arr].
    pose proof (q_skip_length r) as HL.
    destruct (q_skip r) as [|c t]; [right; eauto|]. cbn [List.length] in HL.
    assert (K : forall q, shrinks q (c :: t) -> shrinks (let* (v, r') := q in q_arr E f r' (acc ++ [v])) r).
    { intros q [(v & rest & -> & Hq)|(e & ->)]; cbn [rbind]; [|right; eauto].
      cbn [List.length] in Hq.
      destruct (IHa rest (acc ++ [v]) ltac:(lia)) as [(v2 & r2 & -> & H2)|(e & ->)]; [left|right; eauto].
      exists v2, r2. split; [reflexivity|lia]. }
    assert (W : forall q, shrinks q t -> shrinks q (c :: t)).
    { intros q [(v & rest & -> & Hq)|(e & ->)]; [left|right; eauto].
      exists v, rest. split; [reflexivity|simpl; lia]. }
    destruct (c =? 93); [left; exists (VArr acc), t; split; [reflexivity|lia]|].
    destruct (c =? 44).
    { destruct (IHa t acc ltac:(lia)) as [(v2 & r2 & -> & H2)|(e & ->)]; [left|right; eauto].
      exists v2, r2. split; [reflexivity|lia]. }
    destruct (c =? 123); [apply K, W, IHo; [lia|assumption]|].
    destruct (c =? 91); [apply K, W, IHa; lia|].
    destruct (c =? 34).
    { destruct (q_str_total (S (List.length t)) t ltac:(lia)) as [(s & r1 & Es)|(e & ->)]; [|right; cbn [rbind]; eauto].
      rewrite Es. cbn [rbind]. apply q_str_shorter in Es.
      destruct (IHa r1 (acc ++ [VStr s]) ltac:(lia)) as [(v2 & r2 & -> & H2)|(e & ->)]; [left|right; eauto].
      exists v2, r2. split; [reflexivity|lia]. }
    destruct (q_scalar E c (c :: t)) as [q|] eqn:Eq; [|right; eauto].
    apply K. destruct (q_scalar_total _ _ _ Eq) as [(v & rest & -> & Hq)|(e & ->)]; [left|right; eauto].
    exists v, rest. split; [reflexivity|simpl; lia].
  - intros r obj key colon Hr Ho. cbn [q_obj].
    pose proof (q_skip_length r) as HL.
    destruct (q_skip r) as [|c t]; [right; eauto|]. cbn [List.length] in HL.
    assert (Rec : forall r1 o k cl, (List.length r1 <= List.length t)%nat -> is_obj o ->
                  shrinks (q_obj E f r1 o k cl) r).
    { intros r1 o k cl H1 H2. destruct (IHo r1 o k cl ltac:(lia) H2) as [(v2 & r2 & -> & H3)|(e & ->)]; [left|right; eauto].
      exists v2, r2. split; [reflexivity|lia]. }
    assert (St : forall k v r1, (List.length r1 <= List.length t)%nat ->
        shrinks (let* obj' := set_to_object E obj k v in q_obj E f r1 obj' None false) r).
    { intros k v r1 H1. destruct Ho as (i0 & k0 & l0 & ->). cbn [set_to_object rbind].
      apply Rec; [assumption|repeat eexists]. }
    assert (K : forall k q, shrinks q (c :: t) ->
        shrinks (let* (v, r') := q in
                 (let* obj' := set_to_object E obj k v in q_obj E f r' obj' None false)) r).
    { intros k q [(v & rest & -> & Hq)|(e & ->)]; cbn [rbind]; [|right; eauto].
      apply St. cbn [List.length] in Hq. lia. }
    assert (W : forall q, shrinks q t -> shrinks q (c :: t)).
    { intros q [(v & rest & -> & Hq)|(e & ->)]; [left|right; eauto].
      exists v, rest. split; [reflexivity|simpl; lia]. }
    destruct (c =? 125).
    { destruct key; [right; eauto|]. left; exists obj, t; split; [reflexivity|lia]. }
    destruct (c =? 44).
    { destruct key; [right; eauto|]. apply Rec; [lia|assumption]. }
    destruct (c =? 58).
    { destruct colon; [right; eauto|]. destruct key; cbn [negb]; [|right; eauto].
      apply Rec; [lia|assumption]. }
    destruct (c =? 123).
    { destruct key; [|right; eauto]. destruct (negb colon); [right; eauto|].
      apply K, W, IHo; [lia|assumption]. }
    destruct (c =? 91).
    { destruct key; [|right; eauto]. destruct (negb colon); [right; eauto|].
      apply K, W, IHa; lia. }
    destruct (c =? 34).
    { destruct (q_str_total (S (List.length t)) t ltac:(lia)) as [(s & r1 & Es)|(e & Es)].
      - pose proof (q_str_shorter _ _ _ _ Es) as Hs. rewrite Es. cbn [rbind].
        destruct key as [k|].
        + destruct (negb colon); [right; eauto|]. apply St. lia.
        + apply Rec; [lia|assumption].
      - rewrite Es. cbn [rbind]. destruct key; [destruct (negb colon)|]; right; eauto. }
    destruct (q_scalar E c (c :: t)) as [q|] eqn:Eq; [|right; eauto].
    destruct key as [k|]; [|right; eauto]. destruct (negb colon); [right; eauto|].
    apply K. destruct (q_scalar_total _ _ _ Eq) as [(v & rest & -> & Hq)|(e & ->)]; [left|right; eauto].
    exists v, rest. split; [reflexivity|simpl; lia].
Qed.

Lemma q_value_total fuel c t :
  (List.length t < fuel)%nat ->
  (exists v rest, q_value E fuel c t = Ok (v, rest) /\ (List.length rest <= List.length t)%nat)
  \/ (exists e, q_value E fuel c t = Err e).
Proof.
  intros H. unfold q_value. destruct (q_total fuel) as [Ta To].
  destruct (c =? 123).
  { destruct (To t new_object None false H ltac:(repeat eexists)) as [(v & rest & -> & Hq)|(e & ->)].
    - left. exists v, rest. split; [reflexivity|lia].
    - right; eauto. }
  destruct (c =? 91).
  { destruct (Ta t [] H) as [(v & rest & -> & Hq)|(e & ->)].
    - left. exists v, rest. split; [reflexivity|lia].
    - right; eauto. }
  destruct (c =? 34).
  { destruct (q_str_total (S (List.length t)) t ltac:(lia)) as [(s & r1 & Es)|(e & Es)]; rewrite Es; cbn [rbind].
    - apply q_str_shorter in Es. left. exists (VStr s), r1. split; [reflexivity|lia].
    - right; eauto. }
  destruct (q_scalar E c (c :: t)) as [q|] eqn:Eq; [|right; eauto].
  apply (q_scalar_total _ _ _ Eq).
Qed.

Lemma q_unmarshal_total r : (exists v, q_unmarshal E r = Ok v) \/ (exists e, q_unmarshal E r = Err e).
Proof.
  unfold q_unmarshal. pose proof (q_skip_length r) as HL.
  destruct (q_skip r) as [|c t]; [right; eauto|]. cbn [List.length] in HL.
  destruct (q_value_total (S (List.length r)) c t ltac:(lia)) as [(v & rest & -> & Hq)|(e & ->)];
    cbn [rbind]; [|right; eauto].
  destruct (q_skip rest); eauto.
Qed.

Lemma run_unmarshal_spec b :
  match q_unmarshal E b with
  | Ok v => exists s', run_unmarshal E b = POk v s' /\ ext (pst0 b) s' 0 (List.length b)
  | Err e => exists s', run_unmarshal E b = PErr e s' /\ (p_act s' <= List.length b)%nat
  | _ => False
  end.
Proof.
  assert (G : refines (let* v := q_unmarshal E b in Ok (v, []))
                (match run_unmarshal E b with
                 | POk v s' => POk (v, List.length b) s'
                 | PErr e s' => PErr e s'
                 | PPanic => PPanic
                 | PFuel => PFuel
                 end) (pst0 b) 0).
  { unfold run_unmarshal, unmarshal_iter, q_unmarshal. cbn [pst0 p_buf].
    pose proof (skip_blanks_spec b 0 b eq_refl ltac:(lia)) as SB.
    destruct (q_skip b) as [|c t].
    { rewrite SB. cbn [lift rbind]. apply refines_err; [cbn; lia|reflexivity]. }
    destruct SB as (off & -> & H1 & H2 & H3). cbn [lift].
    rewrite (bget_skipn _ _ _ _ H1). cbn [lift].
    pose proof (skipn_S _ _ _ _ H1) as H4.
    set (fuel := S (List.length b)).
    set (r := if c =? 123 then obj_loop E fuel (pool_get (pst0 b)) (S off) (List.length b) new_object 0 0 false
              else if c =? 91 then arr_loop E fuel (pool_get (pst0 b)) (S off) (List.length b) []
              else if c =? 34 then pbind (p_string (pst0 b) off) (fun '(str, _, e) s' => POk (VStr str, e) s')
              else match p_scalar E (pst0 b) c off with
                   | Some r => r
                   | None => PErr ErrRawBytesUnrecognized (pst0 b)
                   end).
    assert (RV : refines (q_value E fuel c t) r (pst0 b) 0).
    { unfold q_value, r. destruct (loops_refine fuel) as [La Lo].
      destruct (c =? 123).
      { apply (refines_pool _ _ _ 0 off); [lia|cbn; lia|].
        apply Lo; [exact H4|cbn; lia|reflexivity|reflexivity]. }
      destruct (c =? 91).
      { apply (refines_pool _ _ _ 0 off); [lia|cbn; lia|].
        apply La; [exact H4|cbn; lia|reflexivity]. }
      destruct (Z.eqb_spec c 34) as [->|].
      { pose proof (p_string_refines (pst0 b) off t H1) as PS.
        apply (refines_weaken _ _ _ 0) in PS; [|lia|cbn; lia].
        destruct (p_string (pst0 b) off) as [[[str ?] e] s'|er s'| |]; cbn [pbind] in *;
        destruct (q_str (S (List.length t)) t) as [[str' rest]|er'| |]; cbn [rbind refines] in *.
        all: try discriminate; try tauto.
        all: first [ destruct PS as (e' & s2 & PE & PS2); inversion PE; subst; eauto; fail
                   | destruct PS as (s2 & PE & PS2); inversion PE; subst; eauto; fail ]. }
      pose proof (p_scalar_refines E (pst0 b) c off t H1) as SC.
      destruct (q_scalar E c (c :: t)) as [q|].
      - destruct SC as (p & SC1 & SC2 & _). rewrite SC1.
        eapply refines_weaken; [| |exact SC2]; cbn; lia.
      - rewrite SC. apply refines_err; [cbn; lia|reflexivity]. }
    unfold refines in RV.
    destruct (q_value E fuel c t) as [[v rest]|er| |]; cbn [rbind].
    2:{ destruct RV as (s' & -> & RV). cbn [pbind]. exists s'. split; [reflexivity|exact RV]. }
    2:{ rewrite RV. reflexivity. }
    2:{ rewrite RV. reflexivity. }
    destruct RV as (e & s' & -> & RV1 & RV2). cbn [pbind].
    pose proof (ext_len _ _ _ _ RV2) as HL. pose proof (ext_order _ _ _ _ RV2) as HO.
    cbn [pst0 p_buf] in HL, HO.
    pose proof (skip_blanks_spec (p_buf s') e rest RV1 ltac:(lia)) as SB. rewrite HL in SB.
    destruct (q_skip rest) as [|c' t'].
    - rewrite SB. cbn [lift]. cbn [rbind]. exists (List.length b), s'. split; [reflexivity|].
      split; [apply skipn_all2; lia|].
      eapply ext_trans; [exact RV2|]. apply ext_refl; lia.
    - destruct SB as (o2 & -> & _). cbn [lift rbind]. exists s'. split; [reflexivity|].
      pose proof (ext_act _ _ _ _ RV2). cbn [pst0 p_act p_buf] in *. lia. }
  destruct (q_unmarshal_total b) as [(v & Ev)|(e & Ev)]; rewrite Ev in *; cbn [rbind refines] in G.
  - destruct G as (e & s' & G1 & G2 & G3). destruct (run_unmarshal E b); try discriminate.
    inversion G1; subst. eauto.
  - destruct G as (s' & G1 & G2). destruct (run_unmarshal E b); try discriminate.
    inversion G1; subst. cbn [pst0 p_act p_buf] in G2. exists s'. split; [reflexivity|lia].
Qed.
End Main.
