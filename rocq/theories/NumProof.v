(** Number literals: the state machine of the scanner on the RFC grammar. *)
From Verif Require Import Base Float64 Value Scan Unmarshal Pure ListLemmas SpecJson SpecValue.

(** *** Digit strings *)

Definition dval (acc : Z) (d : bytes) : Z := fold_left (fun a c => a * 10 + (c - 48)) d acc.

Ltac dv := change digits_val with (dval 0) in *.

Lemma dval_app acc a b : dval acc (a ++ b) = dval (dval acc a) b.
Proof. unfold dval. apply fold_left_app. Qed.

Lemma dval_acc d : forall acc, dval acc d = acc * 10 ^ Z.of_nat (List.length d) + dval 0 d.
Proof.
  induction d as [|c d IH]; intros acc; [simpl; lia|].
  change (dval acc (c :: d)) with (dval (acc * 10 + (c - 48)) d).
  change (dval 0 (c :: d)) with (dval (0 * 10 + (c - 48)) d).
  rewrite (IH (acc * 10 + (c - 48))), (IH (0 * 10 + (c - 48))).
  cbn [List.length]. rewrite Nat2Z.inj_succ, Z.pow_succ_r by lia. lia.
Qed.

Lemma dval_bounds d : Forall digit d -> 0 <= dval 0 d < 10 ^ Z.of_nat (List.length d).
Proof.
  induction d as [|c d IH]; intros H; [simpl; lia|].
  inversion H as [|? ? Hc Hd]; subst. specialize (IH Hd). unfold digit in Hc.
  change (dval 0 (c :: d)) with (dval (0 * 10 + (c - 48)) d).
  rewrite dval_acc. cbn [List.length]. rewrite Nat2Z.inj_succ, Z.pow_succ_r by lia. nia.
Qed.

Lemma dval_mono d acc : Forall digit d -> 0 <= acc -> acc <= dval acc d.
Proof.
  intros H Ha. rewrite dval_acc. pose proof (dval_bounds d H). nia.
Qed.

Lemma int_part_digits ip : int_part ip -> Forall digit ip /\ ip <> [].
Proof.
  intros H; inversion H; subst; split; try discriminate.
  - repeat constructor; unfold digit; lia.
  - constructor; [unfold digit; lia|assumption].
Qed.

(** *** Running the state machine *)

Fixpoint nrun (r : bytes) (pos : nat) (s : nst) : option nst :=
  match r with
  | [] => Some s
  | c :: t =>
    match num_step s c (pos =? 0)%nat (pos =? 1)%nat with
    | Ok (Some s') => nrun t (S pos) s'
    | _ => None
    end
  end.

Lemma nrun_app a b pos s :
  nrun (a ++ b) pos s =
  match nrun a pos s with Some s' => nrun b (pos + List.length a) s' | None => None end.
Proof.
  revert pos s; induction a as [|c a IH]; intros pos s; cbn [app nrun List.length].
  - now rewrite Nat.add_0_r.
  - destruct (num_step s c (pos =? 0)%nat (pos =? 1)%nat) as [[s'|]|e| |]; try reflexivity.
    rewrite IH. now rewrite Nat.add_succ_comm.
Qed.

(** Bytes that end a number. *)
Definition num_char (c : Z) : bool :=
  is_digit c || (c =? 101) || (c =? 69) || (c =? 43) || (c =? 45) || (c =? 46).
Definition stop (r : bytes) : Prop :=
  match r with [] => True | c :: _ => num_char c = false end.

Lemma num_step_stop s c x y : num_char c = false -> num_step s c x y = Ok None.
Proof.
  unfold num_char, is_digit, num_step. intros H.
  replace (c =? 48) with false by lia.
  replace ((49 <=? c) && (c <=? 57)) with false by lia.
  replace ((c =? 101) || (c =? 69)) with false by lia.
  replace (c =? 43) with false by lia.
  replace (c =? 45) with false by lia.
  replace (c =? 46) with false by lia. reflexivity.
Qed.

Lemma nrun_loop r rest : stop rest -> forall pos s s',
  nrun r pos s = Some s' -> q_num_loop (r ++ rest) pos s = Ok (s', r, rest).
Proof.
  intros Hst. induction r as [|c r IH]; intros pos s s' H; cbn [nrun app] in *.
  - inversion H; subst. destruct rest as [|c rest]; [reflexivity|].
    cbn [q_num_loop]. rewrite num_step_stop by exact Hst. reflexivity.
  - cbn [q_num_loop].
    destruct (num_step s c (pos =? 0)%nat (pos =? 1)%nat) as [[s1|]|e| |]; try discriminate.
    cbn [rbind]. rewrite (IH _ _ _ H). reflexivity.
Qed.

Definition mkst (neg flt exp dot iad : bool) (i : Z) : nst :=
  {| s_neg := neg; s_flt := flt; s_exp := exp; s_dot := dot; s_iad := iad; s_int := i |}.

Lemma wrap_u64_step a d : wrap_u64 (wrap_u64 a * 10 + d) = wrap_u64 (a * 10 + d).
Proof.
  unfold wrap_u64. rewrite <- Z.add_mod_idemp_l by (unfold two64; lia).
  rewrite Z.mul_mod_idemp_l by (unfold two64; lia).
  now rewrite Z.add_mod_idemp_l by (unfold two64; lia).
Qed.

(** Further integer digits. *)
Lemma nrun_int neg : forall ds p pos,
  Forall digit ds -> p <> [] -> (1 <= pos)%nat -> (neg = true -> (2 <= pos)%nat) ->
  (forall p' q, p ++ ds = p' ++ 48 :: q -> (List.length p <= List.length p')%nat ->
                digits_val p' mod two64 <> 0) ->
  nrun ds pos (mkst neg false false false false (wrap_u64 (digits_val p)))
  = Some (mkst neg false false false false (wrap_u64 (digits_val (p ++ ds)))).
Proof.
  induction ds as [|c ds IH]; intros p pos Hd Hp Hpos Hneg Hw.
  - rewrite app_nil_r. reflexivity.
  - inversion Hd as [|? ? Hc Hds]; subst. unfold digit in Hc.
    assert (Hval : digits_val (p ++ [c]) = digits_val p * 10 + (c - 48)).
    { dv; rewrite dval_app. reflexivity. }
    assert (Hstep : num_step (mkst neg false false false false (wrap_u64 (digits_val p))) c
              (pos =? 0)%nat (pos =? 1)%nat
            = Ok (Some (mkst neg false false false false (wrap_u64 (digits_val (p ++ [c])))))).
    { rewrite Hval, <- wrap_u64_step. unfold num_step, mkst.
      cbn [s_neg s_flt s_exp s_dot s_iad s_int].
      replace (pos =? 0)%nat with false by (symmetry; apply Nat.eqb_neq; lia).
      destruct (Z.eqb_spec c 48) as [->|Hc48].
      - assert (Hz : (wrap_u64 (digits_val p) =? 0) = false).
        { apply Z.eqb_neq. apply (Hw p ds); [reflexivity|lia]. }
        rewrite Hz. cbn [andb]. destruct neg; do 3 f_equal; unfold wrap_u64; f_equal; lia.
      - replace ((49 <=? c) && (c <=? 57)) with true by lia. cbn [negb].
        do 3 f_equal. unfold wrap_u64; f_equal; lia. }
    cbn [nrun]. rewrite Hstep.
    replace (p ++ c :: ds) with ((p ++ [c]) ++ ds) by (rewrite <- app_assoc; reflexivity).
    apply IH; try assumption.
    + destruct p; discriminate.
    + lia.
    + intros; lia.
    + intros p' q E HL. rewrite app_length in HL. apply (Hw p' q).
      * rewrite <- E, <- app_assoc. reflexivity.
      * simpl in HL; lia.
Qed.

Lemma nrun_int_part (neg : bool) ip :
  int_part ip -> no_wrap ip ->
  nrun ((if neg then [45] else []) ++ ip) 0 nst0
  = Some (mkst neg false false false false (wrap_u64 (digits_val ip))).
Proof.
  intros Hip Hw. rewrite nrun_app.
  assert (Hs : nrun (if neg then [45] else []) 0 nst0 = Some (mkst neg false false false false 0))
    by (destruct neg; reflexivity).
  rewrite Hs.
  set (pos := (0 + List.length (if neg then [45%Z] else []))%nat).
  assert (Hpos : pos = if neg then 1%nat else 0%nat) by (unfold pos; destruct neg; reflexivity).
  inversion Hip as [|c d Hc Hd]; subst ip.
  - rewrite Hpos. destruct neg; reflexivity.
  - assert (Hfirst : num_step (mkst neg false false false false 0) c (pos =? 0)%nat (pos =? 1)%nat
        = Ok (Some (mkst neg false false false false (wrap_u64 (digits_val [c]))))).
    { unfold num_step, mkst. cbn [s_neg s_flt s_exp s_dot s_iad s_int].
      replace (c =? 48) with false by lia.
      replace ((49 <=? c) && (c <=? 57)) with true by lia. cbn [negb].
      dv. unfold dval; simpl fold_left. do 3 f_equal; try (unfold wrap_u64; f_equal; lia). }
    cbn [nrun]. rewrite Hfirst.
    change (c :: d) with ([c] ++ d). apply nrun_int; try assumption; try discriminate.
    + lia.
    + intros ->. lia.
    + intros p' q E HL. apply (Hw p' q E). destruct p'; [simpl in HL; lia|discriminate].
Qed.

Lemma nrun_frac_digits neg : forall ds pos k iad,
  Forall digit ds -> (1 <= pos)%nat ->
  exists k', nrun ds pos (mkst neg true false true iad k)
  = Some (mkst neg true false true (match ds with [] => iad | _ => true end) k').
Proof.
  induction ds as [|c ds IH]; intros pos k iad Hd Hpos; [eexists; reflexivity|].
  inversion Hd as [|? ? Hc Hds]; subst. unfold digit in Hc. cbn [nrun].
  unfold num_step, mkst. cbn [s_neg s_flt s_exp s_dot s_iad s_int].
  replace (pos =? 0)%nat with false by (symmetry; apply Nat.eqb_neq; lia).
  assert (R : forall k0, exists k', nrun ds (S pos) (mkst neg true false true true k0)
              = Some (mkst neg true false true true k')).
  { intros k0. destruct (IH (S pos) k0 true Hds ltac:(lia)) as (k' & E). exists k'.
    rewrite E. destruct ds; reflexivity. }
  destruct (Z.eqb_spec c 48) as [->|Hc48]; cbn iota.
  - apply R.
  - replace ((49 <=? c) && (c <=? 57)) with true by lia. cbn [negb]. apply R.
Qed.

Lemma nrun_exp_digits neg dot iad : forall ds pos k,
  Forall digit ds -> (1 <= pos)%nat ->
  exists k', nrun ds pos (mkst neg true true dot iad k) = Some (mkst neg true true dot iad k').
Proof.
  induction ds as [|c ds IH]; intros pos k Hd Hpos; [eexists; reflexivity|].
  inversion Hd as [|? ? Hc Hds]; subst. unfold digit in Hc. cbn [nrun].
  unfold num_step, mkst. cbn [s_neg s_flt s_exp s_dot s_iad s_int].
  replace (pos =? 0)%nat with false by (symmetry; apply Nat.eqb_neq; lia).
  destruct (Z.eqb_spec c 48) as [->|Hc48]; cbn iota.
  - apply IH; [assumption|lia].
  - replace ((49 <=? c) && (c <=? 57)) with true by lia. cbn [negb]. apply IH; [assumption|lia].
Qed.

Lemma nrun_frac neg fr fd pos k :
  frac_part fr fd -> (1 <= pos)%nat ->
  exists k', nrun fr pos (mkst neg false false false false k)
  = Some (match fr with [] => mkst neg false false false false k
          | _ => mkst neg true false true true k' end).
Proof.
  intros H Hpos. inversion H as [|d [Hne Hd]]; subst; [exists 0; reflexivity|].
  cbn [nrun].
  replace (pos =? 0)%nat with false by (symmetry; apply Nat.eqb_neq; lia).
  change (num_step (mkst neg false false false false k) 46 false (pos =? 1)%nat)
    with (@Ok (option nst) (Some (mkst neg true false true false k))). cbn iota.
  destruct (nrun_frac_digits neg fd (S pos) k false Hd ltac:(lia)) as (k' & E).
  exists k'. rewrite E. destruct fd; [congruence|reflexivity].
Qed.

Lemma nrun_exp neg flt dot iad ex e pos k :
  exp_part ex e -> (1 <= pos)%nat ->
  exists k', nrun ex pos (mkst neg flt false dot iad k)
  = Some (match ex with [] => mkst neg flt false dot iad k
          | _ => mkst neg true true dot iad k' end).
Proof.
  intros H Hpos.
  assert (He : forall c, c = 101 \/ c = 69 -> forall x y,
            num_step (mkst neg flt false dot iad k) c x y = Ok (Some (mkst neg true true dot iad k))).
  { intros c [->| ->] x y; reflexivity. }
  inversion H as [|c d Hc [Hne Hd]|c d Hc [Hne Hd]|c d Hc [Hne Hd]]; subst.
  - exists 0; reflexivity.
  - cbn [nrun]. rewrite He by assumption.
    destruct (nrun_exp_digits neg dot iad d (S pos) k Hd ltac:(lia)) as (k' & E).
    exists k'. exact E.
  - cbn [nrun]. rewrite He by assumption.
    replace (num_step (mkst neg true true dot iad k) 43 (S pos =? 0)%nat (S pos =? 1)%nat)
      with (@Ok (option nst) (Some (mkst neg true true dot iad k))) by reflexivity.
    destruct (nrun_exp_digits neg dot iad d (S (S pos)) k Hd ltac:(lia)) as (k' & E).
    exists k'. exact E.
  - cbn [nrun]. rewrite He by assumption.
    replace (num_step (mkst neg true true dot iad k) 45 (S pos =? 0)%nat (S pos =? 1)%nat)
      with (@Ok (option nst) (Some (mkst neg true true dot iad k))) by reflexivity.
    destruct (nrun_exp_digits neg dot iad d (S (S pos)) k Hd ltac:(lia)) as (k' & E).
    exists k'. exact E.
Qed.

(** *** strconv.ParseFloat on the grammar *)

Definition not_digit_head (r : bytes) : Prop :=
  match r with [] => True | c :: _ => is_digit c = false end.

Lemma read_digits_spec d rest : Forall digit d -> not_digit_head rest ->
  forall acc cnt, read_digits (d ++ rest) acc cnt = (dval acc d, (cnt + List.length d)%nat, rest).
Proof.
  intros Hd Hr. induction Hd as [|c d Hc Hd IH]; intros acc cnt; cbn [app].
  - replace (cnt + List.length (@nil Z))%nat with cnt by (simpl; lia).
    destruct rest as [|c rest]; [reflexivity|]. cbn [read_digits]. simpl in Hr. now rewrite Hr.
  - cbn [read_digits]. unfold digit in Hc.
    replace (is_digit c) with true by (unfold is_digit; lia).
    rewrite IH. cbn [List.length]. f_equal. f_equal. lia.
Qed.

Lemma read_exp_spec d : Forall digit d -> forall acc cnt,
  0 <= acc -> dval acc d <= 99999 ->
  read_exp d acc cnt = (dval acc d, (cnt + List.length d)%nat, []).
Proof.
  induction 1 as [|c d Hc Hd IH]; intros acc cnt Ha Hb.
  - cbn. now rewrite Nat.add_0_r.
  - cbn [read_exp]. unfold digit in Hc.
    replace (is_digit c) with true by (unfold is_digit; lia).
    change (dval acc (c :: d)) with (dval (acc * 10 + (c - 48)) d) in *.
    pose proof (dval_mono d (acc * 10 + (c - 48)) Hd ltac:(lia)).
    replace (acc <? 10000) with true by lia.
    rewrite IH by lia. cbn [List.length]. f_equal. f_equal. lia.
Qed.

Lemma frac_exp_head fr fd ex e : frac_part fr fd -> exp_part ex e -> not_digit_head (fr ++ ex).
Proof.
  intros Hf He. inversion Hf; subst; cbn; [|reflexivity].
  inversion He as [|c d [->| ->]|c d [->| ->]|c d [->| ->]]; subst; cbn; auto.
Qed.

Lemma exp_head ex e : exp_part ex e -> not_digit_head ex.
Proof.
  intros He. inversion He as [|c d [->| ->]|c d [->| ->]|c d [->| ->]]; subst; cbn; auto.
Qed.

Lemma digit_enum c : digit c ->
  c = 48 \/ c = 49 \/ c = 50 \/ c = 51 \/ c = 52 \/ c = 53 \/ c = 54 \/ c = 55 \/ c = 56 \/ c = 57.
Proof. unfold digit. lia. Qed.

Lemma parse_float_gen (neg : bool) ip fr fd ex e :
  Forall digit ip -> (ip = [] -> neg = true) -> frac_part fr fd -> exp_part ex e -> Z.abs e <= 99999 ->
  ip ++ fd <> [] ->
  parse_float ((if neg then [45] else []) ++ ip ++ fr ++ ex) =
  match lit_f64 neg ip fd e with S754_infinity _ => None | f => Some f end.
Proof.
  intros Hd Hcase Hfr Hex He Hne.
  unfold parse_float.
  assert (Hsign : (match (if neg then [45] else []) ++ ip ++ fr ++ ex with
                   | 43 :: r => (false, r)
                   | 45 :: r => (true, r)
                   | _ => (false, (if neg then [45] else []) ++ ip ++ fr ++ ex)
                   end) = (neg, ip ++ fr ++ ex)).
  { destruct neg; [reflexivity|]. destruct ip as [|c ip]; [now specialize (Hcase eq_refl)|].
    inversion Hd as [|? ? Hc _]; subst. apply digit_enum in Hc.
    repeat (destruct Hc as [->|Hc]; [reflexivity|]). subst c; reflexivity. }
  rewrite Hsign.
  rewrite (read_digits_spec ip (fr ++ ex) Hd (frac_exp_head _ _ _ _ Hfr Hex)). cbn [Nat.add].
  assert (Hfrac : (match fr ++ ex with
                   | 46 :: r => let '(m, nf, s3) := read_digits r (dval 0 ip) 0 in (m, nf, s3)
                   | _ => (dval 0 ip, 0%nat, fr ++ ex)
                   end) = (digits_val (ip ++ fd), List.length fd, ex)).
  { dv; rewrite dval_app. inversion Hfr as [|d [Hdne Hdd]]; subst; cbn [app].
    - inversion Hex as [|c d [->| ->]|c d [->| ->]|c d [->| ->]]; subst; reflexivity.
    - rewrite (read_digits_spec fd ex Hdd (exp_head _ _ Hex)). reflexivity. }
  rewrite Hfrac.
  replace ((List.length ip + List.length fd =? 0)%nat) with false
    by (symmetry; apply Nat.eqb_neq; rewrite <- app_length; destruct (ip ++ fd); [congruence|simpl; lia]).
  assert (Hfin : forall e', e' = e ->
     match f_of_dec neg (digits_val (ip ++ fd)) (e' - Z.of_nat (List.length fd)) with
     | S754_infinity _ => None
     | _ => Some (f_of_dec neg (digits_val (ip ++ fd)) (e' - Z.of_nat (List.length fd)))
     end = match lit_f64 neg ip fd e with S754_infinity _ => None | f => Some f end).
  { intros e' ->. unfold lit_f64.
    destruct (f_of_dec neg (digits_val (ip ++ fd)) (e - Z.of_nat (List.length fd))); reflexivity. }
  inversion Hex as [|c d Hc [Hdne Hdd]|c d Hc [Hdne Hdd]|c d Hc [Hdne Hdd]]; subst.
  - apply Hfin. reflexivity.
  - replace ((c =? 101) || (c =? 69)) with true by lia.
    assert (Hnosign : (match d with
              | 43 :: r' => (1, r') | 45 :: r' => (-1, r') | _ => (1, d) end) = (1, d)).
    { destruct d as [|x d]; [congruence|]. inversion Hdd as [|? ? Hx _]; subst. apply digit_enum in Hx.
      repeat (destruct Hx as [->|Hx]; [reflexivity|]). subst x; reflexivity. }
    rewrite Hnosign. dv.
    pose proof (dval_bounds d Hdd) as Hb.
    rewrite (read_exp_spec d Hdd) by lia.
    replace ((0 + List.length d =? 0)%nat) with false
      by (symmetry; apply Nat.eqb_neq; destruct d; [congruence|simpl; lia]).
    apply Hfin. dv. lia.
  - replace ((c =? 101) || (c =? 69)) with true by lia.
    dv. pose proof (dval_bounds d Hdd) as Hb.
    rewrite (read_exp_spec d Hdd) by lia.
    replace ((0 + List.length d =? 0)%nat) with false
      by (symmetry; apply Nat.eqb_neq; destruct d; [congruence|simpl; lia]).
    apply Hfin. dv. lia.
  - replace ((c =? 101) || (c =? 69)) with true by lia.
    dv. pose proof (dval_bounds d Hdd) as Hb.
    rewrite (read_exp_spec d Hdd) by lia.
    replace ((0 + List.length d =? 0)%nat) with false
      by (symmetry; apply Nat.eqb_neq; destruct d; [congruence|simpl; lia]).
    apply Hfin. dv. lia.
Qed.

Lemma parse_float_spec (neg : bool) ip fr fd ex e :
  int_part ip -> frac_part fr fd -> exp_part ex e -> Z.abs e <= 99999 ->
  parse_float ((if neg then [45] else []) ++ ip ++ fr ++ ex) =
  match lit_f64 neg ip fd e with S754_infinity _ => None | f => Some f end.
Proof.
  intros Hip Hfr Hex He. destruct (int_part_digits ip Hip) as [Hd Hne].
  apply parse_float_gen; try assumption; [congruence|]. destruct ip; [congruence|discriminate].
Qed.

(** *** Integer literals *)

Lemma int_part_lower ip : int_part ip -> digits_val ip <> 0 ->
  10 ^ (Z.of_nat (List.length ip) - 1) <= digits_val ip.
Proof.
  intros H Hnz. inversion H as [|c d Hc Hd]; subst; [cbn in Hnz; lia|].
  dv. change (dval 0 (c :: d)) with (dval (0 * 10 + (c - 48)) d).
  rewrite dval_acc. pose proof (dval_bounds d Hd). cbn [List.length].
  replace (Z.of_nat (S (List.length d)) - 1) with (Z.of_nat (List.length d)) by lia. nia.
Qed.

Lemma int_part_len ip k : int_part ip -> 0 < k -> digits_val ip < 10 ^ k -> Z.of_nat (List.length ip) <= k.
Proof.
  intros H Hk Hlt.
  destruct (Z.eq_dec (digits_val ip) 0) as [Hz|Hnz].
  - inversion H as [|c d Hc Hd]; subst; [simpl; lia|].
    exfalso. dv. change (dval 0 (c :: d)) with (dval (0 * 10 + (c - 48)) d) in Hz.
    rewrite dval_acc in Hz. pose proof (dval_bounds d Hd).
    assert (0 < 10 ^ Z.of_nat (List.length d)) by (apply Z.pow_pos_nonneg; lia). nia.
  - pose proof (int_part_lower ip H Hnz) as Hl.
    destruct (Z_le_gt_dec (Z.of_nat (List.length ip)) k); [assumption|].
    assert (10 ^ k <= 10 ^ (Z.of_nat (List.length ip) - 1)) by (apply Z.pow_le_mono_r; lia). lia.
Qed.

Lemma f_opp_norm p : f_opp (f_of_Z (Z.pos p)) = binary_normalize prec emax (Z.neg p) 0 true.
Proof.
  unfold f_of_Z, f_opp. cbn [binary_normalize]. unfold binary_round.
  destruct (shl_align p 0 _) as [mz ez].
  unfold binary_round_aux.
  repeat match goal with
  | |- context [let '(_, _) := ?x in _] => destruct x
  | |- context [match ?x with Z0 => _ | Z.pos _ => _ | Z.neg _ => _ end] => destruct x
  | |- context [if ?x then _ else _] => destruct x
  end; reflexivity.
Qed.

Lemma f_of_dec_int m : 0 <= m -> f_of_dec false m 0 = f_of_Z m.
Proof.
  intros H. destruct m as [|p|p]; [reflexivity| |lia].
  cbn [f_of_dec]. change (0 <=? 0) with true. cbn iota. rewrite Z.pow_0_r, Z.mul_1_r. reflexivity.
Qed.
Lemma f_of_dec_negint m : 0 <= m -> f_of_dec true m 0 = f_opp (f_of_Z m).
Proof.
  intros H. destruct m as [|p|p]; [reflexivity| |lia].
  rewrite f_opp_norm. cbn [f_of_dec]. change (0 <=? 0) with true. cbn iota.
  rewrite Z.pow_0_r, Z.mul_1_r. reflexivity.
Qed.

Lemma no_wrap_small ip : Forall digit ip -> int_part ip -> digits_val ip < two64 -> no_wrap ip.
Proof.
  intros Hd Hip Hlt p q E Hp Hmod. subst ip.
  assert (Hdp : Forall digit p) by (apply Forall_app in Hd; tauto).
  assert (Hpos : 0 < digits_val p).
  { inversion Hip as [E0|c d Hc Hdd E0].
    - destruct p as [|x p]; [congruence|]. destruct p; discriminate.
    - destruct p as [|x p]; [congruence|]. inversion E0; subst x.
      dv. change (dval 0 (c :: p)) with (dval (0 * 10 + (c - 48)) p).
      inversion Hdp; subst.
      pose proof (dval_mono p (0 * 10 + (c - 48)) ltac:(assumption) ltac:(lia)). lia. }
  assert (Hle : digits_val p <= digits_val (p ++ 48 :: q)).
  { dv; rewrite dval_app. apply dval_mono; [apply Forall_app in Hd; tauto|].
    pose proof (dval_bounds p Hdp). lia. }
  rewrite Z.mod_small in Hmod by lia. lia.
Qed.

Lemma wrap_i64_small z : - two63 <= z < two63 -> wrap_i64 z = z.
Proof. unfold wrap_i64, two63, two64. intros H. rewrite Z.mod_small by lia. lia. Qed.
Lemma wrap_u64_small z : 0 <= z < two64 -> wrap_u64 z = z.
Proof. unfold wrap_u64. intros H. now rewrite Z.mod_small by lia. Qed.

Lemma q_number_fits E lit neg ip fd e i rest :
  num_lit lit neg ip fd e i ->
  (if i then (if neg then digits_val ip <= two63 else digits_val ip < two64)
   else finite64 (lit_f64 neg ip fd e) /\ Z.abs e <= 99999 /\ no_wrap ip) -> stop rest ->
  exists n, q_number E (lit ++ rest) = Ok (VNum n lit, rest) /\ num_denotes n neg ip fd e i.
Proof.
  intros HL Hfit Hst.
  inversion HL as [neg' ip' fr fd' ex e' Hip Hfr Hex]; subst.
  destruct (int_part_digits ip Hip) as [Hd Hne].
  set (lit := (if neg then [45] else []) ++ ip ++ fr ++ ex) in *.
  assert (Hnw : no_wrap ip).
  { destruct (fr ++ ex); [|tauto]. apply no_wrap_small; try assumption.
    destruct neg; unfold two64, two63 in *; lia. }
  assert (Hpos1 : (1 <= 0 + List.length ((if neg then [45%Z] else []) ++ ip))%nat).
  { rewrite app_length. destruct ip; [congruence|simpl; lia]. }
  (* final state *)
  destruct (nrun_frac neg fr fd _ (wrap_u64 (digits_val ip)) Hfr Hpos1) as (k1 & Hrf).
  set (s1 := match fr with [] => mkst neg false false false false (wrap_u64 (digits_val ip))
             | _ => mkst neg true false true true k1 end) in *.
  assert (Hrun : exists k2, nrun lit 0 nst0 =
     Some (match ex with
           | [] => s1
           | _ => match fr with [] => mkst neg true true false false k2
                  | _ => mkst neg true true true true k2 end
           end)).
  { unfold lit. rewrite app_assoc, nrun_app, (nrun_int_part neg ip Hip Hnw), nrun_app, Hrf.
    match goal with |- context [nrun ex ?p s1] => set (pos := p) end.
    assert (Hp : (1 <= pos)%nat) by (unfold pos; lia).
    unfold s1. destruct fr as [|x fr'].
    - destruct (nrun_exp neg false false false ex e pos (wrap_u64 (digits_val ip)) Hex Hp) as (k2 & Er).
      exists k2. rewrite Er. destruct ex; reflexivity.
    - destruct (nrun_exp neg true true true ex e pos k1 Hex Hp) as (k2 & Er).
      exists k2. rewrite Er. destruct ex; reflexivity. }
  destruct Hrun as (k2 & Hrun).
  unfold q_number. rewrite (nrun_loop _ _ Hst _ _ _ Hrun). cbn [rbind].
  assert (Hlne : exists c0 r0, lit = c0 :: r0).
  { unfold lit. destruct neg; [simpl; eauto|]. destruct ip; [congruence|simpl; eauto]. }
  assert (Hpf : Z.abs e <= 99999 -> parse_float lit =
            match lit_f64 neg ip fd e with S754_infinity _ => None | f => Some f end).
  { intros He. apply parse_float_spec; assumption. }
  destruct (fr ++ ex) as [|y fe] eqn:Efe.
  - (* integer literal *)
    apply app_eq_nil in Efe as [-> ->].
    assert (fd = []) by (inversion Hfr; reflexivity). subst fd.
    assert (e = 0) by (inversion Hex; reflexivity). subst e.
    unfold s1. unfold q_num_value. destruct Hlne as (c0 & r0 & Elit). rewrite Elit.
    cbn [s_flt s_int s_neg mkst].
    assert (Hb : 0 <= digits_val ip < two64).
    { dv. pose proof (dval_bounds ip Hd). idtac.
      split; [dv; lia|]. destruct neg; unfold two63, two64 in *; lia. }
    rewrite wrap_u64_small by assumption.
    assert (Hlen : (Z.of_nat (List.length (c0 :: r0)) = Z.of_nat (List.length ip) + if neg then 1 else 0)).
    { rewrite <- Elit. unfold lit. rewrite !app_length. destruct neg; simpl; lia. }
    assert (Hc0 : (0 <? digits_val ip) && (c0 =? 48) = false).
    { unfold lit in Elit. destruct neg; [inversion Elit; subst; lia|].
      inversion Hip as [Ez|c d Hc Hdd Ez]; subst ip; inversion Elit; subst.
      - cbn. reflexivity.
      - replace (c0 =? 48) with false by lia. apply andb_false_r. }
    rewrite Hc0.
    assert (Hl1 : (List.length (c0 :: r0) =? 1)%nat && negb ((48 <=? c0) && (c0 <=? 57)) = false).
    { destruct neg.
      - replace (List.length (c0 :: r0) =? 1)%nat with false; [reflexivity|].
        symmetry. apply Nat.eqb_neq. destruct ip; [congruence|]. cbn [List.length] in *. lia.
      - unfold lit in Elit. destruct ip as [|x ip']; [congruence|]. inversion Elit; subst.
        inversion Hd as [|? ? Hx _]; subst. unfold digit in Hx.
        replace ((48 <=? c0) && (c0 <=? 57)) with true by lia. apply andb_false_r. }
    rewrite Hl1.
    unfold num_denotes, lit_f64. rewrite app_nil_r. cbn [List.length]. change (0 - Z.of_nat 0) with 0.
    destruct neg.
    + unfold q_neg.
      assert (HL20 : (List.length (c0 :: r0) <= 20)%nat).
      { pose proof (int_part_len ip 19 Hip ltac:(lia)). unfold two63 in Hfit. lia. }
      replace (20 <? List.length (c0 :: r0))%nat with false by (symmetry; apply Nat.ltb_ge; lia).
      replace (two63 <? digits_val ip) with false by lia. rewrite andb_false_r.
      cbn [rbind]. eexists. split; [rewrite <- Elit; reflexivity|].
      cbn [n_f64 n_flt n_neg n_i64 n_u64]. split; [symmetry; apply f_of_dec_negint; lia|].
      repeat split; try discriminate.
      intros _. destruct (Z.eqb_spec (digits_val ip) two63) as [Eq|Ne]; [lia|].
      rewrite (wrap_i64_small (digits_val ip)) by (unfold two63 in *; lia).
      apply wrap_i64_small. unfold two63 in *; lia.
    + unfold q_pos.
      assert (HL20 : (List.length (c0 :: r0) <= 20)%nat).
      { pose proof (int_part_len ip 20 Hip ltac:(lia)). unfold two64 in Hfit. lia. }
      replace (20 <? List.length (c0 :: r0))%nat with false by (symmetry; apply Nat.ltb_ge; lia).
      assert (H20 : (List.length (c0 :: r0) =? 20)%nat && (digits_val ip <? 10000000000000000000) = false).
      { destruct (Nat.eqb_spec (List.length (c0 :: r0)) 20) as [E20|]; [|reflexivity].
        cbn [andb]. assert (Z.of_nat (List.length ip) = 20) by lia.
        assert (digits_val ip <> 0).
        { intros Z0. inversion Hip as [Ez|c d Hc Hdd Ez]; subst ip; [simpl in *; lia|].
          dv. change (dval 0 (c :: d)) with (dval (0 * 10 + (c - 48)) d) in Z0.
          pose proof (dval_mono d (0 * 10 + (c - 48)) Hdd ltac:(lia)). lia. }
        pose proof (int_part_lower ip Hip ltac:(assumption)).
        replace (Z.of_nat (List.length ip) - 1) with 19 in * by lia. lia. }
      rewrite H20. cbn [rbind]. eexists. split; [rewrite <- Elit; reflexivity|].
      cbn [n_f64 n_flt n_neg n_i64 n_u64]. split; [symmetry; apply f_of_dec_int; lia|].
      repeat split; try discriminate.
      intros Hs. apply wrap_i64_small. unfold two63 in *; lia.
  - (* float literal *)
    destruct Hfit as (Hfin & He & _).
    assert (Hval : q_num_value E
        (match ex with
           | [] => s1
           | _ => match fr with [] => mkst neg true true false false k2
                  | _ => mkst neg true true true true k2 end
           end) lit = q_float E lit).
    { unfold q_num_value. destruct Hlne as (c0 & r0 & Elit). rewrite Elit.
      unfold s1. destruct ex as [|x ex']; destruct fr as [|z fr']; try discriminate; reflexivity. }
    rewrite Hval. unfold q_float. rewrite (Hpf He).
    unfold num_denotes.
    destruct (lit_f64 neg ip fd e) eqn:Ef; cbn in Hfin; try contradiction; cbn [rbind];
      eexists; (split; [reflexivity|]); split; reflexivity.
Qed.

Lemma q_number_complete E lit neg ip fd e i rest :
  num_lit lit neg ip fd e i -> lit_ok lit -> stop rest ->
  exists n, q_number E (lit ++ rest) = Ok (VNum n lit, rest) /\ num_denotes n neg ip fd e i.
Proof. intros HL Hok. exact (q_number_fits E lit neg ip fd e i rest HL (Hok _ _ _ _ _ HL)). Qed.
