(** An environment whose float formatter writes the exact decimal expansion:
    it meets the contract of strconv.FormatFloat that C55 assumes, except that
    it does not choose the shortest text. *)
From Verif Require Import Base Float64 Value Unmarshal Access Opt Marshal SpecJson SpecText SpecRound SpecFloatText
  NumProof NumFacts RoundProof RoundClaims FloatTextProof ExampleWorld.

(** The last [k] digits of [n]. *)
Fixpoint fixed (k : nat) (n : Z) : bytes :=
  match k with O => [] | S k' => fixed k' (n / 10) ++ [48 + n mod 10] end.

(** Magnitude M * 2^q = N / 10^k. *)
Definition top10 (M q : Z) : Z := M * (if 0 <=? q then 2 ^ q else 5 ^ (- q)).
Definition places (q : Z) : nat := Z.to_nat (- q).

Definition exact_f (M q : Z) : bytes :=
  if 0 <=? q then dec_digits (top10 M q)
  else dec_digits (top10 M q / 10 ^ Z.of_nat (places q)) ++ 46 :: fixed (places q) (top10 M q).

Definition exact_e (M q : Z) : bytes :=
  match dec_digits (top10 M q) with
  | [] => []
  | c :: fd =>
    c :: match fd with [] => [] | _ => 46 :: fd end ++
    101 :: format_int (Z.of_nat (List.length fd) - Z.of_nat (places q))
  end.

Definition exact (f : spec_float) (fmt _prec _bits : Z) : bytes :=
  match parts f with
  | Some (s, M, q) => (if s then [45] else []) ++ (if fmt =? 101 then exact_e M q else exact_f M q)
  | None => []
  end.

Definition env_exact : Env := {|
  oor_i64 := oor_i64 env0; oor_u64 := oor_u64 env0; to_lower := to_lower env0;
  fmt_float := exact; json_float := json_float env0; to_f32 := to_f32 env0 |}.

Lemma fixed_digits k : forall n, 0 <= n -> Forall digit (fixed k n).
Proof.
  induction k as [|k IH]; intros n H; cbn [fixed]; [constructor|]. apply Forall_app. split.
  - apply IH. apply Z.div_pos; lia.
  - pose proof (Z.mod_pos_bound n 10 ltac:(lia)). constructor; [unfold digit; lia|constructor].
Qed.

Lemma fixed_length k : forall n, List.length (fixed k n) = k.
Proof. induction k as [|k IH]; intros n; cbn [fixed]; [reflexivity|]. rewrite app_length, IH. cbn. lia. Qed.

Lemma fixed_val k : forall n, 0 <= n -> digits_val (fixed k n) = n mod 10 ^ Z.of_nat k.
Proof.
  change digits_val with (dval 0). induction k as [|k IH]; intros n H; cbn [fixed].
  - change (10 ^ Z.of_nat 0) with 1. now rewrite Z.mod_1_r.
  - rewrite dval_app, (IH (n / 10)) by (apply Z.div_pos; lia).
    rewrite Nat2Z.inj_succ, Z.pow_succ_r by lia.
    assert (P : 0 < 10 ^ Z.of_nat k) by (apply Z.pow_pos_nonneg; lia).
    rewrite (Z.rem_mul_r n 10) by lia. cbn [dval fold_left]. lia.
Qed.

(** The exact value has no distance, hence is nearest to its float. *)
Lemma exact_nearest f s M q m e : float64 f s M q -> m * 10 ^ Z.max e 0 * 2 ^ 1074 = size M q * bottom e -> nearest s m e f.
Proof.
  intros (P & B & N) H. exists M, q. split; [exact P|]. split; [exact B|]. split; [exact N|].
  intros s' M' q' B'.
  assert (D : distance s m e (units s M q) = 0) by (rewrite distance_size, H, Z.sub_diag; reflexivity).
  rewrite D. split; [unfold distance; lia|]. intros X. left. symmetry in X. unfold distance in X. apply Z.abs_0_iff in X.
  assert (D' : top s m e - units s M q * bottom e = 0) by (apply Z.abs_0_iff; exact D).
  pose proof (bottom_pos e). apply Z.mul_reg_r with (p := bottom e); lia.
Qed.

Lemma exact_no_overflow M q m e : binary64 M q -> m * 10 ^ Z.max e 0 * 2 ^ 1074 = size M q * bottom e -> ~ overflows m e.
Proof.
  intros [B1 B2] H X. unfold overflows, top in X. rewrite !Z.mul_1_l, H in X.
  pose proof (bottom_pos e). assert (X' : (2 ^ 54 - 1) * 2 ^ 970 * 2 ^ 1074 <= size M q).
  { apply (Z.mul_le_mono_pos_r _ _ (bottom e)); assumption. }
  clear X H.
  unfold size in X'.
  assert (H : 2 ^ (q + 1074) <= 2 ^ (971 + 1074)) by (apply Z.pow_le_mono_r; lia).
  rewrite (Z.pow_add_r 2 971 1074) in H by lia. replace (2 ^ 971) with (2 * 2 ^ 970) in H by (symmetry; exact (Z.pow_succ_r 2 970 ltac:(lia))).
  rewrite E53 in B1. rewrite E54 in X'.
  assert (T : 0 < 2 ^ 1074) by (apply Z.pow_pos_nonneg; lia).
  assert (T' : 0 < 2 ^ 970) by (apply Z.pow_pos_nonneg; lia).
  assert (T2 : 0 <= 2 ^ (q + 1074)) by (apply Z.pow_nonneg; lia).
  set (a := 2 ^ 970) in *. set (b := 2 ^ 1074) in *. set (c := 2 ^ (q + 1074)) in *. clearbody a b c.
  assert (0 < a * b) by nia. nia.
Qed.

Lemma places_val q : Z.of_nat (places q) = Z.max (- q) 0.
Proof. unfold places. lia. Qed.

Lemma top10_size M q : binary64 M q -> let e := - Z.of_nat (places q) in
  top10 M q * 10 ^ Z.max e 0 * 2 ^ 1074 = size M q * bottom e.
Proof.
  intros [B1 B2]. cbn zeta. rewrite places_val. unfold top10, size, bottom.
  rewrite (Z.max_r (- Z.max (- q) 0)) by lia. rewrite Z.opp_involutive. rewrite (Z.max_l (Z.max (- q) 0)) by lia.
  rewrite Z.pow_0_r, Z.mul_1_r. destruct (Z.leb_spec 0 q) as [L|L].
  - rewrite Z.max_r by lia. rewrite Z.pow_0_r, Z.mul_1_r, Z.pow_add_r by lia. ring.
  - rewrite Z.max_l by lia. replace 1074 with (- q + (q + 1074)) at 1 by ring.
    rewrite Z.pow_add_r by lia. change 10 with (2 * 5). rewrite Z.pow_mul_l. ring.
Qed.

Lemma top10_nonneg M q : binary64 M q -> 0 <= top10 M q.
Proof.
  intros [B1 B2]. unfold top10. apply Z.mul_nonneg_nonneg; [lia|]. destruct (0 <=? q); apply Z.pow_nonneg; lia.
Qed.

Lemma top10_bound M q : binary64 M q -> top10 M q < 10 ^ 4000.
Proof.
  intros [B1 B2]. unfold top10.
  assert (X : (if 0 <=? q then 2 ^ q else 5 ^ (- q)) <= 10 ^ 1074).
  { destruct (Z.leb_spec 0 q).
    - transitivity (10 ^ q); [apply Z.pow_le_mono_l; lia|apply Z.pow_le_mono_r; lia].
    - transitivity (10 ^ (- q)); [apply Z.pow_le_mono_l; lia|apply Z.pow_le_mono_r; lia]. }
  assert (Y : 2 ^ 53 <= 10 ^ 53) by (apply Z.pow_le_mono_l; lia).
  assert (W : 10 ^ 53 * 10 ^ 1074 < 10 ^ 4000).
  { rewrite <- Z.pow_add_r by lia. apply Z.pow_lt_mono_r; lia. }
  assert (N : 0 <= (if 0 <=? q then 2 ^ q else 5 ^ (- q))) by (clear; destruct (0 <=? q); apply Z.pow_nonneg; lia).
  set (x := if 0 <=? q then 2 ^ q else 5 ^ (- q)) in *. set (a := 10 ^ 53) in *. set (b := 10 ^ 1074) in *.
  set (c := 10 ^ 4000) in *. set (d := 2 ^ 53) in *. clearbody x a b c d. nia.
Qed.

Lemma exact_exp e : exp_part (101 :: format_int e) e.
Proof.
  unfold format_int. destruct (Z.ltb_spec e 0) as [L|L].
  - destruct (dec_digits_spec (- e) ltac:(lia)) as [H1 H2]. destruct (int_part_digits _ H1) as [D N].
    replace e with (- digits_val (dec_digits (- e))) at 2 by lia. apply EP_minus; [now left|split; assumption].
  - destruct (dec_digits_spec e L) as [H1 H2]. destruct (int_part_digits _ H1) as [D N].
    replace e with (digits_val (dec_digits e)) at 2 by lia. apply EP_plain; [now left|split; assumption].
Qed.

Lemma exact_e_ok f s M q : float64 f s M q ->
  exists c fd e, num_lit (exact f 101 (-1) 64) s [c] fd e false /\ reads_as s [c] fd e f /\ Z.abs e <= 99999.
Proof.
  intros F. pose proof F as (P & B & N). unfold exact. rewrite P. change (101 =? 101) with true. cbn iota. unfold exact_e.
  pose proof (top10_nonneg M q B) as Hn. destruct (dec_digits_spec (top10 M q) Hn) as [H1 H2].
  destruct (dec_digits (top10 M q)) as [|c fd] eqn:Ed; [inversion H1|].
  destruct (int_part_digits _ H1) as [D _].
  set (e := Z.of_nat (List.length fd) - Z.of_nat (places q)).
  exists c, fd, e.
  assert (Hd : Forall digit fd) by now inversion D.
  assert (Hc : int_part [c]).
  { inversion H1; [constructor|]. apply IP_pos; [assumption|constructor]. }
  assert (V : digits_val ([c] ++ fd) = top10 M q) by exact H2.
  assert (X : e - Z.of_nat (List.length fd) = - Z.of_nat (places q)) by (unfold e; ring).
  pose proof (top10_size M q B) as S. cbn zeta in S.
  split; [|split; [split|]].
  - destruct fd as [|x fd].
    + pose proof (NumLit s [c] [] [] _ e Hc FP_none (exact_exp e)) as Y. cbn [app] in Y |- *. exact Y.
    + assert (Hd' : digits (x :: fd)) by (split; [discriminate|exact Hd]).
      pose proof (NumLit s [c] (46 :: x :: fd) (x :: fd) (101 :: format_int e) e Hc (FP_some (x :: fd) Hd') (exact_exp e)) as Y.
      cbn [app] in Y |- *. exact Y.
  - unfold lit_overflows. rewrite V, X. exact (exact_no_overflow M q _ _ B S).
  - unfold lit_nearest. rewrite V, X. exact (exact_nearest f s M q _ _ F S).
  - assert (HL : Z.of_nat (List.length (c :: fd)) <= 4000).
    { apply int_part_len; [exact H1|lia|]. rewrite H2. exact (top10_bound M q B). }
    cbn [List.length] in HL. unfold e. rewrite places_val in *. destruct B as [_ B]. lia.
Qed.

Lemma exact_f_ok f s M q : float64 f s M q ->
  exists ip fd i, num_lit (exact f 102 (-1) 64) s ip fd 0 i /\ reads_as s ip fd 0 f /\
    (size (2 ^ 53) 0 <= size M q -> i = true).
Proof.
  intros F. pose proof F as (P & B & N). unfold exact. rewrite P. change (102 =? 101) with false. cbn iota. unfold exact_f.
  pose proof (top10_nonneg M q B) as Hn. pose proof (top10_size M q B) as S. cbn zeta in S.
  destruct (Z.leb_spec 0 q) as [L|L].
  - destruct (dec_digits_spec (top10 M q) Hn) as [H1 H2].
    exists (dec_digits (top10 M q)), [], true.
    assert (Hp : Z.of_nat (places q) = 0) by (rewrite places_val; lia). rewrite Hp in S. change (- 0) with 0 in S.
    split; [|split; [split|auto]].
    + rewrite <- (app_nil_r (dec_digits (top10 M q))) at 1. exact (NumLit s _ [] [] [] 0 H1 FP_none EP_none).
    + unfold lit_overflows. rewrite app_nil_r, H2. exact (exact_no_overflow M q _ _ B S).
    + unfold lit_nearest. rewrite app_nil_r, H2. exact (exact_nearest f s M q _ _ F S).
  - set (k := places q) in *. set (T := top10 M q) in *.
    assert (P10 : 0 < 10 ^ Z.of_nat k) by (apply Z.pow_pos_nonneg; lia).
    assert (Hk : k <> 0%nat) by (unfold k, places; lia).
    destruct (dec_digits_spec (T / 10 ^ Z.of_nat k) ltac:(apply Z.div_pos; lia)) as [H1 H2].
    destruct (int_part_digits _ H1) as [D _].
    assert (V : digits_val (dec_digits (T / 10 ^ Z.of_nat k) ++ fixed k T) = T).
    { change digits_val with (dval 0) in *. rewrite dval_app, dval_acc, H2, fixed_length.
      change (dval 0) with digits_val. rewrite fixed_val by assumption. rewrite Z.mul_comm. symmetry. apply Z.div_mod. lia. }
    exists (dec_digits (T / 10 ^ Z.of_nat k)), (fixed k T), false.
    split; [|split; [split|]].
    + rewrite <- (app_nil_r (46 :: fixed k T)).
      refine (NumLit s _ (46 :: fixed k T) (fixed k T) [] 0 H1 (FP_some _ (conj _ (fixed_digits k T Hn))) EP_none).
      intros X. pose proof (fixed_length k T) as Y. rewrite X in Y. cbn in Y. congruence.
    + unfold lit_overflows. rewrite V, fixed_length. exact (exact_no_overflow M q _ _ B S).
    + unfold lit_nearest. rewrite V, fixed_length. exact (exact_nearest f s M q _ _ F S).
    + intros X. exfalso. unfold size in X. destruct B as [B1 B2].
      assert (2 ^ (q + 1074) <= 2 ^ (0 + 1074)) by (apply Z.pow_le_mono_r; lia).
      assert (0 < 2 ^ (0 + 1074)) by (apply Z.pow_pos_nonneg; lia).
      assert (0 <= 2 ^ (q + 1074)) by (apply Z.pow_nonneg; lia).
      set (a := 2 ^ (q + 1074)) in *. set (b := 2 ^ (0 + 1074)) in *. set (c := 2 ^ 53) in *. clearbody a b c. nia.
Qed.

Theorem exact_contract : format_contract env_exact.
Proof.
  intros f s M q F. split; [exact (exact_f_ok f s M q F)|exact (exact_e_ok f s M q F)].
Qed.

(** 3 * 10^19. *)
Lemma lost_float : float64 (S754_finite false 7324218750000000 12) false 7324218750000000 12 /\ too_wide false 7324218750000000 12.
Proof.
  split; [split; [reflexivity|]; split; [split|left]; lia|].
  unfold too_wide. rewrite (size_int 7324218750000000 12 30000000000000000000) by (lia || reflexivity).
  unfold size. assert (T : 0 < 2 ^ (0 + 1074)) by (apply Z.pow_pos_nonneg; lia).
  set (u := 2 ^ (0 + 1074)) in *. clearbody u. change (2 ^ 64) with 18446744073709551616. change (10 ^ 21) with 1000000000000000000000. lia.
Qed.

Theorem a_float_is_lost : exists f s M q, float64 f s M q /\
  forall E W o, format_contract E -> ~ survives E W o f.
Proof.
  destruct lost_float as [F T]. eexists. exists false, 7324218750000000, 12. split; [exact F|].
  intros E W o C. exact (float_lost E W o _ _ _ _ C F T).
Qed.

Theorem survives_iff E W o f s M q : format_contract E -> float64 f s M q -> ~ at_limit s M q ->
  (survives E W o f <-> ~ too_wide s M q).
Proof.
  intros C F A. split.
  - intros S T. exact (float_lost E W o f s M q C F T S).
  - intros T. exact (float_survives E W o f s M q C F T A).
Qed.

(** The text of a float and the float read back, [None] if the text is refused. *)
Definition way (f : spec_float) : res (bytes * option (spec_float)) :=
  let* t := marshal_opt env_exact world1 opt0 (new_float64 env_exact f) in
  let* r := unmarshal env_exact t in
  match r with
  | (v, None) => let* g := api_float64 env_exact v in Ok (t, Some g)
  | (_, Some _) => Ok (t, None)
  end.
