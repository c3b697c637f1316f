(** The formats of NewFloat64f and NewFloat32f (C61). *)
From Verif Require Import Base Float64 Value Access Unmarshal Opt Marshal Typed SpecJson SpecRound SpecFloatText SpecStdFloat SpecFormat
  NumProof LaxNum FloatTextProof ExactFormat ExampleWorld.

Lemma valid_format_in c : valid_format c = true <-> In c formats.
Proof.
  unfold valid_format, formats. cbn [In]. rewrite !orb_true_iff, !Z.eqb_eq. intuition congruence.
Qed.
Lemma format_used c c' : uses_format c c' -> (if valid_format c then c else 103) = c'.
Proof.
  intros [A B]. destruct (valid_format c) eqn:Ev; symmetry.
  - apply A, valid_format_in, Ev.
  - apply B. rewrite <- valid_format_in. congruence.
Qed.
Lemma finite_is_valid f s M q : float64 f s M q -> is_valid_float f = true.
Proof. intros (H & _). destruct f; try reflexivity; discriminate. Qed.

Lemma float64f_text E f c c' p : uses_format c c' ->
  (forall s M q, float64 f s M q -> text_of (new_float64f E f c p) = Some (fmt_float E f c' p 64)) /\
  ((f = S754_nan \/ exists s, f = S754_infinity s) -> text_of (new_float64f E f c p) = Some []) /\
  api_float64 E (new_float64f E f c p) = Ok f.
Proof.
  intros Hc. unfold new_float64f, new_float64f_, text_of. rewrite (format_used _ _ Hc). split; [|split].
  - intros s M q Hf. now rewrite (finite_is_valid _ _ _ _ Hf).
  - now intros [->|[s ->]].
  - reflexivity.
Qed.

Lemma float64f_reread E W o f c s M q : short_contract E -> float64 f s M q -> c <> 102 ->
  reread E W o (new_float64f E f c (-1)) f.
Proof.
  intros C F Hc.
  assert (G : In (if valid_format c then c else 103) [69; 101; 71; 103]).
  { destruct (valid_format c) eqn:Ev; [|cbn; tauto]. apply valid_format_in in Ev. cbn in *. intuition congruence. }
  unfold new_float64f. set (c' := if valid_format c then c else 103) in *. clearbody c'.
  destruct (C f s M q c' F G) as (ip & fd & e & i & HL & HR & He & Hip).
  destruct (num_lit_parts _ _ _ _ _ _ HL) as (Hi & D1 & D2 & _).
  destruct (lit_reads E _ _ _ _ _ _ f M q HL) as (v & H1 & H2); [|exact HR|exact F|].
  - destruct i; [destruct s; unfold two63, two64; lia|]. split; [exact He|]. apply no_wrap_small; auto. unfold two64. lia.
  - exists (fmt_float E f c' (-1) 64), v. split; [|auto]. unfold new_float64f_. rewrite (finite_is_valid _ _ _ _ F).
    destruct (num_lit_ne _ _ _ _ _ _ HL) as (x & r & ->). reflexivity.
Qed.

Lemma float64f_lost E W o f s M q : format_contract E -> float64 f s M q -> too_wide s M q ->
  ~ reread E W o (new_float64f E f 102 (-1)) f.
Proof.
  intros C F T. pose proof (float_lost E W o f s M q C F T) as H. unfold survives, new_float64 in H. fold (e_format f) in H.
  destruct T as [T1 T2].
  assert (L53 : size (2 ^ 53) 0 <= size M q).
  { apply Z.lt_le_incl. eapply Z.le_lt_trans; [|exact T1]. apply size_mono. change (2 ^ 53) with 9007199254740992. destruct s; lia. }
  rewrite (e_format_mid f s M q F (conj L53 T2)) in H. exact H.
Qed.

(** Formats with an exponent can be written by the exact formatter. *)
Definition env_short : Env := {|
  oor_i64 := oor_i64 env0; oor_u64 := oor_u64 env0; to_lower := to_lower env0;
  fmt_float := fun f fmt p b => exact f (if fmt =? 102 then 102 else 101) p b; json_float := json_float env0; to_f32 := to_f32 env0 |}.
Lemma short_env_short : short_contract env_short.
Proof.
  intros f s M q c F Hc. destruct (exact_e_ok f s M q F) as (d & fd & e & HL & HR & He).
  exists [d], fd, e, false. cbn [fmt_float env_short]. replace (c =? 102) with false by (cbn in Hc; intuition (subst; reflexivity)).
  repeat split; auto; try apply HR. destruct (num_lit_parts _ _ _ _ _ _ HL) as (_ & D & _). inversion D as [|? ? Hd _]; subst.
  clear - Hd. unfold digit in Hd. change (10 ^ 18) with 1000000000000000000. cbn. lia.
Qed.
Lemma format_env_short : format_contract env_short.
Proof. intros f s M q F. split; [exact (exact_f_ok f s M q F)|exact (exact_e_ok f s M q F)]. Qed.

(** strconv.FormatFloat on the float32 nearest to 0.1, format 'g', precision -1. *)
Definition tenth32 : spec_float := S754_finite false 7205759511166976 (-56).
Definition env_tenth : Env := {|
  oor_i64 := oor_i64 env0; oor_u64 := oor_u64 env0; to_lower := to_lower env0;
  fmt_float := fun f _ _ b => if b =? 32 then bs "0.1" else bs "0.10000000149011612"; json_float := json_float env0; to_f32 := to_f32 env0 |}.
Lemma tenth_parts : float32 tenth32 false 7205759511166976 (-56).
Proof.
  split; [split; [reflexivity|split; [split; lia|left; lia]]|].
  exists 13421773, (-27). split; [lia|]. split; [lia|]. unfold size.
  change (7205759511166976 * 2 ^ (-56 + 1074)) with (13421773 * 2 ^ 29 * 2 ^ 1018).
  rewrite <- Z.mul_assoc, <- Z.pow_add_r by lia. reflexivity.
Qed.
Lemma float32f_differs : exists (E : Env) f s M q, float32 f s M q /\
  text_of (new_float32f E f 103 (-1)) <> Some (fmt_float E f 103 (-1) 32).
Proof.
  exists env_tenth, tenth32, false, 7205759511166976, (-56). split; [exact tenth_parts|]. vm_compute. discriminate.
Qed.
Lemma float32f_text E f c p : new_float32f E f c p = new_float64f E f c p.
Proof. reflexivity. Qed.
Lemma float32f_iff E f c c' p s M q : uses_format c c' -> float32 f s M q ->
  (text_of (new_float32f E f c p) = Some (fmt_float E f c' p 32) <-> fmt_float E f c' p 64 = fmt_float E f c' p 32).
Proof.
  intros Hc [F _]. rewrite float32f_text. rewrite (proj1 (float64f_text E f c c' p Hc) s M q F). split; congruence.
Qed.
