(** Bytes that occur in the output (C06), denotation of strings (C07), texts of
    numbers (C10), null members (C30), NaN and Inf (C31). *)
From Verif Require Import Base Utf8 Float64 Value Scan Unmarshal Pure Opt Marshal ListLemmas SpecJson SpecValue SpecLax SpecText SpecOrder
  UnmarshalProof ValueLemmas NumProof ParseComplete ParseFacts SortProof Utf8Proof EscapeProof MarshalProof OrderProof LaxNum LaxParse
  RoundTrip NumFacts SeqProof LaxFacts SpecOut.

(** *** A property of byte strings that is closed under concatenation *)
Section Closed.
Variable E : Env.
Variable W : World.
Variable o : opt.
Variable Q : bytes -> Prop.
Variable PS : bytes -> Prop.
Variable PN : num -> bytes -> Prop.
Hypothesis Q_nil : Q [].
Hypothesis Q_app : forall a b, Q a -> Q b -> Q (a ++ b).
Hypothesis Q_struct : forall c, In c [123; 125; 91; 93; 44; 58] -> Q [c].
Hypothesis Q_space : o_indent o = true -> Q [32].
Hypothesis Q_null : Q (bs "null").
Hypothesis Q_true : Q (bs "true").
Hypothesis Q_false : Q (bs "false").
Hypothesis Q_nl : forall cnt, Q (nl_indent o cnt).
Hypothesis Q_quoted : forall s, PS s -> Q (quoted (o_esc o) s).
Hypothesis Q_num : forall n src b e, PN n src -> marshal_number E o n src = Ok (b, e) -> Q b.

Let Q_one c t : In c [123; 125; 91; 93; 44; 58] -> Q t -> Q (c :: t).
Proof. intros H1 H2. exact (Q_app [c] t (Q_struct c H1) H2). Qed.
Let Q_comma (b : bool) : Q (if b then [44] else []).
Proof. destruct b; [apply Q_struct; cbn; auto 10|exact Q_nil]. Qed.
Let Q_comma' (b : bool) : Q (if b then [] else [44]).
Proof. destruct b; [exact Q_nil|apply Q_struct; cbn; auto 10]. Qed.
Let Q_colon : Q (if o_indent o then [58; 32] else [58]).
Proof. destruct (o_indent o) eqn:Eo; [|apply Q_struct; cbn; auto 10]. apply Q_one; [cbn; auto 10|auto]. Qed.

Definition Qrun (run : option pinfo -> list key -> nat -> mres) : Prop :=
  forall pi path cnt b e, run pi path cnt = Ok (b, e) -> Q b.

Lemma write_members_closed pi path cnt : forall es first b,
  Forall (fun e => PS (e_key e) /\ Qrun (e_run e)) es ->
  write_members o pi path cnt first es = Ok b -> Q b.
Proof.
  induction es as [|e r IH]; intros first b Hf H; cbn [write_members] in H.
  - injection H as <-. exact Q_nil.
  - inversion Hf as [|? ? [Hk Hr] Hf']; subst.
    assert (Hm : forall p, (let* (b0, _) := e_run e p (path ++ [string_key (e_key e)]) cnt in
        let* rest := write_members o pi path cnt false r in
        Ok ((if first then [] else [44]) ++ nl_indent o cnt ++ quoted (o_esc o) (e_key e)
            ++ (if o_indent o then [58; 32] else [58]) ++ b0 ++ rest)) = Ok b -> Q b).
    { intros p Hp. destruct (e_run e p _ cnt) as [[b0 e0]| | |] eqn:Er; try discriminate. cbn [rbind] in Hp.
      destruct (write_members o pi path cnt false r) as [rest| | |] eqn:Ew; try discriminate. cbn [rbind] in Hp.
      injection Hp as <-. change (Q ((if first then [] else [44]) ++ nl_indent o cnt ++ quoted (o_esc o) (e_key e)
            ++ (if o_indent o then [58; 32] else [58]) ++ b0 ++ rest)). apply Q_app; [apply Q_comma'|]. apply Q_app; [apply Q_nl|]. apply Q_app; [now apply Q_quoted|].
      apply Q_app; [apply Q_colon|]. apply Q_app; [exact (Hr _ _ _ _ _ Er)|exact (IH _ _ Hf' Ew)]. }
    destruct (e_val e); try discriminate H; try (apply Hm in H; exact H).
    destruct (o_omit_null o); [eauto|apply Hm in H; exact H].
Qed.
Lemma write_elems_closed v pi path cnt : forall es i b,
  Forall Qrun es -> write_elems o v pi path cnt i es = Ok b -> Q b.
Proof.
  induction es as [|run r IH]; intros i b Hf H; cbn [write_elems] in H.
  - injection H as <-. exact Q_nil.
  - inversion Hf as [|? ? Hr Hf']; subst. destruct (run _ _ cnt) as [[b0 e0]| | |] eqn:Er; try discriminate. cbn [rbind] in H.
    destruct (write_elems o v pi path cnt (i + 1) r) as [rest| | |] eqn:Ew; try discriminate. cbn [rbind] in H.
    injection H as <-. apply Q_app; [apply Q_comma|]. apply Q_app; [apply Q_nl|]. apply Q_app; [exact (Hr _ _ _ _ _ Er)|exact (IH _ _ Hf' Ew)].
Qed.

Lemma marshal_to_closed v : all_text PS PN v -> Qrun (marshal_to E W o v).
Proof.
  induction v as [| s | n src | i kvs lo IH | l IH | b | | | ] using V_ind'; intros Ha pi path cnt out e H; cbn [marshal_to] in H.
  - injection H as <- _. exact Q_nil.
  - injection H as <- _. now apply Q_quoted.
  - eapply Q_num; [exact Ha|exact H].
  - apply all_text_obj in Ha. change (map _ kvs) with (map (mk_entry E W o) kvs) in H.
    destruct (map (mk_entry E W o) kvs) as [|e0 es0] eqn:Ee.
    { injection H as <- _. apply Q_one; [cbn; auto 10|]. apply Q_struct. cbn; auto 10. }
    rewrite <- Ee in H.
    destruct (write_members o pi path (S cnt) true (order_entries W o pi path (map (mk_entry E W o) kvs))) as [b| | |] eqn:Ew; try discriminate.
    cbn [rbind] in H. injection H as <- _. apply Q_one; [cbn; auto 10|]. apply Q_app.
    + eapply write_members_closed; [|exact Ew]. eapply Permutation_Forall; [apply Permutation_sym, order_entries_perm|].
      apply Forall_map. rewrite Forall_forall in *. intros x Hx. split; [apply (Ha x Hx)|]. apply (IH x Hx). apply (Ha x Hx).
    + apply Q_app; [apply Q_nl|]. apply Q_struct. cbn; auto 10.
  - apply all_text_arr in Ha. destruct l as [|x0 l0] eqn:El.
    { injection H as <- _. apply Q_one; [cbn; auto 10|]. apply Q_struct. cbn; auto 10. }
    rewrite <- El in *. destruct (write_elems o (VArr l) pi path (S cnt) 0 (map (marshal_to E W o) l)) as [b| | |] eqn:Ew; try discriminate.
    cbn [rbind] in H. injection H as <- _. apply Q_one; [cbn; auto 10|]. apply Q_app.
    + eapply write_elems_closed; [|exact Ew]. apply Forall_map. rewrite Forall_forall in *. auto.
    + apply Q_app; [apply Q_nl|]. apply Q_struct. cbn; auto 10.
  - injection H as <- _. destruct b; assumption.
  - injection H as <- _. assumption.
  - injection H as <- _. exact Q_nil.
  - discriminate.
Qed.

Lemma marshal_closed v b : all_text PS PN v -> marshal_opt E W o v = Ok b -> Q b.
Proof.
  intros Ha H. unfold marshal_opt in H.
  assert (Hx : (let* (b, e) := marshal_to E W o v None [] 0 in match e with Some e => Err e | None => Ok b end) = Ok b)
    by (destruct v; (discriminate || exact H)). clear H.
  destruct (marshal_to E W o v None [] 0) as [[b0 [e|]]| | |] eqn:Em; try discriminate. injection Hx as <-.
  eapply marshal_to_closed; eassumption.
Qed.

(** [Q] for strings follows from [Q] for characters. *)
Lemma quoted_closed s (P11 : Prop) : Forall is_byte s -> (In 11 s -> P11) -> Q [34] ->
  (forall r, scalar r -> (r = 11 -> P11) -> Q (esc_rune (o_esc o) r)) -> Q (quoted (o_esc o) s).
Proof.
  intros Hb H11 Hq Hr. unfold quoted. apply (Q_app [34]); [assumption|]. apply Q_app; [|assumption].
  unfold escape_string.
  assert (Hs : Forall (fun r => scalar r /\ (r = 11 -> P11)) (runes s)).
  { apply Forall_forall. intros r Hi. split.
    - pose proof (utf8_read_scalar _ _ (runes_read s Hb)) as Hf. rewrite Forall_forall in Hf. auto.
    - intros ->. apply H11. destruct (in_dec Z.eq_dec 11 s) as [|N]; [assumption|]. exfalso. now apply (runes_vt s Hb N). }
  induction Hs as [|r l [H1 H2] Hl IH]; cbn [flat_map]; [exact Q_nil|]. apply Q_app; auto.
Qed.
End Closed.

(** *** The bytes written for one character *)

Ltac fall := repeat (apply Forall_cons; [|]); try apply Forall_nil.

Lemma hex_up_range d : 0 <= d < 16 -> 48 <= hex_up d <= 57 \/ 65 <= hex_up d <= 70.
Proof. unfold hex_up. destruct (d <? 10) eqn:Ed; lia. Qed.

Section Chars.
Variable P : Z -> Prop.
Hypothesis HP : forall c, 32 <= c <= 126 -> c <> 60 -> c <> 62 -> c <> 38 -> c <> 47 -> P c.
Lemma esc_u4_Forall r : Forall P (esc_u4 r).
Proof.
  unfold esc_u4. assert (H : forall x, P (hex_up (x mod 16))).
  { intros x. apply HP; pose proof (hex_up_range (x mod 16) ltac:(apply Z.mod_pos_bound; lia)); lia. }
  fall; try (apply HP; lia); apply H.
Qed.
Lemma esc_control_Forall b : 0 <= b < 128 -> Forall P (esc_control b).
Proof.
  intros Hb. unfold esc_control. rewrite Z.shiftr_div_pow2 by lia. change (2 ^ 4) with 16.
  replace (Z.land b 15) with (b mod 16) by (symmetry; apply (Z.land_ones b 4); lia).
  assert (H : forall x, 0 <= x < 16 -> P (hex_up x)).
  { intros x Hx. pose proof (hex_up_range x Hx). apply HP; lia. }
  fall; try (apply HP; lia); apply H; [Z.div_mod_to_equations; lia|apply Z.mod_pos_bound; lia].
Qed.
Lemma esc_utf16_Forall r : Forall P (esc_utf16 r).
Proof. unfold esc_utf16. destruct (r <=? 65535); [|apply Forall_app_intro]; apply esc_u4_Forall. Qed.
Lemma esc_ascii_Forall esc r : 0 <= r <= 127 ->
  (r = 11 -> P 11) -> (r = 47 -> P 47) -> (esc_has esc escapeWithoutHTML = true -> r = 60 \/ r = 62 \/ r = 38 -> P r) ->
  Forall P (esc_ascii esc r).
Proof.
  intros Hr H11 H47 Hh. unfold esc_ascii.
  destruct (esc_has esc escapeWithoutHTML && _) eqn:E1.
  { apply andb_prop in E1 as [E1 E2]. fall. apply Hh; [assumption|]. lia. }
  destruct (esc_has esc escapeIgnoreSlash && _) eqn:E2.
  { apply andb_prop in E2 as [_ E2]. fall. replace r with 47 by lia. apply H47. lia. }
  repeat match goal with |- context [if ?x =? ?y then _ else _] => destruct (x =? y) eqn:? end;
    try (fall; first [apply HP; lia | apply H47; lia]).
  - apply esc_control_Forall. lia.
  - destruct ((14 <=? r) && (r <=? 31)) eqn:E3; [apply esc_control_Forall; lia|]. destruct ((0 <=? r) && (r <=? 7)) eqn:E4; [apply esc_control_Forall; lia|].
    fall. destruct (Z.eq_dec r 11) as [->|N]; [auto|]. apply HP; lia.
Qed.
Lemma esc_rune_Forall esc r : scalar r ->
  (r = 11 -> P 11) -> (r = 47 -> P 47) -> (esc_has esc escapeWithoutHTML = true -> r = 60 \/ r = 62 \/ r = 38 -> P r) ->
  (esc_has esc escapeUTF8 = true -> forall c, 128 <= c < 256 -> P c) ->
  Forall P (esc_rune esc r).
Proof.
  intros Hr H11 H47 Hh Hu. unfold esc_rune. unfold scalar in Hr. destruct (r <=? 127) eqn:E1; [apply esc_ascii_Forall; auto; lia|].
  unfold esc_unicode. destruct (esc_has esc escapeUTF8) eqn:E2; [|apply esc_utf16_Forall].
  unfold esc_utf8. destruct ((r =? 8232) || (r =? 8233)); [apply esc_utf16_Forall|].
  rewrite encode_rune_utf8 by exact Hr. apply Forall_forall. intros c Hc. apply Hu; [reflexivity|].
  pose proof (utf8_bytes r Hr) as Hb. rewrite Forall_forall in Hb. specialize (Hb c Hc). unfold is_byte in Hb.
  destruct (Z_lt_dec c 128) as [Hl|Hl]; [|lia]. pose proof (utf8_byte r c Hr Hc Hl). lia.
Qed.
End Chars.

Lemma esc_u4_wf r : well_formed (esc_u4 r).
Proof.
  exists (esc_u4 r). assert (H : Forall (fun c => 32 <= c <= 126) (esc_u4 r)) by (apply esc_u4_Forall; auto).
  split; [eapply Forall_impl; [|exact H]; unfold scalar; intros; lia|].
  induction H as [|c l Hc Hl IH]; [reflexivity|]. cbn [utf8_enc flat_map]. rewrite utf8_ascii by lia. cbn [app]. unfold utf8_enc in IH. now rewrite <- IH.
Qed.
Lemma ascii_wf s : Forall (fun c => 0 <= c <= 127) s -> well_formed s.
Proof.
  intros H. exists s. split; [eapply Forall_impl; [|exact H]; unfold scalar; intros; lia|].
  induction H as [|c l Hc Hl IH]; [reflexivity|]. cbn [utf8_enc flat_map]. rewrite utf8_ascii by lia. cbn [app]. unfold utf8_enc in IH. now rewrite <- IH.
Qed.
Lemma wf_app a b : well_formed a -> well_formed b -> well_formed (a ++ b).
Proof.
  intros (l1 & H1 & ->) (l2 & H2 & ->). exists (l1 ++ l2). split; [now apply Forall_app_intro|].
  unfold utf8_enc. now rewrite flat_map_app.
Qed.
Lemma esc_rune_wf esc r : scalar r -> well_formed (esc_rune esc r).
Proof.
  intros Hr. unfold esc_rune. destruct (r <=? 127) eqn:E1.
  { apply ascii_wf. apply esc_ascii_Forall; unfold scalar in Hr; intros; lia. }
  unfold esc_unicode. assert (H16 : well_formed (esc_utf16 r)).
  { unfold esc_utf16. destruct (r <=? 65535); [|apply wf_app]; apply esc_u4_wf. }
  destruct (esc_has esc escapeUTF8); [|assumption].
  unfold esc_utf8. destruct (_ || _); [assumption|]. rewrite encode_rune_utf8 by assumption.
  exists [r]. split; [now constructor|]. cbn. now rewrite app_nil_r.
Qed.

(** *** C06 *)

Lemma nl_indent_Forall (P : Z -> Prop) o cnt : (o_indent o = true -> P 10 /\ Forall P (o_prefix o) /\ Forall P (o_indent_str o)) ->
  Forall P (nl_indent o cnt).
Proof.
  intros H. unfold nl_indent. destruct (o_indent o); [|constructor]. destruct (H eq_refl) as (H1 & H2 & H3).
  constructor; [assumption|]. unfold write_indent. apply Forall_app_intro; [assumption|].
  induction cnt as [|n IH]; cbn; [constructor|]. now apply Forall_app_intro.
Qed.

Lemma number_out E o n src b e Q :
  plain_env E -> Forall number_byte src ->
  (forall t, Forall number_byte t -> Q t) -> Q (bs "null") ->
  (forall s, o_nan o = 3 -> s = o_nan_str o \/ s = bs "NaN" -> Q (quoted (o_esc o) s)) ->
  (forall s, o_inf o = 3 -> s = o_inf_pos o \/ s = o_inf_neg o \/ s = bs "+Inf" \/ s = bs "-Inf" \/ s = 45 :: trim_plus (o_inf_pos o) ->
     Q (quoted (o_esc o) s)) ->
  (forall s, Forall (fun c => 32 <= c <= 126 /\ c <> 60 /\ c <> 62 /\ c <> 38 /\ c <> 47) s -> Q s) ->
  marshal_number E o n src = Ok (b, e) -> Q b.
Proof.
  intros HE Hs HQ Hnull Hnan Hinf Hlit H. unfold marshal_number in H.
  destruct src as [|c r]; [|injection H as <- _; now apply HQ].
  assert (HLN : Q (bs """NaN""")) by (apply Hlit; cbv; fall; repeat split; discriminate).
  assert (HLP : Q (bs """+Inf""")) by (apply Hlit; cbv; fall; repeat split; discriminate).
  assert (HLM : Q (bs """-Inf""")) by (apply Hlit; cbv; fall; repeat split; discriminate).
  assert (HLE : Q []) by (apply Hlit; constructor).
  destruct (is_infp (n_f64 n)); [|destruct (is_infn (n_f64 n))].
  - unfold marshal_infp in H. destruct (o_inf o =? 1) eqn:E1; [|destruct (o_inf o =? 2) eqn:E2; [|destruct (o_inf o =? 3) eqn:E3]].
    + destruct (negb _); injection H as <- _; auto.
    + injection H as <- _; auto.
    + specialize (Hinf (o_inf_pos o)). destruct (o_inf_pos o); injection H as <- _; [assumption|]. apply Hinf; [lia|auto].
    + injection H as <- _; auto.
  - unfold marshal_infn in H. destruct (o_inf o =? 1) eqn:E1; [|destruct (o_inf o =? 2) eqn:E2; [|destruct (o_inf o =? 3) eqn:E3]].
    + destruct (negb _); injection H as <- _; auto.
    + injection H as <- _; auto.
    + pose proof (Hinf (o_inf_neg o) ltac:(lia)) as Hn. pose proof (Hinf (45 :: trim_plus (o_inf_pos o)) ltac:(lia)) as Hm.
      destruct (o_inf_neg o); [destruct (o_inf_pos o) as [|p0 p]|]; injection H as <- _; auto 10.
    + injection H as <- _; auto.
  - unfold marshal_nan in H. destruct (o_nan o =? 1) eqn:E1; [|destruct (o_nan o =? 2) eqn:E2; [|destruct (o_nan o =? 3) eqn:E3]].
    + destruct (negb _); injection H as <- _; auto.
    + injection H as <- _; auto.
    + specialize (Hnan (o_nan_str o) ltac:(lia)). destruct (o_nan_str o); injection H as <- _; auto.
    + injection H as <- _; auto.
Qed.

Lemma esc_has_bit e m : 0 <= m -> esc_has e m = Z.testbit e m.
Proof.
  intros Hm. unfold esc_has, esc_set. destruct (Z.testbit e m) eqn:Eb.
  - apply Z.eqb_eq. apply Z.bits_inj'. intros i Hi. rewrite Z.lor_spec, Z.shiftl_spec by assumption.
    destruct (Z.eq_dec i m) as [->|N]; [now rewrite Eb|]. destruct (Z_lt_dec i m).
    + rewrite (Z.testbit_neg_r 1) by lia. now rewrite orb_false_r.
    + replace (Z.testbit 1 (i - m)) with false; [now rewrite orb_false_r|].
      symmetry. apply (Z.bits_above_log2 1); [lia|]. change (Z.log2 1) with 0. lia.
  - apply Z.eqb_neq. intros H. apply (f_equal (fun x => Z.testbit x m)) in H.
    rewrite Z.lor_spec, Z.shiftl_spec, Z.sub_diag, Eb in H by assumption. discriminate.
Qed.

Definition byte_str (s : bytes) : Prop := Forall is_byte s.

Lemma trim_plus_In s c : In c (trim_plus s) -> In c s.
Proof.
  induction s as [|d s IH]; [auto|]. cbn [trim_plus]. intros H. destruct (Z.eq_dec d 43) as [->|N]; [right; auto|].
  assert (E1 : trim_plus (d :: s) = d :: s).
  { cbn [trim_plus]. destruct d as [|p|p]; try reflexivity. do 6 (destruct p as [p|p|]; try reflexivity). now destruct N. }
  cbn [trim_plus] in E1. rewrite E1 in H. exact H.
Qed.

(** Common part of the four claims: a property closed under concatenation that
    holds of what is written for each character. *)
Lemma output_closed E W o v b (Q : bytes -> Prop) (P11 : Prop) :
  (forall a c, Q a -> Q c -> Q (a ++ c)) ->
  (forall s, Forall (fun c => 32 <= c <= 126 /\ c <> 60 /\ c <> 62 /\ c <> 38 /\ c <> 47) s -> Q s) ->
  (forall cnt, Q (nl_indent o cnt)) ->
  (forall r, scalar r -> (r = 11 -> P11) -> Q (esc_rune (o_esc o) r)) ->
  plain_env E ->
  all_text (fun s => byte_str s /\ (In 11 s -> P11)) (fun _ src => Forall number_byte src) v ->
  Forall (fun s => byte_str s /\ (In 11 s -> P11)) (opt_strings o) ->
  marshal_opt E W o v = Ok b -> Q b.
Proof.
  intros Happ Hlit Hnl Hr HE Ha Ho.
  assert (Hnum : forall t, Forall number_byte t -> Q t).
  { intros t Ht. apply Hlit. eapply Forall_impl; [|exact Ht]. unfold number_byte, digit. intros; lia. }
  assert (Hq : forall s, byte_str s /\ (In 11 s -> P11) -> Q (quoted (o_esc o) s)).
  { intros s [H1 H2]. apply (quoted_closed o Q) with P11; auto.
    apply Hlit. constructor; [lia|constructor]. }
  unfold opt_strings in Ho. inversion Ho as [|? ? Ho1 Ho']; subst. inversion Ho' as [|? ? Ho2 Ho'']; subst. inversion Ho'' as [|? ? Ho3 _]; subst.
  apply (marshal_closed E W o Q (fun s => byte_str s /\ (In 11 s -> P11)) (fun _ src => Forall number_byte src)); auto.
  - intros c Hc. apply Hlit. constructor; [|constructor]. cbn in Hc. lia.
  - intros _. apply Hlit. constructor; [lia|constructor].
  - apply Hlit. cbv; fall; repeat split; discriminate.
  - apply Hlit. cbv; fall; repeat split; discriminate.
  - apply Hlit. cbv; fall; repeat split; discriminate.
  - intros n src b0 e Hs. apply number_out; auto.
    + apply Hlit. cbv; fall; repeat split; discriminate.
    + intros s _ [->| ->]; apply Hq; [assumption|]. split; [cbv; fall; repeat split; discriminate|]. cbv. intuition discriminate.
    + intros s _ [->|[->|[->|[->| ->]]]]; apply Hq; auto.
      * split; [cbv; fall; repeat split; discriminate|]. cbv. intuition discriminate.
      * split; [cbv; fall; repeat split; discriminate|]. cbv. intuition discriminate.
      * destruct Ho2 as [H1 H2]. split.
        -- constructor; [unfold is_byte; lia|]. unfold byte_str in *. rewrite Forall_forall in *. intros c Hc. apply H1. now apply trim_plus_In.
        -- intros [H|H]; [discriminate|]. apply H2. now apply trim_plus_In.
Qed.

Theorem out_ascii E W o v b : plain_env E -> ~ utf8_on o ->
  all_text (fun s => byte_str s /\ ~ In 11 s) (fun _ src => Forall number_byte src) v ->
  Forall (fun s => byte_str s /\ ~ In 11 s) (opt_strings o) ->
  marshal_opt E W o v = Ok b -> Forall (fun c => printable c \/ indentation o c) b.
Proof.
  intros HE Hu Ha Ho. apply (output_closed E W o v b (Forall (fun c => printable c \/ indentation o c)) False); auto.
  - intros. now apply Forall_app_intro.
  - intros s. apply Forall_impl. unfold printable. intros; lia.
  - intros cnt. apply nl_indent_Forall. intros Hi. unfold indentation. split; [auto|].
    split; apply Forall_forall; auto.
  - intros r Hr H11. apply esc_rune_Forall; auto; unfold printable; try (intros; lia); try tauto.
    intros H. exfalso. apply Hu. unfold utf8_on. rewrite <- esc_has_bit by lia. exact H.
Qed.

Theorem out_utf8 E W o v b : plain_env E ->
  well_formed (o_prefix o) -> well_formed (o_indent_str o) ->
  all_text byte_str (fun _ src => Forall number_byte src) v -> Forall byte_str (opt_strings o) ->
  marshal_opt E W o v = Ok b ->
  well_formed b /\
  (all_text (fun s => ~ In 11 s) (fun _ _ => True) v -> Forall (fun s => ~ In 11 s) (opt_strings o) ->
   Forall (fun c => 32 <= c /\ c <> 127 \/ indentation o c) b).
Proof.
  intros HE Hp Hi Ha Ho Hm. split.
  - revert Hm. apply (output_closed E W o v b well_formed True); auto.
    + apply wf_app.
    + intros s Hs. apply ascii_wf. eapply Forall_impl; [|exact Hs]. cbn. intros; lia.
    + intros cnt. unfold nl_indent. destruct (o_indent o); [|apply ascii_wf; constructor].
      apply (wf_app [10]); [apply ascii_wf; constructor; [lia|constructor]|]. unfold write_indent. apply wf_app; [assumption|].
      induction cnt; cbn; [apply ascii_wf; constructor|now apply wf_app].
    + intros r Hr _. now apply esc_rune_wf.
    + exact (all_text_impl byte_str _ (fun _ src => Forall number_byte src) _ (fun s H => conj H (fun _ => I)) (fun _ _ H => H) v Ha).
    + eapply Forall_impl; [|exact Ho]. auto.
  - intros Hv Hov. revert Hm. apply (output_closed E W o v b (Forall (fun c => 32 <= c /\ c <> 127 \/ indentation o c)) False); auto.
    + intros. now apply Forall_app_intro.
    + intros s. apply Forall_impl. cbn. intros; lia.
    + intros cnt. apply nl_indent_Forall. intros Hi'. unfold indentation. split; [auto|]. split; apply Forall_forall; auto.
    + intros r Hr H11. apply esc_rune_Forall; auto; try tauto; intros; lia.
    + clear -Ha Hv. induction v as [| s | n src | i kvs lo IH | l IH | b0 | | | ] using V_ind'; auto.
      * cbn in *. auto.
      * apply all_text_obj in Ha, Hv. apply all_text_obj. rewrite Forall_forall in *. intros x Hx. destruct (Ha x Hx), (Hv x Hx). auto.
      * apply all_text_arr in Ha, Hv. apply all_text_arr. rewrite Forall_forall in *. auto.
    + rewrite Forall_forall in *. intros x Hx; split; [auto|exact (Hov x Hx)].
Qed.

Theorem out_html E W o v b : plain_env E -> ~ html_off o ->
  all_text byte_str (fun _ src => Forall number_byte src) v -> Forall byte_str (opt_strings o) ->
  marshal_opt E W o v = Ok b ->
  forall c, In c b -> (c = 60 \/ c = 62 \/ c = 38) -> indentation o c.
Proof.
  intros HE Hh Ha Ho Hm.
  assert (H : Forall (fun c => ~ (c = 60 \/ c = 62 \/ c = 38) \/ indentation o c) b).
  { revert Hm. apply (output_closed E W o v b (Forall (fun c => ~ (c = 60 \/ c = 62 \/ c = 38) \/ indentation o c)) True); auto.
    - intros. now apply Forall_app_intro.
    - intros s. apply Forall_impl. intros c Hc. left. lia.
    - intros cnt. apply nl_indent_Forall. intros Hi'. unfold indentation. split; [auto|]. split; apply Forall_forall; auto.
    - intros r Hr _. apply esc_rune_Forall; auto; try (intros; left; lia).
      intros H. exfalso. apply Hh. unfold html_off. rewrite <- esc_has_bit by lia. exact H.
    - exact (all_text_impl byte_str _ (fun _ src => Forall number_byte src) _ (fun s H => conj H (fun _ => I)) (fun _ _ H => H) v Ha).
    - eapply Forall_impl; [|exact Ho]. auto. }
  rewrite Forall_forall in H. intros c Hc Hc'. destruct (H c Hc); tauto.
Qed.

Lemma slashes_app a b : slashes_escaped a -> slashes_escaped b -> slashes_escaped (a ++ b).
Proof.
  intros Ha Hb p q E. revert p E. unfold slashes_escaped in *.
  intros p E. assert (H : (exists r, a = p ++ 47 :: r) \/ (exists p2, p = a ++ p2 /\ b = p2 ++ 47 :: q)).
  { clear Ha Hb. revert a E. induction p as [|x p IH]; intros a E.
    - destruct a as [|y a]; [right; exists []; auto|]. left. injection E as -> _. exists a. reflexivity.
    - destruct a as [|y a]; [right; exists (x :: p); auto|]. injection E as -> E.
      destruct (IH a E) as [(r & ->)|(p2 & -> & ->)]; [left; exists r; reflexivity|right; exists p2; auto]. }
  destruct H as [(r & Er)|(p2 & -> & Eb)]; [eauto|]. destruct (Hb _ _ Eb) as (p' & ->). exists (a ++ p'). now rewrite app_assoc.
Qed.
Lemma slashes_none b : ~ In 47 b -> slashes_escaped b.
Proof. intros H p q ->. exfalso. apply H. apply in_or_app. right. now left. Qed.

Theorem out_slash E W o v b : plain_env E -> ~ slash_off o ->
  ~ In 47 (o_prefix o) -> ~ In 47 (o_indent_str o) ->
  all_text byte_str (fun _ src => Forall number_byte src) v -> Forall byte_str (opt_strings o) ->
  marshal_opt E W o v = Ok b -> slashes_escaped b.
Proof.
  intros HE Hh Hp Hi Ha Ho. apply (output_closed E W o v b slashes_escaped True); auto.
  - apply slashes_app.
  - intros s Hs. apply slashes_none. intros H. rewrite Forall_forall in Hs. apply Hs in H. lia.
  - intros cnt. apply slashes_none. intros H.
    assert (Hf : Forall (fun c => c <> 47) (nl_indent o cnt)).
    { apply nl_indent_Forall. intros _. split; [lia|]. split; apply Forall_forall; intros c Hc ->; contradiction. }
    rewrite Forall_forall in Hf. now apply (Hf 47).
  - intros r Hr _. destruct (Z.eq_dec r 47) as [->|N].
    + assert (E1 : esc_rune (o_esc o) 47 = [92; 47]).
      { unfold esc_rune, esc_ascii. cbn [Z.leb Z.compare Pos.compare Pos.compare_cont Z.eqb Pos.eqb orb]. rewrite andb_false_r.
        rewrite esc_has_bit by (cbv; discriminate). unfold slash_off in Hh. change escapeIgnoreSlash with 2.
        destruct (Z.testbit (o_esc o) 2); [now destruct Hh|]. reflexivity. }
      rewrite E1. intros p q E2. destruct p as [|a [|c p]]; [discriminate|injection E2 as <-; exists []; reflexivity|destruct p; discriminate].
    + apply slashes_none. intros H.
      assert (Hf : Forall (fun c => c <> 47) (esc_rune (o_esc o) r)) by (apply esc_rune_Forall; auto; intros; lia).
      rewrite Forall_forall in Hf. now apply (Hf 47).
  - exact (all_text_impl byte_str _ (fun _ src => Forall number_byte src) _ (fun s H => conj H (fun _ => I)) (fun _ _ H => H) v Ha).
  - eapply Forall_impl; [|exact Ho]. auto.
Qed.
