(** base64. *)
From Verif Require Import Base Float64 Value Scan Unmarshal Opt Marshal Access Path Edit Base64 SpecJson SpecValue SpecText SpecLax SpecOpts SpecPath SpecBase64
  EscapeProof MarshalFacts RoundTrip SetClaims.

Lemma lor_add a b k : 0 <= k -> 0 <= b < 2 ^ k -> Z.lor (Z.shiftl a k) b = a * 2 ^ k + b.
Proof.
  intros Hk Hb. rewrite Z.shiftl_mul_pow2 by assumption.
  assert (HL : Z.land (a * 2 ^ k) b = 0); [|now rewrite Z.add_nocarry_lxor, Z.lxor_lor].
  apply Z.bits_inj'. intros n Hn. rewrite Z.land_spec, Z.bits_0. destruct (Z.lt_ge_cases n k) as [H|H].
  - rewrite Z.mul_pow2_bits_low by lia. reflexivity.
  - replace (Z.testbit b n) with false; [apply andb_false_r|]. symmetry.
    destruct (Z.eq_dec b 0) as [->|Hb0]; [apply Z.bits_0|]. apply Z.bits_above_log2; [lia|].
    assert (Z.log2 b < k) by (apply Z.log2_lt_pow2; lia). lia.
Qed.
Lemma shr a k : 0 <= k -> Z.shiftr a k = a / 2 ^ k.
Proof. intros. now apply Z.shiftr_div_pow2. Qed.

Lemma quantum_arith d0 d1 d2 d3 : 0 <= d0 < 64 -> 0 <= d1 < 64 -> 0 <= d2 < 64 -> 0 <= d3 < 64 ->
  let v := ((d0 * 64 + d1) * 64 + d2) * 64 + d3 in quantum d0 d1 d2 d3 = [v / 65536; v / 256 mod 256; v mod 256] /\ 0 <= v < 16777216.
Proof.
  intros H0 H1 H2 H3 v. split; [|unfold v; lia]. unfold quantum.
  assert (E : Z.lor (Z.lor (Z.lor (Z.shiftl d0 18) (Z.shiftl d1 12)) (Z.shiftl d2 6)) d3 = v).
  { replace (Z.lor (Z.shiftl d0 18) (Z.shiftl d1 12)) with (Z.shiftl (d0 * 64 + d1) 12)
      by (rewrite lor_add by (rewrite ?Z.shiftl_mul_pow2 by lia; cbn; lia); rewrite !Z.shiftl_mul_pow2 by lia; cbn; lia).
    replace (Z.lor (Z.shiftl (d0 * 64 + d1) 12) (Z.shiftl d2 6)) with (Z.shiftl ((d0 * 64 + d1) * 64 + d2) 6)
      by (rewrite lor_add by (rewrite ?Z.shiftl_mul_pow2 by lia; cbn; lia); rewrite !Z.shiftl_mul_pow2 by lia; cbn; lia).
    rewrite lor_add by (cbn; lia). reflexivity. }
  rewrite E. change 255 with (Z.ones 8). rewrite !Z.land_ones by lia. rewrite !shr by lia.
  change (2 ^ 16) with 65536. change (2 ^ 8) with 256.
  rewrite (Z.mod_small (v / 65536)); [reflexivity|]. unfold v. split; [apply Z.div_pos; lia|apply Z.div_lt_upper_bound; lia].
Qed.

Lemma b64_val_digit c d : b64_val c = Some d <-> b64_digit c d.
Proof.
  unfold b64_val, b64_digit. destruct (Z.leb_spec 65 c), (Z.leb_spec c 90), (Z.leb_spec 97 c), (Z.leb_spec c 122), (Z.leb_spec 48 c), (Z.leb_spec c 57), (Z.eqb_spec c 43), (Z.eqb_spec c 47);
    cbn [andb]; (split; [intros [= <-]|intros Hd; first [exfalso; lia|f_equal; lia]]); lia.
Qed.
Lemma digit_range c d : b64_digit c d -> 0 <= d < 64.
Proof. unfold b64_digit. lia. Qed.
Lemma digit_fun c d d' : b64_digit c d -> b64_digit c d' -> d = d'.
Proof. unfold b64_digit. lia. Qed.
Lemma char_digit d : 0 <= d < 64 -> b64_digit (b64_char d) d.
Proof.
  intros H. unfold b64_char, b64_digit. destruct (Z.ltb_spec d 26); [lia|]. destruct (Z.ltb_spec d 52); [lia|]. destruct (Z.ltb_spec d 62); [lia|].
  destruct (Z.eqb_spec d 62); lia.
Qed.

(** *** Line breaks do not matter *)
Lemma skip_none r : skip_breaks r = [] <-> unbroken r = [].
Proof.
  induction r as [|c r IH]; [split; reflexivity|]. cbn [skip_breaks unbroken filter]. fold (unbroken r). unfold is_break.
  destruct ((c =? 10) || (c =? 13)); cbn [negb]; [exact IH|split; discriminate].
Qed.
Lemma skip_unbroken r : match skip_breaks r with [] => unbroken r = [] | c :: r' => unbroken r = c :: unbroken r' /\ is_break c = false end.
Proof.
  induction r as [|c r IH]; [reflexivity|]. cbn [skip_breaks unbroken filter]. fold (unbroken r). unfold is_break in *.
  destruct ((c =? 10) || (c =? 13)) eqn:Ec; cbn [negb]; [exact IH|split; [reflexivity|exact Ec]].
Qed.
Lemma b64_break c d : b64_val c = Some d -> (c =? 10) || (c =? 13) = false.
Proof. rewrite b64_val_digit. unfold b64_digit. lia. Qed.
Definition solid (s : bytes) : Prop := Forall (fun c => is_break c = false) s.
Lemma skip_solid s : solid s -> skip_breaks s = s.
Proof. intros [|c r Hc _]; [reflexivity|]. cbn. now rewrite Hc. Qed.
Lemma unbroken_solid s : solid (unbroken s).
Proof.
  unfold solid. rewrite Forall_forall. intros c Hc. apply filter_In in Hc as (_ & Hc). unfold is_break. now apply negb_true_iff in Hc.
Qed.
Lemma match61 {A} (s : bytes) (f : bytes -> A) (z : A) : match s with 61 :: r => f r | _ => z end = match s with [] => z | c :: r => if c =? 61 then f r else z end.
Proof. destruct s as [|c r]; [reflexivity|]. destruct (Z.eqb_spec c 61) as [->|H]; [reflexivity|]. destruct c as [|p|p]; try reflexivity. do 6 (destruct p as [p|p|]; try reflexivity). congruence. Qed.

Lemma decode_unbroken s : forall ds, b64_decode_from ds s = b64_decode_from ds (unbroken s).
Proof.
  induction s as [|c r IH]; intros ds; [reflexivity|]. cbn [unbroken filter]. fold (unbroken r).
  destruct (b64_val c) as [d|] eqn:Ev.
  - rewrite (b64_break _ _ Ev). cbn [negb b64_decode_from]. rewrite Ev. destruct ds as [|d0 [|d1 [|d2 [|d3 l]]]]; rewrite IH; reflexivity.
  - destruct ((c =? 10) || (c =? 13)) eqn:Eb; cbn [negb b64_decode_from]; rewrite Ev; unfold is_break; rewrite Eb.
    + apply IH.
    + destruct (negb (c =? 61)); [reflexivity|]. rewrite !(skip_solid (unbroken r)) by apply unbroken_solid.
      pose proof (skip_unbroken r) as H1. destruct ds as [|d0 [|d1 [|d2 [|d3 l]]]]; try reflexivity.
      * rewrite !match61. destruct (skip_breaks r) as [|x r1]; [now rewrite H1|]. destruct H1 as (H1 & _). rewrite H1. destruct (x =? 61); [|reflexivity].
        rewrite !(skip_solid (unbroken r1)) by apply unbroken_solid. pose proof (skip_none r1) as Hn. destruct (skip_breaks r1), (unbroken r1); try reflexivity.
        -- pose proof (proj1 Hn eq_refl); discriminate.
        -- pose proof (proj2 Hn eq_refl); discriminate.
      * pose proof (skip_none r) as Hn. destruct (skip_breaks r), (unbroken r); try reflexivity.
        -- pose proof (proj1 Hn eq_refl); discriminate.
        -- pose proof (proj2 Hn eq_refl); discriminate.
Qed.

(** *** Decoding *)
Notation anybits := (fun _ : Z => True).

Lemma q3 d0 d1 d2 d3 x y z : 0 <= d0 < 64 -> 0 <= d1 < 64 -> 0 <= d2 < 64 -> 0 <= d3 < 64 -> 0 <= x <= 255 -> 0 <= y <= 255 -> 0 <= z <= 255 ->
  (quantum d0 d1 d2 d3 = [x; y; z] <-> ((d0 * 64 + d1) * 64 + d2) * 64 + d3 = (x * 256 + y) * 256 + z).
Proof.
  intros H0 H1 H2 H3 Hx Hy Hz. destruct (quantum_arith d0 d1 d2 d3 H0 H1 H2 H3) as (-> & Hv). revert Hv. generalize (((d0 * 64 + d1) * 64 + d2) * 64 + d3). intros v Hv.
  split.
  - intros H. injection H as <- <- <-. pose proof (Z.div_mod v 256). pose proof (Z.div_mod (v / 256) 256). rewrite Z.div_div in * by lia. change (256 * 256) with 65536 in *. lia.
  - intros ->.
    rewrite <- (Z.mod_unique ((x * 256 + y) * 256 + z) 256 (x * 256 + y) z) by lia.
    rewrite <- (Z.div_unique ((x * 256 + y) * 256 + z) 256 (x * 256 + y) z) by lia.
    rewrite <- (Z.mod_unique (x * 256 + y) 256 x y) by lia.
    rewrite <- (Z.div_unique ((x * 256 + y) * 256 + z) 65536 x (y * 256 + z)) by lia. reflexivity.
Qed.

Lemma quantum_bytes d0 d1 d2 d3 : 0 <= d0 < 64 -> 0 <= d1 < 64 -> 0 <= d2 < 64 -> 0 <= d3 < 64 ->
  exists x y z, quantum d0 d1 d2 d3 = [x; y; z] /\ 0 <= x <= 255 /\ 0 <= y <= 255 /\ 0 <= z <= 255.
Proof.
  intros H0 H1 H2 H3. destruct (quantum_arith d0 d1 d2 d3 H0 H1 H2 H3) as (-> & Hv). revert Hv. generalize (((d0 * 64 + d1) * 64 + d2) * 64 + d3). intros v Hv.
  do 3 eexists. split; [reflexivity|]. pose proof (Z.mod_pos_bound v 256). pose proof (Z.mod_pos_bound (v / 256) 256).
  pose proof (Z.div_pos v 65536). pose proof (Z.div_lt_upper_bound v 65536 256). lia.
Qed.

Lemma text_decodes t s : b64_text anybits t s -> b64_decode t = Some s.
Proof.
  unfold b64_decode. induction 1 as [|c0 c1 c2 c3 d0 d1 d2 d3 x y z t s D0 D1 D2 D3 Hx Hy Hz He _ IH|c0 c1 d0 d1 x r D0 D1 Hx Hr _ He|c0 c1 c2 d0 d1 d2 x y r D0 D1 D2 Hx Hy Hr _ He]; [reflexivity| | |];
    pose proof (digit_range _ _ D0) as R0; pose proof (digit_range _ _ D1) as R1; pose proof D0 as V0; pose proof D1 as V1; apply b64_val_digit in V0, V1.
  - pose proof (digit_range _ _ D2) as R2; pose proof (digit_range _ _ D3) as R3; pose proof D2 as V2; pose proof D3 as V3; apply b64_val_digit in V2, V3.
    cbn [b64_decode_from app]. rewrite V0, V1, V2, V3. cbn [app]. rewrite IH. f_equal. rewrite (proj2 (q3 d0 d1 d2 d3 x y z R0 R1 R2 R3 Hx Hy Hz) He). reflexivity.
  - cbn [b64_decode_from app]. rewrite V0, V1. cbn [app b64_val Z.leb Z.compare Pos.compare Pos.compare_cont andb is_break Z.eqb Pos.eqb orb negb skip_breaks].
    assert (Hq : quantum d0 d1 0 0 = [x; r * 16; 0]) by (apply q3; lia). rewrite Hq. reflexivity.
  - pose proof (digit_range _ _ D2) as R2; pose proof D2 as V2; apply b64_val_digit in V2.
    cbn [b64_decode_from app]. rewrite V0, V1, V2. cbn [app b64_val Z.leb Z.compare Pos.compare Pos.compare_cont andb is_break Z.eqb Pos.eqb orb negb skip_breaks].
    assert (Hq : quantum d0 d1 d2 0 = [x; y; r * 64]) by (apply q3; lia). rewrite Hq. reflexivity.
Qed.

Lemma val61 : b64_val 61 = None. Proof. reflexivity. Qed.
Lemma decoded_text n : forall t s, (List.length t <= n)%nat -> solid t -> b64_decode t = Some s -> b64_text anybits t s.
Proof.
  induction n as [|n IH]; intros t s Hn Hs H.
  { destruct t; [|cbn in Hn; lia]. injection H as <-. constructor. }
  unfold b64_decode in *. destruct t as [|c0 t]; [injection H as <-; constructor|]. inversion Hs as [|? ? S0 Hs0]; subst.
  cbn [b64_decode_from] in H. destruct (b64_val c0) as [d0|] eqn:V0; [|rewrite S0 in H; destruct (negb (c0 =? 61)); discriminate].
  cbn [app] in H. destruct t as [|c1 t]; [discriminate|]. inversion Hs0 as [|? ? S1 Hs1]; subst.
  cbn [b64_decode_from] in H. destruct (b64_val c1) as [d1|] eqn:V1; [|rewrite S1 in H; destruct (negb (c1 =? 61)); discriminate].
  cbn [app] in H. destruct t as [|c2 t]; [discriminate|]. inversion Hs1 as [|? ? S2 Hs2]; subst.
  apply b64_val_digit in V0, V1. pose proof (digit_range _ _ V0) as R0. pose proof (digit_range _ _ V1) as R1.
  cbn [b64_decode_from] in H. destruct (b64_val c2) as [d2|] eqn:V2.
  2: { rewrite S2 in H. destruct (Z.eqb_spec c2 61) as [->|]; [|discriminate]. cbn [negb] in H. rewrite (skip_solid t Hs2), match61 in H.
       destruct t as [|c3 t]; [discriminate|]. destruct (Z.eqb_spec c3 61) as [->|]; [|discriminate]. inversion Hs2 as [|? ? S3 Hs3]; subst. rewrite (skip_solid t Hs3) in H.
       destruct t; [|discriminate]. destruct (quantum_bytes d0 d1 0 0) as (x & y & z & Hq & Hx & Hy & Hz); try lia. rewrite Hq in H. injection H as <-.
       apply q3 in Hq; try lia. apply (B64_one _ c0 c1 d0 d1 x (d0 * 64 + d1 - x * 16)); auto; lia. }
  cbn [app] in H. destruct t as [|c3 t]; [discriminate|]. inversion Hs2 as [|? ? S3 Hs3]; subst.
  apply b64_val_digit in V2. pose proof (digit_range _ _ V2) as R2.
  cbn [b64_decode_from] in H. destruct (b64_val c3) as [d3|] eqn:V3.
  - apply b64_val_digit in V3. pose proof (digit_range _ _ V3) as R3. destruct (b64_decode_from [] t) as [s'|] eqn:Ed; [|discriminate].
    destruct (quantum_bytes d0 d1 d2 d3) as (x & y & z & Hq & Hx & Hy & Hz); try lia. rewrite Hq in H. injection H as <-. apply q3 in Hq; try assumption.
    apply (B64_group _ c0 c1 c2 c3 d0 d1 d2 d3); try assumption. apply IH; [cbn in Hn; lia|exact Hs3|exact Ed].
  - rewrite S3 in H. destruct (Z.eqb_spec c3 61) as [->|]; [|discriminate]. cbn [negb] in H. rewrite (skip_solid t Hs3) in H.
    destruct t; [|discriminate]. destruct (quantum_bytes d0 d1 d2 0) as (x & y & z & Hq & Hx & Hy & Hz); try lia. rewrite Hq in H. injection H as <-.
    apply q3 in Hq; try lia. apply (B64_two _ c0 c1 c2 d0 d1 d2 x y ((d0 * 64 + d1) * 64 + d2 - (x * 256 + y) * 4)); auto; lia.
Qed.

Theorem decode_iff t s : b64_decode t = Some s <-> b64_text anybits (unbroken t) s.
Proof.
  unfold b64_decode. rewrite decode_unbroken. split; [|apply text_decodes]. apply (decoded_text _ _ _ (le_n _)). apply unbroken_solid.
Qed.

(** *** Encoding *)
Lemma nth_arith v : 0 <= v < 16777216 ->
  b64_nth v 0 = b64_char (v / 262144) /\ b64_nth v 1 = b64_char (v / 4096 mod 64) /\ b64_nth v 2 = b64_char (v / 64 mod 64) /\ b64_nth v 3 = b64_char (v mod 64).
Proof.
  intros Hv. unfold b64_nth. change 63 with (Z.ones 6). rewrite !Z.land_ones by lia. rewrite !shr by lia.
  change (18 - 6 * 0) with 18. change (18 - 6 * 1) with 12. change (18 - 6 * 2) with 6. change (18 - 6 * 3) with 0.
  change (2 ^ 18) with 262144. change (2 ^ 12) with 4096. change (2 ^ 6) with 64. change (2 ^ 0) with 1. rewrite Z.div_1_r.
  repeat split. f_equal. apply Z.mod_small. pose proof (Z.div_lt_upper_bound v 262144 64). pose proof (Z.div_pos v 262144). lia.
Qed.

Lemma encode_text b : Forall is_byte b -> b64_text (fun r => r = 0) (b64_encode b) b.
Proof.
  assert (G : forall n b, (List.length b <= n)%nat -> Forall is_byte b -> b64_text (fun r => r = 0) (b64_encode b) b); [|apply (G _ _ (le_n _))].
  clear b. unfold is_byte. induction n as [|n IH]; intros b Hn Hb.
  { destruct b; [constructor|cbn in Hn; lia]. }
  destruct b as [|x [|y [|z b]]]; [constructor| | |].
  - inversion Hb as [|? ? Hx _]; subst. cbn [b64_encode]. rewrite Z.shiftl_mul_pow2 by lia. change (2 ^ 16) with 65536.
    destruct (nth_arith (x * 65536)) as (-> & -> & _ & _); [lia|].
    pose proof (Z.div_mod (x * 65536) 262144). pose proof (Z.div_mod (x * 65536 / 4096) 64). pose proof (Z.mod_pos_bound (x * 65536 / 4096) 64).
    assert (E1 : x * 65536 / 4096 = x * 16) by (replace (x * 65536) with (x * 16 * 4096) by lia; now rewrite Z.div_mul).
    assert (E2 : x * 65536 / 262144 = x * 16 / 64) by (rewrite <- E1, Z.div_div by lia; reflexivity).
    rewrite E1, E2 in *.
    apply (B64_one _ _ _ (x * 16 / 64) (x * 16 mod 64) x 0); try lia; apply char_digit; lia.
  - inversion Hb as [|? ? Hx Hb']; subst. inversion Hb' as [|? ? Hy _]; subst. cbn [b64_encode].
    rewrite lor_add by (rewrite ?Z.shiftl_mul_pow2 by lia; cbn; lia). rewrite Z.shiftl_mul_pow2 by lia. change (2 ^ 16) with 65536. change (2 ^ 8) with 256.
    set (v := x * 65536 + y * 256). assert (Hv : 0 <= v < 16777216) by (unfold v; lia). destruct (nth_arith v Hv) as (-> & -> & -> & _).
    assert (E1 : v / 64 = (x * 256 + y) * 4) by (unfold v; replace (x * 65536 + y * 256) with ((x * 256 + y) * 4 * 64) by lia; now rewrite Z.div_mul).
    assert (E2 : v / 4096 = v / 64 / 64) by (rewrite Z.div_div by lia; reflexivity). assert (E3 : v / 262144 = v / 4096 / 64) by (rewrite Z.div_div by lia; reflexivity).
    pose proof (Z.div_mod (v / 64) 64). pose proof (Z.mod_pos_bound (v / 64) 64). pose proof (Z.div_mod (v / 4096) 64). pose proof (Z.mod_pos_bound (v / 4096) 64).
    apply (B64_two _ _ _ _ (v / 262144) (v / 4096 mod 64) (v / 64 mod 64) x y 0); try lia; apply char_digit; lia.
  - inversion Hb as [|? ? Hx Hb']; subst. inversion Hb' as [|? ? Hy Hb2]; subst. inversion Hb2 as [|? ? Hz Hb3]; subst. cbn [b64_encode].
    replace (Z.lor (Z.shiftl x 16) (Z.shiftl y 8)) with (Z.shiftl (x * 256 + y) 8)
      by (rewrite lor_add by (rewrite ?Z.shiftl_mul_pow2 by lia; cbn; lia); rewrite !Z.shiftl_mul_pow2 by lia; cbn; lia).
    rewrite lor_add by (cbn; lia). change (2 ^ 8) with 256.
    set (v := (x * 256 + y) * 256 + z). assert (Hv : 0 <= v < 16777216) by (unfold v; lia). destruct (nth_arith v Hv) as (-> & -> & -> & ->).
    assert (E2 : v / 4096 = v / 64 / 64) by (rewrite Z.div_div by lia; reflexivity). assert (E3 : v / 262144 = v / 4096 / 64) by (rewrite Z.div_div by lia; reflexivity).
    pose proof (Z.div_mod v 64). pose proof (Z.mod_pos_bound v 64).
    pose proof (Z.div_mod (v / 64) 64). pose proof (Z.mod_pos_bound (v / 64) 64). pose proof (Z.div_mod (v / 4096) 64). pose proof (Z.mod_pos_bound (v / 4096) 64).
    apply (B64_group _ _ _ _ _ (v / 262144) (v / 4096 mod 64) (v / 64 mod 64) (v mod 64)); try lia; try (apply char_digit; lia).
    apply IH; [cbn in Hn; lia|assumption].
Qed.

(** *** Both *)
Lemma text_weaken (P Q : Z -> Prop) t s : (forall r, P r -> Q r) -> b64_text P t s -> b64_text Q t s.
Proof. intros H. induction 1; econstructor; eauto. Qed.

Definition plain_char (c : Z) : Prop := c = 43 \/ 47 <= c <= 57 \/ c = 61 \/ 65 <= c <= 90 \/ 97 <= c <= 122.
Lemma digit_plain c d : b64_digit c d -> plain_char c.
Proof. unfold b64_digit, plain_char. lia. Qed.
Lemma text_plain P t s : b64_text P t s -> Forall plain_char t.
Proof.
  assert (H61 : plain_char 61) by (unfold plain_char; lia).
  induction 1; repeat apply Forall_cons; try apply Forall_nil; eauto using digit_plain.
Qed.
Lemma plain_unbroken t : Forall plain_char t -> unbroken t = t.
Proof.
  unfold plain_char. induction 1 as [|c t Hc _ IH]; [reflexivity|]. cbn [unbroken filter]. fold (unbroken t). rewrite IH.
  replace ((c =? 10) || (c =? 13)) with false by lia. reflexivity.
Qed.

Lemma decode_encode b : Forall is_byte b -> b64_decode (b64_encode b) = Some b.
Proof.
  intros Hb. pose proof (encode_text b Hb) as H. apply decode_iff. rewrite plain_unbroken by (apply (text_plain _ _ _ H)).
  revert H. apply text_weaken. auto.
Qed.

(** A text encodes one byte string only, and a byte string has one encoding
    without remaining bits. *)
Lemma text_unique P t s s' : b64_text P t s -> b64_text P t s' -> s = s'.
Proof.
  intros H1 H2. apply (text_weaken P anybits) in H1, H2; auto. apply text_decodes in H1, H2. congruence.
Qed.
Lemma digit_inj c c' d : b64_digit c d -> b64_digit c' d -> c = c'.
Proof. unfold b64_digit. lia. Qed.
Lemma encoding_unique t t' s : b64_text (fun r => r = 0) t s -> b64_text (fun r => r = 0) t' s -> t = t'.
Proof.
  intros H. revert t'. induction H as [|c0 c1 c2 c3 d0 d1 d2 d3 x y z t s D0 D1 D2 D3 Hx Hy Hz He _ IH|c0 c1 d0 d1 x r D0 D1 Hx Hr Hr0 He|c0 c1 c2 d0 d1 d2 x y r D0 D1 D2 Hx Hy Hr Hr0 He];
    intros t' H'.
  - inversion H'; reflexivity.
  - inversion H' as [|c0' c1' c2' c3' d0' d1' d2' d3' x' y' z' t'' s'' D0' D1' D2' D3' _ _ _ He' Ht| |]; subst.
    pose proof (digit_range _ _ D0). pose proof (digit_range _ _ D1). pose proof (digit_range _ _ D2). pose proof (digit_range _ _ D3).
    pose proof (digit_range _ _ D0'). pose proof (digit_range _ _ D1'). pose proof (digit_range _ _ D2'). pose proof (digit_range _ _ D3').
    assert (d0' = d0 /\ d1' = d1 /\ d2' = d2 /\ d3' = d3) as (-> & -> & -> & ->) by lia.
    f_equal; [eapply digit_inj; eassumption|]. f_equal; [eapply digit_inj; eassumption|]. f_equal; [eapply digit_inj; eassumption|]. f_equal; [eapply digit_inj; eassumption|].
    apply IH, Ht.
  - inversion H' as [| |c0' c1' d0' d1' x' r' D0' D1' _ Hr' Hr0' He'|]; subst.
    pose proof (digit_range _ _ D0). pose proof (digit_range _ _ D1). pose proof (digit_range _ _ D0'). pose proof (digit_range _ _ D1').
    assert (d0' = d0 /\ d1' = d1) as (-> & ->) by lia.
    f_equal; [eapply digit_inj; eassumption|]. f_equal; eapply digit_inj; eassumption.
  - inversion H' as [| | |c0' c1' c2' d0' d1' d2' x' y' r' D0' D1' D2' _ _ Hr' Hr0' He']; subst.
    pose proof (digit_range _ _ D0). pose proof (digit_range _ _ D1). pose proof (digit_range _ _ D2).
    pose proof (digit_range _ _ D0'). pose proof (digit_range _ _ D1'). pose proof (digit_range _ _ D2').
    assert (d0' = d0 /\ d1' = d1 /\ d2' = d2) as (-> & -> & ->) by lia.
    f_equal; [eapply digit_inj; eassumption|]. f_equal; [eapply digit_inj; eassumption|]. f_equal; eapply digit_inj; eassumption.
Qed.
Theorem new_bytes_text b : Forall is_byte b -> exists t, new_bytes b = VStr t /\ forall t', t' = t <-> b64_text (fun r => r = 0) t' b.
Proof.
  intros Hb. exists (b64_encode b). split; [reflexivity|]. intros t'. split; [intros ->; now apply encode_text|]. intros H. apply (encoding_unique _ _ b H). now apply encode_text.
Qed.

Theorem bytes_round_trip E W o b : opt_ws o -> Forall is_byte b ->
  api_bytes (new_bytes b) = Ok b /\
  exists t v, marshal_opt E W o (new_bytes b) = Ok t /\ unmarshal E t = Ok (v, None) /\ v = new_bytes b /\ api_bytes v = Ok b.
Proof.
  intros Ho Hb. assert (H0 : api_bytes (new_bytes b) = Ok b) by (cbn; now rewrite decode_encode). split; [exact H0|].
  pose proof (text_plain _ _ _ (encode_text b Hb)) as Hp.
  destruct (round_trip_text E W o (new_bytes b)) as (t & v & Hm & Hu & Hs); try assumption.
  - constructor.
  - cbn. revert Hp. apply Forall_impl. unfold plain_char, is_byte. lia.
  - specialize (Hs I). inversion Hs as [| | |s s' Hf| |]; subst.
    assert (s' = b64_encode b) as ->.
    { assert (Hbyte : Forall is_byte (b64_encode b)) by (revert Hp; apply Forall_impl; unfold plain_char, is_byte; lia).
      rewrite (fixed_fix _ _ Hbyte Hf). symmetry. apply fixed_fix; [exact Hbyte|]. apply fixed_well_formed, ascii_wf. revert Hp. apply Forall_impl. unfold plain_char. lia. }
    exists t, (new_bytes b). auto.
Qed.

(** GetBytes of a string decides whether it is base64. *)
Theorem get_bytes_contract E W cl v p o :
  (forall s, snd (get E W cl v p o) = Ok (VStr s) ->
    (forall b, get_bytes E W cl v p o = Ok (b, None) <-> b64_text anybits (unbroken s) b) /\
    ((forall b, ~ b64_text anybits (unbroken s) b) -> exists e, get_bytes E W cl v p o = Ok ([], Some e))) /\
  (forall c, snd (get E W cl v p o) = Ok c -> (forall s, c <> VStr s) -> c <> VNil -> get_bytes E W cl v p o = Ok ([], Some ErrTypeNotMatch)) /\
  (forall e, snd (get E W cl v p o) = Err e -> get_bytes E W cl v p o = Ok ([], Some e)).
Proof.
  unfold get_bytes, typed. split; [|split].
  - intros s ->. cbn [rbind]. split.
    + intros b. rewrite <- decode_iff. destruct (b64_decode s) as [b'|]; split; intros H; congruence.
    + intros Hn. destruct (b64_decode s) as [b'|] eqn:Ed; [|eauto]. apply decode_iff in Ed. now elim (Hn b').
  - intros c -> Hc Hn. cbn [rbind]. destruct c; try reflexivity; [now elim (Hc s)|now elim Hn].
  - intros e ->. reflexivity.
Qed.

Theorem set_get_bytes E W v b p ps v' x : Forall is_byte b -> maps_ok v -> Forall plain (p :: ps) -> in_bounds v (p :: ps) ->
  set_bytes E v b p ps = (v', Ok x) -> get_bytes E W false v' p ps = Ok (b, None).
Proof.
  intros Hb Mv Hp Hi H. unfold set_bytes in H. apply (set_get E W) in H; try assumption; [|exact I]. destruct H as (_ & Hg & _).
  unfold get_bytes, typed. rewrite Hg. cbn. now rewrite decode_encode.
Qed.

(** Line breaks and remaining bits are accepted. *)
Theorem bytes_lenient : exists t1 t2 b, t1 <> t2 /\ (forall b', ~ b64_text anybits t1 b') /\ (forall b', ~ b64_text (fun r => r = 0) t2 b') /\
  forall E W, get_bytes E W false (VArr [VStr t1; VStr t2]) (PInt 0) [] = Ok (b, None) /\
              get_bytes E W false (VArr [VStr t1; VStr t2]) (PInt 1) [] = Ok (b, None).
Proof.
  exists (bs "Q" ++ [10] ++ bs "Q=="), (bs "QR=="), (bs "A"). split; [discriminate|]. split; [|split].
  - intros b' H. pose proof (text_plain _ _ _ H) as Hp. rewrite Forall_forall in Hp. assert (Hc : plain_char 10) by (apply Hp; cbn; auto). unfold plain_char in Hc. lia.
  - intros b' H. remember (bs "QR==") as t eqn:Et.
    destruct H as [|c0 c1 c2 c3 d0 d1 d2 d3 x y z t s D0 D1 D2 D3 _ _ _ _ _|c0 c1 d0 d1 x r D0 D1 _ _ Hr He|c0 c1 c2 d0 d1 d2 x y r D0 D1 D2 _ _ _ _ _]; vm_compute in Et.
    + discriminate.
    + injection Et as _ _ _ -> _. unfold b64_digit in D3. lia.
    + injection Et as -> ->. unfold b64_digit in D0, D1. lia.
    + injection Et as _ _ ->. unfold b64_digit in D2. lia.
  - intros E W. split; vm_compute; reflexivity.
Qed.

Theorem bytes_contract v :
  (forall s b, v = VStr s -> b64_text anybits (unbroken s) b -> api_bytes v = Ok b) /\
  (forall s, v = VStr s -> (forall b, ~ b64_text anybits (unbroken s) b) -> api_bytes v = Ok []) /\
  ((forall s, v <> VStr s) -> v <> VNil -> api_bytes v = Ok []).
Proof.
  split; [|split].
  - intros s b -> H. apply decode_iff in H. cbn. now rewrite H.
  - intros s -> H. cbn. destruct (b64_decode s) as [b|] eqn:Ed; [|reflexivity]. apply decode_iff in Ed. now elim (H b).
  - intros H1 H2. destruct v; try reflexivity; [now elim (H1 s)|now elim H2].
Qed.
