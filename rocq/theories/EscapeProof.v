(** Escaped text denotes the string: conv.go against the grammar of strings. *)
From Verif Require Import Base Utf8 Float64 Value Scan Unmarshal Pure Opt Marshal ListLemmas SpecJson SpecText Utf8Proof.

(** *** Decoding *)

Lemma decode_utf8 cp t : scalar cp -> decode_rune (utf8 cp ++ t) = (cp, List.length (utf8 cp)).
Proof.
  intros Hs. unfold utf8.
  destruct (Z.ltb_spec cp 128) as [H1|H1].
  { cbn [app decode_rune List.length]. unfold scalar in Hs. replace (cp <? 128) with true by lia. reflexivity. }
  destruct (Z.ltb_spec cp 2048) as [H2|H2].
  { cbn [app decode_rune List.length]. replace (192 + cp / 64 <? 128) with false by lia.
    replace ((194 <=? 192 + cp / 64) && (192 + cp / 64 <=? 223)) with true by lia.
    unfold is_cont. replace ((128 <=? 128 + cp mod 64) && (128 + cp mod 64 <=? 191)) with true by lia.
    f_equal. lia. }
  destruct (Z.ltb_spec cp 65536) as [H3|H3].
  { cbn [app decode_rune List.length].
    replace (224 + cp / 4096 <? 128) with false by lia.
    replace ((194 <=? 224 + cp / 4096) && (224 + cp / 4096 <=? 223)) with false by lia.
    replace ((224 <=? 224 + cp / 4096) && (224 + cp / 4096 <=? 239)) with true by lia.
    unfold is_cont. unfold scalar in Hs.
    match goal with |- (if ?b then _ else _) = _ => replace b with true end.
    2:{ symmetry. destruct (Z.eqb_spec (224 + cp / 4096) 224), (Z.eqb_spec (224 + cp / 4096) 237); lia. }
    f_equal. lia. }
  cbn [app decode_rune List.length]. unfold scalar in Hs.
  replace (240 + cp / 262144 <? 128) with false by lia.
  replace ((194 <=? 240 + cp / 262144) && (240 + cp / 262144 <=? 223)) with false by lia.
  replace ((224 <=? 240 + cp / 262144) && (240 + cp / 262144 <=? 239)) with false by lia.
  replace ((240 <=? 240 + cp / 262144) && (240 + cp / 262144 <=? 244)) with true by lia.
  unfold is_cont.
  match goal with |- (if ?b then _ else _) = _ => replace b with true end.
  2:{ symmetry. destruct (Z.eqb_spec (240 + cp / 262144) 240), (Z.eqb_spec (240 + cp / 262144) 244); lia. }
  f_equal. lia.
Qed.

(** Decoding either reads a well-formed sequence or gives U+FFFD and one byte. *)
Lemma decode_cases b s : 0 <= b < 256 ->
  (exists cp t, scalar cp /\ b :: s = utf8 cp ++ t) \/ decode_rune (b :: s) = (65533, 1%nat).
Proof.
  intros Hb. cbn [decode_rune].
  destruct (Z.ltb_spec b 128) as [H1|H1].
  { left. exists b, s. unfold scalar, utf8. replace (b <? 128) with true by lia. split; [lia|reflexivity]. }
  destruct ((194 <=? b) && (b <=? 223)) eqn:H2.
  { destruct s as [|b1 s]; [auto|]. destruct (is_cont b1) eqn:C1; [|auto]. unfold is_cont in C1. left.
    exists ((b - 192) * 64 + (b1 - 128)), s. unfold scalar, utf8. split; [lia|].
    replace ((b - 192) * 64 + (b1 - 128) <? 128) with false by lia.
    replace ((b - 192) * 64 + (b1 - 128) <? 2048) with true by lia.
    cbn [app]. repeat (f_equal; try lia). }
  destruct ((224 <=? b) && (b <=? 239)) eqn:H3.
  { destruct s as [|b1 [|b2 s]]; auto.
    match goal with |- _ \/ (if ?c then _ else _) = _ => destruct c eqn:C1 end; [|auto]. unfold is_cont in C1. left.
    set (cp := (b - 224) * 4096 + (b1 - 128) * 64 + (b2 - 128)).
    assert (Hr : 2048 <= cp < 65536 /\ ~ (55296 <= cp < 57344)).
    { unfold cp. destruct (Z.eqb_spec b 224), (Z.eqb_spec b 237); lia. }
    exists cp, s. split; [unfold scalar; lia|]. unfold utf8.
    replace (cp <? 128) with false by lia. replace (cp <? 2048) with false by lia.
    replace (cp <? 65536) with true by lia. cbn [app].
    assert (128 <= b1 <= 191) by (destruct (Z.eqb_spec b 224), (Z.eqb_spec b 237); lia).
    unfold cp. repeat (f_equal; try lia). }
  destruct ((240 <=? b) && (b <=? 244)) eqn:H4; [|auto].
  destruct s as [|b1 [|b2 [|b3 s]]]; auto.
  match goal with |- _ \/ (if ?c then _ else _) = _ => destruct c eqn:C1 end; [|auto]. unfold is_cont in C1. left.
  set (cp := (b - 240) * 262144 + (b1 - 128) * 4096 + (b2 - 128) * 64 + (b3 - 128)).
  assert (128 <= b1 <= 191) by (destruct (Z.eqb_spec b 240), (Z.eqb_spec b 244); lia).
  assert (Hr : 65536 <= cp <= 1114111).
  { unfold cp. destruct (Z.eqb_spec b 240), (Z.eqb_spec b 244); lia. }
  exists cp, s. split; [unfold scalar; lia|]. unfold utf8.
  replace (cp <? 128) with false by lia. replace (cp <? 2048) with false by lia.
  replace (cp <? 65536) with false by lia. cbn [app].
  unfold cp. repeat (f_equal; try lia).
Qed.

Lemma runes_skip w t : runes_aux (List.length w) (w ++ t) = runes_aux 0 t.
Proof. induction w as [|c w IH]; [reflexivity|]. exact IH. Qed.

Lemma runes_char cp t : scalar cp -> runes (utf8 cp ++ t) = cp :: runes t.
Proof.
  intros H. unfold runes. pose proof (decode_utf8 cp t H) as D.
  pose proof (utf8_length cp) as L.
  destruct (utf8 cp) as [|c w] eqn:Ew; [simpl in L; lia|].
  cbn [app runes_aux] in *. rewrite D. cbn [List.length pred]. now rewrite runes_skip.
Qed.

Lemma runes_bad b s : decode_rune (b :: s) = (65533, 1%nat) -> runes (b :: s) = 65533 :: runes s.
Proof. intros H. unfold runes. cbn [runes_aux]. rewrite H. reflexivity. Qed.

Lemma scalar_fffd : scalar 65533. Proof. unfold scalar; lia. Qed.

(** The code points Go sees are those of the specification. *)
Lemma runes_read_strong n : forall s, (List.length s <= n)%nat -> Forall is_byte s -> utf8_read s (runes s).
Proof.
  induction n as [|n IH]; intros s Hl Hs.
  - destruct s; [constructor|simpl in Hl; lia].
  - destruct s as [|b s]; [constructor|].
    inversion Hs as [|? ? Hb Hs']; subst. cbn [List.length] in Hl.
    assert (Dec : (exists cp t, scalar cp /\ b :: s = utf8 cp ++ t) \/ (forall cp t, scalar cp -> b :: s <> utf8 cp ++ t) /\ decode_rune (b :: s) = (65533, 1%nat)).
    { destruct (decode_cases b s Hb) as [H|H]; [auto|].
      destruct (decode_rune (b :: s)) as [c k] eqn:D. inversion H; subst.
      (* either 65533 itself is encoded with one byte: impossible *)
      right. split; [|reflexivity]. intros cp t Hc He. rewrite He in D. rewrite (decode_utf8 cp t Hc) in D.
      inversion D as [[E1 E2]]. subst cp. discriminate. }
    destruct Dec as [(cp & t & Hc & He)|[Hbad D]].
    + rewrite He. rewrite runes_char by assumption. constructor; [assumption|].
      apply IH.
      * assert (Hlen : List.length (b :: s) = List.length (utf8 cp ++ t)) by now rewrite He.
        rewrite app_length in Hlen. pose proof (utf8_length cp). simpl in Hlen. lia.
      * assert (Hall : Forall is_byte (utf8 cp ++ t)) by (rewrite <- He; assumption).
        apply Forall_app in Hall. tauto.
    + rewrite runes_bad by assumption. constructor; [assumption|]. apply IH; [lia|assumption].
Qed.

Lemma runes_read s : Forall is_byte s -> utf8_read s (runes s).
Proof. intros H. now apply (runes_read_strong (List.length s)). Qed.

Lemma utf8_read_det s l : utf8_read s l -> Forall is_byte s -> l = runes s.
Proof.
  induction 1 as [|cp s l Hc H IH|b s l Hbad H IH]; intros Hs; [reflexivity| |].
  - rewrite runes_char by assumption. f_equal. apply IH. apply Forall_app in Hs. tauto.
  - inversion Hs; subst. rewrite runes_bad; [f_equal; auto|].
    destruct (decode_cases b s) as [(cp & t & Hc & He)|D]; [assumption| |assumption].
    exfalso. exact (Hbad cp t Hc He).
Qed.

Lemma utf8_read_scalar s l : utf8_read s l -> Forall scalar l.
Proof. induction 1; constructor; auto. apply scalar_fffd. Qed.

Lemma utf8_read_enc l : Forall scalar l -> utf8_read (utf8_enc l) l.
Proof. induction 1; cbn; constructor; assumption. Qed.

(** Repaired string. *)
Definition fix_utf8 (s : bytes) : bytes := utf8_enc (runes s).
Lemma fix_fixed s : Forall is_byte s -> fixed s (fix_utf8 s).
Proof. intros H. exists (runes s). split; [now apply runes_read|reflexivity]. Qed.
Lemma fixed_fix s s' : Forall is_byte s -> fixed s s' -> s' = fix_utf8 s.
Proof. intros Hs (l & Hl & ->). unfold fix_utf8. now rewrite (utf8_read_det _ _ Hl Hs). Qed.
Lemma fixed_well_formed s : well_formed s -> fixed s s.
Proof. intros (l & Hl & ->). exists l. split; [now apply utf8_read_enc|reflexivity]. Qed.

Lemma utf8_enc_bytes l : Forall scalar l -> Forall is_byte (utf8_enc l).
Proof.
  induction 1 as [|cp l H _ IH]; cbn; [constructor|]. apply Forall_app. split; [|assumption].
  pose proof (utf8_bytes cp H). eapply Forall_impl; [|eassumption]. unfold is_byte. lia.
Qed.
Lemma well_formed_bytes s : well_formed s -> Forall is_byte s.
Proof. intros (l & Hl & ->). now apply utf8_enc_bytes. Qed.

(** *** Hexadecimal digits *)

Lemma hex_up_spec d : 0 <= d < 16 -> hexd (hex_up d) d.
Proof.
  intros H. unfold hex_up. destruct (Z.ltb_spec d 10).
  - replace d with ((48 + d) - 48) at 2 by lia. apply HD_dec. lia.
  - replace d with ((65 + (d - 10)) - 55) at 2 by lia. apply HD_up. lia.
Qed.

Lemma esc_u4_spec r : 0 <= r < 65536 ->
  exists h, esc_u4 r = 92 :: 117 :: h /\ hex4d h r.
Proof.
  intros H. eexists; split; [reflexivity|].
  replace r with ((r / 4096 mod 16) * 4096 + (r / 256 mod 16) * 256 + (r / 16 mod 16) * 16 + r mod 16) at 5 by lia.
  constructor; apply hex_up_spec; lia.
Qed.

Lemma lo_spec r : Z.land r 1023 = r mod 1024.
Proof. change 1023 with (Z.ones 10). now rewrite Z.land_ones by lia. Qed.
Lemma hi_spec r : Z.shiftr (Z.land r 1047552) 10 = (r / 1024) mod 1024.
Proof. change 1047552 with (Z.shiftl (Z.ones 10) 10). apply field_spec; lia. Qed.

Lemma esc_utf16_body r t s : scalar r -> str_body t s -> str_body (esc_utf16 r ++ t) (utf8 r ++ s).
Proof.
  intros Hs H. unfold esc_utf16. destruct (Z.leb_spec r 65535) as [H1|H1].
  - destruct (esc_u4_spec r) as (h & -> & Hh); [unfold scalar in Hs; lia|].
    cbn [app]. now apply SB_unicode.
  - rewrite lo_spec, hi_spec. unfold scalar in Hs.
    destruct (esc_u4_spec ((r - 65536) / 1024 mod 1024 + 55296)) as (h1 & -> & Hh1); [lia|].
    destruct (esc_u4_spec ((r - 65536) mod 1024 + 56320)) as (h2 & -> & Hh2); [lia|].
    cbn [app]. rewrite <- app_assoc. cbn [app].
    replace (utf8 r) with (utf8 (65536 + (((r - 65536) / 1024 mod 1024 + 55296) - 55296) * 1024
      + (((r - 65536) mod 1024 + 56320) - 56320))) by (f_equal; lia).
    apply SB_pair; try assumption; lia.
Qed.

Lemma encode_rune_utf8 r : scalar r -> encode_rune r = utf8 r.
Proof.
  unfold scalar, encode_rune, utf8. intros H.
  destruct (Z.ltb_spec r 128); [replace ((0 <=? r) && (r <=? 127)) with true by lia; reflexivity|].
  replace ((0 <=? r) && (r <=? 127)) with false by lia.
  destruct (Z.ltb_spec r 2048); [replace ((0 <=? r) && (r <=? 2047)) with true by lia; reflexivity|].
  replace ((0 <=? r) && (r <=? 2047)) with false by lia.
  replace ((r <? 0) || (1114111 <? r) || ((55296 <=? r) && (r <=? 57343))) with false by lia.
  replace (r <=? 65535) with (r <? 65536) by lia. reflexivity.
Qed.

Lemma esc_utf8_body r t s : scalar r -> 128 <= r -> str_body t s -> str_body (esc_utf8 r ++ t) (utf8 r ++ s).
Proof.
  intros Hs Hr H. unfold esc_utf8. destruct (_ || _); [now apply esc_utf16_body|].
  rewrite encode_rune_utf8 by assumption. apply SB_raw; try assumption; lia.
Qed.

Lemma utf8_ascii r : 0 <= r < 128 -> utf8 r = [r].
Proof. intros H. unfold utf8. replace (r <? 128) with true by lia. reflexivity. Qed.

Lemma esc_control_body b t s : 0 <= b < 128 -> str_body t s -> str_body (esc_control b ++ t) (b :: s).
Proof.
  intros Hb H. unfold esc_control.
  rewrite Z.shiftr_div_pow2 by lia. change (2 ^ 4) with 16.
  change 15 with (Z.ones 4). rewrite Z.land_ones by lia. change (2 ^ 4) with 16.
  replace (b :: s) with (utf8 b ++ s) by now rewrite utf8_ascii.
  apply (SB_unicode [48; 48; hex_up (b / 16); hex_up (b mod 16)]); [|unfold scalar; lia|assumption].
  replace b with ((48 - 48) * 4096 + (48 - 48) * 256 + (b / 16) * 16 + b mod 16) at 3 by lia.
  constructor; try (apply HD_dec; lia); apply hex_up_spec; lia.
Qed.

Lemma esc_ascii_body esc b t s : 0 <= b < 128 -> b <> 11 -> str_body t s ->
  str_body (esc_ascii esc b ++ t) (b :: s).
Proof.
  intros Hb Hv H. unfold esc_ascii.
  assert (Raw : 32 <= b -> b <> 34 -> b <> 92 -> str_body ([b] ++ t) (b :: s)).
  { intros. replace (b :: s) with (utf8 b ++ s) by now rewrite utf8_ascii.
    rewrite <- (utf8_ascii b) at 1 by lia. apply SB_raw; unfold scalar; auto; lia. }
  assert (U : forall c d, b = c -> hex4d [48; 48; d; (hex_up (c mod 16))] c -> str_body ([92; 117; 48; 48; d; hex_up (c mod 16)] ++ t) (b :: s)).
  { intros c d -> Hh. replace (c :: s) with (utf8 c ++ s) by now rewrite utf8_ascii.
    apply (SB_unicode [48; 48; d; hex_up (c mod 16)]); auto. unfold scalar; lia. }
  destruct (esc_has esc escapeWithoutHTML && ((b =? 60) || (b =? 62) || (b =? 38))) eqn:E1; [apply Raw; lia|].
  destruct (esc_has esc escapeIgnoreSlash && (b =? 47)) eqn:E2; [apply Raw; lia|].
  destruct (Z.eqb_spec b 38) as [B|B].
  { apply (U 38 50 B). apply (Hex4 48 48 50 54 0 0 2 6); first [apply (HD_dec 48); lia | apply (HD_dec 50); lia | apply (HD_dec 54); lia]. }
  destruct (Z.eqb_spec b 62) as [B1|B1].
  { apply (U 62 51 B1). apply (Hex4 48 48 51 69 0 0 3 14); first [apply (HD_dec 48); lia | apply (HD_dec 51); lia | apply (HD_up 69); lia]. }
  destruct (Z.eqb_spec b 60) as [B2|B2].
  { apply (U 60 51 B2). apply (Hex4 48 48 51 67 0 0 3 12); first [apply (HD_dec 48); lia | apply (HD_dec 51); lia | apply (HD_up 67); lia]. }
  destruct (Z.eqb_spec b 13) as [->|?]; [apply SB_esc; [constructor|assumption]|].
  destruct (Z.eqb_spec b 10) as [->|?]; [apply SB_esc; [constructor|assumption]|].
  destruct (Z.eqb_spec b 9) as [->|?]; [apply SB_esc; [constructor|assumption]|].
  destruct (Z.eqb_spec b 12) as [->|?]; [apply SB_esc; [constructor|assumption]|].
  destruct (Z.eqb_spec b 8) as [->|?]; [apply SB_esc; [constructor|assumption]|].
  destruct (Z.eqb_spec b 92) as [->|?]; [apply SB_esc; [constructor|assumption]|].
  destruct (Z.eqb_spec b 47) as [->|?]; [apply SB_esc; [constructor|assumption]|].
  destruct (Z.eqb_spec b 34) as [->|?]; [apply SB_esc; [constructor|assumption]|].
  destruct (Z.eqb_spec b 127) as [B3|B3]; [now apply esc_control_body|].
  destruct ((14 <=? b) && (b <=? 31)) eqn:E3; [now apply esc_control_body|].
  destruct ((0 <=? b) && (b <=? 7)) eqn:E4; [now apply esc_control_body|].
  apply Raw; lia.
Qed.

Lemma esc_rune_body esc r t s : scalar r -> r <> 11 -> str_body t s ->
  str_body (esc_rune esc r ++ t) (utf8 r ++ s).
Proof.
  intros Hs Hv H. unfold esc_rune. destruct (Z.leb_spec r 127).
  - unfold scalar in Hs. rewrite utf8_ascii by lia. apply esc_ascii_body; try assumption; lia.
  - unfold esc_unicode. destruct (esc_has esc escapeUTF8); [apply esc_utf8_body|apply esc_utf16_body]; try assumption; lia.
Qed.

Lemma escape_runes_body esc l : Forall scalar l -> ~ In 11 l ->
  str_body (flat_map (esc_rune esc) l) (utf8_enc l).
Proof.
  intros H. induction H as [|r l Hr Hl IH]; intros Hv; cbn; [constructor|].
  apply esc_rune_body; [assumption|intros ->; apply Hv; now left|]. apply IH. intros Hin. apply Hv. now right.
Qed.

Lemma utf8_byte_ascii cp c : In c (utf8 cp) -> scalar cp -> c < 128 -> c = cp.
Proof.
  unfold utf8, scalar. intros Hin Hs Hc.
  destruct (Z.ltb_spec cp 128); [destruct Hin as [<-|[]]; reflexivity|].
  destruct (Z.ltb_spec cp 2048); [|destruct (Z.ltb_spec cp 65536)];
    cbn [In] in Hin; repeat destruct Hin as [<-|Hin]; try contradiction; lia.
Qed.

(** 0x0B occurs in the code points exactly when it occurs in the bytes. *)
Lemma runes_vt s : Forall is_byte s -> ~ In 11 s -> ~ In 11 (runes s).
Proof.
  intros Hs. pose proof (runes_read s Hs) as R. induction R as [|cp s l Hc R IH|b s l Hbad R IH]; intros Hn; auto.
  - intros [->|Hin]; [|].
    + apply Hn. apply in_or_app. left. rewrite utf8_ascii by lia. now left.
    + apply Forall_app in Hs as [_ Hs]. apply IH; try assumption. intros H. apply Hn. apply in_or_app. auto.
  - inversion Hs; subst. intros [H|Hin]; [lia|]. apply IH; try assumption. intros H. apply Hn. now right.
Qed.

Lemma escape_string_body esc s : Forall is_byte s -> ~ In 11 s ->
  str_body (escape_string esc s) (fix_utf8 s).
Proof.
  intros Hs Hv. apply escape_runes_body.
  - eapply utf8_read_scalar. now apply runes_read.
  - now apply runes_vt.
Qed.
