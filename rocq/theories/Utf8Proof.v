(** UTF-8 arithmetic: the bit manipulations of the code against [SpecJson.utf8]. *)
From Verif Require Import Base Scan Pure ListLemmas SpecJson.

(** Checking a decidable statement for all bytes. *)
Definition all_bytes : list Z := map Z.of_nat (seq 0 256).
Lemma byte_forall (P : Z -> bool) :
  forallb P all_bytes = true -> forall c, 0 <= c < 256 -> P c = true.
Proof.
  intros H c Hc. rewrite forallb_forall in H. apply H.
  unfold all_bytes. apply in_map_iff. exists (Z.to_nat c). split; [lia|].
  apply in_seq. lia.
Qed.

Lemma rune_bytes2_spec c : 0 <= c < 256 -> rune_bytes2 c = (192 <=? c) && (c <=? 223).
Proof.
  intros H. apply Bool.eqb_prop.
  apply (byte_forall (fun c => Bool.eqb (rune_bytes2 c) ((192 <=? c) && (c <=? 223)))); [|assumption].
  vm_compute. reflexivity.
Qed.
Lemma rune_bytes3_spec c : 0 <= c < 256 -> rune_bytes3 c = (224 <=? c) && (c <=? 239).
Proof.
  intros H. apply Bool.eqb_prop.
  apply (byte_forall (fun c => Bool.eqb (rune_bytes3 c) ((224 <=? c) && (c <=? 239)))); [|assumption].
  vm_compute. reflexivity.
Qed.
Lemma rune_bytes4_spec c : 0 <= c < 256 -> rune_bytes4 c = (240 <=? c) && (c <=? 247).
Proof.
  intros H. apply Bool.eqb_prop.
  apply (byte_forall (fun c => Bool.eqb (rune_bytes4 c) ((240 <=? c) && (c <=? 247)))); [|assumption].
  vm_compute. reflexivity.
Qed.

(** Field extraction [ (r & (mask << k)) >> k ]. *)
Lemma field_spec r k n : 0 <= k -> 0 <= n ->
  Z.shiftr (Z.land r (Z.shiftl (Z.ones n) k)) k = (r / 2 ^ k) mod 2 ^ n.
Proof.
  intros Hk Hn. rewrite Z.shiftr_land, Z.shiftr_shiftl_l by lia.
  rewrite Z.sub_diag, Z.shiftl_0_r, Z.land_ones by lia.
  now rewrite Z.shiftr_div_pow2 by lia.
Qed.

Lemma f63 r : Z.land r 63 = r mod 64.
Proof. change 63 with (Z.ones 6). rewrite Z.land_ones by lia. reflexivity. Qed.
Lemma f1984 r : Z.shiftr (Z.land r 1984) 6 = (r / 64) mod 32.
Proof. change 1984 with (Z.shiftl (Z.ones 5) 6). apply field_spec; lia. Qed.
Lemma f4032 r : Z.shiftr (Z.land r 4032) 6 = (r / 64) mod 64.
Proof. change 4032 with (Z.shiftl (Z.ones 6) 6). apply field_spec; lia. Qed.
Lemma f61440 r : Z.shiftr (Z.land r 61440) 12 = (r / 4096) mod 16.
Proof. change 61440 with (Z.shiftl (Z.ones 4) 12). apply field_spec; lia. Qed.
Lemma f258048 r : Z.shiftr (Z.land r 258048) 12 = (r / 4096) mod 64.
Proof. change 258048 with (Z.shiftl (Z.ones 6) 12). apply field_spec; lia. Qed.
Lemma f1835008 r : Z.shiftr (Z.land r 1835008) 18 = (r / 262144) mod 8.
Proof. change 1835008 with (Z.shiftl (Z.ones 3) 18). apply field_spec; lia. Qed.

Lemma q_rune_utf8 cp : 0 <= cp <= 1114111 -> q_rune cp = utf8 cp.
Proof.
  intros H. unfold q_rune, utf8.
  rewrite f63, f1984, f4032, f61440, f258048, f1835008.
  replace (cp <=? 127) with (cp <? 128) by lia.
  replace (cp <=? 2047) with (cp <? 2048) by lia.
  replace (cp <=? 65535) with (cp <? 65536) by lia.
  destruct (Z.ltb_spec cp 128); [reflexivity|].
  destruct (Z.ltb_spec cp 2048); [repeat (f_equal; try lia)|].
  destruct (Z.ltb_spec cp 65536); repeat (f_equal; try lia).
Qed.

Lemma utf8_bytes cp : scalar cp -> Forall (fun c => 0 <= c < 256) (utf8 cp).
Proof.
  unfold scalar, utf8. intros H.
  destruct (Z.ltb_spec cp 128); [repeat constructor; lia|].
  destruct (Z.ltb_spec cp 2048); [repeat constructor; lia|].
  destruct (Z.ltb_spec cp 65536); repeat constructor; lia.
Qed.

Lemma utf8_length cp : (1 <= List.length (utf8 cp) <= 4)%nat.
Proof.
  unfold utf8. destruct (cp <? 128); [|destruct (cp <? 2048); [|destruct (cp <? 65536)]]; simpl; lia.
Qed.

(** A raw character of a string is copied. *)
Lemma q_char_raw cp t :
  scalar cp -> cp <> 34 -> cp <> 92 ->
  exists c t', utf8 cp ++ t = c :: t' /\ (c =? 34) = false /\ q_char c t' = Ok (utf8 cp, t).
Proof.
  intros Hs H34 H92. unfold utf8.
  assert (Hcp : 0 <= cp <= 1114111) by (unfold scalar in Hs; lia).
  destruct (Z.ltb_spec cp 128) as [Hlt|Hge].
  - exists cp, t. split; [reflexivity|]. split; [lia|].
    unfold q_char. replace (cp =? 92) with false by lia. replace (cp <=? 127) with true by lia. reflexivity.
  - destruct (Z.ltb_spec cp 2048); [|destruct (Z.ltb_spec cp 65536)].
    + eexists; eexists; split; [reflexivity|]. split; [lia|].
      unfold q_char. rewrite rune_bytes2_spec, rune_bytes3_spec, rune_bytes4_spec by lia.
      replace (192 + cp / 64 =? 92) with false by lia.
      replace (192 + cp / 64 <=? 127) with false by lia.
      replace ((192 <=? 192 + cp / 64) && (192 + cp / 64 <=? 223)) with true by lia.
      reflexivity.
    + eexists; eexists; split; [reflexivity|]. split; [lia|].
      unfold q_char. rewrite rune_bytes2_spec, rune_bytes3_spec, rune_bytes4_spec by lia.
      replace (224 + cp / 4096 =? 92) with false by lia.
      replace (224 + cp / 4096 <=? 127) with false by lia.
      replace ((192 <=? 224 + cp / 4096) && (224 + cp / 4096 <=? 223)) with false by lia.
      replace ((224 <=? 224 + cp / 4096) && (224 + cp / 4096 <=? 239)) with true by lia.
      reflexivity.
    + eexists; eexists; split; [reflexivity|]. split; [lia|].
      unfold q_char. rewrite rune_bytes2_spec, rune_bytes3_spec, rune_bytes4_spec by lia.
      replace (240 + cp / 262144 =? 92) with false by lia.
      replace (240 + cp / 262144 <=? 127) with false by lia.
      replace ((192 <=? 240 + cp / 262144) && (240 + cp / 262144 <=? 223)) with false by lia.
      replace ((224 <=? 240 + cp / 262144) && (240 + cp / 262144 <=? 239)) with false by lia.
      replace ((240 <=? 240 + cp / 262144) && (240 + cp / 262144 <=? 247)) with true by lia.
      reflexivity.
Qed.

Lemma hexd_spec c v : hexd c v -> chr_to_hex c = Ok v /\ 0 <= v <= 15.
Proof.
  intros H. unfold chr_to_hex. inversion H; subst.
  - replace ((48 <=? c) && (c <=? 57)) with true by lia. split; [reflexivity|lia].
  - replace ((48 <=? c) && (c <=? 57)) with false by lia.
    replace ((65 <=? c) && (c <=? 70)) with false by lia.
    replace ((97 <=? c) && (c <=? 102)) with true by lia. split; [f_equal; lia|lia].
  - replace ((48 <=? c) && (c <=? 57)) with false by lia.
    replace ((65 <=? c) && (c <=? 70)) with true by lia. split; [f_equal; lia|lia].
Qed.

Lemma hex4d_spec h cp :
  hex4d h cp -> exists a b c d, h = [a; b; c; d] /\ q_hex4 a b c d = Ok cp /\ 0 <= cp <= 65535.
Proof.
  intros H. inversion H as [a b c d va vb vc vd Ha Hb Hc Hd]; subst.
  exists a, b, c, d. split; [reflexivity|].
  apply hexd_spec in Ha as [Ea ?]. apply hexd_spec in Hb as [Eb ?].
  apply hexd_spec in Hc as [Ec ?]. apply hexd_spec in Hd as [Ed ?].
  unfold q_hex4. rewrite Ea, Eb, Ec, Ed. cbn [rbind]. split; [reflexivity|lia].
Qed.

(** Every string text of the grammar is decoded to its content. *)
Lemma q_str_complete t s : str_body t s -> forall f rest,
  (List.length t < f)%nat -> q_str f (t ++ 34 :: rest) = Ok (s, rest).
Proof.
  induction 1 as [|cp t s Hsc H32 H34 H92 Hb IH|c d t s He Hb IH
                 |h cp t s Hh Hsc Hb IH|h1 h2 hi lo t s Hh1 Hhi Hh2 Hlo Hb IH];
    intros f rest Hf; (destruct f as [|f]; [lia|]).
  - reflexivity.
  - rewrite <- app_assoc.
    destruct (q_char_raw cp (t ++ 34 :: rest) Hsc H34 H92) as (c & t' & E1 & E2 & E3).
    rewrite E1. cbn [q_str]. rewrite E2, E3. cbn [rbind].
    pose proof (utf8_length cp). rewrite app_length in Hf.
    rewrite IH by lia. reflexivity.
  - cbn [app q_str List.length] in *. change (92 =? 34) with false. cbn iota.
    unfold q_char. change (92 =? 92) with true. cbn iota.
    assert (Q : q_escape (c :: t ++ 34 :: rest) = Ok ([d], t ++ 34 :: rest))
      by (inversion He; subst; reflexivity).
    rewrite Q. cbn [rbind]. rewrite IH by lia. reflexivity.
  - destruct (hex4d_spec _ _ Hh) as (a & b & c & d & -> & Hq & Hr).
    cbn [app q_str List.length] in *. change (92 =? 34) with false. cbn iota.
    unfold q_char. change (92 =? 92) with true. cbn iota.
    unfold q_escape.
    change ((117 =? 34) || (117 =? 39) || (117 =? 47) || (117 =? 92)) with false. cbn iota.
    change (117 =? 98) with false. change (117 =? 102) with false. change (117 =? 114) with false.
    change (117 =? 110) with false. change (117 =? 116) with false. change (117 =? 117) with true. cbn iota.
    assert (Ht : exists x t', t ++ 34 :: rest = x :: t') by (destruct t; simpl; eauto).
    destruct Ht as (x & t' & Ht). rewrite Ht. unfold q_unicode. rewrite Hq. cbn [rbind].
    replace ((cp <=? 55295) || (57344 <=? cp)) with true by (unfold scalar in Hsc; lia).
    cbn [rbind]. rewrite <- Ht. rewrite IH by lia. cbn [rbind].
    rewrite q_rune_utf8 by lia. reflexivity.
  - destruct (hex4d_spec _ _ Hh1) as (a & b & c & d & -> & Hq1 & Hr1).
    destruct (hex4d_spec _ _ Hh2) as (a2 & b2 & c2 & d2 & -> & Hq2 & Hr2).
    cbn [app q_str List.length] in *. change (92 =? 34) with false. cbn iota.
    unfold q_char. change (92 =? 92) with true. cbn iota.
    unfold q_escape.
    change ((117 =? 34) || (117 =? 39) || (117 =? 47) || (117 =? 92)) with false. cbn iota.
    change (117 =? 98) with false. change (117 =? 102) with false. change (117 =? 114) with false.
    change (117 =? 110) with false. change (117 =? 116) with false. change (117 =? 117) with true. cbn iota.
    assert (Ht : exists x t', t ++ 34 :: rest = x :: t') by (destruct t; simpl; eauto).
    destruct Ht as (x & t' & Ht). rewrite Ht. unfold q_unicode. rewrite Hq1. cbn [rbind].
    replace ((hi <=? 55295) || (57344 <=? hi)) with false by lia.
    change (negb ((92 =? 92) && (117 =? 117))) with false. cbn iota.
    rewrite Hq2. cbn [rbind].
    replace (lo <? 56320) with false by lia.
    replace (1023 <? lo - 56320) with false by lia.
    cbn [rbind]. rewrite <- Ht. rewrite IH by lia. cbn [rbind].
    rewrite Z.shiftl_mul_pow2 by lia. change (2 ^ 10) with 1024.
    rewrite q_rune_utf8 by lia. do 4 f_equal. lia.
Qed.
