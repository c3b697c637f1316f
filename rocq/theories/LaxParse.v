(** The parser accepts exactly the grammar of SpecLax.v. *)
From Verif Require Import Base Float64 Value Scan Unmarshal Pure ListLemmas UnmarshalProof
  SpecJson SpecValue Utf8Proof NumProof ParseComplete ParseFacts SpecLax LaxNum.

(** *** Strings *)

Lemma chr_to_hex_inv c v : chr_to_hex c = Ok v -> hexd c v.
Proof.
  unfold chr_to_hex.
  destruct ((48 <=? c) && (c <=? 57)) eqn:E1; [intros H; inversion H; apply HD_dec; lia|].
  destruct ((65 <=? c) && (c <=? 70)) eqn:E2; [intros H; inversion H; subst; replace (c - 65 + 10) with (c - 55) by lia; apply HD_up; lia|].
  destruct ((97 <=? c) && (c <=? 102)) eqn:E3; [intros H; inversion H; subst; replace (c - 97 + 10) with (c - 87) by lia; apply HD_low; lia|].
  discriminate.
Qed.

Lemma q_hex4_inv a b c d u : q_hex4 a b c d = Ok u -> hex4d [a; b; c; d] u.
Proof.
  unfold q_hex4.
  destruct (chr_to_hex a) as [va| | |] eqn:Ea; cbn [rbind]; try discriminate.
  destruct (chr_to_hex b) as [vb| | |] eqn:Eb; cbn [rbind]; try discriminate.
  destruct (chr_to_hex c) as [vc| | |] eqn:Ec; cbn [rbind]; try discriminate.
  destruct (chr_to_hex d) as [vd| | |] eqn:Ed; cbn [rbind]; try discriminate.
  intros H; inversion H. constructor; now apply chr_to_hex_inv.
Qed.

Lemma q_rune_pair cp : 65536 <= cp -> q_rune cp = pair_bytes cp.
Proof.
  intros H. unfold q_rune, pair_bytes. rewrite f63, f4032, f258048, f1835008.
  replace (cp <=? 127) with false by lia. replace (cp <=? 2047) with false by lia.
  replace (cp <=? 65535) with false by lia. repeat (f_equal; try lia).
Qed.

Lemma q_char_inv c t w r1 : 0 <= c < 256 -> (c =? 34) = false -> q_char c t = Ok (w, r1) ->
  exists x, c :: t = x ++ r1 /\ (1 <= List.length x)%nat /\ forall t' s', lstr t' s' -> lstr (x ++ t') (w ++ s').
Proof.
  intros Hc H34 H. unfold q_char in H.
  destruct (Z.eqb_spec c 92) as [->|N92].
  - unfold q_escape in H. destruct t as [|e t]; [discriminate|].
    assert (Esc : forall d, simple_esc e d \/ e = 39 /\ d = 39 -> w = [d] -> r1 = t ->
      exists x, 92 :: e :: t = x ++ r1 /\ (1 <= List.length x)%nat /\ forall t' s', lstr t' s' -> lstr (x ++ t') (w ++ s')).
    { intros d Hd -> ->. exists [92; e]. split; [reflexivity|]. split; [cbn; lia|]. intros t' s' Hl. now apply LS_esc. }
    destruct ((e =? 34) || (e =? 39) || (e =? 47) || (e =? 92)) eqn:E1.
    { inversion H; subst. apply (Esc e); try reflexivity.
      destruct (Z.eqb_spec e 34) as [->|]; [left; constructor|]. destruct (Z.eqb_spec e 39) as [->|]; [right; auto|].
      destruct (Z.eqb_spec e 47) as [->|]; [left; constructor|]. destruct (Z.eqb_spec e 92) as [->|]; [left; constructor|]. discriminate. }
    destruct (Z.eqb_spec e 98) as [->|]; [inversion H; subst; apply (Esc 8); auto; left; constructor|].
    destruct (Z.eqb_spec e 102) as [->|]; [inversion H; subst; apply (Esc 12); auto; left; constructor|].
    destruct (Z.eqb_spec e 114) as [->|]; [inversion H; subst; apply (Esc 13); auto; left; constructor|].
    destruct (Z.eqb_spec e 110) as [->|]; [inversion H; subst; apply (Esc 10); auto; left; constructor|].
    destruct (Z.eqb_spec e 116) as [->|]; [inversion H; subst; apply (Esc 9); auto; left; constructor|].
    destruct (Z.eqb_spec e 117) as [->|]; [|discriminate].
    unfold q_unicode in H. destruct t as [|a [|b [|c [|d [|x t]]]]]; try discriminate.
    destruct (q_hex4 a b c d) as [u| | |] eqn:Eu; cbn [rbind] in H; try discriminate.
    apply q_hex4_inv in Eu. destruct (hex4d_spec _ _ Eu) as (_ & _ & _ & _ & _ & _ & Hu).
    destruct ((u <=? 55295) || (57344 <=? u)) eqn:Es.
    { inversion H; subst. exists [92; 117; a; b; c; d]. split; [reflexivity|]. split; [cbn; lia|]. intros t' s' Hl.
      rewrite q_rune_utf8 by lia. apply (LS_unicode [a; b; c; d]); [assumption|unfold scalar; lia|assumption]. }
    destruct t as [|c7 [|e [|f [|g [|h [|y t2]]]]]]; try discriminate.
    destruct (negb ((x =? 92) && (c7 =? 117))) eqn:En; [discriminate|].
    assert (x = 92 /\ c7 = 117) as [-> ->] by lia.
    destruct (q_hex4 e f g h) as [lo| | |] eqn:El; cbn [rbind] in H; try discriminate. apply q_hex4_inv in El.
    destruct (Z.ltb_spec lo 56320); [discriminate|]. destruct (Z.ltb_spec 1023 (lo - 56320)); [discriminate|].
    rewrite Z.shiftl_mul_pow2 in H by lia. change (2 ^ 10) with 1024 in H.
    inversion H; subst. exists [92; 117; a; b; c; d; 92; 117; e; f; g; h]. split; [reflexivity|]. split; [cbn; lia|]. intros t' s' Hl.
    rewrite q_rune_pair by lia.
    replace ((u - 55296) * 1024 + (lo - 56320) + 65536) with (65536 + (u - 55296) * 1024 + (lo - 56320)) by lia.
    apply (LS_pair [a; b; c; d] [e; f; g; h]); try assumption; lia.
  - destruct (Z.leb_spec c 127).
    { inversion H; subst. exists [c]. split; [reflexivity|]. split; [cbn; lia|]. intros t' s' Hl. apply LS_ascii; auto; lia. }
    rewrite rune_bytes2_spec, rune_bytes3_spec, rune_bytes4_spec in H by assumption. unfold q_take in H.
    destruct ((192 <=? c) && (c <=? 223)) eqn:E2.
    { destruct (Nat.ltb_spec (List.length (c :: t)) 2) as [|Hl]; [discriminate|].
      destruct t as [|x t]; [cbn in Hl; lia|]. cbn in H. inversion H; subst.
      exists [c; x]. split; [reflexivity|]. split; [cbn; lia|]. intros t' s' Hs. apply LS_two; [lia|assumption]. }
    destruct ((224 <=? c) && (c <=? 239)) eqn:E3.
    { destruct (Nat.ltb_spec (List.length (c :: t)) 3) as [|Hl]; [discriminate|].
      destruct t as [|x [|y t]]; try (cbn in Hl; lia). cbn in H. inversion H; subst.
      exists [c; x; y]. split; [reflexivity|]. split; [cbn; lia|]. intros t' s' Hs. apply LS_three; [lia|assumption]. }
    destruct ((240 <=? c) && (c <=? 247)) eqn:E4; [|discriminate].
    destruct (Nat.ltb_spec (List.length (c :: t)) 4) as [|Hl]; [discriminate|].
    destruct t as [|x [|y [|z t]]]; try (cbn in Hl; lia). cbn in H. inversion H; subst.
    exists [c; x; y; z]. split; [reflexivity|]. split; [cbn; lia|]. intros t' s' Hs. apply LS_four; [lia|assumption].
Qed.

Lemma q_str_sound f : forall r s r', Forall is_byte r -> q_str f r = Ok (s, r') ->
  exists t, r = t ++ 34 :: r' /\ lstr t s.
Proof.
  induction f as [|f IH]; intros r s r' Hb H; [discriminate|]. cbn [q_str] in H.
  destruct r as [|c t]; [discriminate|]. inversion Hb as [|? ? Hc Ht]; subst.
  destruct (c =? 34) eqn:E34.
  - apply Z.eqb_eq in E34. inversion H; subst. exists []. split; [reflexivity|constructor].
  - destruct (q_char c t) as [[w r1]| | |] eqn:Ec; cbn [rbind] in H; try discriminate.
    destruct (q_str f r1) as [[s1 r2]| | |] eqn:Es; cbn [rbind] in H; try discriminate. inversion H; subst.
    destruct (q_char_inv c t w r1 Hc E34 Ec) as (x & Ex & _ & Hx).
    destruct (IH r1 s1 r') as (t1 & -> & Hl); [rewrite Ex in Hb; apply Forall_app in Hb; tauto|assumption|].
    exists (x ++ t1). split; [rewrite Ex; now rewrite <- app_assoc|]. now apply Hx.
Qed.

Lemma q_str_lax t s : lstr t s -> forall f rest,
  (List.length t < f)%nat -> q_str f (t ++ 34 :: rest) = Ok (s, rest).
Proof.
  induction 1 as [|c t s Hc H34 H92 Hl IH|c x t s Hc Hl IH|c x y t s Hc Hl IH|c x y z t s Hc Hl IH
    |c d t s Hd Hl IH|h cp t s Hh Hsc Hl IH|h1 h2 hi lo t s Hh1 Hhi Hh2 Hlo Hl IH]; intros f rest Hf;
    (destruct f as [|f]; [lia|]).
  - reflexivity.
  - cbn [app q_str]. replace (c =? 34) with false by lia. unfold q_char. replace (c =? 92) with false by lia.
    replace (c <=? 127) with true by lia. cbn [rbind]. cbn in Hf. rewrite IH by lia. reflexivity.
  - cbn [app q_str]. replace (c =? 34) with false by lia. unfold q_char. replace (c =? 92) with false by lia.
    replace (c <=? 127) with false by lia. rewrite rune_bytes2_spec by lia.
    replace ((192 <=? c) && (c <=? 223)) with true by lia. unfold q_take.
    replace (_ <? 2)%nat with false by (symmetry; apply Nat.ltb_ge; cbn; lia). cbn [firstn skipn rbind].
    cbn in Hf. rewrite IH by lia. reflexivity.
  - cbn [app q_str]. replace (c =? 34) with false by lia. unfold q_char. replace (c =? 92) with false by lia.
    replace (c <=? 127) with false by lia. rewrite rune_bytes2_spec, rune_bytes3_spec by lia.
    replace ((192 <=? c) && (c <=? 223)) with false by lia.
    replace ((224 <=? c) && (c <=? 239)) with true by lia. unfold q_take.
    replace (_ <? 3)%nat with false by (symmetry; apply Nat.ltb_ge; cbn; lia). cbn [firstn skipn rbind].
    cbn in Hf. rewrite IH by lia. reflexivity.
  - cbn [app q_str]. replace (c =? 34) with false by lia. unfold q_char. replace (c =? 92) with false by lia.
    replace (c <=? 127) with false by lia. rewrite rune_bytes2_spec, rune_bytes3_spec, rune_bytes4_spec by lia.
    replace ((192 <=? c) && (c <=? 223)) with false by lia.
    replace ((224 <=? c) && (c <=? 239)) with false by lia.
    replace ((240 <=? c) && (c <=? 247)) with true by lia. unfold q_take.
    replace (_ <? 4)%nat with false by (symmetry; apply Nat.ltb_ge; cbn; lia). cbn [firstn skipn rbind].
    cbn in Hf. rewrite IH by lia. reflexivity.
  - cbn [app q_str]. change (92 =? 34) with false. cbn iota. unfold q_char. change (92 =? 92) with true. cbn iota.
    cbn in Hf.
    assert (He : q_escape (c :: t ++ 34 :: rest) = Ok ([d], t ++ 34 :: rest)).
    { destruct Hd as [Hd|[-> ->]]; [destruct Hd; reflexivity|reflexivity]. }
    rewrite He. cbn [rbind]. rewrite IH by lia. reflexivity.
  - destruct (hex4d_spec _ _ Hh) as (a & b & c & d & -> & Hq & Hu). cbn [app] in *. cbn [List.length] in Hf.
    cbn [q_str]. change (92 =? 34) with false. cbn iota. unfold q_char. change (92 =? 92) with true. cbn iota.
    unfold q_escape.
    change ((117 =? 34) || (117 =? 39) || (117 =? 47) || (117 =? 92)) with false.
    change (117 =? 98) with false. change (117 =? 102) with false. change (117 =? 114) with false.
    change (117 =? 110) with false. change (117 =? 116) with false. change (117 =? 117) with true. cbn iota.
    unfold q_unicode. destruct (t ++ 34 :: rest) as [|x tt] eqn:Et; [destruct t; discriminate|].
    rewrite Hq. cbn [rbind]. replace ((cp <=? 55295) || (57344 <=? cp)) with true by (unfold scalar in Hsc; lia).
    cbn [rbind]. rewrite <- Et, IH by lia. cbn [rbind]. rewrite q_rune_utf8 by lia. reflexivity.
  - destruct (hex4d_spec _ _ Hh1) as (a & b & c & d & -> & Hq1 & Hu1).
    destruct (hex4d_spec _ _ Hh2) as (e & g & k & m & -> & Hq2 & Hu2). cbn [app] in *. cbn [List.length] in Hf.
    cbn [q_str]. change (92 =? 34) with false. cbn iota. unfold q_char. change (92 =? 92) with true. cbn iota.
    unfold q_escape.
    change ((117 =? 34) || (117 =? 39) || (117 =? 47) || (117 =? 92)) with false.
    change (117 =? 98) with false. change (117 =? 102) with false. change (117 =? 114) with false.
    change (117 =? 110) with false. change (117 =? 116) with false. change (117 =? 117) with true. cbn iota.
    unfold q_unicode. rewrite Hq1. cbn [rbind].
    replace ((hi <=? 55295) || (57344 <=? hi)) with false by lia.
    destruct (t ++ 34 :: rest) as [|x tt] eqn:Et; [destruct t; discriminate|].
    change (negb ((92 =? 92) && (117 =? 117))) with false. cbn iota. rewrite Hq2. cbn [rbind].
    replace (lo <? 56320) with false by lia. replace (1023 <? lo - 56320) with false by lia.
    cbn [rbind]. rewrite <- Et, IH by lia. cbn [rbind]. rewrite Z.shiftl_mul_pow2 by lia. change (2 ^ 10) with 1024.
    replace ((hi - 55296) * 1024 + (lo - 56320) + 65536) with (65536 + (hi - 55296) * 1024 + (lo - 56320)) by lia.
    rewrite q_rune_pair by lia. reflexivity.
Qed.

(** *** White space *)

Lemma lblank_blank c : is_lblank c <-> is_blank c = true.
Proof. unfold is_lblank, is_ws, is_blank. lia. Qed.

Lemma q_skip_lblanks w r : lblanks w -> q_skip (w ++ r) = q_skip r.
Proof.
  induction 1 as [|c w Hc Hw IH]; [reflexivity|].
  cbn [app q_skip]. apply lblank_blank in Hc. now rewrite Hc.
Qed.

Lemma q_skip_inv r : exists w, r = w ++ q_skip r /\ lblanks w.
Proof.
  induction r as [|c r (w & Hr & Hw)]; [exists []; split; [reflexivity|constructor]|]. cbn [q_skip].
  destruct (is_blank c) eqn:Eb.
  - exists (c :: w). split; [cbn; now rewrite <- Hr|]. constructor; [now apply lblank_blank|assumption].
  - exists []. split; [reflexivity|constructor].
Qed.

Lemma stop_after r : stop r <-> (match r with [] => True | c :: _ => ~ number_byte c end).
Proof.
  destruct r as [|c r]; [reflexivity|]. cbn. unfold num_char, is_digit, number_byte, digit. lia.
Qed.

Lemma after_num_stop lit r : after_num (JNum lit) r <-> stop r.
Proof. rewrite stop_after. destruct r; reflexivity. Qed.

(** *** Soundness *)

Section Sound.
Variable E : Env.

Lemma q_number_sound r v r' : q_number E r = Ok (v, r') ->
  exists lit, r = lit ++ r' /\ lax_num lit /\ v = to_V E (JNum lit) /\ stop r'.
Proof.
  unfold q_number. destruct (q_num_loop r 0 nst0) as [[[s src] rest]|e| |] eqn:El; cbn [rbind]; try discriminate.
  destruct (q_num_value E s src) eqn:Ev; cbn [rbind]; try discriminate. intros H; inversion H; subst.
  apply q_num_loop_nrun in El as (-> & Hst & Hn).
  assert (Hq : q_number E src = Ok (v, [])) by (eapply nrun_number; eassumption).
  exists src. split; [reflexivity|]. split; [eapply q_number_lax; eassumption|]. split; [|assumption].
  cbn [to_V]. now rewrite Hq.
Qed.

Lemma q_prefix_inv lit : forall r t, q_prefix lit r = Some t -> r = lit ++ t.
Proof.
  induction lit as [|c lit IH]; intros r t H; cbn in H; [now inversion H|].
  destruct r as [|x r]; [discriminate|]. destruct (Z.eqb_spec x c); [|discriminate]. subst. cbn. f_equal. auto.
Qed.

Lemma q_lit_inv lit v e1 e2 r v' r' : q_lit lit v e1 e2 r = Ok (v', r') -> v' = v /\ r = lit ++ r'.
Proof.
  unfold q_lit. destruct (_ <? _)%nat; [discriminate|]. destruct (q_prefix lit r) eqn:Ep; [|discriminate].
  intros H; inversion H; subst. split; [reflexivity|now apply q_prefix_inv].
Qed.

Lemma q_scalar_sound c r v r' : q_scalar E c r = Some (Ok (v, r')) ->
  exists t j, r = t ++ r' /\ lval t j /\ v = to_V E j /\ after_num j r'.
Proof.
  unfold q_scalar. destruct (is_num_start c).
  { intros H. injection H as H. apply q_number_sound in H as (lit & -> & Hl & -> & Hs).
    exists lit, (JNum lit). split; [reflexivity|]. split; [now constructor|]. split; [reflexivity|now apply after_num_stop]. }
  destruct (c =? 116); [intros H; injection H as H; apply q_lit_inv in H as [-> ->]; exists (bs "true"), (JBool true); repeat split; constructor|].
  destruct (c =? 102); [intros H; injection H as H; apply q_lit_inv in H as [-> ->]; exists (bs "false"), (JBool false); repeat split; constructor|].
  destruct (c =? 110); [intros H; injection H as H; apply q_lit_inv in H as [-> ->]; exists (bs "null"), JNull; repeat split; constructor|].
  discriminate.
Qed.

Definition obj_reads (obj : V) (key : option bytes) (colon : bool) (r : bytes) (v : V) (r' : bytes) : Prop :=
  match key with
  | None => exists t l, r = t ++ 125 :: r' /\ lmembers t l /\ v = put_all E l obj
  | Some k =>
    exists w2 w3 t j tm l,
      r = (if colon then w3 else w2 ++ 58 :: w3) ++ t ++ tm ++ 125 :: r' /\
      lblanks w2 /\ lblanks w3 /\ lval t j /\ after_num j tm /\ lmembers tm l /\ v = put_all E ((k, j) :: l) obj
  end.

Lemma after_num_app j te c r : after_num j (te ++ c :: r) -> after_num j te.
Proof. destruct j; auto. destruct te; cbn; auto. Qed.

Lemma parse_sound f :
  (forall r acc v r', Forall is_byte r -> q_arr E f r acc = Ok (v, r') ->
     exists t l, r = t ++ 93 :: r' /\ lelems t l /\ v = VArr (acc ++ map (to_V E) l)) /\
  (forall r obj key colon v r', Forall is_byte r -> is_obj obj -> (key = None -> colon = false) ->
     q_obj E f r obj key colon = Ok (v, r') -> obj_reads obj key colon r v r').
Proof.
  induction f as [|f [IHa IHo]]; [split; intros; discriminate|]. split.
  - intros r acc v r' Hb H. rewrite q_arr_S in H.
    destruct (q_skip_inv r) as (w & Hr & Hw). destruct (q_skip r) as [|c t] eqn:Eq; [discriminate|].
    assert (Hbt : Forall is_byte (c :: t)) by (rewrite Hr in Hb; apply Forall_app in Hb; tauto).
    inversion Hbt as [|? ? Hbc Hbt']; subst x l.
    assert (K : forall tv j r1 w1, c :: t = tv ++ r1 -> lval tv j -> w1 = to_V E j -> after_num j r1 ->
              q_arr E f r1 (acc ++ [w1]) = Ok (v, r') ->
              exists t l, r = t ++ 93 :: r' /\ lelems t l /\ v = VArr (acc ++ map (to_V E) l)).
    { intros tv j r1 w1 Et Hv -> Han H1. assert (Hb1 : Forall is_byte r1) by (rewrite Et in Hbt; apply Forall_app in Hbt; tauto).
      destruct (IHa _ _ _ _ Hb1 H1) as (te & l & -> & Hl & ->).
      exists (w ++ tv ++ te), (j :: l). split; [rewrite Hr, Et; now rewrite <- !app_assoc|]. split.
      - apply LE_cons; auto. eapply after_num_app; eassumption.
      - cbn [map]. now rewrite <- app_assoc. }
    destruct (Z.eqb_spec c 93) as [->|N93].
    { injection H as E1 E2. subst v r'. exists w, []. split; [assumption|]. split; [now constructor|]. cbn. now rewrite app_nil_r. }
    destruct (Z.eqb_spec c 44) as [->|N44].
    { destruct (IHa _ _ _ _ Hbt' H) as (te & l & -> & Hl & ->). exists (w ++ 44 :: te), l.
      split; [rewrite Hr; now rewrite <- app_assoc|]. split; [now constructor|reflexivity]. }
    destruct (Z.eqb_spec c 123) as [->|N123].
    { destruct (q_obj E f t new_object None false) as [[w1 r1]|e| |] eqn:Eo; cbn [rbind] in H; try discriminate.
      apply IHo in Eo; [|assumption|repeat eexists|auto]. destruct Eo as (tm & l & -> & Hm & ->).
      apply (K (123 :: tm ++ [125]) (JObj l) r1 _ ltac:(cbn; now rewrite <- app_assoc) (LV_obj _ _ Hm) eq_refl I H). }
    destruct (Z.eqb_spec c 91) as [->|N91].
    { destruct (q_arr E f t []) as [[w1 r1]|e| |] eqn:Eo; cbn [rbind] in H; try discriminate.
      apply IHa in Eo; [|assumption]. destruct Eo as (tm & l & -> & Hm & ->).
      apply (K (91 :: tm ++ [93]) (JArr l) r1 _ ltac:(cbn; now rewrite <- app_assoc) (LV_arr _ _ Hm) eq_refl I H). }
    destruct (Z.eqb_spec c 34) as [->|N34].
    { destruct (q_str _ t) as [[w1 r1]|e| |] eqn:Eo; cbn [rbind] in H; try discriminate.
      apply q_str_sound in Eo; [|assumption]. destruct Eo as (ts & -> & Hs).
      apply (K (34 :: ts ++ [34]) (JStr w1) r1 _ ltac:(cbn; now rewrite <- app_assoc) (LV_str _ _ Hs) eq_refl I H). }
    destruct (q_scalar E c (c :: t)) as [[[w1 r1]|e| |]|] eqn:Eo; cbn [rbind] in H; try discriminate.
    apply q_scalar_sound in Eo as (ts & j & Et & Hv & -> & Han). apply (K ts j r1 _ Et Hv eq_refl Han H).
  - intros r obj key colon v r' Hb Ho Hkc H. rewrite q_obj_S in H.
    destruct (q_skip_inv r) as (w & Hr & Hw). destruct (q_skip r) as [|c t] eqn:Eq; [discriminate|].
    assert (Hbt : Forall is_byte (c :: t)) by (rewrite Hr in Hb; apply Forall_app in Hb; tauto).
    inversion Hbt as [|? ? Hbc Hbt']; subst x l.
    set (store := fun (w : V) (r1 : bytes) => match key with None => Panic | Some k => let* obj' := set_to_object E obj k w in q_obj E f r1 obj' None false end) in H. cbv zeta in H.
    assert (K : forall k tv j r1 w1, key = Some k -> colon = true -> c :: t = tv ++ r1 -> lval tv j -> w1 = to_V E j -> after_num j r1 ->
              store w1 r1 = Ok (v, r') -> obj_reads obj key colon r v r').
    { intros k tv j r1 w1 -> -> Et Hv -> Han H1. unfold store in H1.
      destruct (oput_set E obj k (to_V E j) Ho) as [Eo Ho']. rewrite Eo in H1. cbn [rbind] in H1.
      assert (Hb1 : Forall is_byte r1) by (rewrite Et in Hbt; apply Forall_app in Hbt; tauto).
      destruct (IHo _ _ None false v r' Hb1 Ho' ltac:(auto) H1) as (te & l & -> & Hl & ->).
      cbn. exists [], w, tv, j, te, l. split; [rewrite Hr, Et; reflexivity|].
      repeat split; try assumption; [constructor|]. eapply after_num_app; eassumption. }
    destruct (Z.eqb_spec c 125) as [->|N125].
    { destruct key; [discriminate|]. injection H as E1 E2. subst v r'. exists w, []. split; [assumption|]. split; [now constructor|reflexivity]. }
    destruct (Z.eqb_spec c 44) as [->|N44].
    { destruct key; [discriminate|]. destruct (IHo _ _ _ _ _ _ Hbt' Ho Hkc H) as (te & l & -> & Hl & ->).
      exists (w ++ 44 :: te), l. split; [rewrite Hr; now rewrite <- app_assoc|]. split; [now constructor|reflexivity]. }
    destruct (Z.eqb_spec c 58) as [->|N58].
    { destruct colon; [discriminate|]. destruct key as [k|]; [|discriminate].
      destruct (IHo t obj (Some k) true v r' Hbt' Ho ltac:(discriminate) H) as (w2 & w3 & tv & j & tm & l & -> & Hw2 & Hw3 & Hv & Han & Hl & ->).
      exists w, w3, tv, j, tm, l. split; [rewrite Hr; now rewrite <- app_assoc|]. repeat split; assumption. }
    destruct (Z.eqb_spec c 123) as [->|N123].
    { destruct key as [k|]; [destruct (negb colon) eqn:Ec; [discriminate|]|discriminate].
      destruct (q_obj E f t new_object None false) as [[w1 r1]|e| |] eqn:Eo; cbn [rbind] in H; try discriminate.
      apply IHo in Eo; [|assumption|repeat eexists|auto]. destruct Eo as (tm & l & -> & Hm & ->).
      apply (K k (123 :: tm ++ [125]) (JObj l) r1 _ eq_refl ltac:(now destruct colon) ltac:(cbn; now rewrite <- app_assoc) (LV_obj _ _ Hm) eq_refl I H). }
    destruct (Z.eqb_spec c 91) as [->|N91].
    { destruct key as [k|]; [destruct (negb colon) eqn:Ec; [discriminate|]|discriminate].
      destruct (q_arr E f t []) as [[w1 r1]|e| |] eqn:Eo; cbn [rbind] in H; try discriminate.
      apply IHa in Eo; [|assumption]. destruct Eo as (tm & l & -> & Hm & ->).
      apply (K k (91 :: tm ++ [93]) (JArr l) r1 _ eq_refl ltac:(now destruct colon) ltac:(cbn; now rewrite <- app_assoc) (LV_arr _ _ Hm) eq_refl I H). }
    destruct (Z.eqb_spec c 34) as [->|N34].
    { destruct key as [k|].
      - destruct (negb colon) eqn:Ec; [discriminate|].
        destruct (q_str _ t) as [[w1 r1]|e| |] eqn:Eo; cbn [rbind] in H; try discriminate.
        apply q_str_sound in Eo; [|assumption]. destruct Eo as (ts & -> & Hs).
        apply (K k (34 :: ts ++ [34]) (JStr w1) r1 _ eq_refl ltac:(now destruct colon) ltac:(cbn; now rewrite <- app_assoc) (LV_str _ _ Hs) eq_refl I H).
      - rewrite (Hkc eq_refl) in *.
        destruct (q_str _ t) as [[k r1]|e| |] eqn:Eo; cbn [rbind] in H; try discriminate.
        apply q_str_sound in Eo; [|assumption]. destruct Eo as (ts & -> & Hs).
        apply Forall_app in Hbt' as [_ Hb1]. apply Forall_inv_tail in Hb1.
        destruct (IHo r1 obj (Some k) false v r' Hb1 Ho ltac:(discriminate) H) as (w2 & w3 & tv & j & tm & l & -> & Hw2 & Hw3 & Hv & Han & Hl & ->).
        exists (w ++ 34 :: ts ++ 34 :: w2 ++ 58 :: w3 ++ tv ++ tm), ((k, j) :: l).
        split; [rewrite Hr; repeat (rewrite <- app_assoc || cbn [app]); reflexivity|].
        split; [apply LM_cons; assumption|reflexivity]. }
    destruct (q_scalar E c (c :: t)) as [m|] eqn:Eo; [|discriminate].
    destruct key as [k|]; [destruct (negb colon) eqn:Ec; [discriminate|]|discriminate].
    destruct m as [[w1 r1]|e| |]; cbn [rbind] in H; try discriminate.
    apply q_scalar_sound in Eo as (ts & j & Et & Hv & -> & Han).
    apply (K k ts j r1 _ eq_refl ltac:(now destruct colon) Et Hv eq_refl Han H).
Qed.

Lemma q_unmarshal_sound b v : Forall is_byte b -> q_unmarshal E b = Ok v ->
  exists j, lax_doc b j /\ v = to_V E j.
Proof.
  intros Hb H. unfold q_unmarshal in H.
  destruct (q_skip_inv b) as (w & Hr & Hw). destruct (q_skip b) as [|c t] eqn:Eq; [discriminate|].
  assert (Hbt : Forall is_byte (c :: t)) by (rewrite Hr in Hb; apply Forall_app in Hb; tauto).
  inversion Hbt as [|? ? Hbc Hbt']; subst x l.
  destruct (q_value E _ c t) as [[v1 r1]|e| |] eqn:Ev; cbn [rbind] in H; try discriminate.
  destruct (q_skip_inv r1) as (w2 & Hr1 & Hw2). destruct (q_skip r1); [|discriminate]. inversion H; subst v1.
  rewrite app_nil_r in Hr1. subst r1.
  assert (Hv : exists tv j, c :: t = tv ++ w2 /\ lval tv j /\ v = to_V E j).
  { unfold q_value in Ev. destruct (parse_sound (S (List.length b))) as [PA PO].
    destruct (Z.eqb_spec c 123) as [->|N123].
    { apply PO in Ev; [|assumption|repeat eexists|auto]. destruct Ev as (tm & l & -> & Hm & ->).
      exists (123 :: tm ++ [125]), (JObj l). split; [cbn; now rewrite <- app_assoc|]. split; [now constructor|reflexivity]. }
    destruct (Z.eqb_spec c 91) as [->|N91].
    { apply PA in Ev; [|assumption]. destruct Ev as (tm & l & -> & Hm & ->).
      exists (91 :: tm ++ [93]), (JArr l). split; [cbn; now rewrite <- app_assoc|]. split; [now constructor|reflexivity]. }
    destruct (Z.eqb_spec c 34) as [->|N34].
    { destruct (q_str _ t) as [[s r1]|e| |] eqn:Eo; cbn [rbind] in Ev; try discriminate. inversion Ev; subst.
      apply q_str_sound in Eo; [|assumption]. destruct Eo as (ts & -> & Hs).
      exists (34 :: ts ++ [34]), (JStr s). split; [cbn; now rewrite <- app_assoc|]. split; [now constructor|reflexivity]. }
    destruct (q_scalar E c (c :: t)) as [m|] eqn:Eo; [|discriminate]. subst m.
    apply q_scalar_sound in Eo as (ts & j & Et & Hj & -> & _). eauto. }
  destruct Hv as (tv & j & Et & Hj & ->). exists j. split; [|reflexivity].
  exists w, tv, w2. rewrite Hr, Et. auto.
Qed.

(** *** Completeness *)

Definition value_lax (t : bytes) (j : jv) : Prop :=
  exists c t', t = c :: t' /\ vstart c /\
    forall f rest, after_num j rest -> (List.length (t' ++ rest) < f)%nat ->
      q_value E f c (t' ++ rest) = Ok (to_V E j, rest).

Lemma lax_num_head lit : lax_num lit -> exists c t', lit = c :: t' /\ is_num_start c = true.
Proof.
  unfold is_num_start, is_digit.
  intros [ip Hi _ _|ip _ _ _ _|neg ip fr fd ex e Hip Hc _ _ _ _ _].
  - destruct (int_part_digits ip Hi) as [Hd Hne]. destruct ip as [|c ip]; [congruence|].
    exists c, ip. inversion Hd; subst. unfold digit in *. split; [reflexivity|lia].
  - exists 45, ip. split; reflexivity.
  - destruct neg; [eexists 45, _; split; reflexivity|]. destruct ip as [|c ip]; [specialize (Hc eq_refl); discriminate|].
    inversion Hip; subst. unfold digit in *. cbn. eexists c, _. split; [reflexivity|lia].
Qed.

Lemma after_num_mid j w c r : lblanks w -> (after_num j (w ++ c :: r) <-> after_num j (w ++ [c])).
Proof. intros _. destruct j, w; reflexivity. Qed.
Lemma after_num_te j te c r : after_num j te -> ~ number_byte c -> after_num j (te ++ c :: r).
Proof. destruct j; auto. destruct te; cbn; auto. Qed.

Lemma lax_complete :
  (forall t j, lval t j -> value_lax t j) /\
  (forall t l, lelems t l -> forall f rest acc,
     (List.length (t ++ 93%Z :: rest) < f)%nat ->
     q_arr E f (t ++ 93 :: rest) acc = Ok (VArr (acc ++ map (to_V E) l), rest)) /\
  (forall t l, lmembers t l -> forall f rest obj,
     is_obj obj -> (List.length (t ++ 125%Z :: rest) < f)%nat ->
     q_obj E f (t ++ 125 :: rest) obj None false = Ok (put_all E l obj, rest)).
Proof.
  apply lax_mutind.
  - exists 110, (bs "ull"). split; [reflexivity|]. split; [unfold vstart; auto 10|].
    intros f rest _ _. change (q_value E f 110 (bs "ull" ++ rest))
      with (q_lit (bs "null") VNull ErrNotValidNullValue ErrNotValidBoolValue (bs "null" ++ rest)).
    apply q_lit_app.
  - exists 116, (bs "rue"). split; [reflexivity|]. split; [unfold vstart; auto 10|].
    intros f rest _ _. change (q_value E f 116 (bs "rue" ++ rest))
      with (q_lit (bs "true") (VBool true) ErrNotValidBoolValue ErrNotValidBoolValue (bs "true" ++ rest)).
    apply q_lit_app.
  - exists 102, (bs "alse"). split; [reflexivity|]. split; [unfold vstart; auto 10|].
    intros f rest _ _. change (q_value E f 102 (bs "alse" ++ rest))
      with (q_lit (bs "false") (VBool false) ErrNotValidBoolValue ErrNotValidBoolValue (bs "false" ++ rest)).
    apply q_lit_app.
  - intros lit HL.
    destruct (lax_num_head _ HL) as (c & t' & Ec & Hc).
    destruct (lax_number E lit HL) as (n & Hn).
    exists c, t'. split; [assumption|]. split; [unfold vstart; auto 10|].
    intros f rest Hf _. apply after_num_stop in Hf. rewrite q_num_value_head by assumption.
    change (c :: t' ++ rest) with ((c :: t') ++ rest). rewrite <- Ec.
    cbn [to_V]. rewrite Hn. now apply q_number_extend.
  - intros t s HS. exists 34, (t ++ [34]). split; [reflexivity|]. split; [unfold vstart; auto 10|].
    intros f rest _ _. rewrite <- app_assoc. cbn [app]. unfold q_value.
    change (34 =? 123) with false. change (34 =? 91) with false. change (34 =? 34) with true. cbn iota.
    rewrite (q_str_lax t s HS); [reflexivity|]. rewrite app_length. lia.
  - intros t l Hl IH.
    exists 91, (t ++ [93]). split; [reflexivity|]. split; [unfold vstart; auto 10|].
    intros f rest _ Hf. rewrite <- app_assoc in *. cbn [app] in *. unfold q_value.
    change (91 =? 123) with false. change (91 =? 91) with true. cbn iota.
    rewrite IH by assumption. reflexivity.
  - intros t l Hl IH.
    exists 123, (t ++ [125]). split; [reflexivity|]. split; [unfold vstart; auto 10|].
    intros f rest _ Hf. rewrite <- app_assoc in *. cbn [app] in *. unfold q_value.
    change (123 =? 123) with true. cbn iota.
    rewrite IH; [reflexivity|repeat eexists|assumption].
  - (* end *)
    intros w Hw f rest acc Hf. destruct f as [|f]; [lia|]. rewrite q_arr_S, q_skip_lblanks by assumption.
    rewrite (q_skip_here 93) by reflexivity. cbn [map]. rewrite app_nil_r. reflexivity.
  - (* comma *)
    intros w t l Hw Hl IH f rest acc Hf. repeat (rewrite <- app_assoc in * || cbn [app] in * ).
    rewrite app_length in Hf. cbn [List.length] in Hf.
    destruct f as [|f]; [lia|]. rewrite q_arr_S, q_skip_lblanks by assumption.
    rewrite (q_skip_here 44) by reflexivity.
    change (44 =? 93) with false. change (44 =? 44) with true. cbn iota. apply IH. lia.
  - (* element *)
    intros w t j te l Hw Hj IH Han Hl IHl f rest acc Hf.
    destruct IH as (c & t' & -> & Hc & HV).
    destruct (vstart_props c Hc) as (Hb & _).
    repeat (rewrite <- app_assoc in * || cbn [app] in * ).
    rewrite app_length in Hf. cbn [List.length] in Hf. rewrite app_length in Hf.
    destruct f as [|f]; [lia|].
    rewrite (q_arr_value E f _ acc c (t' ++ te ++ 93 :: rest)); [|rewrite q_skip_lblanks by assumption; now apply q_skip_here|assumption].
    rewrite HV; [|apply after_num_te; [assumption|unfold number_byte, digit; lia]|rewrite app_length; lia].
    cbn [rbind]. rewrite IHl by lia. cbn [map]. rewrite <- app_assoc. reflexivity.
  - (* end *)
    intros w Hw f rest obj Ho Hf. destruct f as [|f]; [lia|]. rewrite q_obj_S, q_skip_lblanks by assumption.
    rewrite (q_skip_here 125) by reflexivity. reflexivity.
  - (* comma *)
    intros w t l Hw Hl IH f rest obj Ho Hf. repeat (rewrite <- app_assoc in * || cbn [app] in * ).
    rewrite app_length in Hf. cbn [List.length] in Hf.
    destruct f as [|f]; [lia|]. rewrite q_obj_S, q_skip_lblanks by assumption.
    rewrite (q_skip_here 44) by reflexivity. cbn zeta.
    change (44 =? 125) with false. change (44 =? 44) with true. cbn iota. apply IH; [assumption|lia].
  - (* member *)
    intros w1 tk k w2 w3 t j tm l Hw1 Hk Hw2 Hw3 Hj IH Han Hl IHl f rest obj Ho Hf.
    destruct IH as (c & t' & -> & Hc & HV).
    destruct (vstart_props c Hc) as (Hb & _).
    repeat (rewrite <- app_assoc in * || cbn [app] in * ).
    repeat (rewrite app_length in Hf || cbn [List.length] in Hf).
    destruct f as [|f]; [lia|]. rewrite q_obj_S, q_skip_lblanks by assumption.
    rewrite (q_skip_here 34) by reflexivity. cbn zeta iota.
    change (34 =? 125) with false. change (34 =? 44) with false. change (34 =? 58) with false.
    change (34 =? 123) with false. change (34 =? 91) with false. change (34 =? 34) with true. cbn iota.
    rewrite (q_str_lax tk k Hk) by (rewrite app_length; lia). cbn [rbind].
    destruct f as [|f]; [lia|]. rewrite q_obj_S, q_skip_lblanks by assumption.
    rewrite (q_skip_here 58) by reflexivity. cbn zeta iota.
    change (58 =? 125) with false. change (58 =? 44) with false. change (58 =? 58) with true.
    cbn [negb]. cbn iota.
    destruct f as [|f]; [lia|].
    rewrite (q_obj_value E f _ obj k c (t' ++ tm ++ 125 :: rest)); [|rewrite q_skip_lblanks by assumption; now apply q_skip_here|assumption].
    rewrite HV; [|apply after_num_te; [assumption|unfold number_byte, digit; lia]|repeat (rewrite app_length || cbn [List.length]); lia].
    cbn [rbind]. destruct (oput_set E obj k (to_V E j) Ho) as [-> Ho']. cbn [rbind].
    rewrite IHl; [reflexivity|assumption|]. repeat (rewrite app_length || cbn [List.length]). lia.
Qed.

Lemma q_unmarshal_lax b j : lax_doc b j -> q_unmarshal E b = Ok (to_V E j).
Proof.
  intros (w1 & t & w2 & -> & Hw1 & Hj & Hw2).
  destruct lax_complete as [P _]. destruct (P t j Hj) as (c & t' & -> & Hc & HV).
  destruct (vstart_props c Hc) as (Hb & _).
  unfold q_unmarshal. rewrite q_skip_lblanks by assumption. cbn [app].
  rewrite q_skip_here by assumption.
  rewrite HV.
  - cbn [rbind]. rewrite <- (app_nil_r w2). rewrite q_skip_lblanks by assumption. reflexivity.
  - destruct j; try exact I. destruct w2 as [|x w2]; [exact I|]. cbn. inversion Hw2; subst.
    unfold is_lblank, is_ws in *. unfold number_byte, digit. lia.
  - rewrite !app_length. cbn [List.length]. rewrite !app_length. lia.
Qed.

Theorem unmarshal_lax b v : Forall is_byte b ->
  unmarshal E b = Ok (v, None) <-> exists j, lax_doc b j /\ v = to_V E j.
Proof.
  intros Hb. unfold unmarshal. destruct b as [|c b].
  - split; [discriminate|]. intros (j & H & _). apply q_unmarshal_lax in H. discriminate.
  - pose proof (run_unmarshal_spec E (c :: b)) as R.
    destruct (q_unmarshal E (c :: b)) as [w|e| |] eqn:Q0; try contradiction.
    + destruct R as (s' & -> & _). split.
      * intros H; inversion H; subst. now apply q_unmarshal_sound.
      * intros (j & Hj & ->). apply q_unmarshal_lax in Hj. rewrite Hj in Q0. now inversion Q0.
    + destruct R as (s' & -> & _). split; [discriminate|].
      intros (j & Hj & ->). apply q_unmarshal_lax in Hj. congruence.
Qed.
End Sound.
