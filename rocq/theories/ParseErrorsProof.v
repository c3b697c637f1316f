(** C72: which error Unmarshal gives. *)
From Verif Require Import Base Float64 Value Scan Unmarshal Pure ListLemmas UnmarshalProof
  SpecJson SpecValue Utf8Proof NumProof ParseComplete ParseFacts SpecLax LaxNum LaxParse LaxFacts JsonLax SpecParseErrors ExampleWorld.

(** *** Strings *)

Lemma q_hex4_err a b c d e : q_hex4 a b c d = Err e -> e = EOther.
Proof.
  unfold q_hex4, chr_to_hex.
  repeat match goal with |- context [if ?x then _ else _] => destruct x; cbn [rbind] end; congruence.
Qed.
Lemma q_hex4_total a b c d : (exists u, q_hex4 a b c d = Ok u) \/ q_hex4 a b c d = Err EOther.
Proof.
  unfold q_hex4, chr_to_hex.
  repeat match goal with |- context [if ?x then _ else _] => destruct x; cbn [rbind] end; eauto.
Qed.

Lemma q_escape_u t : q_escape (117 :: t) = q_unicode t.
Proof. reflexivity. Qed.

Lemma q_escape_ok r w r1 : q_escape r = Ok (w, r1) -> exists x, 92 :: r = x ++ r1 /\ escape x.
Proof.
  unfold q_escape. destruct r as [|e t]; [discriminate|]. intros H.
  assert (Esc : (exists d, simple_esc e d) \/ e = 39 -> r1 = t -> exists x, 92 :: e :: t = x ++ r1 /\ escape x).
  { intros Hd ->. exists [92; e]. split; [reflexivity|now constructor]. }
  destruct (Z.eqb_spec e 34) as [->|N1]; [inversion H; subst; apply Esc; [left; eexists; constructor|reflexivity]|].
  destruct (Z.eqb_spec e 39) as [->|N2]; [inversion H; subst; apply Esc; [right; reflexivity|reflexivity]|].
  destruct (Z.eqb_spec e 47) as [->|N3]; [inversion H; subst; apply Esc; [left; eexists; constructor|reflexivity]|].
  destruct (Z.eqb_spec e 92) as [->|N4]; [inversion H; subst; apply Esc; [left; eexists; constructor|reflexivity]|].
  cbn [orb] in H.
  destruct (Z.eqb_spec e 98) as [->|N5]; [inversion H; subst; apply Esc; [left; eexists; constructor|reflexivity]|].
  destruct (Z.eqb_spec e 102) as [->|N6]; [inversion H; subst; apply Esc; [left; eexists; constructor|reflexivity]|].
  destruct (Z.eqb_spec e 114) as [->|N7]; [inversion H; subst; apply Esc; [left; eexists; constructor|reflexivity]|].
  destruct (Z.eqb_spec e 110) as [->|N8]; [inversion H; subst; apply Esc; [left; eexists; constructor|reflexivity]|].
  destruct (Z.eqb_spec e 116) as [->|N9]; [inversion H; subst; apply Esc; [left; eexists; constructor|reflexivity]|].
  destruct (Z.eqb_spec e 117) as [->|N10]; [|discriminate].
  unfold q_unicode in H. destruct t as [|a [|b [|c [|d [|x t]]]]]; try discriminate.
  destruct (q_hex4 a b c d) as [u| | |] eqn:Eu; cbn [rbind] in H; try discriminate.
  apply q_hex4_inv in Eu.
  destruct ((u <=? 55295) || (57344 <=? u)) eqn:Es.
  { inversion H; subst. destruct (hex4d_spec _ _ Eu) as (_ & _ & _ & _ & _ & _ & Hu).
    exists [92; 117; a; b; c; d]. split; [reflexivity|]. apply (ES_unicode [a; b; c; d] u); [assumption|unfold scalar; lia]. }
  destruct t as [|c7 [|e [|f [|g [|h [|y t2]]]]]]; try discriminate.
  destruct (negb ((x =? 92) && (c7 =? 117))) eqn:En; [discriminate|].
  assert (x = 92 /\ c7 = 117) as [-> ->] by lia.
  destruct (q_hex4 e f g h) as [lo| | |] eqn:El; cbn [rbind] in H; try discriminate. apply q_hex4_inv in El.
  destruct (Z.ltb_spec lo 56320); [discriminate|]. destruct (Z.ltb_spec 1023 (lo - 56320)); [discriminate|].
  inversion H; subst. exists [92; 117; a; b; c; d; 92; 117; e; f; g; h]. split; [reflexivity|].
  apply (ES_pair [a; b; c; d] [e; f; g; h] u lo); try assumption; lia.
Qed.

Lemma q_escape_err r e : q_escape r = Err e -> e = EOther \/ e = ErrIllegalString /\ bad_pair (92 :: r).
Proof.
  unfold q_escape. destruct r as [|x t]; [left; congruence|].
  repeat match goal with |- context [if ?b then _ else _] => destruct b eqn:?; [discriminate|] end.
  destruct (Z.eqb_spec x 117) as [->|]; [|left; congruence].
  unfold q_unicode. destruct t as [|a [|b [|c [|d [|x t]]]]]; try (left; congruence).
  destruct (q_hex4 a b c d) as [u|e1| |] eqn:Eu; cbn [rbind]; try discriminate.
  2:{ intros H; injection H as <-. left. eapply q_hex4_err; eassumption. }
  apply q_hex4_inv in Eu.
  destruct ((u <=? 55295) || (57344 <=? u)) eqn:Es; [discriminate|].
  destruct t as [|c7 [|e0 [|f [|g [|h [|y t2]]]]]]; try (left; congruence).
  destruct (negb ((x =? 92) && (c7 =? 117))) eqn:En; [left; congruence|].
  assert (x = 92 /\ c7 = 117) as [-> ->] by lia.
  destruct (q_hex4 e0 f g h) as [lo|e1| |] eqn:El; cbn [rbind]; try discriminate.
  2:{ intros H; injection H as <-. left. eapply q_hex4_err; eassumption. }
  apply q_hex4_inv in El. intros H. right.
  assert (Hlo : ~ (56320 <= lo < 57344) /\ e = ErrIllegalString).
  { destruct (Z.ltb_spec lo 56320); [split; [lia|congruence]|].
    destruct (Z.ltb_spec 1023 (lo - 56320)); [split; [lia|congruence]|discriminate]. }
  destruct Hlo as (Hlo & ->). split; [reflexivity|].
  apply (BP [a; b; c; d] [e0; f; g; h] u lo y t2); try assumption; lia.
Qed.

Lemma q_escape_total r : (exists w r1, q_escape r = Ok (w, r1)) \/ (exists e, q_escape r = Err e).
Proof.
  unfold q_escape. destruct r as [|x t]; [right; eauto|].
  repeat match goal with |- context [if ?b then Ok _ else _] => destruct b; [left; eauto|] end.
  destruct (x =? 117); [|right; eauto].
  unfold q_unicode. destruct t as [|a [|b [|c [|d [|y t]]]]]; try (right; eauto; fail).
  destruct (q_hex4_total a b c d) as [(u & ->)| ->]; cbn [rbind]; [|right; eauto].
  destruct ((u <=? 55295) || (57344 <=? u)); [left; eauto|].
  destruct t as [|c7 [|e [|f [|g [|h [|z t2]]]]]]; try (right; eauto; fail).
  destruct (negb _); [right; eauto|].
  destruct (q_hex4_total e f g h) as [(lo & ->)| ->]; cbn [rbind]; [|right; eauto].
  destruct (lo <? 56320); [right; eauto|]. destruct (1023 <? lo - 56320); [right; eauto|left; eauto].
Qed.

Lemma bad_pair_err r : bad_pair (92 :: r) -> q_escape r = Err ErrIllegalString.
Proof.
  intros H. inversion H as [h1 h2 hi u c r0 H1 Hhi H2 Hu]; subst.
  destruct (hex4d_spec _ _ H1) as (a & b & c1 & d & -> & Q1 & B1).
  destruct (hex4d_spec _ _ H2) as (e & f & g & h & -> & Q2 & B2).
  cbn [app]. rewrite q_escape_u. unfold q_unicode. rewrite Q1. cbn [rbind].
  replace ((hi <=? 55295) || (57344 <=? hi)) with false by lia.
  change (negb ((92 =? 92) && (117 =? 117))) with false. cbn iota. rewrite Q2. cbn [rbind].
  destruct (Z.ltb_spec u 56320); [reflexivity|]. destruct (Z.ltb_spec 1023 (u - 56320)); [reflexivity|lia].
Qed.

Lemma escape_ok x r c t : escape x -> 92 :: r = x ++ c :: t -> exists w, q_escape r = Ok (w, c :: t).
Proof.
  intros H Eq. destruct H as [e He|h cp Hh Hs|h1 h2 hi lo H1 Hhi H2 Hlo].
  - injection Eq as ->. destruct He as [(d & He)| ->]; [destruct He|]; eexists; reflexivity.
  - destruct (hex4d_spec _ _ Hh) as (a & b & c1 & d & -> & Q1 & B1). injection Eq as ->.
    rewrite q_escape_u. unfold q_unicode. rewrite Q1. cbn [rbind].
    replace ((cp <=? 55295) || (57344 <=? cp)) with true by (unfold scalar in Hs; lia). eauto.
  - destruct (hex4d_spec _ _ H1) as (a & b & c1 & d & -> & Q1 & B1).
    destruct (hex4d_spec _ _ H2) as (e & f & g & h & -> & Q2 & B2). injection Eq as ->.
    rewrite q_escape_u. unfold q_unicode. rewrite Q1. cbn [rbind].
    replace ((hi <=? 55295) || (57344 <=? hi)) with false by lia.
    change (negb ((92 =? 92) && (117 =? 117))) with false. cbn iota. rewrite Q2. cbn [rbind].
    replace (lo <? 56320) with false by lia. replace (1023 <? lo - 56320) with false by lia. eauto.
Qed.

Lemma q_char_esc t : q_char 92 t = q_escape t.
Proof. reflexivity. Qed.

(** A character that fails. *)
Lemma char_fails_ok c t e : is_byte c -> c <> 34 -> char_fails (c :: t) e ->
  q_char c t = Err e \/ e = EOther /\ exists w, q_char c t = Ok (w, []).
Proof.
  intros Hc N34 H. inversion H as [|r Hn Hp|r Hp|c0 r Hl|c0 r n Hn Hl]; subst.
  - rewrite q_char_esc. destruct (q_escape_total t) as [(w & r1 & Q)|(e & Q)].
    + right. split; [reflexivity|]. destruct (q_escape_ok _ _ _ Q) as (x & Ex & Hx).
      destruct r1 as [|y r1]; [eauto|]. elim (Hn _ _ _ Ex Hx).
    + left. destruct (q_escape_err _ _ Q) as [->|(-> & B)]; [assumption|contradiction].
  - left. assert (c = 92) by (inversion Hp; reflexivity). subst c. rewrite q_char_esc. now apply bad_pair_err.
  - left. unfold q_char. unfold is_byte in Hc. replace (c =? 92) with false by lia. replace (c <=? 127) with false by lia.
    rewrite rune_bytes2_spec, rune_bytes3_spec, rune_bytes4_spec by assumption.
    replace ((192 <=? c) && (c <=? 223)) with false by lia. replace ((224 <=? c) && (c <=? 239)) with false by lia.
    replace ((240 <=? c) && (c <=? 247)) with false by lia. reflexivity.
  - left. unfold q_char. unfold is_byte in Hc.
    assert (B : 192 <= c <= 247) by (destruct Hn; lia).
    replace (c =? 92) with false by lia. replace (c <=? 127) with false by lia.
    rewrite rune_bytes2_spec, rune_bytes3_spec, rune_bytes4_spec by assumption. unfold q_take.
    apply Nat.ltb_lt in Hl.
    destruct Hn as [c Hn|c Hn|c Hn].
    + replace ((192 <=? c) && (c <=? 223)) with true by lia. now rewrite Hl.
    + replace ((192 <=? c) && (c <=? 223)) with false by lia. replace ((224 <=? c) && (c <=? 239)) with true by lia. now rewrite Hl.
    + replace ((192 <=? c) && (c <=? 223)) with false by lia. replace ((224 <=? c) && (c <=? 239)) with false by lia.
      replace ((240 <=? c) && (c <=? 247)) with true by lia. now rewrite Hl.
Qed.

Lemma char_fails_of c t e : is_byte c -> q_char c t = Err e -> char_fails (c :: t) e.
Proof.
  intros Hc H. unfold q_char in H. destruct (Z.eqb_spec c 92) as [->|N92].
  { destruct (q_escape_err _ _ H) as [->|(-> & B)]; [|now constructor].
    apply CF_escape.
    - intros x c' t' Ex Hx. destruct (escape_ok _ _ _ _ Hx Ex) as (w & Q). congruence.
    - intros B. rewrite bad_pair_err in H by assumption. discriminate. }
  destruct (Z.leb_spec c 127); [discriminate|]. unfold is_byte in Hc.
  rewrite rune_bytes2_spec, rune_bytes3_spec, rune_bytes4_spec in H by assumption. unfold q_take in H.
  destruct ((192 <=? c) && (c <=? 223)) eqn:E2.
  { destruct (Nat.ltb_spec (List.length (c :: t)) 2) as [Hl|]; [|discriminate]. injection H as <-.
    apply (CF_short _ _ 2); [constructor; lia|assumption]. }
  destruct ((224 <=? c) && (c <=? 239)) eqn:E3.
  { destruct (Nat.ltb_spec (List.length (c :: t)) 3) as [Hl|]; [|discriminate]. injection H as <-.
    apply (CF_short _ _ 3); [constructor; lia|assumption]. }
  destruct ((240 <=? c) && (c <=? 247)) eqn:E4.
  { destruct (Nat.ltb_spec (List.length (c :: t)) 4) as [Hl|]; [|discriminate]. injection H as <-.
    apply (CF_short _ _ 4); [constructor; lia|assumption]. }
  injection H as <-. apply CF_lead. lia.
Qed.

Lemma q_str_err_of f : forall r e, Forall is_byte r -> q_str f r = Err e -> str_fails r e.
Proof.
  induction f as [|f IH]; intros r e Hb H; [discriminate|]. cbn [q_str] in H.
  destruct r as [|c t].
  { injection H as <-. apply (SF [] [] []); constructor. }
  inversion Hb as [|? ? Hc Ht]; subst. destruct (c =? 34) eqn:E34; [discriminate|].
  destruct (q_char c t) as [[w r1]|e1| |] eqn:Ec; cbn [rbind] in H; try discriminate.
  - destruct (q_char_inv c t w r1 Hc E34 Ec) as (x & Ex & _ & Hx).
    destruct (q_str f r1) as [[s r2]|e2| |] eqn:Es; cbn [rbind] in H; try discriminate. injection H as <-.
    assert (Hb1 : Forall is_byte r1) by (rewrite Ex in Hb; apply Forall_app in Hb; tauto).
    destruct (IH r1 _ Hb1 Es) as [t' s' r' e' Hl Hf].
    rewrite Ex, app_assoc. eapply SF; [apply Hx; eassumption|assumption].
  - injection H as <-. apply (SF [] []); [constructor|]. now apply char_fails_of.
Qed.

Lemma q_str_step c t f : (c =? 34) = false -> q_str (S f) (c :: t) =
  (let* (w, r1) := q_char c t in let* (s, r2) := q_str f r1 in Ok (w ++ s, r2)).
Proof. intros H. cbn [q_str]. now rewrite H. Qed.

(** A good beginning. *)
Lemma q_str_err_after t s : lstr t s -> forall r e,
  (forall g, (List.length r < g)%nat -> q_str g r = Err e) ->
  forall f, (List.length (t ++ r) < f)%nat -> q_str f (t ++ r) = Err e.
Proof.
  intros Hl r e Hr. assert (He : r = [] -> e = EOther).
  { intros ->. specialize (Hr 1%nat ltac:(cbn; lia)). cbn in Hr. congruence. }
  induction Hl as [|c t s Hc H34 H92 Hl IH|c x t s Hc Hl IH|c x y t s Hc Hl IH|c x y z t s Hc Hl IH
    |c d t s Hd Hl IH|h cp t s Hh Hsc Hl IH|h1 h2 hi lo t s Hh1 Hhi Hh2 Hlo Hl IH]; intros f Hf.
  1:{ now apply Hr. }
  all: destruct f as [|f]; [lia|].
  - cbn [app]. rewrite q_str_step by lia. unfold q_char. replace (c =? 92) with false by lia.
    replace (c <=? 127) with true by lia. cbn [rbind]. cbn in Hf. rewrite IH by lia. reflexivity.
  - cbn [app]. rewrite q_str_step by lia. unfold q_char. replace (c =? 92) with false by lia.
    replace (c <=? 127) with false by lia. rewrite rune_bytes2_spec by lia.
    replace ((192 <=? c) && (c <=? 223)) with true by lia. unfold q_take.
    replace (_ <? 2)%nat with false by (symmetry; apply Nat.ltb_ge; cbn; lia). cbn [firstn skipn rbind].
    cbn in Hf. rewrite IH by lia. reflexivity.
  - cbn [app]. rewrite q_str_step by lia. unfold q_char. replace (c =? 92) with false by lia.
    replace (c <=? 127) with false by lia. rewrite rune_bytes2_spec, rune_bytes3_spec by lia.
    replace ((192 <=? c) && (c <=? 223)) with false by lia.
    replace ((224 <=? c) && (c <=? 239)) with true by lia. unfold q_take.
    replace (_ <? 3)%nat with false by (symmetry; apply Nat.ltb_ge; cbn; lia). cbn [firstn skipn rbind].
    cbn in Hf. rewrite IH by lia. reflexivity.
  - cbn [app]. rewrite q_str_step by lia. unfold q_char. replace (c =? 92) with false by lia.
    replace (c <=? 127) with false by lia. rewrite rune_bytes2_spec, rune_bytes3_spec, rune_bytes4_spec by lia.
    replace ((192 <=? c) && (c <=? 223)) with false by lia.
    replace ((224 <=? c) && (c <=? 239)) with false by lia.
    replace ((240 <=? c) && (c <=? 247)) with true by lia. unfold q_take.
    replace (_ <? 4)%nat with false by (symmetry; apply Nat.ltb_ge; cbn; lia). cbn [firstn skipn rbind].
    cbn in Hf. rewrite IH by lia. reflexivity.
  - cbn [app]. rewrite q_str_step by reflexivity. rewrite q_char_esc. cbn in Hf.
    assert (Hq : q_escape (c :: t ++ r) = Ok ([d], t ++ r)).
    { destruct Hd as [Hd|[-> ->]]; [destruct Hd; reflexivity|reflexivity]. }
    rewrite Hq. cbn [rbind]. rewrite IH by lia. reflexivity.
  - destruct (hex4d_spec _ _ Hh) as (a & b & c & d & -> & Hq & Hu). cbn [app] in *. cbn [List.length] in Hf.
    rewrite q_str_step by reflexivity. rewrite q_char_esc, q_escape_u.
    destruct (t ++ r) as [|x tt] eqn:Et.
    { apply app_eq_nil in Et as (-> & ->). rewrite He by reflexivity. reflexivity. }
    unfold q_unicode. rewrite Hq. cbn [rbind]. replace ((cp <=? 55295) || (57344 <=? cp)) with true by (unfold scalar in Hsc; lia).
    cbn [rbind]. rewrite IH by lia. reflexivity.
  - destruct (hex4d_spec _ _ Hh1) as (a & b & c & d & -> & Hq1 & Hu1).
    destruct (hex4d_spec _ _ Hh2) as (k & g & l & m & -> & Hq2 & Hu2). cbn [app] in *. cbn [List.length] in Hf.
    rewrite q_str_step by reflexivity. rewrite q_char_esc, q_escape_u.
    unfold q_unicode. rewrite Hq1. cbn [rbind].
    replace ((hi <=? 55295) || (57344 <=? hi)) with false by lia.
    destruct (t ++ r) as [|x tt] eqn:Et.
    { apply app_eq_nil in Et as (-> & ->). rewrite He by reflexivity. reflexivity. }
    change (negb ((92 =? 92) && (117 =? 117))) with false. cbn iota. rewrite Hq2. cbn [rbind].
    replace (lo <? 56320) with false by lia. replace (1023 <? lo - 56320) with false by lia.
    cbn [rbind]. rewrite IH by lia. reflexivity.
Qed.

Lemma q_str_err r e : Forall is_byte r -> str_fails r e -> forall f, (List.length r < f)%nat -> q_str f r = Err e.
Proof.
  intros Hb H. inversion H as [t s r' e' Hl Hc]; subst r e'. clear H. apply (q_str_err_after t s Hl). intros g Hg.
  apply Forall_app in Hb as (_ & Hb). destruct g as [|g]; [lia|].
  destruct r' as [|c r'].
  { inversion Hc as [| |? Hp| |]; subst; [reflexivity|inversion Hp]. }
  inversion Hb as [|? ? Hcb _]; subst.
  assert (N34 : c <> 34).
  { intros ->. inversion Hc as [| |? Hp|? ? Hn|? ? ? Hn]; subst; [inversion Hp|lia|inversion Hn; lia]. }
  rewrite q_str_step by lia. destruct (char_fails_ok c r' e Hcb N34 Hc) as [-> |(-> & w & Ew)]; [reflexivity|].
  rewrite Ew. cbn [rbind]. cbn in Hg. destruct g; [lia|reflexivity].
Qed.

(** *** Scalars *)

Section Fails.
Variable E : Env.

Lemma q_number_err r e : q_number E r = Err e -> e = EOther.
Proof.
  unfold q_number. destruct (q_num_loop r 0 nst0) as [[[s src] rest]|e1| |] eqn:El; cbn [rbind]; try discriminate.
  - destruct (q_num_value E s src) as [v|e2| |] eqn:Ev; cbn [rbind]; try discriminate. intros H; injection H as <-.
    unfold q_num_value, q_float, q_pos, q_neg in Ev. destruct src as [|c0 src]; [discriminate|].
    repeat match type of Ev with context [if ?b then _ else _] => destruct b; try congruence end;
      try (destruct (parse_float _); congruence).
  - intros H; injection H as <-. revert El. generalize 0%nat. generalize nst0. clear.
    induction r as [|c t IH]; intros s n; [discriminate|]. cbn [q_num_loop].
    assert (N : forall s0 a b e, num_step s0 c a b = Err e -> e = EOther).
    { intros s0 a b e. unfold num_step.
      repeat match goal with |- context [if ?x then _ else _] => destruct x end; congruence. }
    destruct (num_step s c (n =? 0)%nat (n =? 1)%nat) as [[s'|]|e2| |] eqn:En; cbn [rbind]; try discriminate.
    + destruct (q_num_loop t (S n) s') as [[[sf src] rest]|e3| |] eqn:El; cbn [rbind]; try discriminate.
      intros H; injection H as <-. eapply IH; eassumption.
    + intros H; injection H as <-. eapply N; eassumption.
Qed.

Lemma number_start_spec c : number_start c <-> is_num_start c = true.
Proof. unfold number_start, is_num_start, is_digit, digit. lia. Qed.
Lemma value_start_spec c : value_start c <-> vstart c.
Proof. unfold value_start, vstart. rewrite number_start_spec. tauto. Qed.

Lemma q_scalar_num c r : is_num_start c = true -> q_scalar E c r = Some (q_number E r).
Proof. intros H. unfold q_scalar. now rewrite H. Qed.

Lemma q_prefix_none lit : forall r, (forall t, r <> lit ++ t) -> q_prefix lit r = None.
Proof.
  intros r H. destruct (q_prefix lit r) as [t|] eqn:Ep; [|reflexivity].
  apply q_prefix_inv in Ep. now elim (H t).
Qed.

Lemma q_lit_err lit v e1 e2 r e : q_lit lit v e1 e2 r = Err e ->
  (List.length r < List.length lit)%nat /\ e = e1 \/
  (List.length lit <= List.length r)%nat /\ (forall t, r <> lit ++ t) /\ e = e2.
Proof.
  unfold q_lit. destruct (Nat.ltb_spec (List.length r) (List.length lit)) as [Hl|Hl]; [left; split; [assumption|congruence]|].
  destruct (q_prefix lit r) as [t|] eqn:Ep; [discriminate|]. intros H; injection H as <-. right.
  split; [assumption|]. split; [|reflexivity]. intros t ->. rewrite q_prefix_app in Ep. discriminate.
Qed.
Lemma q_lit_fails lit v e1 e2 r : (forall t, r <> lit ++ t) -> exists e, q_lit lit v e1 e2 r = Err e /\ (e = e1 \/ e = e2).
Proof.
  intros H. unfold q_lit. destruct (_ <? _)%nat; [eauto|]. rewrite q_prefix_none by assumption. eauto.
Qed.

Lemma scalar_fails_of c t e : q_scalar E c (c :: t) = Some (Err e) -> val_fails (c :: t) e.
Proof.
  destruct (is_num_start c) eqn:En.
  { rewrite q_scalar_num by assumption. intros H. injection H as H.
    rewrite (q_number_err _ _ H). constructor; [now apply number_start_spec|].
    intros lit t' Et HL Ho. destruct (lax_number E lit HL) as (n & Hn).
    assert (Hs : stop t') by (apply stop_after; exact Ho).
    pose proof (q_number_extend E lit _ t' Hn Hs) as Q. rewrite <- Et, H in Q. discriminate. }
  unfold q_scalar. rewrite En.
  destruct (Z.eqb_spec c 116) as [->|].
  { intros H. injection H as H. apply q_lit_err in H as [(Hl & ->)|(_ & Ht & ->)]; apply VF_true; [|assumption].
    intros t' Et. rewrite Et, app_length in Hl. cbn in Hl. lia. }
  destruct (Z.eqb_spec c 102) as [->|].
  { intros H. injection H as H. apply q_lit_err in H as [(Hl & ->)|(_ & Ht & ->)]; apply VF_false; [|assumption].
    intros t' Et. rewrite Et, app_length in Hl. cbn in Hl. lia. }
  destruct (Z.eqb_spec c 110) as [->|]; [|discriminate].
  intros H. injection H as H. apply q_lit_err in H as [(Hl & ->)|(Hl & Ht & ->)]; [now apply VF_null_short|now apply VF_null].
Qed.

(** *** The relations hold where the parser fails *)

Definition at_fails (key : option bytes) (colon : bool) (r : bytes) (e : err) : Prop :=
  match key with None => obj_fails r e | Some _ => if colon then member_fails r e else colon_fails r e end.

Lemma stray_of c : is_blank c = false -> c <> 123 -> c <> 91 -> c <> 34 -> q_scalar E c [c] = None ->
  ~ is_lblank c /\ ~ value_start c.
Proof.
  intros Hb N1 N2 N3 Hq. rewrite lblank_blank. split; [congruence|]. intros Hv. apply value_start_spec in Hv.
  now apply (q_scalar_vstart E c [c]) in Hv.
Qed.
Lemma q_scalar_none c t t' : q_scalar E c t = None -> q_scalar E c t' = None.
Proof.
  unfold q_scalar. destruct (is_num_start c); [discriminate|]. destruct (c =? 116); [discriminate|].
  destruct (c =? 102); [discriminate|]. destruct (c =? 110); [discriminate|reflexivity].
Qed.
Lemma q_scalar_some c t m : q_scalar E c t = Some m -> value_start c.
Proof.
  intros H. apply value_start_spec. unfold q_scalar in H. unfold vstart. destruct (is_num_start c); [auto 10|].
  destruct (Z.eqb_spec c 116); [auto 10|]. destruct (Z.eqb_spec c 102); [auto 10|]. destruct (Z.eqb_spec c 110); [auto 10|discriminate].
Qed.

Lemma q_skip_head r c t : q_skip r = c :: t -> is_blank c = false.
Proof.
  induction r as [|x r IH]; [discriminate|]. cbn [q_skip]. destruct (is_blank x) eqn:Eb; [assumption|].
  intros H; injection H as <- _. assumption.
Qed.

Lemma fails_of f :
  (forall r acc e, Forall is_byte r -> q_arr E f r acc = Err e -> arr_fails r e) /\
  (forall r obj key colon e, Forall is_byte r -> is_obj obj -> (key = None -> colon = false) ->
     q_obj E f r obj key colon = Err e -> at_fails key colon r e).
Proof.
  induction f as [|f [IHa IHo]]; [split; intros; discriminate|]. destruct (parse_sound E f) as [PA PO]. split.
  - intros r acc e Hb H. rewrite q_arr_S in H.
    destruct (q_skip_inv r) as (w & Hr & Hw). destruct (q_skip r) as [|c t] eqn:Eq.
    { injection H as <-. rewrite app_nil_r in Hr. subst r. now constructor. }
    assert (Hbt : Forall is_byte (c :: t)) by (rewrite Hr in Hb; apply Forall_app in Hb; tauto).
    inversion Hbt as [|? ? Hbc Hbt']; subst x l. apply q_skip_head in Eq.
    assert (K : forall tv j r1 w1, c :: t = tv ++ r1 -> lval tv j -> after_num j r1 ->
              q_arr E f r1 (acc ++ [w1]) = Err e -> arr_fails r e).
    { intros tv j r1 w1 Et Hv Han H1. rewrite Hr, Et. eapply AF_later; try eassumption. eapply IHa; [|eassumption].
      rewrite Et in Hbt. apply Forall_app in Hbt. tauto. }
    assert (KV : val_fails (c :: t) e -> arr_fails r e) by (intros Hv; rewrite Hr; now apply AF_value).
    destruct (Z.eqb_spec c 93) as [->|N93]; [discriminate|].
    destruct (Z.eqb_spec c 44) as [->|N44].
    { rewrite Hr. apply AF_comma; [assumption|]. eapply IHa; eassumption. }
    destruct (Z.eqb_spec c 123) as [->|N123].
    { destruct (q_obj E f t new_object None false) as [[w1 r1]|e1| |] eqn:Eo; cbn [rbind] in H; try discriminate.
      - apply PO in Eo; [|assumption|repeat eexists|auto]. destruct Eo as (tm & l & -> & Hm & ->).
        apply (K (123 :: tm ++ [125]) (JObj l) r1 _ ltac:(cbn; now rewrite <- app_assoc) (LV_obj _ _ Hm) I H).
      - injection H as <-. apply KV, VF_obj. apply (IHo t new_object None false); auto. repeat eexists. }
    destruct (Z.eqb_spec c 91) as [->|N91].
    { destruct (q_arr E f t []) as [[w1 r1]|e1| |] eqn:Eo; cbn [rbind] in H; try discriminate.
      - apply PA in Eo; [|assumption]. destruct Eo as (tm & l & -> & Hm & ->).
        apply (K (91 :: tm ++ [93]) (JArr l) r1 _ ltac:(cbn; now rewrite <- app_assoc) (LV_arr _ _ Hm) I H).
      - injection H as <-. apply KV, VF_arr. eapply IHa; eassumption. }
    destruct (Z.eqb_spec c 34) as [->|N34].
    { destruct (q_str _ t) as [[w1 r1]|e1| |] eqn:Eo; cbn [rbind] in H; try discriminate.
      - apply q_str_sound in Eo; [|assumption]. destruct Eo as (ts & -> & Hs).
        apply (K (34 :: ts ++ [34]) (JStr w1) r1 _ ltac:(cbn; now rewrite <- app_assoc) (LV_str _ _ Hs) I H).
      - injection H as <-. apply KV, VF_str. eapply q_str_err_of; eassumption. }
    destruct (q_scalar E c (c :: t)) as [[[w1 r1]|e1| |]|] eqn:Eo; cbn [rbind] in H; try discriminate.
    + apply q_scalar_sound in Eo as (ts & j & Et & Hv & -> & Han). apply (K ts j r1 _ Et Hv Han H).
    + injection H as <-. apply KV. now apply scalar_fails_of.
    + injection H as <-. rewrite Hr. apply AF_stray; [assumption|].
      destruct (stray_of c Eq N123 N91 N34 (q_scalar_none _ _ _ Eo)).
      destruct (Z.eq_dec c 58); [auto|]. destruct (Z.eq_dec c 125); [auto|]. left. repeat split; assumption.
  - intros r obj key colon e Hb Ho Hkc H. rewrite q_obj_S in H.
    destruct (q_skip_inv r) as (w & Hr & Hw). destruct (q_skip r) as [|c t] eqn:Eq.
    { injection H as <-. rewrite app_nil_r in Hr. subst r. unfold at_fails. destruct key, colon; now constructor. }
    assert (Hbt : Forall is_byte (c :: t)) by (rewrite Hr in Hb; apply Forall_app in Hb; tauto).
    inversion Hbt as [|? ? Hbc Hbt']; subst x l. apply q_skip_head in Eq.
    set (store := fun (w : V) (r1 : bytes) => match key with None => Panic | Some k => let* obj' := set_to_object E obj k w in q_obj E f r1 obj' None false end) in H. cbv zeta in H.
    assert (K : forall k tv j r1 w1, key = Some k -> colon = true -> c :: t = tv ++ r1 -> lval tv j -> w1 = to_V E j -> after_num j r1 ->
              store w1 r1 = Err e -> at_fails key colon r e).
    { intros k tv j r1 w1 -> -> Et Hv -> Han H1. unfold store in H1.
      destruct (oput_set E obj k (to_V E j) Ho) as [Eo Ho']. rewrite Eo in H1. cbn [rbind] in H1.
      assert (Hb1 : Forall is_byte r1) by (rewrite Et in Hbt; apply Forall_app in Hbt; tauto).
      cbn. rewrite Hr, Et. eapply MF_later; try eassumption.
      apply (IHo _ _ None false e Hb1 Ho' ltac:(auto) H1). }
    assert (KV : forall k, key = Some k -> colon = true -> val_fails (c :: t) e -> at_fails key colon r e).
    { intros k -> -> Hv. cbn. rewrite Hr. now apply MF_value. }
    assert (KM : match key with None => true | Some _ => negb colon end = true -> value_start c -> c <> 34 \/ key <> None ->
              e = ErrNotObjectValue -> at_fails key colon r e).
    { intros Hm Hv Hq ->. unfold at_fails. rewrite Hr. destruct key as [k|].
      - destruct colon; [discriminate|]. apply NF_no_colon; auto.
      - apply OF_no_name; [assumption|]. right. split; [assumption|]. destruct Hq; [assumption|congruence]. }
    destruct (Z.eqb_spec c 125) as [->|N125].
    { destruct key as [k|]; [|discriminate]. injection H as <-. cbn. rewrite Hr.
      destruct colon; [apply MF_no_value|apply NF_no_colon]; auto. }
    destruct (Z.eqb_spec c 44) as [->|N44].
    { destruct key as [k|].
      - injection H as <-. cbn. rewrite Hr. destruct colon; [apply MF_no_value|apply NF_no_colon]; auto.
      - cbn. rewrite Hr. apply OF_comma; [assumption|]. apply (IHo _ _ _ _ _ Hbt' Ho Hkc H). }
    destruct (Z.eqb_spec c 58) as [->|N58].
    { destruct colon.
      - injection H as <-. destruct key as [k|]; [|specialize (Hkc eq_refl); discriminate].
        cbn. rewrite Hr. apply MF_no_value; auto.
      - destruct key as [k|].
        + cbn. rewrite Hr. apply NF_later; [assumption|].
          apply (IHo t obj (Some k) true e Hbt' Ho ltac:(discriminate) H).
        + injection H as <-. cbn. rewrite Hr. apply OF_no_name; auto. }
    destruct (Z.eqb_spec c 123) as [->|N123].
    { destruct (match key with None => true | Some _ => negb colon end) eqn:Em.
      { injection H as <-. apply KM; auto; [unfold value_start; auto 10|left; lia]. }
      destruct key as [k|]; [|discriminate]. assert (colon = true) by now destruct colon.
      destruct (q_obj E f t new_object None false) as [[w1 r1]|e1| |] eqn:Eo; cbn [rbind] in H; try discriminate.
      - apply PO in Eo; [|assumption|repeat eexists|auto]. destruct Eo as (tm & l & -> & Hm & ->).
        apply (K k (123 :: tm ++ [125]) (JObj l) r1 _ eq_refl ltac:(assumption) ltac:(cbn; now rewrite <- app_assoc) (LV_obj _ _ Hm) eq_refl I H).
      - injection H as <-. apply (KV k); auto. apply VF_obj. apply (IHo t new_object None false); auto. repeat eexists. }
    destruct (Z.eqb_spec c 91) as [->|N91].
    { destruct (match key with None => true | Some _ => negb colon end) eqn:Em.
      { injection H as <-. apply KM; auto; [unfold value_start; auto 10|left; lia]. }
      destruct key as [k|]; [|discriminate]. assert (colon = true) by now destruct colon.
      destruct (q_arr E f t []) as [[w1 r1]|e1| |] eqn:Eo; cbn [rbind] in H; try discriminate.
      - apply PA in Eo; [|assumption]. destruct Eo as (tm & l & -> & Hm & ->).
        apply (K k (91 :: tm ++ [93]) (JArr l) r1 _ eq_refl ltac:(assumption) ltac:(cbn; now rewrite <- app_assoc) (LV_arr _ _ Hm) eq_refl I H).
      - injection H as <-. apply (KV k); auto. apply VF_arr. eapply IHa; eassumption. }
    destruct (Z.eqb_spec c 34) as [->|N34].
    { destruct key as [k|].
      - destruct (negb colon) eqn:Ec.
        { injection H as <-. apply KM; auto; [unfold value_start; auto 10|right; discriminate]. }
        assert (colon = true) by now destruct colon.
        destruct (q_str _ t) as [[w1 r1]|e1| |] eqn:Eo; cbn [rbind] in H; try discriminate.
        + apply q_str_sound in Eo; [|assumption]. destruct Eo as (ts & -> & Hs).
          apply (K k (34 :: ts ++ [34]) (JStr w1) r1 _ eq_refl ltac:(assumption) ltac:(cbn; now rewrite <- app_assoc) (LV_str _ _ Hs) eq_refl I H).
        + injection H as <-. apply (KV k); auto. apply VF_str. eapply q_str_err_of; eassumption.
      - rewrite (Hkc eq_refl) in *.
        destruct (q_str _ t) as [[k r1]|e1| |] eqn:Eo; cbn [rbind] in H; try discriminate.
        + apply q_str_sound in Eo; [|assumption]. destruct Eo as (ts & -> & Hs).
          apply Forall_app in Hbt' as [_ Hb1]. apply Forall_inv_tail in Hb1.
          cbn. rewrite Hr. eapply OF_later; try eassumption.
          apply (IHo r1 obj (Some k) false e Hb1 Ho ltac:(discriminate) H).
        + injection H as <-. cbn. rewrite Hr. apply OF_name; [assumption|]. eapply q_str_err_of; eassumption. }
    destruct (q_scalar E c (c :: t)) as [m|] eqn:Eo.
    + destruct (match key with None => true | Some _ => negb colon end) eqn:Em.
      { injection H as <-. apply KM; auto. eapply q_scalar_some; eassumption. }
      destruct key as [k|]; [|discriminate]. assert (colon = true) by now destruct colon.
      destruct m as [[w1 r1]|e1| |]; cbn [rbind] in H; try discriminate.
      * apply q_scalar_sound in Eo as (ts & j & Et & Hv & -> & Han).
        apply (K k ts j r1 _ eq_refl ltac:(assumption) Et Hv eq_refl Han H).
      * injection H as <-. apply (KV k); auto. now apply scalar_fails_of.
    + injection H as <-.
      destruct (stray_of c Eq N123 N91 N34 (q_scalar_none _ _ _ Eo)).
      assert (S : stray c \/ c = 93) by (destruct (Z.eq_dec c 93); [auto|]; left; repeat split; assumption).
      unfold at_fails. rewrite Hr. destruct key as [k|]; [destruct colon|]; constructor; assumption.
Qed.

Lemma q_value_fails_of f c t e : Forall is_byte (c :: t) -> value_start c -> q_value E f c t = Err e -> val_fails (c :: t) e.
Proof.
  intros Hb Hs H. inversion Hb as [|? ? Hbc Hbt]; subst. destruct (fails_of f) as [FA FO]. unfold q_value in H.
  destruct (Z.eqb_spec c 123) as [->|N123].
  { apply VF_obj. apply (FO t new_object None false); auto. repeat eexists. }
  destruct (Z.eqb_spec c 91) as [->|N91].
  { apply VF_arr. eapply FA; eassumption. }
  destruct (Z.eqb_spec c 34) as [->|N34].
  { destruct (q_str _ t) as [[w1 r1]|e1| |] eqn:Eo; cbn [rbind] in H; try discriminate. injection H as <-.
    apply VF_str. eapply q_str_err_of; eassumption. }
  destruct (q_scalar E c (c :: t)) as [m|] eqn:Eo.
  - subst m. now apply scalar_fails_of.
  - exfalso. apply value_start_spec in Hs. now apply (q_scalar_vstart E c (c :: t)) in Hs.
Qed.

(** *** The parser fails where the relations hold *)

Definition value_errs (r : bytes) (e : err) : Prop :=
  Forall is_byte r -> exists c t, r = c :: t /\ vstart c /\
    forall f, (List.length t < f)%nat -> q_value E f c t = Err e.

Lemma lit_value_err lit v e1 e2 c t e : vstart c -> c <> 123 -> c <> 91 -> c <> 34 ->
  q_scalar E c (c :: t) = Some (q_lit lit v e1 e2 (c :: t)) -> q_lit lit v e1 e2 (c :: t) = Err e ->
  exists c' t', c :: t = c' :: t' /\ vstart c' /\ forall f, (List.length t' < f)%nat -> q_value E f c' t' = Err e.
Proof.
  intros Hv N1 N2 N3 Hq He. exists c, t. split; [reflexivity|]. split; [assumption|]. intros f _. unfold q_value.
  replace (c =? 123) with false by lia. replace (c =? 91) with false by lia. replace (c =? 34) with false by lia.
  rewrite Hq. exact He.
Qed.

Lemma scalar_none_stray c t : ~ value_start c -> q_scalar E c t = None /\ (c =? 123) = false /\ (c =? 91) = false /\ (c =? 34) = false.
Proof.
  intros H. split.
  - destruct (q_scalar E c t) as [m|] eqn:Eo; [|reflexivity]. elim H. eapply q_scalar_some; eassumption.
  - unfold value_start in H. lia.
Qed.

Lemma blank_false c : ~ is_lblank c -> is_blank c = false.
Proof. rewrite lblank_blank. now destruct (is_blank c). Qed.
Lemma vstart_blank c : vstart c -> is_blank c = false.
Proof. intros H. apply (vstart_props c H). Qed.

Lemma q_value_ok t j r f : lval t j -> after_num j r ->
  exists c t', t = c :: t' /\ vstart c /\
    ((List.length (t' ++ r) < f)%nat -> q_value E f c (t' ++ r) = Ok (to_V E j, r)).
Proof.
  intros Hl Ha. destruct (lax_complete E) as [P _]. destruct (P t j Hl) as (c & t' & -> & Hc & HV).
  exists c, t'. split; [reflexivity|]. split; [assumption|]. intros Hf. now apply HV.
Qed.

Lemma bytes_app_r a b : Forall is_byte (a ++ b) -> Forall is_byte b.
Proof. intros H. apply Forall_app in H. tauto. Qed.
Lemma bytes_tl a b : Forall is_byte (a :: b) -> Forall is_byte b.
Proof. intros H. now inversion H. Qed.

Ltac lens := repeat (rewrite app_length in * || cbn [List.length] in * ); lia.
Ltac bytes := repeat match goal with H : Forall is_byte (_ ++ _) |- _ => apply bytes_app_r in H
                                   | H : Forall is_byte (_ :: _) |- _ => apply bytes_tl in H end; assumption.

Lemma fails_err :
  (forall r e, val_fails r e -> value_errs r e) /\
  (forall r e, arr_fails r e -> Forall is_byte r -> forall f acc, (List.length r < f)%nat -> q_arr E f r acc = Err e) /\
  (forall r e, obj_fails r e -> Forall is_byte r -> forall f obj, is_obj obj -> (List.length r < f)%nat -> q_obj E f r obj None false = Err e) /\
  (forall r e, colon_fails r e -> Forall is_byte r -> forall f obj k, is_obj obj -> (List.length r < f)%nat -> q_obj E f r obj (Some k) false = Err e) /\
  (forall r e, member_fails r e -> Forall is_byte r -> forall f obj k, is_obj obj -> (List.length r < f)%nat -> q_obj E f r obj (Some k) true = Err e).
Proof.
  apply fails_mutind.
  - (* true *) intros r H Hb.
    destruct (q_lit_fails (bs "true") (VBool true) ErrNotValidBoolValue ErrNotValidBoolValue (116 :: r) H) as (e & He & Hee).
    assert (e = ErrNotValidBoolValue) by tauto. subst e.
    eapply lit_value_err; try exact He; try lia; [unfold vstart; auto 10|reflexivity].
  - intros r H Hb.
    destruct (q_lit_fails (bs "false") (VBool false) ErrNotValidBoolValue ErrNotValidBoolValue (102 :: r) H) as (e & He & Hee).
    assert (e = ErrNotValidBoolValue) by tauto. subst e.
    eapply lit_value_err; try exact He; try lia; [unfold vstart; auto 10|reflexivity].
  - intros r Hl Hb.
    eapply (lit_value_err (bs "null") VNull ErrNotValidNullValue ErrNotValidBoolValue); try lia; [unfold vstart; auto 10|reflexivity|].
    unfold q_lit. apply Nat.ltb_lt in Hl. change (List.length (bs "null")) with 4%nat. now rewrite Hl.
  - intros r Hl H Hb.
    eapply (lit_value_err (bs "null") VNull ErrNotValidNullValue ErrNotValidBoolValue); try lia; [unfold vstart; auto 10|reflexivity|].
    unfold q_lit. apply Nat.ltb_ge in Hl. change (List.length (bs "null")) with 4%nat. rewrite Hl.
    now rewrite q_prefix_none.
  - (* number *) intros c r Hs H Hb. apply number_start_spec in Hs.
    exists c, r. split; [reflexivity|]. split; [unfold vstart; auto 10|]. intros f _.
    rewrite q_num_value_head by assumption.
    destruct (q_scalar_total E c r (q_number E (c :: r)) (q_scalar_num _ _ Hs)) as [(v & rest & Q & _)|(e & Q)]; rewrite Q.
    + exfalso. apply q_number_sound in Q as (lit & El & HL & _ & Hst). apply (H lit rest El HL). now apply stop_after in Hst.
    + now rewrite (q_number_err _ _ Q).
  - (* string *) intros r e H Hb. exists 34, r. split; [reflexivity|]. split; [unfold vstart; auto 10|]. intros f _.
    unfold q_value. change (34 =? 123) with false. change (34 =? 91) with false. change (34 =? 34) with true. cbn iota.
    rewrite (q_str_err r e); [reflexivity|bytes|assumption|lia].
  - intros r e _ IH Hb. exists 91, r. split; [reflexivity|]. split; [unfold vstart; auto 10|]. intros f Hf.
    unfold q_value. change (91 =? 123) with false. change (91 =? 91) with true. cbn iota. apply IH; [bytes|assumption].
  - intros r e _ IH Hb. exists 123, r. split; [reflexivity|]. split; [unfold vstart; auto 10|]. intros f Hf.
    unfold q_value. change (123 =? 123) with true. cbn iota. apply IH; [bytes|repeat eexists|assumption].
  - (* array: end *) intros w Hw Hb f acc Hf. destruct f as [|f]; [lia|].
    rewrite q_arr_S, <- (app_nil_r w), q_skip_lblanks by assumption. reflexivity.
  - intros w c r Hw Hc Hb f acc Hf. destruct f as [|f]; [lia|].
    assert (N : ~ is_lblank c /\ ~ value_start c /\ c <> 93 /\ c <> 44).
    { unfold stray in Hc. unfold is_lblank, is_ws, value_start, number_start, digit in *. lia. }
    destruct N as (N1 & N2 & N3 & N4). destruct (scalar_none_stray c (c :: r) N2) as (Q & Q1 & Q2 & Q3).
    rewrite q_arr_S, q_skip_lblanks, q_skip_here by (try apply blank_false; assumption).
    replace (c =? 93) with false by lia. replace (c =? 44) with false by lia. rewrite Q1, Q2, Q3, Q. reflexivity.
  - intros w r e Hw _ IH Hb f acc Hf. destruct f as [|f]; [lia|].
    destruct (IH ltac:(bytes)) as (c & t & -> & Hc & HV).
    rewrite (q_arr_value E f _ acc c t); [|rewrite q_skip_lblanks by assumption; apply q_skip_here; now apply vstart_blank|assumption].
    rewrite HV; [reflexivity|lens].
  - intros w r e Hw _ IH Hb f acc Hf. destruct f as [|f]; [lia|].
    rewrite q_arr_S, q_skip_lblanks by assumption. rewrite (q_skip_here 44) by reflexivity.
    change (44 =? 93) with false. change (44 =? 44) with true. cbn iota. apply IH; [bytes|lens].
  - intros w t j r e Hw Hl Ha _ IH Hb f acc Hf. destruct f as [|f]; [lia|].
    destruct (q_value_ok t j r f Hl Ha) as (c & t' & -> & Hc & HV). cbn [app].
    rewrite (q_arr_value E f _ acc c (t' ++ r)); [|rewrite q_skip_lblanks by assumption; apply q_skip_here; now apply vstart_blank|assumption].
    rewrite HV by lens. cbn [rbind]. apply IH; [bytes|lens].
  - (* object: end *) intros w Hw Hb f obj Ho Hf. destruct f as [|f]; [lia|].
    rewrite q_obj_S, <- (app_nil_r w), q_skip_lblanks by assumption. reflexivity.
  - intros w c r Hw Hc Hb f obj Ho Hf. destruct f as [|f]; [lia|].
    assert (N : ~ is_lblank c /\ ~ value_start c /\ c <> 125 /\ c <> 44 /\ c <> 58).
    { unfold stray in Hc. unfold is_lblank, is_ws, value_start, number_start, digit in *. lia. }
    destruct N as (N1 & N2 & N3 & N4 & N5). destruct (scalar_none_stray c (c :: r) N2) as (Q & Q1 & Q2 & Q3).
    rewrite q_obj_S, q_skip_lblanks, q_skip_here by (try apply blank_false; assumption). cbn zeta.
    replace (c =? 125) with false by lia. replace (c =? 44) with false by lia. replace (c =? 58) with false by lia.
    rewrite Q1, Q2, Q3, Q. reflexivity.
  - intros w c r Hw Hc Hb f obj Ho Hf. destruct f as [|f]; [lia|].
    destruct Hc as [->|(Hc & N34)].
    { rewrite q_obj_S, q_skip_lblanks by assumption. rewrite (q_skip_here 58) by reflexivity. reflexivity. }
    apply value_start_spec in Hc. destruct (vstart_props c Hc) as (Hb' & _ & Q2 & Q3 & Q4).
    rewrite q_obj_S, q_skip_lblanks, q_skip_here by assumption. cbn zeta iota. rewrite Q2, Q3, Q4.
    destruct (Z.eqb_spec c 123); [reflexivity|]. destruct (Z.eqb_spec c 91); [reflexivity|]. replace (c =? 34) with false by lia.
    destruct (q_scalar E c (c :: r)) as [m|] eqn:Eo; [reflexivity|]. now apply (q_scalar_vstart E c (c :: r)) in Hc.
  - intros w r e Hw Hs Hb f obj Ho Hf. destruct f as [|f]; [lia|].
    rewrite q_obj_S, q_skip_lblanks by assumption. rewrite (q_skip_here 34) by reflexivity. cbn zeta iota.
    change (34 =? 125) with false. change (34 =? 44) with false. change (34 =? 58) with false.
    change (34 =? 123) with false. change (34 =? 91) with false. change (34 =? 34) with true. cbn iota.
    rewrite (q_str_err r e); [reflexivity|bytes|assumption|lia].
  - intros w r e Hw _ IH Hb f obj Ho Hf. destruct f as [|f]; [lia|].
    rewrite q_obj_S, q_skip_lblanks by assumption. rewrite (q_skip_here 44) by reflexivity. cbn zeta iota.
    change (44 =? 125) with false. change (44 =? 44) with true. cbn iota. apply IH; [bytes|assumption|lens].
  - intros w t k r e Hw Hs _ IH Hb f obj Ho Hf. destruct f as [|f]; [lia|].
    rewrite q_obj_S, q_skip_lblanks by assumption. rewrite (q_skip_here 34) by reflexivity. cbn zeta iota.
    change (34 =? 125) with false. change (34 =? 44) with false. change (34 =? 58) with false.
    change (34 =? 123) with false. change (34 =? 91) with false. change (34 =? 34) with true. cbn iota.
    rewrite (q_str_lax t k Hs) by (rewrite app_length; lia). cbn [rbind]. apply IH; [bytes|assumption|lens].
  - (* colon: end *) intros w Hw Hb f obj k Ho Hf. destruct f as [|f]; [lia|].
    rewrite q_obj_S, <- (app_nil_r w), q_skip_lblanks by assumption. reflexivity.
  - intros w c r Hw Hc Hb f obj k Ho Hf. destruct f as [|f]; [lia|].
    assert (N : ~ is_lblank c /\ ~ value_start c /\ c <> 125 /\ c <> 44 /\ c <> 58).
    { unfold stray in Hc. unfold is_lblank, is_ws, value_start, number_start, digit in *. lia. }
    destruct N as (N1 & N2 & N3 & N4 & N5). destruct (scalar_none_stray c (c :: r) N2) as (Q & Q1 & Q2 & Q3).
    rewrite q_obj_S, q_skip_lblanks, q_skip_here by (try apply blank_false; assumption). cbn zeta.
    replace (c =? 125) with false by lia. replace (c =? 44) with false by lia. replace (c =? 58) with false by lia.
    rewrite Q1, Q2, Q3, Q. reflexivity.
  - intros w c r Hw Hc Hb f obj k Ho Hf. destruct f as [|f]; [lia|].
    destruct Hc as [->|[->|Hc]].
    1,2: rewrite q_obj_S, q_skip_lblanks, q_skip_here by (reflexivity || assumption); reflexivity.
    apply value_start_spec in Hc. destruct (vstart_props c Hc) as (Hb' & _ & Q2 & Q3 & Q4).
    rewrite q_obj_S, q_skip_lblanks, q_skip_here by assumption. cbn zeta iota. rewrite Q2, Q3, Q4. cbn [negb].
    destruct (Z.eqb_spec c 123); [reflexivity|]. destruct (Z.eqb_spec c 91); [reflexivity|]. destruct (Z.eqb_spec c 34); [reflexivity|].
    destruct (q_scalar E c (c :: r)) as [m|] eqn:Eo; [reflexivity|]. now apply (q_scalar_vstart E c (c :: r)) in Hc.
  - intros w r e Hw _ IH Hb f obj k Ho Hf. destruct f as [|f]; [lia|].
    rewrite q_obj_S, q_skip_lblanks by assumption. rewrite (q_skip_here 58) by reflexivity. cbn zeta iota.
    change (58 =? 125) with false. change (58 =? 44) with false. change (58 =? 58) with true. cbn [negb]. cbn iota.
    apply IH; [bytes|assumption|lens].
  - (* member: end *) intros w Hw Hb f obj k Ho Hf. destruct f as [|f]; [lia|].
    rewrite q_obj_S, <- (app_nil_r w), q_skip_lblanks by assumption. reflexivity.
  - intros w c r Hw Hc Hb f obj k Ho Hf. destruct f as [|f]; [lia|].
    assert (N : ~ is_lblank c /\ ~ value_start c /\ c <> 125 /\ c <> 44 /\ c <> 58).
    { unfold stray in Hc. unfold is_lblank, is_ws, value_start, number_start, digit in *. lia. }
    destruct N as (N1 & N2 & N3 & N4 & N5). destruct (scalar_none_stray c (c :: r) N2) as (Q & Q1 & Q2 & Q3).
    rewrite q_obj_S, q_skip_lblanks, q_skip_here by (try apply blank_false; assumption). cbn zeta.
    replace (c =? 125) with false by lia. replace (c =? 44) with false by lia. replace (c =? 58) with false by lia.
    rewrite Q1, Q2, Q3, Q. reflexivity.
  - intros w c r Hw Hc Hb f obj k Ho Hf. destruct f as [|f]; [lia|].
    destruct Hc as [->|[->| ->]];
      rewrite q_obj_S, q_skip_lblanks, q_skip_here by (reflexivity || assumption); reflexivity.
  - intros w r e Hw _ IH Hb f obj k Ho Hf. destruct f as [|f]; [lia|].
    destruct (IH ltac:(bytes)) as (c & t & -> & Hc & HV).
    rewrite (q_obj_value E f _ obj k c t); [|rewrite q_skip_lblanks by assumption; apply q_skip_here; now apply vstart_blank|assumption].
    rewrite HV; [reflexivity|lens].
  - intros w t j r e Hw Hl Ha _ IH Hb f obj k Ho Hf. destruct f as [|f]; [lia|].
    destruct (q_value_ok t j r f Hl Ha) as (c & t' & -> & Hc & HV). cbn [app].
    rewrite (q_obj_value E f _ obj k c (t' ++ r)); [|rewrite q_skip_lblanks by assumption; apply q_skip_here; now apply vstart_blank|assumption].
    rewrite HV by lens. cbn [rbind]. destruct (oput_set E obj k (to_V E j) Ho) as [-> Ho']. cbn [rbind].
    apply IH; [bytes|assumption|lens].
Qed.

(** *** Documents *)

Lemma q_doc_of b e : b <> [] -> Forall is_byte b -> q_unmarshal E b = Err e -> doc_fails b e.
Proof.
  intros Hne Hb H. unfold q_unmarshal in H.
  destruct (q_skip_inv b) as (w & Hr & Hw). destruct (q_skip b) as [|c t] eqn:Eq.
  { injection H as <-. rewrite app_nil_r in Hr. subst b. now constructor. }
  assert (Hbt : Forall is_byte (c :: t)) by (rewrite Hr in Hb; apply Forall_app in Hb; tauto).
  apply q_skip_head in Eq.
  assert (Hv : value_start c \/ ~ value_start c) by (unfold value_start, number_start, digit; lia).
  destruct Hv as [Hv|Hv].
  - destruct (q_value E _ c t) as [[v1 r1]|e1| |] eqn:Ev; cbn [rbind] in H; try discriminate.
    + destruct (q_skip_inv r1) as (w2 & Hr1 & Hw2). destruct (q_skip r1) as [|c2 t2] eqn:Eq2; [discriminate|]. injection H as <-.
      apply q_skip_head in Eq2.
      assert (Hl : exists tv j, c :: t = tv ++ r1 /\ lval tv j /\ after_num j r1).
      { inversion Hbt as [|? ? Hbc Hbt']; subst x l.
        unfold q_value in Ev. destruct (parse_sound E (S (List.length b))) as [PA PO].
        destruct (Z.eqb_spec c 123) as [->|N123].
        { apply PO in Ev; [|assumption|repeat eexists|auto]. destruct Ev as (tm & l & -> & Hm & ->).
          exists (123 :: tm ++ [125]), (JObj l). split; [cbn; now rewrite <- app_assoc|]. split; [now constructor|exact I]. }
        destruct (Z.eqb_spec c 91) as [->|N91].
        { apply PA in Ev; [|assumption]. destruct Ev as (tm & l & -> & Hm & ->).
          exists (91 :: tm ++ [93]), (JArr l). split; [cbn; now rewrite <- app_assoc|]. split; [now constructor|exact I]. }
        destruct (Z.eqb_spec c 34) as [->|N34].
        { destruct (q_str _ t) as [[s r2]|e2| |] eqn:Eo; cbn [rbind] in Ev; try discriminate.
          apply q_str_sound in Eo; [|assumption]. destruct Eo as (ts & -> & Hs).
          assert (r2 = r1) by congruence. subst r2.
          exists (34 :: ts ++ [34]), (JStr s). split; [cbn; now rewrite <- app_assoc|]. split; [now constructor|exact I]. }
        destruct (q_scalar E c (c :: t)) as [m|] eqn:Eo; [|discriminate]. subst m.
        apply q_scalar_sound in Eo as (ts & j & Et & Hj & _ & Ha). eauto. }
      destruct Hl as (tv & j & Et & Hj & Ha). rewrite Hr, Et, Hr1. apply (DF_more w tv j); auto.
      * rewrite lblank_blank. congruence.
      * now rewrite <- Hr1.
    + injection H as <-. rewrite Hr. apply DF_value; [assumption|]. eapply q_value_fails_of; eassumption.
  - rewrite Hr. destruct (scalar_none_stray c (c :: t) Hv) as (Q & Q1 & Q2 & Q3).
    unfold q_value in H. rewrite Q1, Q2, Q3, Q in H. injection H as <-. apply DF_start; auto.
    rewrite lblank_blank. congruence.
Qed.

Lemma q_doc_err b e : Forall is_byte b -> doc_fails b e -> b <> [] -> q_unmarshal E b = Err e.
Proof.
  intros Hb H Hne. destruct H as [|w _ Hw|w c r Hw Hc Hv|w r e Hw Hv|w t j w2 c r Hw Hl Hw2 Hc Ha]; [congruence| | | |].
  - unfold q_unmarshal. rewrite <- (app_nil_r w), q_skip_lblanks by assumption. reflexivity.
  - unfold q_unmarshal. rewrite q_skip_lblanks, q_skip_here by (try apply blank_false; assumption).
    destruct (scalar_none_stray c (c :: r) Hv) as (Q & Q1 & Q2 & Q3). unfold q_value. rewrite Q1, Q2, Q3, Q. reflexivity.
  - destruct fails_err as (FV & _). destruct (FV r e Hv ltac:(bytes)) as (c & t & -> & Hc & HV).
    unfold q_unmarshal. rewrite q_skip_lblanks by assumption. rewrite q_skip_here by now apply vstart_blank.
    rewrite HV by lens. reflexivity.
  - unfold q_unmarshal. destruct (q_value_ok t j (w2 ++ c :: r) (S (List.length (w ++ t ++ w2 ++ c :: r))) Hl Ha) as (c' & t' & -> & Hc' & HV).
    cbn [app]. rewrite q_skip_lblanks by assumption. rewrite q_skip_here by now apply vstart_blank.
    cbn [app] in HV. rewrite HV by lens. cbn [rbind]. rewrite q_skip_lblanks, q_skip_here by (try apply blank_false; assumption). reflexivity.
Qed.
End Fails.

Theorem fails_exactly : forall (E : Env) (b : bytes) (e : err), Forall is_byte b ->
  (unmarshal E b = Ok (failed b, Some e) <-> doc_fails b e).
Proof.
  intros E b e Hb. destruct b as [|c b].
  - cbn. split.
    + intros H. injection H as <-. constructor.
    + intros H. remember [] as n eqn:En in H. destruct H as [|w Hn _|w c r _ _ _|w r e _ Hv|w t j w2 c r _ _ _ _ _]; try reflexivity.
      * congruence.
      * destruct w; discriminate.
      * apply app_eq_nil in En as (-> & ->). inversion Hv.
      * destruct w; [|discriminate]. destruct t; [|discriminate]. destruct w2; discriminate.
  - pose proof (run_unmarshal_spec E (c :: b)) as R. unfold unmarshal, failed. split.
    + intros H. apply (q_doc_of E); [discriminate|assumption|].
      destruct (q_unmarshal E (c :: b)) as [w|e1| |]; try contradiction.
      * destruct R as (s' & R & _). rewrite R in H. discriminate.
      * destruct R as (s' & R & _). rewrite R in H. cbn in H. congruence.
    + intros H. rewrite (q_doc_err E (c :: b) e Hb H) in R by discriminate.
      destruct R as (s' & -> & _). reflexivity.
Qed.

Lemma error_value E b v e : unmarshal E b = Ok (v, Some e) -> v = failed b.
Proof.
  destruct b as [|c b]; [cbn; congruence|]. unfold unmarshal, failed.
  destruct (run_unmarshal E (c :: b)); cbn; congruence.
Qed.

(** One text, one error, the same in every environment. *)
Theorem same_error : forall (E E' : Env) (b : bytes) (v : V) (e : err), Forall is_byte b ->
  unmarshal E b = Ok (v, Some e) -> unmarshal E' b = Ok (v, Some e).
Proof.
  intros E E' b v e Hb H. pose proof (error_value _ _ _ _ H). subst v.
  apply fails_exactly; [assumption|]. now apply (fails_exactly E).
Qed.

Lemma char_fails_class r e : char_fails r e -> e = EOther \/ e = ErrIllegalString.
Proof. destruct 1; auto. Qed.
Lemma str_fails_class r e : str_fails r e -> e = EOther \/ e = ErrIllegalString.
Proof. destruct 1. eapply char_fails_class; eassumption. Qed.

Definition parse_class (e : err) : Prop :=
  e = ErrNilParameter \/ e = ErrRawBytesUnrecognized \/ e = ErrNotValidBoolValue \/ e = ErrNotValidNullValue \/
  e = ErrNotArrayValue \/ e = ErrNotObjectValue \/ e = ErrIllegalString \/ e = EOther.

Lemma fails_class :
  (forall r e, val_fails r e -> parse_class e) /\ (forall r e, arr_fails r e -> parse_class e) /\
  (forall r e, obj_fails r e -> parse_class e) /\ (forall r e, colon_fails r e -> parse_class e) /\
  (forall r e, member_fails r e -> parse_class e).
Proof.
  apply fails_mutind; unfold parse_class; try (intros; tauto).
  all: intros; match goal with H : str_fails _ _ |- _ => destruct (str_fails_class _ _ H) end; tauto.
Qed.

Lemma doc_fails_class b e : doc_fails b e -> parse_class e.
Proof.
  intros H. destruct H; try (unfold parse_class; tauto). destruct fails_class as (F & _). eauto.
Qed.

Theorem only_these : forall (E : Env) (b : bytes) (v : V) (e : err), Forall is_byte b ->
  unmarshal E b = Ok (v, Some e) ->
  e = ErrNilParameter \/ e = ErrRawBytesUnrecognized \/ e = ErrNotValidBoolValue \/ e = ErrNotValidNullValue \/
  e = ErrNotArrayValue \/ e = ErrNotObjectValue \/ e = ErrIllegalString \/ e = EOther.
Proof.
  intros E b v e Hb H. pose proof (error_value _ _ _ _ H). subst v. apply fails_exactly in H; [|assumption].
  now apply doc_fails_class in H.
Qed.

Theorem nothing_read : forall (E : Env) (b : bytes) (v : V), Forall is_byte b ->
  (unmarshal E b = Ok (v, Some ErrNilParameter) <-> b = [] /\ v = VNil).
Proof.
  intros E b v Hb. split.
  - intros H. pose proof (error_value _ _ _ _ H). subst v. apply fails_exactly in H; [|assumption].
    remember ErrNilParameter as e eqn:Ee. destruct H as [|w _ _|w c r _ _ _|w r e _ Hv|]; try discriminate; [auto|].
    exfalso. subst e. revert Hv. assert (F : (forall r e, val_fails r e -> e <> ErrNilParameter) /\ (forall r e, arr_fails r e -> e <> ErrNilParameter) /\
      (forall r e, obj_fails r e -> e <> ErrNilParameter) /\ (forall r e, colon_fails r e -> e <> ErrNilParameter) /\
      (forall r e, member_fails r e -> e <> ErrNilParameter)).
    { apply fails_mutind; try (intros; congruence).
      all: intros; match goal with H : str_fails _ _ |- _ => destruct (str_fails_class _ _ H) end; congruence. }
    destruct F as (F & _). intros Hv. now elim (F _ _ Hv).
  - intros (-> & ->). reflexivity.
Qed.

(** A stray byte cannot be mended by what comes behind. *)
Lemma fails_more s :
  (forall r e, val_fails r e -> e = ErrRawBytesUnrecognized -> val_fails (r ++ s) e) /\
  (forall r e, arr_fails r e -> e = ErrRawBytesUnrecognized -> arr_fails (r ++ s) e) /\
  (forall r e, obj_fails r e -> e = ErrRawBytesUnrecognized -> obj_fails (r ++ s) e) /\
  (forall r e, colon_fails r e -> e = ErrRawBytesUnrecognized -> colon_fails (r ++ s) e) /\
  (forall r e, member_fails r e -> e = ErrRawBytesUnrecognized -> member_fails (r ++ s) e).
Proof.
  assert (N : forall r e, str_fails r e -> e <> ErrRawBytesUnrecognized).
  { intros r e H. destruct (str_fails_class _ _ H); congruence. }
  assert (A : forall j r e, arr_fails r e -> e = ErrRawBytesUnrecognized -> after_num j r -> after_num j (r ++ s)).
  { intros j r e H He Ha. destruct r as [|c r]; [|destruct j; exact Ha].
    remember [] as n eqn:En in H. destruct H as [w|w c r _ _|w r e _ Hv|w r e|w t j' r e _ Hl].
    - discriminate.
    - destruct w; discriminate.
    - apply app_eq_nil in En as (_ & ->). inversion Hv.
    - destruct w; discriminate.
    - apply app_eq_nil in En as (_ & En). apply app_eq_nil in En as (-> & _). apply lval_head in Hl as (c & t & E0 & _). discriminate. }
  assert (B : forall j r e, obj_fails r e -> e = ErrRawBytesUnrecognized -> after_num j r -> after_num j (r ++ s)).
  { intros j r e H He Ha. destruct r as [|c r]; [|destruct j; exact Ha].
    remember [] as n eqn:En in H. destruct H as [w|w c r _ _|w c r _ _|w r e|w r e|w t k r e]; try discriminate;
      destruct w; discriminate. }
  apply fails_mutind; try (intros; discriminate).
  all: intros; try (match goal with H : str_fails _ _ |- _ => elim (N _ _ H) end; assumption).
  all: repeat (rewrite <- app_assoc || cbn [app]).
  - (* number *) apply VF_arr; auto.
  - apply VF_obj; auto.
  - apply AF_stray; auto.
  - apply AF_value; auto.
  - apply AF_comma; auto.
  - eapply AF_later; eauto.
  - apply OF_stray; auto.
  - apply OF_comma; auto.
  - eapply OF_later; eauto.
  - apply NF_stray; auto.
  - apply NF_later; auto.
  - apply MF_stray; auto.
  - apply MF_value; auto.
  - eapply MF_later; eauto.
Qed.

Theorem stray_stays : forall (E : Env) (b s : bytes) (v : V), Forall is_byte (b ++ s) -> ~ lblanks b ->
  unmarshal E b = Ok (v, Some ErrRawBytesUnrecognized) ->
  unmarshal E (b ++ s) = Ok (v, Some ErrRawBytesUnrecognized).
Proof.
  intros E b s v Hb Hn H. pose proof (error_value _ _ _ _ H). subst v.
  apply fails_exactly in H; [|apply Forall_app in Hb; tauto].
  assert (Hne : failed b = failed (b ++ s)) by (destruct b; [elim Hn; constructor|reflexivity]).
  rewrite Hne. apply fails_exactly; [assumption|]. clear Hne Hb.
  remember ErrRawBytesUnrecognized as e eqn:Ee. destruct H as [|w _ Hw|w c r Hw Hc Hv|w r e Hw Hv|w t j w2 c r Hw Hl Hw2 Hc Ha].
  - discriminate.
  - contradiction.
  - rewrite <- app_assoc. cbn [app]. now apply DF_start.
  - rewrite <- app_assoc. apply DF_value; [assumption|]. now apply (proj1 (fails_more s)).
  - rewrite <- !app_assoc. cbn [app]. apply (DF_more w t j); auto.
    destruct j; auto. destruct w2; exact Ha.
Qed.

(** The errors named after numbers and null. *)
Theorem no_number_error : forall (E : Env) (c : Z) (r : bytes), Forall is_byte (c :: r) -> number_start c ->
  (forall lit t, c :: r = lit ++ t -> lax_num lit -> ~ number_over t) ->
  unmarshal E (c :: r) = Ok (VNotExist, Some EOther).
Proof.
  intros E c r Hb Hc H. apply (fails_exactly E (c :: r) EOther Hb). apply (DF_value []); [constructor|]. now apply VF_num.
Qed.

Lemma minus_none : forall lit t, bs "-" = lit ++ t -> lax_num lit -> ~ number_over t.
Proof.
  intros lit t H HL. destruct (lax_num_head _ HL) as (c & r & -> & Hc). cbn in H. injection H as <- H.
  symmetry in H. apply app_eq_nil in H as (-> & ->).
  destruct (lax_number env0 _ HL) as (n & Hn). vm_compute in Hn. discriminate.
Qed.

Theorem number_refuted : exists c r, number_start c /\
  (forall lit t, c :: r = lit ++ t -> lax_num lit -> ~ number_over t) /\
  (forall E, unmarshal E (c :: r) = Ok (VNotExist, Some EOther)) /\
  (forall E b v, Forall is_byte b -> unmarshal E b <> Ok (v, Some ErrNotValidNumberValue)).
Proof.
  exists 45, []. split; [left; reflexivity|]. split; [exact minus_none|]. split.
  - intros E. reflexivity.
  - intros E b v Hb H. apply only_these in H; [|assumption]. repeat (destruct H as [H|H]; [discriminate|]). discriminate.
Qed.

Theorem null_refuted : exists r, (forall t, 110 :: r <> bs "null" ++ t) /\
  (forall E, unmarshal E (110 :: r) = Ok (VNotExist, Some ErrNotValidBoolValue)).
Proof.
  exists (bs "ulx"). split; [|intros E; reflexivity]. intros t H. discriminate.
Qed.

Theorem string_refuted : exists t u,
  (forall E, unmarshal E (34 :: t) = Ok (VNotExist, Some EOther)) /\
  (forall E, unmarshal E (34 :: u ++ [34]) = Ok (VNotExist, Some EOther)).
Proof. exists (bs "abc"), [92; 113]. split; intros E; reflexivity. Qed.
