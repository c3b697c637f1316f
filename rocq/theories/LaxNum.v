(** The number scanner accepts exactly [lax_num]. *)
From Verif Require Import Base Float64 Value Scan Unmarshal Pure ListLemmas SpecJson SpecValue NumProof SpecLax.

Lemma app_eq_app_length {A} (a b c d : list A) :
  a ++ b = c ++ d -> List.length a = List.length c -> a = c /\ b = d.
Proof.
  revert c. induction a as [|x a IH]; intros [|y c] H L; cbn in *; try discriminate; [auto|].
  inversion H; subst. destruct (IH c H2 ltac:(lia)) as [-> ->]. auto.
Qed.

Lemma q_num_loop_nrun : forall r pos s sf src rest,
  q_num_loop r pos s = Ok (sf, src, rest) -> r = src ++ rest /\ stop rest /\ nrun src pos s = Some sf.
Proof.
  induction r as [|c r IH]; intros pos s sf src rest H; cbn [q_num_loop] in H.
  - inversion H; subst. repeat split.
  - destruct (num_step s c (pos =? 0)%nat (pos =? 1)%nat) as [[s1|]|e| |] eqn:Es; cbn [rbind] in H; try discriminate.
    + destruct (q_num_loop r (S pos) s1) as [[[sf' src'] rst]|e| |] eqn:El; cbn [rbind] in H; try discriminate.
      inversion H; subst. destruct (IH _ _ _ _ _ El) as (-> & Hst & Hn).
      repeat split; [assumption|]. cbn [nrun]. now rewrite Es.
    + injection H as E1 E2 E3. subst src rest sf. repeat split. cbn.
      unfold num_step in Es. unfold num_char, is_digit.
      destruct (Z.eqb_spec c 48); [destruct (pos =? 0)%nat, (s_exp s), (s_dot s), (s_neg s), (s_int s =? 0), (pos =? 1)%nat; discriminate|].
      destruct ((49 <=? c) && (c <=? 57)) eqn:E1; [destruct (negb (s_flt s)), (negb (s_exp s)); discriminate|].
      destruct ((c =? 101) || (c =? 69)) eqn:E2; [destruct (s_exp s); discriminate|].
      destruct (Z.eqb_spec c 43); [destruct (negb (s_exp s)); discriminate|].
      destruct (Z.eqb_spec c 45); [destruct (negb (s_flt s)), (pos =? 0)%nat; discriminate|].
      destruct (Z.eqb_spec c 46); [destruct ((pos =? 0)%nat || s_flt s || s_exp s || s_dot s); discriminate|].
      lia.
Qed.


(** A run that ends without fraction and exponent reads only digits. *)
Definition wfs (s : nst) : Prop := s_exp s = true -> s_flt s = true.

Lemma nrun_digits r : forall pos s s', (1 <= pos)%nat -> wfs s -> nrun r pos s = Some s' -> s_flt s' = false ->
  s_flt s = false /\ Forall digit r.
Proof.
  induction r as [|c r IH]; intros pos s s' Hp Hw H Hf; cbn [nrun] in H.
  - inversion H; subst. repeat split; [assumption|constructor].
  - destruct (num_step s c (pos =? 0)%nat (pos =? 1)%nat) as [[s1|]|e| |] eqn:Es; try discriminate.
    replace (pos =? 0)%nat with false in Es by (symmetry; apply Nat.eqb_neq; lia).
    assert (K : wfs s1 -> s_flt s1 = false /\ Forall digit r) by (intros Hw1; refine (IH (S pos) _ _ _ Hw1 H Hf); lia).
    clear IH H. unfold wfs in *. unfold num_step in Es.
    destruct (Z.eqb_spec c 48).
    { destruct (s_exp s) eqn:Ee; [|destruct (s_dot s), (s_neg s), (s_int s =? 0), (pos =? 1)%nat]; cbn in Es; try discriminate;
        inversion Es; subst s1; cbn in *; destruct (K Hw) as [K1 K2]; (split; [assumption|constructor; [unfold digit; lia|assumption]]). }
    destruct ((49 <=? c) && (c <=? 57)) eqn:E1.
    { assert (Hc : digit c) by (unfold digit; lia).
      destruct (s_flt s) eqn:Ef; cbn [negb] in Es; [destruct (s_exp s) eqn:Ee; cbn [negb] in Es|]; inversion Es; subst s1; cbn in K.
      - destruct K as [K1 K2]; [auto|]. congruence.
      - destruct K as [K1 K2]; [auto|]. congruence.
      - destruct K as [K1 K2]; [auto|]. auto. }
    destruct ((c =? 101) || (c =? 69)).
    { destruct (s_exp s); [discriminate|]. inversion Es; subst s1; cbn in *. destruct K; [auto|]. discriminate. }
    destruct (Z.eqb_spec c 43).
    { destruct (s_exp s) eqn:Ee; cbn in Es; [|discriminate]. inversion Es; subst s1. destruct K; [auto|]. rewrite Hw in *; congruence. }
    destruct (Z.eqb_spec c 45).
    { destruct (s_flt s) eqn:Ef; cbn in Es; [|discriminate]. inversion Es; subst s1. destruct K; [auto|]. congruence. }
    destruct (Z.eqb_spec c 46); [|discriminate].
    destruct (false || s_flt s || s_exp s || s_dot s) eqn:Eo; [discriminate|]. inversion Es; subst s1; cbn in *.
    destruct K; [auto|]. discriminate.
Qed.

(** Integer digits: the converse of [nrun_int]. *)
Lemma nrun_int_inv neg : forall ds p pos s',
  Forall digit ds -> p <> [] -> (1 <= pos)%nat -> (neg = true -> (2 <= pos)%nat) ->
  nrun ds pos (mkst neg false false false false (wrap_u64 (digits_val p))) = Some s' ->
  s' = mkst neg false false false false (wrap_u64 (digits_val (p ++ ds))) /\
  (forall p' q, p ++ ds = p' ++ 48 :: q -> (List.length p <= List.length p')%nat ->
                digits_val p' mod two64 <> 0).
Proof.
  induction ds as [|c ds IH]; intros p pos s' Hd Hp Hpos Hneg H.
  - rewrite app_nil_r. cbn in H. inversion H; subst. split; [reflexivity|].
    intros p' q E HL. rewrite E, app_length in HL. cbn in HL. lia.
  - inversion Hd as [|? ? Hc Hds]; subst. unfold digit in Hc.
    assert (Hval : digits_val (p ++ [c]) = digits_val p * 10 + (c - 48)).
    { dv; rewrite dval_app. reflexivity. }
    cbn [nrun] in H. unfold num_step in H. cbn [s_neg s_flt s_exp s_dot s_iad s_int mkst] in H.
    replace (pos =? 0)%nat with false in H by (symmetry; apply Nat.eqb_neq; lia).
    assert (Hstep : (c = 48 -> digits_val p mod two64 <> 0) /\
       nrun ds (S pos) (mkst neg false false false false (wrap_u64 (digits_val (p ++ [c])))) = Some s').
    { rewrite Hval, <- wrap_u64_step.
      destruct (Z.eqb_spec c 48) as [->|Hc48].
      - assert (Hz : wrap_u64 (digits_val p) <> 0).
        { intros Hz. rewrite Hz in H. cbn in H. destruct neg; [|discriminate].
          replace (pos =? 1)%nat with false in H by (symmetry; apply Nat.eqb_neq; specialize (Hneg eq_refl); lia). discriminate. }
        split; [intros _; exact Hz|]. apply Z.eqb_neq in Hz. rewrite Hz in H. cbn [andb] in H.
        replace (wrap_u64 (wrap_u64 (digits_val p) * 10 + (48 - 48))) with (wrap_u64 (wrap_u64 (digits_val p) * 10)) by (f_equal; lia).
        destruct neg; exact H.
      - split; [congruence|].
        replace ((49 <=? c) && (c <=? 57)) with true in H by lia. cbn [negb] in H.
        replace (wrap_u64 (wrap_u64 (digits_val p) * 10 + (c - 48))) with (wrap_u64 (wrap_u64 (digits_val p) * 10 + c - 48)) by (f_equal; lia).
        exact H. }
    destruct Hstep as [Hz Hrun].
    destruct (IH (p ++ [c]) (S pos) s' Hds) as [E1 E2]; try assumption.
    + destruct p; discriminate.
    + lia.
    + intros; lia.
    + rewrite <- app_assoc in E1. cbn [app] in E1. split; [assumption|].
      intros p' q E HL. rewrite <- app_assoc in E2. cbn [app] in E2.
      destruct (Nat.eq_dec (List.length p) (List.length p')) as [Heq|Hne].
      * apply app_eq_app_length in E; [|assumption]. destruct E as [<- E]. inversion E; subst. auto.
      * apply (E2 p' q E). rewrite app_length. cbn. lia.
Qed.

Definition sgn (neg : bool) : bytes := if neg then [45] else [].

Lemma nrun_first_digit (neg : bool) c pos : digit c -> pos = (if neg then 1%nat else 0%nat) ->
  num_step (mkst neg false false false false 0) c (pos =? 0)%nat (pos =? 1)%nat
  = Ok (Some (mkst neg false false false false (wrap_u64 (digits_val [c])))).
Proof.
  intros Hc ->. apply digit_enum in Hc.
  repeat (destruct Hc as [->|Hc]; [destruct neg; reflexivity|]). subst c; destruct neg; reflexivity.
Qed.

Lemma nrun_sign (neg : bool) r :
  nrun (sgn neg ++ r) 0 nst0 = nrun r (if neg then 1%nat else 0%nat) (mkst neg false false false false 0).
Proof. destruct neg; reflexivity. Qed.

(** The sign and the integer digits. *)
Lemma nrun_start (neg : bool) ip s' : Forall digit ip ->
  nrun (sgn neg ++ ip) 0 nst0 = Some s' <->
  s' = mkst neg false false false false (wrap_u64 (digits_val ip)) /\ no_wrap ip.
Proof.
  intros Hd. rewrite nrun_sign. destruct ip as [|c ds].
  - cbn [nrun]. split.
    + intros H; inversion H; subst. split; [reflexivity|]. intros p q E. destruct p; discriminate.
    + intros [-> _]. reflexivity.
  - inversion Hd as [|? ? Hc Hds]; subst. cbn [nrun]. rewrite nrun_first_digit by auto.
    change (c :: ds) with ([c] ++ ds). split.
    + intros H. apply nrun_int_inv in H; [|assumption|discriminate|lia|intros ->; lia].
      destruct H as [-> H]. split; [reflexivity|]. intros p q E Hp. apply (H p q E). destruct p; [congruence|cbn; lia].
    + intros [-> H]. apply nrun_int; try assumption; try discriminate; [lia|intros ->; lia|].
      intros p q E HL. apply (H p q E). destruct p; [cbn in HL; lia|discriminate].
Qed.

(** *** Inversion of ParseFloat *)

Lemma read_digits_inv s : forall acc cnt v n rest, read_digits s acc cnt = (v, n, rest) ->
  exists d, s = d ++ rest /\ Forall digit d /\ n = (cnt + List.length d)%nat.
Proof.
  induction s as [|c s IH]; intros acc cnt v n rest H; cbn [read_digits] in H.
  - inversion H; subst. exists []. cbn. repeat split; [constructor|lia].
  - destruct (is_digit c) eqn:Ed.
    + destruct (IH _ _ _ _ _ H) as (d & -> & Hd & ->). exists (c :: d). repeat split.
      * constructor; [unfold is_digit in Ed; unfold digit; lia|assumption].
      * cbn. lia.
    + inversion H; subst. exists []. cbn. repeat split; [constructor|lia].
Qed.
Lemma read_exp_inv s : forall acc cnt v n rest, read_exp s acc cnt = (v, n, rest) ->
  exists d, s = d ++ rest /\ Forall digit d /\ n = (cnt + List.length d)%nat.
Proof.
  induction s as [|c s IH]; intros acc cnt v n rest H; cbn [read_exp] in H.
  - inversion H; subst. exists []. cbn. repeat split; [constructor|lia].
  - destruct (is_digit c) eqn:Ed.
    + destruct (IH _ _ _ _ _ H) as (d & -> & Hd & ->). exists (c :: d). repeat split.
      * constructor; [unfold is_digit in Ed; unfold digit; lia|assumption].
      * cbn. lia.
    + inversion H; subst. exists []. cbn. repeat split; [constructor|lia].
Qed.

Ltac bits p := do 7 (try (destruct p as [p|p|]; [| |])).

Lemma sign_split {A} (a b c : A) s (F : bytes -> A -> Prop) :
  (forall r, s = 43 :: r -> F r a) -> (forall r, s = 45 :: r -> F r b) -> F s c ->
  exists x s1, (match s with 43 :: r => (a, r) | 45 :: r => (b, r) | _ => (c, s) end) = (x, s1) /\ F s1 x.
Proof.
  intros H1 H2 H3. destruct s as [|z r]; [eauto|].
  destruct (Z.eq_dec z 43) as [->|N1]; [eauto|]. destruct (Z.eq_dec z 45) as [->|N2]; [eauto|].
  exists c, (z :: r). split; [|assumption].
  destruct z as [|p|p]; try reflexivity.
  do 6 (try destruct p as [p|p|]); try reflexivity; congruence.
Qed.

Lemma dot_split {A} (f : bytes -> A) (g : A) s :
  (exists r, s = 46 :: r /\ (match s with 46 :: r => f r | _ => g end) = f r) \/
  (match s with 46 :: r => f r | _ => g end) = g.
Proof.
  destruct s as [|z r]; [auto|]. destruct (Z.eq_dec z 46) as [->|N]; [eauto|]. right.
  destruct z as [|p|p]; try reflexivity.
  do 6 (try destruct p as [p|p|]); try reflexivity; congruence.
Qed.

(** The shape of what ParseFloat accepts. *)
Lemma parse_float_shape s f : parse_float s = Some f ->
  exists sg ip fr fd ex e, s = sg ++ ip ++ fr ++ ex /\ (sg = [] \/ sg = [43] \/ sg = [45]) /\
    Forall digit ip /\ (fr = [] /\ fd = [] \/ fr = 46 :: fd) /\ Forall digit fd /\
    (ip <> [] \/ fd <> []) /\ exp_part ex e.
Proof.
  unfold parse_float.
  destruct (sign_split false true false s
    (fun s1 _ => exists sg, s = sg ++ s1 /\ (sg = [] \/ sg = [43] \/ sg = [45]))) as (neg & s1 & -> & sg & Hs & Hsg).
  { intros r ->. exists [43]. auto. }
  { intros r ->. exists [45]. auto. }
  { exists []. auto. }
  destruct (read_digits s1 0 0) as [[v ni] s2] eqn:R1.
  destruct (read_digits_inv _ _ _ _ _ _ R1) as (ip & H1 & Hip & Hni). cbn in Hni.
  destruct (dot_split (fun r => let '(m, nf, s3) := read_digits r v 0 in (m, nf, s3)) (v, 0%nat, s2) s2) as [(r & Hr & ->)| ->].
  - destruct (read_digits r v 0) as [[m nf] s3] eqn:R2.
    destruct (read_digits_inv _ _ _ _ _ _ R2) as (fd & H2 & Hfd & Hnf). cbn in Hnf.
    destruct ((ni + nf =? 0)%nat) eqn:Ez; [discriminate|]. apply Nat.eqb_neq in Ez.
    assert (Hne : ip <> [] \/ fd <> []) by (destruct ip; [right; destruct fd; [cbn in *; lia|discriminate]|left; discriminate]).
    assert (Done : forall ex e, s3 = ex -> exp_part ex e -> exists sg ip fr fd ex e, s = sg ++ ip ++ fr ++ ex /\ (sg = [] \/ sg = [43] \/ sg = [45]) /\
      Forall digit ip /\ (fr = [] /\ fd = [] \/ fr = 46 :: fd) /\ Forall digit fd /\ (ip <> [] \/ fd <> []) /\ exp_part ex e).
    { intros ex e He Hex. exists sg, ip, (46 :: fd), fd, ex, e. subst. repeat split; auto. }
    destruct s3 as [|c r3]; [intros _; eapply Done; [reflexivity|constructor]|].
    destruct ((c =? 101) || (c =? 69)) eqn:Ec; [|discriminate].
    assert (Hc : c = 101 \/ c = 69) by lia.
    destruct (sign_split 1 (-1) 1 r3 (fun r1 z => (r3 = 43 :: r1 /\ z = 1) \/ (r3 = 45 :: r1 /\ z = -1) \/ (r3 = r1 /\ z = 1)))
      as (es & r1 & -> & Hes); [auto|auto|auto|].
    destruct (read_exp r1 0 0) as [[e ne] r2] eqn:R3.
    destruct (read_exp_inv _ _ _ _ _ _ R3) as (d & H3 & Hd & Hn). cbn in Hn.
    destruct (ne =? 0)%nat eqn:En; [discriminate|]. apply Nat.eqb_neq in En.
    assert (Hdd : digits d) by (split; [destruct d; [cbn in *; lia|discriminate]|assumption]).
    destruct r2; [|discriminate]. rewrite app_nil_r in H3. subst r1. intros _.
    destruct Hes as [[-> _]|[[-> _]|[-> _]]]; (eapply Done; [reflexivity|constructor; assumption]).
  - destruct ((ni + 0 =? 0)%nat) eqn:Ez; [discriminate|]. apply Nat.eqb_neq in Ez.
    assert (Hne : ip <> [] \/ @nil Z <> []) by (left; destruct ip; [cbn in *; lia|discriminate]).
    assert (Done : forall ex e, s2 = ex -> exp_part ex e -> exists sg ip fr fd ex e, s = sg ++ ip ++ fr ++ ex /\ (sg = [] \/ sg = [43] \/ sg = [45]) /\
      Forall digit ip /\ (fr = [] /\ fd = [] \/ fr = 46 :: fd) /\ Forall digit fd /\ (ip <> [] \/ fd <> []) /\ exp_part ex e).
    { intros ex e He Hex. exists sg, ip, [], [], ex, e. subst. repeat split; auto. }
    destruct s2 as [|c r3]; [intros _; eapply Done; [reflexivity|constructor]|].
    destruct ((c =? 101) || (c =? 69)) eqn:Ec; [|discriminate].
    assert (Hc : c = 101 \/ c = 69) by lia.
    destruct (sign_split 1 (-1) 1 r3 (fun r1 z => (r3 = 43 :: r1 /\ z = 1) \/ (r3 = 45 :: r1 /\ z = -1) \/ (r3 = r1 /\ z = 1)))
      as (es & r1 & -> & Hes); [auto|auto|auto|].
    destruct (read_exp r1 0 0) as [[e ne] r2] eqn:R3.
    destruct (read_exp_inv _ _ _ _ _ _ R3) as (d & H3 & Hd & Hn). cbn in Hn.
    destruct (ne =? 0)%nat eqn:En; [discriminate|]. apply Nat.eqb_neq in En.
    assert (Hdd : digits d) by (split; [destruct d; [cbn in *; lia|discriminate]|assumption]).
    destruct r2; [|discriminate]. rewrite app_nil_r in H3. subst r1. intros _.
    destruct Hes as [[-> _]|[[-> _]|[-> _]]]; (eapply Done; [reflexivity|constructor; assumption]).
Qed.

(** *** Acceptance *)

Lemma int_part_nowrap ip : int_part ip -> (List.length ip <= 20)%nat -> no_wrap ip.
Proof.
  intros H Hl p q E Hp Hm.
  destruct (int_part_digits ip H) as [Hd _]. subst ip. apply Forall_app in Hd as [Hdp _].
  rewrite app_length in Hl. cbn in Hl.
  assert (Hb : 0 <= digits_val p < 10 ^ Z.of_nat (List.length p)) by (apply dval_bounds; assumption).
  assert (Hp19 : 10 ^ Z.of_nat (List.length p) <= 10 ^ 19) by (apply Z.pow_le_mono_r; lia).
  assert (Hpos : 0 < digits_val p).
  { inversion H as [E0|c d Hc Hdd E0].
    - destruct p as [|x p]; [congruence|]. destruct p; discriminate.
    - destruct p as [|x p]; [congruence|]. inversion E0; subst x.
      dv. change (dval 0 (c :: p)) with (dval (0 * 10 + (c - 48)) p).
      inversion Hdp; subst. pose proof (dval_mono p (0 * 10 + (c - 48)) ltac:(assumption) ltac:(lia)). lia. }
  rewrite Z.mod_small in Hm by (unfold two64; lia). lia.
Qed.

Lemma neg_nowrap ip : digits ip -> (List.length ip <= 19)%nat ->
  ((forall d, ip <> 48 :: 48 :: d) <-> no_wrap ip).
Proof.
  intros [Hne Hd] Hl. split.
  - intros H p q E Hp Hm. subst ip. pose proof Hd as Hd'. apply Forall_app in Hd' as [Hdp _].
    rewrite app_length in Hl. cbn in Hl.
    assert (Hb : 0 <= digits_val p < 10 ^ Z.of_nat (List.length p)) by (apply dval_bounds; assumption).
    assert (Hp19 : 10 ^ Z.of_nat (List.length p) <= 10 ^ 19) by (apply Z.pow_le_mono_r; lia).
    rewrite Z.mod_small in Hm by (unfold two64; lia).
    (* p is all zeros *)
    destruct p as [|x p]; [congruence|]. inversion Hdp as [|? ? Hx Hdp']; subst. unfold digit in Hx.
    assert (x = 48).
    { dv. change (dval 0 (x :: p)) with (dval (0 * 10 + (x - 48)) p) in Hm.
      pose proof (dval_mono p (0 * 10 + (x - 48)) Hdp' ltac:(lia)). lia. }
    subst x. destruct p as [|y p]; [apply (H q); reflexivity|].
    inversion Hdp' as [|? ? Hy Hdp'']; subst. unfold digit in Hy.
    assert (y = 48).
    { dv. change (dval 0 (48 :: y :: p)) with (dval (0 * 10 + (y - 48)) p) in Hm.
      pose proof (dval_mono p (0 * 10 + (y - 48)) Hdp'' ltac:(lia)). lia. }
    subst y. apply (H (p ++ 48 :: q)). reflexivity.
  - intros H d ->. apply (H [48] d); [reflexivity|discriminate|reflexivity].
Qed.

Lemma len19 ip : Forall digit ip -> (List.length ip <= 19)%nat -> digits_val ip < two64.
Proof.
  intros Hd Hl. assert (Hb : 0 <= digits_val ip < 10 ^ Z.of_nat (List.length ip)) by (apply dval_bounds; assumption).
  assert (10 ^ Z.of_nat (List.length ip) <= 10 ^ 19) by (apply Z.pow_le_mono_r; lia). unfold two64. lia.
Qed.

Lemma len18 ip : Forall digit ip -> (List.length ip <= 18)%nat -> digits_val ip <= two63.
Proof.
  intros Hd Hl. assert (Hb : 0 <= digits_val ip < 10 ^ Z.of_nat (List.length ip)) by (apply dval_bounds; assumption).
  assert (10 ^ Z.of_nat (List.length ip) <= 10 ^ 18) by (apply Z.pow_le_mono_r; lia). unfold two63. lia.
Qed.

Lemma q_number_lax E lit v : q_number E lit = Ok (v, []) -> lax_num lit.
Proof.
  unfold q_number. destruct (q_num_loop lit 0 nst0) as [[[s src] rest]|e| |] eqn:El; cbn [rbind]; try discriminate.
  destruct (q_num_value E s src) eqn:Ev; cbn [rbind]; try discriminate. intros H; inversion H; subst a rest.
  apply q_num_loop_nrun in El as (-> & _ & Hn). rewrite app_nil_r. clear H.
  unfold q_num_value in Ev. destruct src as [|c0 src]; [discriminate|].
  remember (c0 :: src) as lit eqn:Elit.
  destruct (s_flt s) eqn:Ef.
  - destruct (s_dot s && negb (s_iad s)) eqn:Ed; [discriminate|].
    unfold q_float in Ev. destruct (parse_float lit) as [f|] eqn:Ep; [|discriminate].
    destruct (parse_float_shape _ _ Ep) as (sg & ip & fr & fd & ex & e & Hlit & Hsg & Hip & Hfr & Hfd & Hne & Hex).
    assert (Hsg2 : exists neg, sg = sgn neg).
    { destruct Hsg as [->|[->| ->]]; [now exists false| |now exists true].
      subst lit. rewrite Hlit in Hn. cbn in Hn. discriminate. }
    destruct Hsg2 as (neg & ->).
    rewrite Hlit in Hn. rewrite app_assoc, nrun_app in Hn.
    destruct (nrun (sgn neg ++ ip) 0 nst0) as [s1|] eqn:E1; [|discriminate].
    apply nrun_start in E1 as [-> Hw]; [|assumption].
    set (pos := (0 + List.length (sgn neg ++ ip))%nat) in Hn.
    assert (Hpos : neg = true \/ ip <> [] -> (1 <= pos)%nat).
    { unfold pos. rewrite app_length. intros [->|Hi]; cbn; [lia|]. destruct ip; [congruence|cbn; lia]. }
    assert (Hcase : ip = [] -> neg = true).
    { intros ->. destruct neg; [reflexivity|]. exfalso. destruct Hne as [Hne|Hne]; [congruence|].
      destruct Hfr as [[_ ->]| ->]; [congruence|]. cbn in Hn. discriminate. }
    assert (Hpos1 : (1 <= pos)%nat).
    { apply Hpos. destruct ip; [left; auto|right; discriminate]. }
    assert (Hfp : frac_part fr fd).
    { destruct Hfr as [[-> ->]| ->]; [constructor|]. constructor. split; [|assumption].
      intros ->. cbn [app] in Hn. cbn [nrun] in Hn.
      replace (pos =? 0)%nat with false in Hn by (symmetry; apply Nat.eqb_neq; lia).
      change (num_step (mkst neg false false false false (wrap_u64 (digits_val ip))) 46 false (pos =? 1)%nat)
        with (@Ok (option nst) (Some (mkst neg true false true false (wrap_u64 (digits_val ip))))) in Hn. cbn iota in Hn.
      destruct (nrun_exp neg true true false ex e (S pos) (wrap_u64 (digits_val ip)) Hex ltac:(lia)) as (k' & Ek).
      rewrite Ek in Hn. destruct ex; inversion Hn; subst s; cbn in Ed; discriminate. }
    rewrite Hlit. apply (LN_float neg ip fr fd ex e); try assumption.
    + intros E0. apply app_eq_nil in E0 as [-> ->]. cbn in Hn. inversion Hn; subst s. discriminate.
    + change (if neg then [45] else []) with (sgn neg). rewrite <- Hlit, Ep. discriminate.
  - assert (Hint : exists neg ip, lit = sgn neg ++ ip /\ Forall digit ip).
    { subst lit. destruct (Z.eq_dec c0 45) as [->|N].
      - exists true, src. split; [reflexivity|]. change (nrun (45 :: src) 0 nst0) with (nrun src 1 (mkst true false false false false 0)) in Hn.
        apply nrun_digits in Hn; [tauto|lia|discriminate|assumption].
      - exists false, (c0 :: src). split; [reflexivity|]. cbn [nrun] in Hn.
        destruct (num_step nst0 c0 (0 =? 0)%nat (0 =? 1)%nat) as [[s1|]|e| |] eqn:Es; try discriminate.
        assert (Hc0 : digit c0 \/ s_flt s1 = true).
        { unfold num_step in Es. cbn in Es. unfold digit.
          destruct (Z.eqb_spec c0 48); [left; lia|].
          destruct ((49 <=? c0) && (c0 <=? 57)) eqn:E1; [left; lia|].
          destruct ((c0 =? 101) || (c0 =? 69)); [right; inversion Es; reflexivity|].
          destruct (c0 =? 43); [discriminate|]. destruct (Z.eqb_spec c0 45); [congruence|].
          destruct (c0 =? 46); discriminate. }
        assert (Hw1 : wfs s1).
        { unfold num_step in Es. cbn in Es. unfold wfs.
          destruct (Z.eqb_spec c0 48); [inversion Es; subst; cbn; auto|].
          destruct ((49 <=? c0) && (c0 <=? 57)) eqn:E1; [inversion Es; subst; cbn; auto|].
          destruct ((c0 =? 101) || (c0 =? 69)); [inversion Es; subst; cbn; auto|].
          destruct (c0 =? 43); [discriminate|]. destruct (Z.eqb_spec c0 45); [congruence|].
          destruct (c0 =? 46); discriminate. }
        apply nrun_digits in Hn; [|lia|assumption|assumption]. destruct Hn as [H1 H2].
        constructor; [|assumption]. destruct Hc0; [assumption|congruence]. }
    destruct Hint as (neg & ip & Hlit & Hip). rewrite Hlit in Hn.
    apply nrun_start in Hn as [-> Hw]; [|assumption]. cbn [s_flt s_neg s_int mkst] in Ev.
    rewrite Hlit. destruct neg; cbn [sgn app] in *.
    + (* negative *)
      assert (Hc : c0 = 45) by congruence. subst c0.
      change (45 =? 48) with false in Ev. rewrite andb_false_r in Ev.
      destruct ((List.length lit =? 1)%nat && negb ((48 <=? 45) && (45 <=? 57))) eqn:E1; [discriminate|].
      assert (Hne : ip <> []) by (intros ->; rewrite Hlit in E1; discriminate).
      unfold q_neg in Ev. rewrite Hlit in Ev. cbn [List.length] in Ev.
      destruct (Nat.ltb_spec 20 (S (List.length ip))); [discriminate|].
      assert (Hv : wrap_u64 (digits_val ip) = digits_val ip).
      { apply Z.mod_small. split; [apply dval_bounds; assumption|apply len19; [assumption|lia]]. }
      rewrite Hv in Ev.
      assert (Hmax : digits_val ip <= two63).
      { destruct (Nat.eqb_spec (S (List.length ip)) 20); cbn [andb] in Ev.
        - destruct (Z.ltb_spec two63 (digits_val ip)); [discriminate|assumption].
        - apply len18; [assumption|lia]. }
      apply LN_neg; try assumption; [split; assumption| |lia].
      apply neg_nowrap; [split; assumption|lia|assumption].
    + (* not negative *)
      subst lit.
      assert (Hi : int_part ip).
      { rewrite <- Hlit. rewrite <- Hlit in Hip, Hw, Ev. inversion Hip as [|? ? Hc Hs]; subst. unfold digit in Hc.
        destruct (Z.eqb_spec c0 48) as [->|N].
        - destruct src as [|c1 src]; [constructor|]. exfalso.
          inversion Hs as [|? ? Hc1 Hs1]; subst.
          destruct (Z.eq_dec c1 48) as [->|N1].
          { apply (Hw [48] src); [reflexivity|discriminate|reflexivity]. }
          rewrite andb_true_r in Ev. destruct (Z.ltb_spec 0 (wrap_u64 (digits_val (48 :: c1 :: src)))) as [Hlt|Hge]; [discriminate|].
          unfold q_pos in Ev. cbn [List.length] in Ev. cbn [Nat.eqb andb] in Ev.
          destruct (Nat.ltb_spec 20 (S (S (List.length src)))); [discriminate|].
          assert (Hd2 : Forall digit (c1 :: src)) by (constructor; assumption).
          assert (Hv : wrap_u64 (digits_val (48 :: c1 :: src)) = digits_val (c1 :: src)).
          { change (digits_val (48 :: c1 :: src)) with (digits_val (c1 :: src)). apply Z.mod_small.
            split; [apply dval_bounds; assumption|apply len19; [assumption|cbn; lia]]. }
          rewrite Hv in Hge. dv. change (dval 0 (c1 :: src)) with (dval (0 * 10 + (c1 - 48)) src) in Hge.
          unfold digit in Hc1. pose proof (dval_mono src (0 * 10 + (c1 - 48)) Hs1 ltac:(lia)). lia.
        - constructor; [lia|assumption]. }
      rewrite Hlit in Ev.
      destruct ((0 <? wrap_u64 (digits_val ip)) && (c0 =? 48)); [discriminate|].
      destruct ((List.length ip =? 1)%nat && negb ((48 <=? c0) && (c0 <=? 57))); [discriminate|].
      unfold q_pos in Ev. destruct (Nat.ltb_spec 20 (List.length ip)); [discriminate|].
      apply LN_pos; [assumption|lia|]. intros H20. rewrite H20 in Ev. cbn [Nat.eqb andb] in Ev.
      change (digits_val ip mod two64) with (wrap_u64 (digits_val ip)).
      destruct (Z.ltb_spec (wrap_u64 (digits_val ip)) 10000000000000000000); [discriminate|assumption].
Qed.

Lemma nrun_number E lit s v : nrun lit 0 nst0 = Some s -> q_num_value E s lit = Ok v -> q_number E lit = Ok (v, []).
Proof.
  intros H Hv. unfold q_number. pose proof (nrun_loop lit [] I _ _ _ H) as L. rewrite app_nil_r in L.
  rewrite L. cbn [rbind]. now rewrite Hv.
Qed.

Lemma lax_number_value E lit : lax_num lit -> exists n, q_number E lit = Ok (VNum n lit, []) /\ lax_value lit n.
Proof.
  intros H. destruct H as [ip Hi Hl H20|ip [Hne Hd] H00 Hl Hmax|neg ip fr fd ex e Hip Hcase Hw Hfr Hex Hne Hpf].
  - destruct (int_part_digits ip Hi) as [Hd Hne].
    pose proof (int_part_nowrap ip Hi Hl) as Hw.
    assert (Hrun : nrun ip 0 nst0 = Some (mkst false false false false false (wrap_u64 (digits_val ip)))).
    { apply (nrun_start false); [assumption|]. split; [reflexivity|assumption]. }
    assert (Hv : exists n, q_num_value E (mkst false false false false false (wrap_u64 (digits_val ip))) ip = Ok (VNum n ip) /\ lax_value ip n).
    { unfold q_num_value. destruct ip as [|c ip']; [congruence|]. cbn [s_flt s_neg s_int mkst].
      assert (Hlead : (0 <? wrap_u64 (digits_val (c :: ip'))) && (c =? 48) = false).
      { inversion Hi; subst; [reflexivity|]. replace (c =? 48) with false by lia. apply andb_false_r. }
      rewrite Hlead. inversion Hd as [|? ? Hc _]; subst. unfold digit in Hc.
      replace ((48 <=? c) && (c <=? 57)) with true by lia. cbn [negb]. rewrite andb_false_r.
      unfold q_pos. replace (20 <? List.length (c :: ip'))%nat with false by (symmetry; apply Nat.ltb_ge; assumption).
      destruct (Nat.eqb_spec (List.length (c :: ip')) 20) as [E20|N20]; cbn [andb]; [|eexists; split; [reflexivity|apply LX_pos; try reflexivity; split; assumption]].
      specialize (H20 E20). unfold wrap_u64 at 1. replace (_ <? 10000000000000000000) with false by lia.
      eexists; split; [reflexivity|apply LX_pos; try reflexivity; split; assumption]. }
    destruct Hv as (n & Hv & Hx). exists n. split; [|assumption]. eapply nrun_number; eassumption.
  - assert (Hw : no_wrap ip) by (apply neg_nowrap; [split; assumption|assumption|assumption]).
    assert (Hrun : nrun (45 :: ip) 0 nst0 = Some (mkst true false false false false (wrap_u64 (digits_val ip)))).
    { apply (nrun_start true); [assumption|]. split; [reflexivity|assumption]. }
    assert (Hv : exists n, q_num_value E (mkst true false false false false (wrap_u64 (digits_val ip))) (45 :: ip) = Ok (VNum n (45 :: ip)) /\ lax_value (45 :: ip) n).
    { unfold q_num_value. cbn [s_flt s_neg s_int mkst]. change (45 =? 48) with false. rewrite andb_false_r.
      replace (List.length (45%Z :: ip) =? 1)%nat with false by (symmetry; apply Nat.eqb_neq; destruct ip; [congruence|cbn; lia]).
      cbn [andb]. unfold q_neg. cbn [List.length].
      replace (20 <? S (List.length ip))%nat with false by (symmetry; apply Nat.ltb_ge; lia).
      assert (Hv : wrap_u64 (digits_val ip) = digits_val ip).
      { apply Z.mod_small. split; [apply dval_bounds; assumption|apply len19; assumption]. }
      rewrite Hv. replace (two63 <? digits_val ip) with false by lia. rewrite andb_false_r.
      eexists; split; [reflexivity|]. apply LX_neg; try reflexivity; [split; assumption|]. cbn [n_i64].
      assert (0 <= digits_val ip) by (apply dval_bounds; assumption). unfold two63 in *.
      destruct (Z.eqb_spec (digits_val ip) 9223372036854775808) as [->|]; [reflexivity|].
      rewrite (wrap_i64_small (digits_val ip)) by (unfold two63; lia). apply wrap_i64_small. unfold two63; lia. }
    destruct Hv as (n & Hv & Hx). exists n. split; [|assumption]. eapply nrun_number; eassumption.
  - fold (sgn neg) in *. set (lit := sgn neg ++ ip ++ fr ++ ex) in *.
    assert (Hpos1 : (1 <= 0 + List.length (sgn neg ++ ip))%nat).
    { rewrite app_length. destruct ip; [rewrite (Hcase eq_refl); cbn; lia|cbn; lia]. }
    set (pos := (0 + List.length (sgn neg ++ ip))%nat) in *.
    assert (Hrun : exists s, nrun lit 0 nst0 = Some s /\ s_flt s = true /\ (s_dot s && negb (s_iad s) = false)).
    { unfold lit. rewrite app_assoc, nrun_app.
      assert (H1 : nrun (sgn neg ++ ip) 0 nst0 = Some (mkst neg false false false false (wrap_u64 (digits_val ip)))).
      { apply nrun_start; [assumption|]. auto. }
      rewrite H1. fold pos. rewrite nrun_app.
      destruct (nrun_frac neg fr fd pos (wrap_u64 (digits_val ip)) Hfr Hpos1) as (k' & ->).
      destruct fr as [|c fr'].
      - destruct (nrun_exp neg false false false ex e (pos + 0) (wrap_u64 (digits_val ip)) Hex ltac:(lia)) as (k2 & E2).
        cbn [List.length]. rewrite E2. destruct ex; [cbn in Hne; congruence|]. eexists; split; [reflexivity|]. split; reflexivity.
      - destruct (nrun_exp neg true true true ex e (pos + List.length (c :: fr')) k' Hex ltac:(lia)) as (k2 & E2).
        rewrite E2. destruct ex; (eexists; split; [reflexivity|]; split; reflexivity). }
    destruct Hrun as (s & Hrun & Hf & Hdi).
    assert (Hv : exists n, q_num_value E s lit = Ok (VNum n lit) /\ lax_value lit n).
    { unfold q_num_value. destruct lit as [|c0 lit'] eqn:El.
      - exfalso. apply (f_equal (@List.length Z)) in El. unfold lit in El. rewrite app_assoc, app_length in El. cbn in El. fold pos in El. lia.
      - rewrite <- El in *. rewrite Hf, Hdi. unfold q_float. destruct (parse_float lit) as [f|] eqn:Ep; [|congruence].
        eexists; split; [reflexivity|]. unfold lit. apply (LX_float neg ip fr fd ex e); try assumption; try reflexivity.
        cbn [n_f64]. intros He.
        assert (Hne' : ip ++ fd <> []).
        { intros H0. apply app_eq_nil in H0 as [-> ->]. unfold lit in Ep. rewrite (Hcase eq_refl) in Ep. clearbody lit. inversion Hfr as [|d [Hd0 _]]; subst; [|congruence].
          cbn [sgn app] in Ep. inversion Hex as [|c d [->| ->] [Hdn Hdd]|c d [->| ->] [Hdn Hdd]|c d [->| ->] [Hdn Hdd]]; subst; discriminate. }
        unfold lit, sgn in Ep. rewrite (parse_float_gen neg ip fr fd ex e Hip Hcase Hfr Hex He Hne') in Ep.
        destruct (lit_f64 neg ip fd e); congruence. }
    destruct Hv as (n & Hv & Hx). exists n. split; [|assumption]. eapply nrun_number; eassumption.
Qed.

Lemma lax_number E lit : lax_num lit -> exists n, q_number E lit = Ok (VNum n lit, []).
Proof. intros H. destruct (lax_number_value E lit H) as (n & Hn & _). eauto. Qed.
