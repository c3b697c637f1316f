(** Facts about the specification alone: number literals decompose in one way. *)
From Verif Require Import Base Float64 ListLemmas SpecJson.

Fixpoint span_digits (s : bytes) : bytes * bytes :=
  match s with
  | c :: r => if (48 <=? c) && (c <=? 57) then let '(d, r') := span_digits r in (c :: d, r') else ([], s)
  | [] => ([], [])
  end.

Definition nodig (r : bytes) : Prop := match r with [] => True | c :: _ => ~ digit c end.

Lemma span_digits_app d r : Forall digit d -> nodig r -> span_digits (d ++ r) = (d, r).
Proof.
  intros Hd Hr. induction Hd as [|c d Hc Hd IH]; cbn [app].
  - destruct r as [|c r]; [reflexivity|]. cbn. unfold nodig, digit in Hr.
    replace ((48 <=? c) && (c <=? 57)) with false by lia. reflexivity.
  - cbn. unfold digit in Hc. replace ((48 <=? c) && (c <=? 57)) with true by lia. now rewrite IH.
Qed.

(** Sign, integer digits, fraction digits, exponent, integer?  *)
Definition num_parts (lit : bytes) : bool * bytes * bytes * Z * bool :=
  let '(neg, r0) := match lit with 45 :: r => (true, r) | _ => (false, lit) end in
  let '(ip, r1) := span_digits r0 in
  let '(fd, r2) := match r1 with 46 :: r => span_digits r | _ => ([], r1) end in
  let e := match r2 with
           | _ :: 43 :: d => digits_val d
           | _ :: 45 :: d => - digits_val d
           | _ :: d => digits_val d
           | [] => 0
           end in
  (neg, ip, fd, e, match r1 with [] => true | _ => false end).

Lemma digit_cases (P : Z -> Prop) c : digit c ->
  P 48 -> P 49 -> P 50 -> P 51 -> P 52 -> P 53 -> P 54 -> P 55 -> P 56 -> P 57 -> P c.
Proof.
  unfold digit. intros H.
  assert (c = 48 \/ c = 49 \/ c = 50 \/ c = 51 \/ c = 52 \/ c = 53 \/ c = 54 \/ c = 55 \/ c = 56 \/ c = 57) as D by lia.
  intros. repeat destruct D as [D|D]; subst; assumption.
Qed.

Lemma num_lit_parts lit neg ip fd e i : num_lit lit neg ip fd e i -> num_parts lit = (neg, ip, fd, e, i).
Proof.
  intros H. inversion H as [neg' ip' fr fd' ex e' Hip Hfr Hex]; subst. clear H.
  assert (Hdi : Forall digit ip /\ ip <> []).
  { inversion Hip; subst; split; try discriminate; constructor; try (unfold digit; lia); auto. }
  destruct Hdi as [Hdi Hne].
  assert (Hnx : nodig ex).
  { inversion Hex; subst; cbn; unfold digit; try tauto; lia. }
  assert (Hnf : nodig (fr ++ ex)).
  { inversion Hfr; subst; cbn; [exact Hnx|unfold digit; lia]. }
  assert (Eh : (match (if neg then [45] else []) ++ ip ++ fr ++ ex with 45 :: r => (true, r) | _ => (false, (if neg then [45] else []) ++ ip ++ fr ++ ex) end) = (neg, ip ++ fr ++ ex)).
  { destruct neg; [reflexivity|]. cbn [app]. destruct ip as [|c ip]; [congruence|]. cbn [app].
    inversion Hdi as [|? ? Hc _]; subst. revert Hc.
    clear. intros Hc. pattern c. apply (digit_cases _ c Hc); reflexivity. }
  unfold num_parts. rewrite Eh. rewrite (span_digits_app _ _ Hdi Hnf).
  assert (Ef : (match fr ++ ex with 46 :: r => span_digits r | _ => ([], fr ++ ex) end) = (fd, ex)).
  { inversion Hfr as [|d [Hd1 Hd2]]; subst; cbn [app].
    - inversion Hex; subst; try reflexivity;
        match goal with H : _ \/ _ |- _ => destruct H; subst; reflexivity end.
    - now apply span_digits_app. }
  rewrite Ef.
  assert (Ee : (match ex with _ :: 43 :: d => digits_val d | _ :: 45 :: d => - digits_val d | _ :: d => digits_val d | [] => 0 end) = e).
  { inversion Hex as [|c d Hc [Hd1 Hd2]|c d Hc Hd|c d Hc Hd]; subst; try reflexivity.
    destruct d as [|x d]; [congruence|]. inversion Hd2 as [|? ? Hx _]; subst.
    revert Hx; clear. intros Hx. pattern x. apply (digit_cases _ x Hx); reflexivity. }
  rewrite Ee. reflexivity.
Qed.

Lemma num_lit_det lit neg ip fd e i neg' ip' fd' e' i' :
  num_lit lit neg ip fd e i -> num_lit lit neg' ip' fd' e' i' ->
  neg = neg' /\ ip = ip' /\ fd = fd' /\ e = e' /\ i = i'.
Proof.
  intros H1 H2. apply num_lit_parts in H1. apply num_lit_parts in H2. rewrite H1 in H2.
  inversion H2; auto.
Qed.

(** Concrete literals: a property of the decomposition is checked on the
    computed one. *)
Lemma lit_fits_intro lit :
  (let '(neg, ip, fd, e, i) := num_parts lit in
   if i then (if neg then digits_val ip <= two63 else digits_val ip < two64)
   else finite64 (lit_f64 neg ip fd e)) -> lit_fits lit.
Proof. intros H neg ip fd e i HL. apply num_lit_parts in HL. rewrite HL in H. exact H. Qed.

Lemma lit_ok_intro lit :
  (let '(neg, ip, fd, e, i) := num_parts lit in
   if i then (if neg then digits_val ip <= two63 else digits_val ip < two64)
   else finite64 (lit_f64 neg ip fd e) /\ Z.abs e <= 99999 /\ no_wrap ip) -> lit_ok lit.
Proof. intros H neg ip fd e i HL. apply num_lit_parts in HL. rewrite HL in H. exact H. Qed.
