(** The text of a key path. *)
From Verif Require Import Base Utf8 Float64 Value Scan Unmarshal Pure Opt Marshal Defaults KeyText SpecJson SpecText SpecLax SpecKeyText
  EscapeProof MarshalProof LaxParse NumFacts.

Lemma runes_nonempty s : Forall is_byte s -> s <> [] -> runes s <> [].
Proof. intros Hs Hn H. pose proof (runes_read s Hs) as R. rewrite H in R. inversion R; subst; contradiction. Qed.

Lemma items_ok t p first : Forall (fun k => Forall is_byte (k_s k)) p ->
  (t <> None \/ Forall (fun k => k_s k = []) p) ->
  exists b, path_items t first p = Ok b /\
    (first = true -> keys_text p b) /\ (first = false -> p <> [] -> exists b', b = 32 :: b' /\ keys_text p b') /\
    (p = [] -> b = []).
Proof.
  revert first; induction p as [|k p IH]; intros first Hb Ht.
  - exists []. cbn. repeat split; auto; [constructor|congruence].
  - inversion Hb as [|? ? Hk Hp]; subst.
    destruct (IH false Hp) as (r & Er & _ & Hr & Hr0).
    { destruct Ht as [Ht|Ht]; [now left|right]. now inversion Ht. }
    assert (Hkt : exists b, (if key_is_int k then Ok (format_int (key_int k))
              else (let* e := escape_with t (key_string k) in Ok (34 :: e ++ [34]))) = Ok b /\ key_text k b).
    { unfold key_is_int, key_int, key_string. destruct k as [s i]. cbn [k_s k_i] in *. destruct s as [|c s].
      - exists (format_int i). split; [reflexivity|]. apply KT_int; [reflexivity|]. apply format_int_decimal.
      - destruct t as [esc|].
        + exists (34 :: escape_string esc (c :: s) ++ [34]). split; [reflexivity|].
          apply (KT_str _ (fix_utf8 (c :: s))); [discriminate|now apply fix_fixed|now apply escape_string_lstr|].
          intros Hv. now apply escape_string_body.
        + destruct Ht as [Ht|Ht]; [congruence|]. inversion Ht; subst. discriminate. }
    destruct Hkt as (b & Eb & Hkb). cbn [path_items]. rewrite Eb, Er. cbn [rbind].
    assert (Hall : keys_text (k :: p) (b ++ r)).
    { destruct p as [|k2 p2]; [rewrite Hr0, app_nil_r by reflexivity; now constructor|].
      destruct Hr as (r' & -> & Hr'); [reflexivity|discriminate|]. apply KS_more; auto. discriminate. }
    eexists. split; [reflexivity|]. split; [|split].
    + intros ->. exact Hall.
    + intros -> _. exists (b ++ r). split; [reflexivity|exact Hall].
    + discriminate.
Qed.

Lemma items_cases t p : forall first, Forall (fun k => Forall is_byte (k_s k)) p ->
  t = None -> (exists k, In k p /\ k_s k <> []) -> path_items t first p = Panic.
Proof.
  induction p as [|k p IH]; intros first Hb -> (k0 & Hin & Hn); [contradiction|].
  inversion Hb as [|? ? Hk Hp]; subst. cbn [path_items]. unfold key_is_int, key_int, key_string.
  destruct (k_s k) as [|c s] eqn:Ek.
  - cbn [rbind]. destruct Hin as [->|Hin]; [congruence|]. rewrite IH; auto. exists k0. auto.
  - cbn [escape_with]. pose proof (runes_nonempty (c :: s) Hk) as Hr. destruct (runes (c :: s)) as [|x l].
    + now elim Hr.
    + reflexivity.
Qed.

(** *** The defaults *)
Lemma tables_fold cs : forall t, fold_left tables_step cs t <> None <->
  (default_is_set cs \/ (t <> None /\ Forall (fun c => exists o v, c = CallMarshal o v) cs)).
Proof.
  induction cs as [|c cs IH]; intros t; cbn [fold_left].
  - split; [intros H; right; split; [exact H|constructor]|]. intros [(b & o & a & E0 & _)|[H _]]; [destruct b; discriminate|exact H].
  - rewrite IH. split.
    + intros [(b & o & a & -> & Ha)|[Hn Hf]]; [left; exists (c :: b), o, a; auto|].
      destruct c as [o| |o v]; cbn [tables_step] in Hn.
      * left. exists [], o, cs. auto.
      * congruence.
      * right. split; [exact Hn|]. constructor; [eauto|exact Hf].
    + intros [(b & o & a & E0 & Ha)|[Hn Hf]].
      * destruct b as [|c0 b]; cbn [app] in E0; injection E0 as -> ->; [right; split; [discriminate|exact Ha]|].
        left. exists b, o, a. auto.
      * inversion Hf as [|? ? (o & v & ->) Hf']; subst. right. auto.
Qed.
Lemma tables_set cs : tables_after cs <> None <-> default_is_set cs.
Proof. unfold tables_after. rewrite tables_fold. split; [intros [H|[H _]]; [exact H|congruence]|now left]. Qed.

Lemma key_path_text cs p : Forall (fun k => Forall is_byte (k_s k)) p ->
  (default_is_set cs \/ Forall (fun k => k_s k = []) p) ->
  exists t, key_path_string (tables_after cs) p = Ok (91 :: t ++ [93]) /\ keys_text p t.
Proof.
  intros Hb H. destruct (items_ok (tables_after cs) p true Hb) as (b & Eb & Hk & _); [now rewrite tables_set|].
  exists b. unfold key_path_string. rewrite Eb. auto.
Qed.
Lemma key_path_panics cs p : Forall (fun k => Forall is_byte (k_s k)) p ->
  (key_path_string (tables_after cs) p = Panic <-> ~ default_is_set cs /\ exists k, In k p /\ k_s k <> []).
Proof.
  intros Hb. split.
  - intros H. split.
    + intros Hs. destruct (key_path_text cs p Hb (or_introl Hs)) as (t & E1 & _). congruence.
    + destruct (Forall_Exists_dec (fun k => k_s k = []) (fun k => list_eq_dec Z.eq_dec (k_s k) []) p) as [F|X].
      * destruct (key_path_text cs p Hb (or_intror F)) as (t & E1 & _). congruence.
      * apply Exists_exists in X. exact X.
  - intros [Hs Hk]. unfold key_path_string. rewrite items_cases; auto.
    rewrite <- tables_set in Hs. destruct (tables_after cs); [elim Hs; discriminate|reflexivity].
Qed.

(** *** Two paths with the same text *)
Lemma decimal_bytes t i : decimal t i -> t <> [] /\ Forall (fun c => c = 45 \/ digit c) t.
Proof.
  assert (D : forall x, int_part x -> x <> [] /\ Forall (fun c => c = 45 \/ digit c) x).
  { intros x Hx. apply int_part_ok in Hx. destruct Hx as [Hn Hd]. split; [exact Hn|]. eapply Forall_impl; [|exact Hd]. auto. }
  intros [[H _]|(ip & -> & H & _)]; [now apply D|]. destruct (D _ H) as [_ F]. split; [discriminate|]. constructor; auto.
Qed.
Lemma decimal_fun t i j : decimal t i -> decimal t j -> i = j.
Proof.
  intros [[H1 <-]|(ip & -> & H1 & E1 & _)] [[H2 <-]|(ip2 & E & H2 & E2 & _)]; auto.
  - subst. exfalso. eapply digits_neg, int_part_ok, H1.
  - exfalso. eapply digits_neg, int_part_ok, H2.
  - injection E as <-. lia.
Qed.
Lemma split_at (P : Z -> Prop) t t' c c' r r' : Forall P t -> Forall P t' -> ~ P c -> ~ P c' -> t ++ c :: r = t' ++ c' :: r' ->
  t = t' /\ c = c' /\ r = r'.
Proof.
  intros Ht. revert t'. induction Ht as [|x t Hx Ht IH]; intros t' Ht' Hc Hc' E1.
  - destruct t' as [|y t']; cbn in E1; injection E1 as -> ->; [auto|]. inversion Ht'; subst. contradiction.
  - destruct t' as [|y t']; cbn in E1; injection E1 as -> E1; [contradiction|]. inversion Ht'; subst.
    destruct (IH t' ltac:(assumption) Hc Hc' E1) as (-> & -> & ->). auto.
Qed.

Lemma key_text_fun k k' t t' c c' r r' : well_formed (k_s k) -> well_formed (k_s k') -> Forall is_byte (k_s k) -> Forall is_byte (k_s k') ->
  key_text k t -> key_text k' t' ->
  (c = 32 \/ c = 93) -> (c' = 32 \/ c' = 93) -> t ++ c :: r = t' ++ c' :: r' -> same_key k k' /\ t = t' /\ c = c' /\ r = r'.
Proof.
  intros W1 W2 B1 B2 H1 H2 Hc Hc' E1.
  assert (D : forall x i a y b, decimal x i -> x ++ a = 34 :: y ++ b -> False).
  { intros x i a y b Hx E2. apply decimal_bytes in Hx. destruct Hx as [Hn Hf]. destruct x as [|z x]; [congruence|].
    cbn in E2. injection E2 as -> _. inversion Hf as [|? ? [Hz|Hz]]; subst; [lia|]. unfold digit in Hz. lia. }
  destruct H1 as [k t Hk Hd|k s t Hk Hf Hl _]; destruct H2 as [k' t' Hk' Hd'|k' s' t' Hk' Hf' Hl' _].
  - destruct (split_at (fun c => c = 45 \/ digit c) t t' c c' r r') as (-> & -> & ->); auto.
    + apply (decimal_bytes _ _ Hd).
    + apply (decimal_bytes _ _ Hd').
    + unfold digit. lia.
    + unfold digit. lia.
    + split; [|auto]. split; [congruence|]. intros _. eapply decimal_fun; eassumption.
  - exfalso. cbn [app] in E1. rewrite <- app_assoc in E1. eapply D; eassumption.
  - exfalso. cbn [app] in E1. rewrite <- app_assoc in E1. symmetry in E1. eapply D; eassumption.
  - cbn [app] in E1. rewrite <- !app_assoc in E1. cbn [app] in E1. injection E1 as E1.
    pose proof (q_str_lax _ _ Hl (S (List.length t + List.length t')) (c :: r)) as Q1.
    pose proof (q_str_lax _ _ Hl' (S (List.length t + List.length t')) (c' :: r')) as Q2.
    rewrite E1, Q2 in Q1 by lia. specialize (Q1 ltac:(lia)). injection Q1 as -> -> ->.
    apply app_inv_tail in E1. subst t'.
    assert (k_s k = k_s k').
    { rewrite (fixed_fix _ _ B2 Hf') in Hf. rewrite <- (fixed_fix _ _ B2 (fixed_well_formed _ W2)) in Hf.
      rewrite (fixed_fix _ _ B1 Hf). apply fixed_fix; [exact B1|]. now apply fixed_well_formed. }
    split; [|auto]. split; [exact H|]. intros H0. contradiction.
Qed.

Lemma keys_text_fun l : forall l' t, Forall (fun k => well_formed (k_s k) /\ Forall is_byte (k_s k)) l ->
  Forall (fun k => well_formed (k_s k) /\ Forall is_byte (k_s k)) l' ->
  keys_text l t -> forall t', keys_text l' t' -> t ++ [93] = t' ++ [93] -> Forall2 same_key l l'.
Proof.
  assert (Q : forall k t, key_text k t -> t <> []).
  { intros k t [k0 t0 _ Hd|]; [apply (decimal_bytes _ _ Hd)|discriminate]. }
  assert (Q93 : forall k t x, key_text k t -> t ++ x = [93] -> False).
  { intros k t x [k0 t0 _ Hd|k0 s0 t0 _ _ _] E1; [|discriminate]. destruct (decimal_bytes _ _ Hd) as [Hn Hf].
    destruct t0 as [|z t0]; [congruence|]. injection E1 as -> _. inversion Hf as [|? ? [Hz|Hz]]; subst; [lia|]. unfold digit in Hz. lia. }
  induction l as [|k l IH]; intros l' t Hw Hw' H1 t' H2 E1.
  - inversion H1; subst. inversion H2 as [|k t0 Hk|k t0 l0 r Hk Hn Hr]; subst; [constructor|..]; exfalso.
    + eapply Q93; [exact Hk|]. symmetry. exact E1.
    + eapply (Q93 k t0 (32 :: r ++ [93])); [exact Hk|]. rewrite <- app_assoc in E1. symmetry. exact E1.
  - inversion Hw as [|? ? [Wk Bk] Hwl]; subst. destruct l' as [|k' l'].
    { exfalso. inversion H2; subst. inversion H1 as [|k0 t0 Hk|k0 t0 l0 r Hk Hn Hr]; subst.
      - eapply Q93; [exact Hk|exact E1].
      - eapply (Q93 k t0 (32 :: r ++ [93])); [exact Hk|]. rewrite <- app_assoc in E1. exact E1. }
    inversion Hw' as [|? ? [Wk' Bk'] Hwl']; subst.
    inversion H1 as [|k0 t0 Hk|k0 t0 l0 r Hk Hn Hr]; subst; inversion H2 as [|k1 t1 Hk1|k1 t1 l1 r1 Hk1 Hn1 Hr1]; subst.
    + destruct (key_text_fun k k' t t' 93 93 [] [] Wk Wk' Bk Bk' Hk Hk1) as (S1 & _); auto.
    + rewrite <- app_assoc in E1. destruct (key_text_fun k k' t t1 93 32 [] (r1 ++ [93]) Wk Wk' Bk Bk' Hk Hk1) as (_ & _ & Hc & _); auto. discriminate.
    + rewrite <- app_assoc in E1. destruct (key_text_fun k k' t0 t' 32 93 (r ++ [93]) [] Wk Wk' Bk Bk' Hk Hk1) as (_ & _ & Hc & _); auto. discriminate.
    + rewrite <- !app_assoc in E1. destruct (key_text_fun k k' t0 t1 32 32 (r ++ [93]) (r1 ++ [93]) Wk Wk' Bk Bk' Hk Hk1) as (S1 & _ & _ & Er); auto.
      constructor; [exact S1|]. eapply IH; eassumption.
Qed.

Lemma key_path_distinct cs cs' p p' t : Forall (fun k => well_formed (k_s k) /\ Forall is_byte (k_s k)) p ->
  Forall (fun k => well_formed (k_s k) /\ Forall is_byte (k_s k)) p' ->
  key_path_string (tables_after cs) p = Ok t -> key_path_string (tables_after cs') p' = Ok t -> Forall2 same_key p p'.
Proof.
  intros Hp Hp' E1 E2.
  assert (G : forall cs p, Forall (fun k => well_formed (k_s k) /\ Forall is_byte (k_s k)) p ->
    key_path_string (tables_after cs) p = Ok t -> exists b, t = 91 :: b ++ [93] /\ keys_text p b).
  { clear. intros cs p Hp E1.
    assert (Hb : Forall (fun k => Forall is_byte (k_s k)) p) by (eapply Forall_impl; [|exact Hp]; intros k H; apply H).
    assert (C : default_is_set cs \/ Forall (fun k => k_s k = []) p).
    { destruct (Forall_Exists_dec (fun k => k_s k = []) (fun k => list_eq_dec Z.eq_dec (k_s k) []) p) as [F|X]; [now right|left].
      apply tables_set. intros N. apply Exists_exists in X. unfold key_path_string in E1.
      rewrite (items_cases _ p true Hb N X) in E1. discriminate. }
    destruct (key_path_text cs p Hb C) as (b & Eb & Hk). rewrite Eb in E1. injection E1 as <-. eauto. }
  destruct (G cs p Hp E1) as (b & -> & Hk). destruct (G cs' p' Hp' E2) as (b' & E3 & Hk'). injection E3 as E3.
  eapply keys_text_fun; eassumption.
Qed.

(** The methods of a single key. *)
Lemma key_methods : forall s i,
  (s <> [] -> key_is_string (string_key s) = true /\ key_is_int (string_key s) = false /\
              key_string (string_key s) = s /\ key_int (string_key s) = 0) /\
  (key_is_string (int_key i) = false /\ key_is_int (int_key i) = true /\
   key_int (int_key i) = i /\ decimal (key_string (int_key i)) i) /\
  string_key [] = int_key 0.
Proof.
  intros s i. split; [|split].
  - destruct s; [congruence|]. intros _. repeat split.
  - repeat split. apply format_int_decimal.
  - reflexivity.
Qed.
