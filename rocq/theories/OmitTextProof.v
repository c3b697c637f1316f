(** C30: exactly when OmitNull writes the text of the value without its null members. *)
From Verif Require Import Base Float64 Value Opt Marshal ListLemmas SpecJson SpecValue SpecLax SpecText SpecOpts SpecOrder SpecSpell SpecOmit
  UnmarshalProof ValueLemmas SortProof MarshalProof OrderProof MarshalClaims RoundTrip CanonProof OutSpell OutExact OutClaims OmitCanonProof.

Definition occ (c : Z) (b : bytes) : nat := count_occ Z.eq_dec b c.
Lemma occ_app c a b : occ c (a ++ b) = (occ c a + occ c b)%nat.
Proof. apply count_occ_app. Qed.

Section Pure.
Variable o : opt.
Hypothesis Hom : o_omit_null o = true.
Notation o1 := (with_nulls o).

Lemma nl_same c : nl_indent o1 c = nl_indent o c.
Proof. reflexivity. Qed.
Lemma colon_same : colon o1 = colon o.
Proof. reflexivity. Qed.
Lemma out1 x : out o1 x = false.
Proof. reflexivity. Qed.
Lemma out0 x : out o x = is_null x.
Proof. unfold out. now rewrite Hom. Qed.
Lemma lives_cons k id x l : lives ((k, (id, x)) :: l) = if is_null x then lives l else (k, (id, without_nulls x)) :: lives l.
Proof. unfold lives. cbn [filter snd fst]. destruct (is_null x); reflexivity. Qed.

(** The commas that are missing. *)
Fixpoint gaps (first before : bool) (l : list kvt) : nat :=
  match l with
  | [] => 0
  | (_, (_, x)) :: r => if is_null x then gaps true before r else ((if first && before then 1 else 0) + gaps false true r)%nat
  end.
Fixpoint missing (v : V) : nat :=
  match v with
  | VObj _ kvs _ => (gaps true false kvs + list_sum (map (fun e => missing (snd (snd e))) kvs))%nat
  | VArr l => list_sum (map missing l)
  | _ => 0
  end.
Lemma missing_null x : is_null x = true -> missing x = 0%nat.
Proof. destruct x; try discriminate. reflexivity. Qed.

Section Commas.
Hypothesis Hpre : ws (o_prefix o).
Hypothesis Hind : ws (o_indent_str o).
Lemma no_comma c : occ 44 (nl_indent o c) = 0%nat.
Proof.
  apply count_occ_not_In. intros Hi. pose proof (ws_nl_indent o c Hpre Hind) as H. unfold ws in H. rewrite Forall_forall in H.
  specialize (H 44 Hi). unfold is_ws in H. lia.
Qed.

Lemma members_commas cnt l : Forall (fun e : kvt => forall c, (occ 44 (spell o (snd (snd e)) c) + missing (snd (snd e)) = occ 44 (spell o1 (without_nulls (snd (snd e))) c))%nat) l ->
  forall first before, (first = false -> before = true) ->
  (occ 44 (sp_members o (spell o) cnt first l) + gaps first before l + list_sum (map (fun e : kvt => missing (snd (snd e))) l) =
   occ 44 (sp_members o1 (spell o1) cnt (negb before) (lives l)))%nat.
Proof.
  induction 1 as [|[k [id x]] l Hx Hl IH]; intros first before Hf; [reflexivity|].
  rewrite lives_cons. cbn [sp_members gaps map list_sum fold_right snd] in *. rewrite out0.
  fold (sp_members o (spell o) cnt). fold (list_sum (map (fun e : kvt => missing (snd (snd e))) l)).
  destruct (is_null x) eqn:Hn.
  - rewrite (missing_null x Hn). rewrite <- (IH true before) by discriminate. lia.
  - cbn [sp_members]. rewrite out1. fold (sp_members o1 (spell o1) cnt). rewrite colon_same, nl_same.
    change (o_esc o1) with (o_esc o). rewrite !occ_app, no_comma. specialize (IH false true (fun _ => eq_refl)). cbn [negb] in IH. rewrite <- IH, <- Hx.
    destruct first, before; cbn; try (specialize (Hf eq_refl); discriminate); lia.
Qed.
Lemma elems_commas cnt l : Forall (fun x => forall c, (occ 44 (spell o x c) + missing x = occ 44 (spell o1 (without_nulls x) c))%nat) l ->
  forall first, (occ 44 (sp_elems o (spell o) cnt first l) + list_sum (map missing l) = occ 44 (sp_elems o1 (spell o1) cnt first (map without_nulls l)))%nat.
Proof.
  induction 1 as [|x l Hx Hl IH]; intros first; [reflexivity|].
  cbn [sp_elems map list_sum fold_right]. fold (sp_elems o (spell o) cnt). fold (sp_elems o1 (spell o1) cnt). fold (list_sum (map missing l)).
  rewrite nl_same, !occ_app, <- Hx, <- IH. lia.
Qed.

Lemma spell_commas v : forall c, (occ 44 (spell o v c) + missing v = occ 44 (spell o1 (without_nulls v) c))%nat.
Proof.
  induction v as [| s | n src | i kvs lo IH | l IH | b | | | ] using V_ind'; intros c; try (cbn; lia).
  - rewrite without_nulls_obj. cbn [missing]. pose proof (members_commas (S c) kvs IH true false ltac:(discriminate)) as H. cbn [negb] in H.
    assert (E0 : occ 44 (spell o (VObj i kvs lo) c) = occ 44 (sp_members o (spell o) (S c) true kvs)).
    { cbn [spell]. destruct kvs as [|e kvs]; [reflexivity|]. change (123 :: ?a) with ([123] ++ a). rewrite !occ_app, no_comma. cbn. lia. }
    assert (E1 : forall ks, occ 44 (spell o1 (VObj i ks lo) c) = occ 44 (sp_members o1 (spell o1) (S c) true ks)).
    { intros ks. cbn [spell]. destruct ks as [|e ks]; [reflexivity|]. change (123 :: ?a) with ([123] ++ a). rewrite nl_same, !occ_app, no_comma. cbn. lia. }
    rewrite E0, E1. lia.
  - cbn [without_nulls missing]. pose proof (elems_commas (S c) l IH true) as H.
    assert (E0 : occ 44 (spell o (VArr l) c) = occ 44 (sp_elems o (spell o) (S c) true l)).
    { cbn [spell]. destruct l as [|e l]; [reflexivity|]. change (91 :: ?a) with ([91] ++ a). rewrite !occ_app, no_comma. cbn. lia. }
    assert (E1 : forall ks, occ 44 (spell o1 (VArr ks) c) = occ 44 (sp_elems o1 (spell o1) (S c) true ks)).
    { intros ks. cbn [spell]. destruct ks as [|e ks]; [reflexivity|]. change (91 :: ?a) with ([91] ++ a). rewrite nl_same, !occ_app, no_comma. cbn. lia. }
    rewrite E0, E1. lia.
Qed.
End Commas.

(** No comma is missing exactly if the members left out stand at the ends. *)
Lemma gaps_end l : gaps true true l = 0%nat <-> Forall (left_out true) l.
Proof.
  induction l as [|[k [id x]] l IH]; [split; [constructor|reflexivity]|]. cbn [gaps]. destruct (is_null x) eqn:Hn.
  - rewrite IH. destruct x; try discriminate. split; intros H; [constructor; [split; reflexivity|exact H]|now inversion H].
  - split; [cbn; lia|]. intros H. inversion H as [|? ? [_ H1] _]; subst. cbn in H1. subst. discriminate.
Qed.
Lemma gaps_mid l : gaps false true l = 0%nat <-> exists b c, l = b ++ c /\ Forall (fun x => ~ left_out true x) b /\ Forall (left_out true) c.
Proof.
  induction l as [|[k [id x]] l IH]; [split; [exists [], []; repeat split; constructor|reflexivity]|]. cbn [gaps]. destruct (is_null x) eqn:Hn.
  - rewrite gaps_end. destruct x; try discriminate. split.
    + intros H. exists [], ((k, (id, VNull)) :: l). repeat split; [constructor|constructor; [split; reflexivity|exact H]].
    + intros (b & c & E & Hb & Hc). destruct b as [|y b]; cbn in E.
      * subst c. now inversion Hc.
      * injection E as <- _. inversion Hb as [|? ? Hy _]; subst. elim Hy. split; reflexivity.
  - cbn [andb plus]. rewrite IH. split.
    + intros (b & c & -> & Hb & Hc). exists ((k, (id, x)) :: b), c. repeat split; auto. constructor; [|exact Hb].
      intros [_ Hx]. cbn in Hx. subst. discriminate.
    + intros (b & c & E & Hb & Hc). destruct b as [|y b]; cbn in E.
      * subst c. inversion Hc as [|? ? [_ Hx] _]; subst. cbn in Hx. subst. discriminate.
      * injection E as _ E. exists b, c. inversion Hb; subst. auto.
Qed.
Lemma gaps_contiguous l : gaps true false l = 0%nat <-> contiguous true l.
Proof.
  unfold contiguous. induction l as [|[k [id x]] l IH]; [split; [exists [], [], []; repeat split; constructor|reflexivity]|]. cbn [gaps]. destruct (is_null x) eqn:Hn.
  - rewrite IH. destruct x; try discriminate. split.
    + intros (a & b & c & -> & Ha & Hb & Hc). exists ((k, (id, VNull)) :: a), b, c. repeat split; auto. constructor; [split; reflexivity|exact Ha].
    + intros (a & b & c & E & Ha & Hb & Hc). destruct a as [|y a]; cbn in E.
      * destruct b as [|y b]; cbn in E.
        -- subst c. exists [], [], l. repeat split; try constructor. now inversion Hc.
        -- injection E as <- _. inversion Hb as [|? ? Hy _]; subst. elim Hy. split; reflexivity.
      * injection E as _ E. exists a, b, c. inversion Ha; subst. auto.
  - cbn [andb plus]. rewrite gaps_mid. split.
    + intros (b & c & -> & Hb & Hc). exists [], ((k, (id, x)) :: b), c. repeat split; auto. constructor; [|exact Hb].
      intros [_ Hx]. cbn in Hx. subst. discriminate.
    + intros (a & b & c & E & Ha & Hb & Hc). destruct a as [|y a]; cbn in E.
      * destruct b as [|y b]; cbn in E.
        -- subst c. inversion Hc as [|? ? [_ Hx] _]; subst. cbn in Hx. subst. discriminate.
        -- injection E as _ E. exists b, c. inversion Hb; subst. auto.
      * injection E as <- _. inversion Ha as [|? ? [_ Hx] _]; subst. cbn in Hx. subst. discriminate.
Qed.
Lemma sum_zero {A} (f : A -> nat) l : list_sum (map f l) = 0%nat <-> Forall (fun x => f x = 0%nat) l.
Proof.
  induction l as [|x l IH]; [split; [constructor|reflexivity]|]. cbn [map list_sum fold_right]. fold (list_sum (map f l)). split.
  - intros H. constructor; [lia|]. apply IH. lia.
  - intros H. inversion H as [|? ? H1 H2]; subst. apply IH in H2. lia.
Qed.
Lemma missing_none v : missing v = 0%nat <-> all_objs (contiguous true) v.
Proof.
  induction v as [| s | n src | i kvs lo IH | l IH | b | | | ] using V_ind'; try (split; [intros _; exact I|reflexivity]).
  - rewrite all_objs_obj, <- gaps_contiguous. cbn [missing]. assert (H := sum_zero (fun e : kvt => missing (snd (snd e))) kvs).
    assert (G : Forall (fun e : kvt => missing (snd (snd e)) = 0%nat) kvs <-> Forall (fun e : kvt => all_objs (contiguous true) (snd (snd e))) kvs).
    { rewrite !Forall_forall in *. split; intros K x Hx; apply (IH x Hx); now apply K. }
    split; [intros K; split; [lia|apply G, H; lia]|]. intros [K1 K2]. apply G, H in K2. lia.
  - rewrite all_objs_arr. cbn [missing]. rewrite sum_zero. rewrite !Forall_forall in *. split; intros K x Hx; apply (IH x Hx); now apply K.
Qed.

(** With no comma missing, the texts differ only in the empty lines of objects of which nothing is left. *)
Definition not_hollow (kvs : list kvt) : Prop := Forall (left_out true) kvs -> kvs = [].
Definition same_upto (x : V) : Prop := forall c, (List.length (spell o1 (without_nulls x) c) <= List.length (spell o x c))%nat /\
  (spell o x c = spell o1 (without_nulls x) c <-> (o_indent o = true -> all_objs not_hollow x)) /\
  (List.length (spell o x c) = List.length (spell o1 (without_nulls x) c) -> spell o x c = spell o1 (without_nulls x) c).

Lemma same_app (a b a' b' : bytes) (P Q : Prop) :
  (List.length a' <= List.length a)%nat /\ (a = a' <-> P) /\ (List.length a = List.length a' -> a = a') ->
  (List.length b' <= List.length b)%nat /\ (b = b' <-> Q) /\ (List.length b = List.length b' -> b = b') ->
  (List.length (a' ++ b') <= List.length (a ++ b))%nat /\ (a ++ b = a' ++ b' <-> P /\ Q) /\ (List.length (a ++ b) = List.length (a' ++ b') -> a ++ b = a' ++ b').
Proof.
  intros (A1 & A2 & A3) (B1 & B2 & B3). rewrite !app_length. split; [lia|].
  assert (G : (List.length a + List.length b = List.length a' + List.length b')%nat -> a = a' /\ b = b') by (intros H; split; [apply A3|apply B3]; lia).
  split; [|intros H; apply G in H as [-> ->]; reflexivity]. rewrite <- A2, <- B2. split; [|intros [-> ->]; reflexivity].
  intros H. apply G. rewrite <- !app_length. now rewrite H.
Qed.
Lemma same_pre (p b b' : bytes) (Q : Prop) :
  (List.length b' <= List.length b)%nat /\ (b = b' <-> Q) /\ (List.length b = List.length b' -> b = b') ->
  (List.length (p ++ b') <= List.length (p ++ b))%nat /\ (p ++ b = p ++ b' <-> Q) /\ (List.length (p ++ b) = List.length (p ++ b') -> p ++ b = p ++ b').
Proof.
  intros (B1 & B2 & B3). rewrite !app_length. split; [lia|]. split; [|intros H; f_equal; apply B3; lia].
  rewrite <- B2. split; [apply app_inv_head|intros ->; reflexivity].
Qed.
Lemma same_iff (b b' : bytes) (P Q : Prop) : (P <-> Q) ->
  (List.length b' <= List.length b)%nat /\ (b = b' <-> P) /\ (List.length b = List.length b' -> b = b') ->
  (List.length b' <= List.length b)%nat /\ (b = b' <-> Q) /\ (List.length b = List.length b' -> b = b').
Proof. intros H (B1 & B2 & B3). repeat split; auto; intros K; [apply H, B2, K|apply B2, H, K]. Qed.

Lemma members_texts cnt l : Forall (fun e : kvt => same_upto (snd (snd e))) l ->
  forall first before, (first = false -> before = true) -> gaps first before l = 0%nat ->
  let b := sp_members o (spell o) cnt first l in let b' := sp_members o1 (spell o1) cnt (negb before) (lives l) in
  (List.length b' <= List.length b)%nat /\ (b = b' <-> (o_indent o = true -> Forall (fun e : kvt => all_objs not_hollow (snd (snd e))) l)) /\
  (List.length b = List.length b' -> b = b').
Proof.
  cbn zeta. induction 1 as [|[k [id x]] l Hx Hl IH]; intros first before Hf Hg; [repeat split; auto|].
  rewrite lives_cons. cbn [sp_members gaps snd] in *. rewrite out0. fold (sp_members o (spell o) cnt).
  destruct (is_null x) eqn:Hn.
  - eapply same_iff; [|apply (IH true before); [discriminate|exact Hg]]. split; intros H Hi; specialize (H Hi).
    + constructor; [|exact H]. destruct x; try discriminate. exact I.
    + now inversion H.
  - cbn [sp_members]. rewrite out1. fold (sp_members o1 (spell o1) cnt). rewrite colon_same, nl_same.
    change (o_esc o1) with (o_esc o).
    assert (E1 : (if first then [] else [44]) = (if negb before then [] else [44]) :> bytes).
    { destruct first, before; try reflexivity; [discriminate|specialize (Hf eq_refl); discriminate]. }
    rewrite <- E1. do 4 apply same_pre.
    eapply same_iff; [|apply same_app; [apply (Hx cnt)|apply (IH false true); [reflexivity|lia]]].
    split; [intros [H1 H2] Hi; constructor; auto|intros H; split; intros Hi; specialize (H Hi); now inversion H].
Qed.
Lemma elems_texts cnt l : Forall (fun x => same_upto x) l -> forall first,
  let b := sp_elems o (spell o) cnt first l in let b' := sp_elems o1 (spell o1) cnt first (map without_nulls l) in
  (List.length b' <= List.length b)%nat /\ (b = b' <-> (o_indent o = true -> Forall (all_objs not_hollow) l)) /\
  (List.length b = List.length b' -> b = b').
Proof.
  cbn zeta. induction 1 as [|x l Hx Hl IH]; intros first; [repeat split; auto|].
  cbn [sp_elems map]. fold (sp_elems o (spell o) cnt). fold (sp_elems o1 (spell o1) cnt). rewrite nl_same. do 2 apply same_pre.
  eapply same_iff; [|apply same_app; [apply (Hx cnt)|apply (IH false)]].
  split; [intros [H1 H2] Hi; constructor; auto|intros H; split; intros Hi; specialize (H Hi); now inversion H].
Qed.

Lemma all_null_lives kvs : Forall (left_out true) kvs <-> lives kvs = [].
Proof.
  induction kvs as [|[k [id x]] l IH]; [split; [reflexivity|constructor]|]. rewrite lives_cons. destruct (is_null x) eqn:Hn.
  - rewrite <- IH. destruct x; try discriminate. split; intros H; [now inversion H|constructor; [split; reflexivity|exact H]].
  - split; [|discriminate]. intros H. inversion H as [|? ? [_ Hx] _]; subst. cbn in Hx. subst. discriminate.
Qed.

Lemma spell_texts v : all_objs (contiguous true) v -> same_upto v.
Proof.
  induction v as [| s | n src | i kvs lo IH | l IH | b | | | ] using V_ind'; intros Hc c; try (cbn; repeat split; auto; fail).
  - apply all_objs_obj in Hc as [Hk Hc]. apply gaps_contiguous in Hk. rewrite without_nulls_obj.
    assert (IH' : Forall (fun e : kvt => same_upto (snd (snd e))) kvs) by (rewrite Forall_forall in *; intros e He; apply (IH e He); now apply Hc).
    pose proof (members_texts (S c) kvs IH' true false ltac:(discriminate) Hk) as H. cbn zeta in H. cbn [negb] in H.
    destruct kvs as [|e kvs]; [cbn; repeat split; auto|].
    set (ks := e :: kvs) in *. assert (Hne : ks <> []) by discriminate.
    change (spell o (VObj i ks lo) c) with ([123] ++ sp_members o (spell o) (S c) true ks ++ nl_indent o c ++ [125]).
    destruct (lives ks) as [|y r] eqn:El.
    + apply all_null_lives in El. cbn [spell]. cbn [sp_members] in H. change [123; 125] with ([123] ++ [125]). apply same_pre.
      assert (Hs : sp_members o (spell o) (S c) true ks = []) by (apply skip_end; rewrite Hom; exact El).
      rewrite Hs. cbn [app]. unfold nl_indent. destruct (o_indent o) eqn:Ei; cbn [app List.length].
      * assert (L : (1 < S (List.length (write_indent o c ++ [125%Z])))%nat) by (rewrite app_length; cbn; lia).
        split; [cbn [List.length] in L; lia|]. split; [split|].
        -- intros K. exfalso. discriminate K.
        -- intros K. specialize (K eq_refl). apply all_objs_obj in K as [K _]. elim Hne. apply K. exact El.
        -- intros K. exfalso. cbn [List.length] in L. lia.
      * split; [lia|]. split; [split|]; auto. intros _ K. discriminate.
    + rewrite <- El in *. assert (Hl : lives ks <> []) by (rewrite El; discriminate).
      assert (Es : spell o1 (VObj i (lives ks) lo) c = [123] ++ sp_members o1 (spell o1) (S c) true (lives ks) ++ nl_indent o1 c ++ [125]).
      { cbn [spell]. destruct (lives ks); [congruence|reflexivity]. }
      rewrite Es. apply same_pre. rewrite nl_same. clear Es.
      eapply same_iff; [|eapply same_app with (Q := True); [exact H|repeat split; auto]].
      assert (Hnh : not_hollow ks) by (intros K; apply all_null_lives in K; congruence).
      split.
      * intros [K _] Hi. apply all_objs_obj. split; [exact Hnh|now apply K].
      * intros K. split; [|exact I]. intros Hi. specialize (K Hi). apply all_objs_obj in K. apply K.
  - apply all_objs_arr in Hc. cbn [without_nulls].
    assert (IH' : Forall (fun x => same_upto x) l) by (rewrite Forall_forall in *; intros e He; apply (IH e He); now apply Hc).
    pose proof (elems_texts (S c) l IH' true) as H. cbn zeta in H.
    destruct l as [|e l]; [cbn; repeat split; auto|].
    set (ks := e :: l) in *.
    change (spell o (VArr ks) c) with ([91] ++ sp_elems o (spell o) (S c) true ks ++ nl_indent o c ++ [93]).
    change (spell o1 (VArr (map without_nulls ks)) c) with ([91] ++ sp_elems o1 (spell o1) (S c) true (map without_nulls ks) ++ nl_indent o c ++ [93]).
    apply same_pre. eapply same_iff; [|eapply same_app with (Q := True); [exact H|repeat split; auto]].
    split; [intros [K _] Hi; apply all_objs_arr; now apply K|]. intros K. split; [|exact I]. intros Hi. specialize (K Hi). now apply all_objs_arr in K.
Qed.

Theorem spell_same v c : opt_ws o ->
  spell o v c = spell o1 (without_nulls v) c <-> all_objs (contiguous true) v /\ (o_indent o = true -> all_objs not_hollow v).
Proof.
  intros [Hp Hi]. split.
  - intros H. assert (Hc : all_objs (contiguous true) v).
    { apply missing_none. pose proof (spell_commas Hp Hi v c) as K. rewrite <- H in K. lia. }
    split; [exact Hc|]. exact (proj1 (proj1 (proj2 (spell_texts v Hc c))) H).
  - intros [Hc Hh]. exact (proj2 (proj1 (proj2 (spell_texts v Hc c))) Hh).
Qed.
End Pure.

(** *** In a given order *)
Section Ordered.
Variable P : kvt -> kvt -> Prop.
Hypothesis Pasym : forall x y, P x y -> P y x -> False.
Hypothesis HP : forall x y x' y', fst x = fst x' -> fst (snd x) = fst (snd x') -> fst y = fst y' -> fst (snd y) = fst (snd y') -> P x y -> P x' y'.
Notation ORD := (ForallOrdPairs P).

Lemma ord_only : order_only ORD.
Proof.
  intros a. induction a as [|x a IH]; intros [|y b] E1 E2 H; try discriminate; [constructor|].
  cbn in E1, E2. injection E1 as E1 E1'. injection E2 as E2 E2'. inversion H as [|? ? Hx Ha]; subst. constructor; [|now apply IH].
  clear IH H Ha. revert b E1' E2'. induction Hx as [|z a Hz Ha IH]; intros [|w b] E1' E2'; try discriminate; [constructor|].
  cbn in E1', E2'. injection E1' as F1 F1'. injection E2' as F2 F2'. constructor; [|now apply IH]. eapply HP; [| | | |exact Hz]; assumption.
Qed.

Lemma rearranged_unique v : forall a b, rearranged v a -> rearranged v b -> all_objs ORD a -> all_objs ORD b -> a = b.
Proof.
  induction v as [| s | n src | i kvs lo IH | l IH | bb | | | ] using V_ind'; intros a b Ha Hb Oa Ob;
    try (inversion Ha; subst; inversion Hb; subst; reflexivity).
  - inversion Ha as [x N1 N2|l0 l' F|i0 kvs0 lo0 ka kvsa Pa Fa]; subst; [now elim (N1 i kvs lo)|].
    inversion Hb as [x N1 N2|l0 l' F|i0 kvs0 lo0 kb kvsb Pb Fb]; subst; [now elim (N1 i kvs lo)|].
    apply all_objs_obj in Oa as [Oa Oa']. apply all_objs_obj in Ob as [Ob Ob'].
    assert (G : forall k ks, Forall2 (fun x y : kvt => fst x = fst y /\ fst (snd x) = fst (snd y) /\ rearranged (snd (snd x)) (snd (snd y))) k ks -> ORD ks -> ORD k).
    { intros k ks F. apply ord_only; symmetry; clear -F; induction F as [|x y l l' (H1 & H2 & _) _ IHl]; cbn; congruence. }
    assert (E : ka = kb).
    { eapply (OrderProof.sorted_unique P); [|etransitivity; [symmetry; exact Pa|exact Pb]|eapply G; eassumption|eapply G; eassumption].
      intros x y _ _ X Y. elim (Pasym _ _ X Y). }
    subst kb. f_equal. apply (Permutation_Forall Pa) in IH. clear -Fa Fb IH Oa' Ob'. revert kvsb Fb Ob'.
    induction Fa as [|x y l l' (H1 & H2 & H3) _ IHl]; intros kvsb Fb Ob'; inversion Fb as [|? z ? r (K1 & K2 & K3) Fb']; subst; [reflexivity|].
    inversion IH as [|? ? Ix Il]; subst. inversion Oa' as [|? ? Oy Ol]; subst. inversion Ob' as [|? ? Oz Or]; subst.
    rewrite (IHl Il Ol r Fb' Or). f_equal. destruct y as [k1 [d1 y]], z as [k2 [d2 z]]. cbn in *. rewrite (Ix y z); congruence.
  - inversion Ha as [x N1 N2|l0 la Fa|i0 kvs0 lo0 ka kvsa Pa Fa]; subst; [now elim (N2 l)|].
    inversion Hb as [x N1 N2|l0 lb Fb|i0 kvs0 lo0 kb kvsb Pb Fb]; subst; [now elim (N2 l)|].
    apply all_objs_arr in Oa. apply all_objs_arr in Ob. f_equal. revert lb Fb Ob Hb. clear Ha.
    induction Fa as [|x y l l' H1 _ IHl]; intros lb Fb Ob Hb; inversion Fb as [|? z ? r K1 Fb']; subst; [reflexivity|].
    inversion IH as [|? ? Ix Il]; subst. inversion Oa as [|? ? Oy Ol]; subst. inversion Ob as [|? ? Oz Or]; subst. f_equal; [now apply Ix|].
    apply IHl; auto. now constructor.
Qed.

Lemma rearranged_without v : forall v', rearranged v v' -> rearranged (without_nulls v) (without_nulls v').
Proof.
  induction v as [| s | n src | i kvs lo IH | l IH | bb | | | ] using V_ind'; intros a Ha;
    inversion Ha as [x N1 N2|l0 la Fa|i0 kvs0 lo0 ka kvsa Pa Fa]; subst; try (constructor; auto; fail).
  - now elim (N1 i kvs lo).
  - rewrite !without_nulls_obj. apply (RA_obj i _ lo (lives ka)); [now apply lives_perm|]. apply (Permutation_Forall Pa) in IH.
    clear -Fa IH. induction Fa as [|[k1 [d1 x]] [k2 [d2 y]] l l' (H1 & H2 & H3) _ IHl]; [constructor|]. inversion IH as [|? ? Ix Il]; subst.
    cbn in H1, H2, H3, Ix. rewrite !lives_cons. rewrite (rearranged_null _ _ H3). destruct (is_null y); [now apply IHl|].
    constructor; [|now apply IHl]. cbn. auto.
  - now elim (N2 l).
  - cbn [without_nulls]. constructor. clear Ha. induction Fa as [|x y l l' H1 _ IHl]; [constructor|]. inversion IH; subst. constructor; auto.
Qed.
Lemma ordered_without v : all_objs ORD v -> all_objs ORD (without_nulls v).
Proof.
  induction v as [| s | n src | i kvs lo IH | l IH | b | | | ] using V_ind'; intros H; try exact H.
  - rewrite without_nulls_obj. apply all_objs_obj in H as [Hn H]. apply all_objs_obj. split; [now apply (lives_ord P HP)|].
    apply Forall_forall. intros e He. apply in_lives in He as (x & Hx & _ & _ & ->). rewrite Forall_forall in *. auto.
  - cbn [without_nulls]. apply all_objs_arr in H. apply all_objs_arr, Forall_map. rewrite Forall_forall in *. auto.
Qed.

Theorem same_text_ordered (E : Env) (W W' : World) o v : o_omit_null o = true -> opt_ws o -> json_typed v ->
  all_text (fun _ => True) (fun _ src => src <> []) v ->
  all_objs (in_order E W o ORD) v -> all_objs (in_order E W' (with_nulls o) ORD) (without_nulls v) ->
  exists v', rearranged v v' /\ all_objs ORD v' /\
    (marshal_opt E W o v = marshal_opt E W' (with_nulls o) (without_nulls v) <->
     all_objs (contiguous true) v' /\ (o_indent o = true -> all_objs not_hollow v')).
Proof.
  intros Hom Hw Ht Ha H1 H2.
  assert (Ha1 : all_text (fun _ => True) (fun _ src => src <> [] \/ o_nan o = 0 /\ o_inf o = 0) v) by (eapply all_text_impl; [| |exact Ha]; auto).
  assert (Ha2 : all_text (fun _ => True) (fun _ src => src <> [] \/ o_nan (with_nulls o) = 0 /\ o_inf (with_nulls o) = 0) (without_nulls v))
    by (apply without_text; eapply all_text_impl; [| |exact Ha]; auto).
  destruct (marshal_runs o E W ORD ord_only v Ht Ha1 H1) as [_ R1].
  destruct (marshal_runs (with_nulls o) E W' ORD ord_only _ (without_typed v Ht) Ha2 H2) as [_ R2].
  destruct (R1 None [] 0%nat) as (v' & e & A1 & A2 & A3 & A4). destruct (R2 None [] 0%nat) as (v2 & e2 & B1 & B2 & B3 & B4).
  assert (v2 = without_nulls v') by (eapply rearranged_unique; [exact B1|now apply rearranged_without|exact B2|now apply ordered_without]). subst v2.
  exists v'. split; [exact A1|]. split; [exact A2|].
  assert (He : e = None).
  { destruct A4 as [A4|[n A4]]; [exact A4|]. subst v. cbn in Ha. congruence. }
  assert (He2 : e2 = None).
  { destruct B4 as [B4|[n B4]]; [exact B4|]. destruct v; try discriminate. injection B4 as -> ->. cbn in Ha. congruence. }
  subst e e2. rewrite (marshal_opt_run E W o v _ Ht A3), (marshal_opt_run E W' _ _ _ (without_typed v Ht) B3).
  rewrite <- (spell_same o Hom v' 0 Hw). split; [intros H; now injection H|now intros ->].
Qed.
End Ordered.

Lemma hollow_left kvs : not_hollow kvs <-> some_left kvs.
Proof.
  unfold not_hollow, some_left. split.
  - intros H. destruct kvs as [|e kvs]; [now left|]. right. set (l := e :: kvs) in *.
    assert (G : Exists (fun e => snd (snd e) <> VNull) l \/ Forall (left_out true) l).
    { clear H. induction l as [|[k [id x]] l [IH|IH]]; [right; constructor|left; now right|].
      destruct (is_null x) eqn:Hn.
      - destruct x; try discriminate. right. constructor; [split; reflexivity|exact IH].
      - left. left. cbn. intros ->. discriminate. }
    destruct G as [G|G]; [exact G|]. discriminate (H G).
  - intros [->|H]; [reflexivity|]. intros K. exfalso. induction H as [x l Hx|x l Hx IH]; inversion K as [|? ? [_ K1] K2]; subst; auto.
Qed.

Section Claims.
Variable E : Env.
Variables W W' : World.
Variable o : opt.
Variable v : V.
Hypothesis Hom : o_omit_null o = true.
Hypothesis Hws : opt_ws o.
Hypothesis Hty : json_typed v.
Hypothesis Ht : all_text (fun _ => True) (fun _ src => src <> []) v.
Definition same_text (ORD : list kvt -> Prop) : Prop :=
  exists v', rearranged v v' /\ all_objs ORD v' /\
    (marshal_opt E W o v = marshal_opt E W' (with_nulls o) (without_nulls v) <->
     all_objs (contiguous true) v' /\ (o_indent o = true -> all_objs some_left v')).

Lemma same_text_left (P : kvt -> kvt -> Prop) : (forall x y, P x y -> P y x -> False) ->
  (forall x y x' y', fst x = fst x' -> fst (snd x) = fst (snd x') -> fst y = fst y' -> fst (snd y) = fst (snd y') -> P x y -> P x' y') ->
  all_objs (in_order E W o (ForallOrdPairs P)) v -> all_objs (in_order E W' (with_nulls o) (ForallOrdPairs P)) (without_nulls v) ->
  same_text (ForallOrdPairs P).
Proof.
  intros H1 H2 H3 H4. destruct (same_text_ordered P H1 H2 E W W' o v Hom Hws Hty Ht H3 H4) as (v' & A & B & C). exists v'. split; [exact A|]. split; [exact B|].
  rewrite C. split; intros [K1 K2]; (split; [exact K1|]); intros Hi; eapply all_objs_impl2; try exact (K2 Hi); intros kvs; apply hollow_left.
Qed.

Theorem same_text_sorted : o_less o = Some default_string_sequence -> same_text (by_key blt).
Proof.
  intros Ho. apply (same_text_left (fun x y => blt (fst x) (fst y))).
  - intros x y. apply blt_asym.
  - intros x y x' y' -> _ -> _ H. exact H.
  - eapply all_objs_impl2; [|apply typed_nodup, Hty]. intros kvs Hn. now apply in_order_default.
  - eapply all_objs_impl2; [|apply typed_nodup, without_typed, Hty]. intros kvs Hn. now apply in_order_default.
Qed.
Theorem same_text_keyseq : o_less o = None -> o_keyseq o <> [] -> same_text (by_key (seq_before (o_keyseq o))).
Proof.
  intros Ho Hk. apply (same_text_left (fun x y => seq_before (o_keyseq o) (fst x) (fst y))).
  - intros x y. apply seq_asym.
  - intros x y x' y' -> _ -> _ H. exact H.
  - eapply all_objs_impl2; [|apply typed_nodup, Hty]. intros kvs Hn. now apply in_order_keyseq.
  - eapply all_objs_impl2; [|apply typed_nodup, without_typed, Hty]. intros kvs Hn.
    change (o_keyseq o) with (o_keyseq (with_nulls o)). now apply in_order_keyseq.
Qed.
Theorem same_text_setseq : o_less o = None -> o_keyseq o = [] -> o_setseq o = true ->
  all_objs (fun kvs => NoDup (map (fun x => fst (snd x)) kvs)) v -> same_text by_id.
Proof.
  intros Ho Hk Hs Hid. apply (same_text_left (fun x y => fst (snd x) < fst (snd y))).
  - intros x y. apply Z.lt_asymm.
  - intros x y x' y' _ -> _ -> H. exact H.
  - eapply all_objs_impl2; [|apply all_objs_conj; [apply typed_nodup, Hty|exact Hid]]. intros kvs [Hn H]. now apply in_order_setseq.
  - eapply all_objs_impl2; [|apply all_objs_conj; [apply typed_nodup, without_typed, Hty|apply (without_ids v Hid)]]. intros kvs [Hn H]. now apply in_order_setseq.
Qed.
End Claims.
