(** The texts that spell numbers, and bytes.TrimSpace. *)
From Verif Require Import Base Utf8 Float64 Value Scan Unmarshal Opt Marshal Pure Access SpecJson SpecText SpecLax SpecGet
  ListLemmas PureProof UnmarshalProof SpecFacts NumProof LaxNum.

(** *** bytes.TrimSpace *)

Lemma strip_prefix_some p : forall s t, strip_prefix p s = Some t <-> s = p ++ t.
Proof.
  induction p as [|x p IH]; intros s t; cbn.
  - split; [now intros [= ->]|now intros ->].
  - destruct s as [|y s]; [split; discriminate|]. destruct (Z.eqb_spec x y).
    + subst. rewrite IH. split; [now intros ->|now intros [= ->]].
    + split; [discriminate|]. intros [= -> _]. contradiction.
Qed.

Lemma strip_first_some encs s t : strip_first encs s = Some t -> exists e, In e encs /\ s = e ++ t.
Proof.
  induction encs as [|e r IH]; cbn; [discriminate|]. destruct (strip_prefix e s) eqn:H.
  - intros [= <-]. exists e. split; [now left|]. now apply strip_prefix_some.
  - intros H1. destruct (IH H1) as (e' & H2 & H3). exists e'. auto.
Qed.
Lemma strip_first_none encs s : strip_first encs s = None -> forall e t, In e encs -> s <> e ++ t.
Proof.
  induction encs as [|e r IH]; cbn; [intros _ ? ? []|]. destruct (strip_prefix e s) eqn:H; [discriminate|].
  intros H1 e' t [->|Hin]; [|now apply IH]. intros Heq. apply strip_prefix_some in Heq. congruence.
Qed.

(** No encoding is a proper prefix of another. *)
Definition prefix_free (encs : list bytes) : Prop :=
  forall e1 e2 t1 t2, In e1 encs -> In e2 encs -> e1 ++ t1 = e2 ++ t2 -> e1 = e2.

Definition pf_check (encs : list bytes) : bool :=
  forallb (fun e1 => forallb (fun e2 => match strip_prefix e1 e2 with Some (_ :: _) => false | _ => true end) encs) encs.
Lemma pf_check_ok encs : pf_check encs = true -> prefix_free encs.
Proof.
  unfold pf_check. rewrite forallb_forall. intros H e1 e2 t1 t2 H1 H2 Heq.
  assert (C : forall a b, In a encs -> In b encs -> forall u, b = a ++ u -> u = []).
  { intros a b Ha Hb u Hu. specialize (H a Ha). rewrite forallb_forall in H. specialize (H b Hb).
    apply strip_prefix_some in Hu. rewrite Hu in H. destruct u; [reflexivity|discriminate]. }
  apply app_eq_app in Heq as (l & [[A _]|[A _]]); apply C in A as B; auto; subst l; now rewrite app_nil_r in A.
Qed.

Definition no_start (encs : list bytes) (t : bytes) : Prop := forall e u, In e encs -> t <> e ++ u.

Lemma trim_left_spec encs : Forall (fun e => e <> []) encs -> forall f s, (List.length s <= f)%nat ->
  exists w, Forall (fun e => In e encs) w /\ s = List.concat w ++ trim_left f encs s /\ no_start encs (trim_left f encs s).
Proof.
  intros Hne. induction f as [|f IH]; intros s Hs; cbn [trim_left].
  - destruct s; [|cbn in Hs; lia]. exists []. repeat split; [constructor|]. intros e u He Heq.
    rewrite Forall_forall in Hne. destruct e; [now apply (Hne [])|discriminate].
  - destruct (strip_first encs s) as [b|] eqn:H.
    + apply strip_first_some in H as (e & He & ->). rewrite app_length in Hs.
      assert (e <> []) by (rewrite Forall_forall in Hne; auto). destruct e as [|x e]; [contradiction|]. cbn [List.length] in Hs.
      destruct (IH b) as (w & H1 & H2 & H3); [lia|]. exists ((x :: e) :: w). split; [now constructor|]. split; [|assumption].
      cbn [List.concat]. rewrite <- app_assoc. now f_equal.
    + exists []. split; [constructor|]. split; [reflexivity|]. intros e u. now apply strip_first_none.
Qed.

Lemma concat_unique encs w1 : prefix_free encs -> Forall (fun e => In e encs) w1 -> forall w2 t1 t2, Forall (fun e => In e encs) w2 ->
  no_start encs t1 -> no_start encs t2 -> List.concat w1 ++ t1 = List.concat w2 ++ t2 -> w1 = w2 /\ t1 = t2.
Proof.
  intros Hpf. induction 1 as [|e w1 He Hw1 IH]; intros w2 t1 t2 Hw2 H1 H2 Heq.
  - destruct w2 as [|e2 w2]; [auto|]. exfalso. cbn in Heq. rewrite <- app_assoc in Heq. apply (H1 e2 _ (Forall_inv Hw2) Heq).
  - destruct w2 as [|e2 w2]; cbn in Heq; rewrite <- ?app_assoc in Heq; [exfalso; symmetry in Heq; apply (H2 e _ He Heq)|].
    assert (e = e2) by (eapply Hpf; [exact He|exact (Forall_inv Hw2)|exact Heq]). subst e2. apply app_inv_head in Heq.
    destruct (IH w2 t1 t2 (Forall_inv_tail Hw2) H1 H2 Heq) as [-> ->]. auto.
Qed.

Lemma trim_left_of encs w t : prefix_free encs -> Forall (fun e => e <> []) encs -> Forall (fun e => In e encs) w -> no_start encs t ->
  forall f, (List.length (List.concat w ++ t) <= f)%nat -> trim_left f encs (List.concat w ++ t) = t.
Proof.
  intros Hpf Hne Hw Ht f Hf. destruct (trim_left_spec encs Hne f _ Hf) as (w' & H1 & H2 & H3).
  symmetry. now apply (concat_unique encs w Hpf Hw w' _ _ H1 Ht H3).
Qed.

Definition rencs := map (@rev Z) space_encs.

Lemma encs_pf : prefix_free space_encs. Proof. apply pf_check_ok. vm_compute. reflexivity. Qed.
Lemma rencs_pf : prefix_free rencs. Proof. apply pf_check_ok. vm_compute. reflexivity. Qed.
Lemma encs_ne : Forall (fun e : bytes => e <> []) space_encs. Proof. repeat constructor; discriminate. Qed.
Lemma rencs_ne : Forall (fun e : bytes => e <> []) rencs. Proof. repeat constructor; discriminate. Qed.

Lemma space_char_enc cp : space_char cp -> In (utf8 cp) space_encs.
Proof.
  intros H.
  assert (C : In cp [9;10;11;12;13;32;133;160;5760;8192;8193;8194;8195;8196;8197;8198;8199;8200;8201;8202;8232;8233;8239;8287;12288]).
  { unfold space_char in H. cbn [In]. lia. }
  repeat (destruct C as [<-|C]; [vm_compute; tauto|]). destruct C.
Qed.
Lemma enc_space_char e : In e space_encs -> exists cp, space_char cp /\ e = utf8 cp.
Proof.
  intros H. unfold space_char. unfold space_encs in H. cbn [In] in H.
  repeat (destruct H as [<-|H]; [first
   [ exists 9; split; [lia|reflexivity] | exists 10; split; [lia|reflexivity] | exists 11; split; [lia|reflexivity]
   | exists 12; split; [lia|reflexivity] | exists 13; split; [lia|reflexivity] | exists 32; split; [lia|reflexivity]
   | exists 133; split; [lia|reflexivity] | exists 160; split; [lia|reflexivity] | exists 5760; split; [lia|reflexivity]
   | exists 8192; split; [lia|reflexivity] | exists 8193; split; [lia|reflexivity] | exists 8194; split; [lia|reflexivity]
   | exists 8195; split; [lia|reflexivity] | exists 8196; split; [lia|reflexivity] | exists 8197; split; [lia|reflexivity]
   | exists 8198; split; [lia|reflexivity] | exists 8199; split; [lia|reflexivity] | exists 8200; split; [lia|reflexivity]
   | exists 8201; split; [lia|reflexivity] | exists 8202; split; [lia|reflexivity] | exists 8232; split; [lia|reflexivity]
   | exists 8233; split; [lia|reflexivity] | exists 8239; split; [lia|reflexivity] | exists 8287; split; [lia|reflexivity]
   | exists 12288; split; [lia|reflexivity] ]|]).
  destruct H.
Qed.

Lemma spaces_concat w : spaces w <-> exists ws, Forall (fun e => In e space_encs) ws /\ w = List.concat ws.
Proof.
  split.
  - intros (l & Hl & ->). exists (map utf8 l). split; [|unfold utf8_enc; now rewrite flat_map_concat_map].
    rewrite Forall_map. eapply Forall_impl; [|exact Hl]. exact space_char_enc.
  - intros (ws & Hw & ->). induction Hw as [|e ws He Hw (l & Hl & Heq)].
    + exists []. split; [constructor|reflexivity].
    + apply enc_space_char in He as (cp & Hc & ->). exists (cp :: l). split; [now constructor|]. cbn. now rewrite Heq.
Qed.
Lemma spaces_app a b : spaces a -> spaces b -> spaces (a ++ b).
Proof.
  intros (l & H1 & ->) (m & H2 & ->). exists (l ++ m). split; [now apply Forall_app|]. unfold utf8_enc. now rewrite flat_map_app.
Qed.

Lemma rev_concat_rencs w : Forall (fun e => In e rencs) w -> exists w', Forall (fun e => In e space_encs) w' /\ rev (List.concat w) = List.concat w'.
Proof.
  induction 1 as [|e w He Hw (w' & H1 & H2)]; [exists []; auto|].
  unfold rencs in He. apply in_map_iff in He as (e' & <- & He'). exists (w' ++ [e']). split.
  - apply Forall_app. auto.
  - cbn. rewrite rev_app_distr, rev_involutive, H2, concat_app. cbn. now rewrite app_nil_r.
Qed.
Lemma rev_concat_encs w : Forall (fun e => In e space_encs) w -> exists w', Forall (fun e => In e rencs) w' /\ rev (List.concat w) = List.concat w'.
Proof.
  induction 1 as [|e w He Hw (w' & H1 & H2)]; [exists []; auto|].
  exists (w' ++ [rev e]). split.
  - apply Forall_app. split; [assumption|]. constructor; [now apply in_map|constructor].
  - cbn. rewrite rev_app_distr, H2, concat_app. cbn. now rewrite app_nil_r.
Qed.

Lemma trim_space_split s : exists w1 w2, spaces w1 /\ spaces w2 /\ s = w1 ++ trim_space s ++ w2.
Proof.
  unfold trim_space. destruct (trim_left_spec space_encs encs_ne (List.length s) s (le_n _)) as (w & H1 & H2 & _).
  set (l := trim_left (List.length s) space_encs s) in *. cbv zeta.
  destruct (trim_left_spec rencs rencs_ne (List.length l) (rev l)) as (w' & H3 & H4 & _); [rewrite rev_length; lia|].
  fold rencs. set (r := trim_left (List.length l) rencs (rev l)) in *.
  destruct (rev_concat_rencs w' H3) as (w2 & H5 & H6).
  exists (List.concat w), (List.concat w2). split; [apply spaces_concat; eauto|]. split; [apply spaces_concat; eauto|].
  rewrite H2 at 1. f_equal. rewrite <- (rev_involutive l), H4, rev_app_distr, H6. reflexivity.
Qed.

Lemma trim_space_of w1 t w2 : spaces w1 -> spaces w2 -> no_start space_encs (t ++ w2) -> no_start rencs (rev t) ->
  trim_space (w1 ++ t ++ w2) = t.
Proof.
  intros H1 H2 Ht Hr. apply spaces_concat in H1 as (v1 & H1 & ->). apply spaces_concat in H2 as (v2 & H2 & ->).
  unfold trim_space. rewrite (trim_left_of space_encs v1 _ encs_pf encs_ne H1 Ht) by lia.
  rewrite rev_app_distr. destruct (rev_concat_encs v2 H2) as (v3 & H3 & E3). rewrite E3.
  fold rencs. rewrite (trim_left_of rencs v3 _ rencs_pf rencs_ne H3 Hr); [apply rev_involutive|].
  rewrite <- E3, !app_length, !rev_length. lia.
Qed.

(** *** Numbers *)

Lemma lax_num_ends lit : lax_num lit -> exists c t d (u : bytes), lit = c :: t /\ lit = (u ++ [d])%list /\ (digit c \/ c = 45) /\ digit d.
Proof.
  assert (L : forall x : bytes, x <> [] -> Forall digit x -> exists u d, x = u ++ [d] /\ digit d).
  { intros x Hx Hd. destruct (exists_last Hx) as (u & d & ->). exists u, d. split; [reflexivity|].
    apply Forall_app in Hd as [_ Hd]. now apply Forall_inv in Hd. }
  intros H. destruct H as [ip Hi _ _|ip [Hne Hd] _ _ _|neg ip fr fd ex e Hip Hcase _ Hfr Hex Hne _].
  - apply int_part_digits in Hi as [Hd Hne]. destruct (L _ Hne Hd) as (u & d & E & Hdd).
    destruct ip as [|c t]; [contradiction|]. exists c, t, d, u. refine (conj eq_refl (conj E (conj (or_introl _) Hdd))). now apply Forall_inv in Hd.
  - destruct (L _ Hne Hd) as (u & d & E & Hdd). exists 45, ip, d, (45 :: u). refine (conj eq_refl (conj _ (conj (or_intror eq_refl) Hdd))). now rewrite E.
  - assert (Q : exists u d, fr ++ ex = u ++ [d] /\ digit d).
    { destruct Hex as [|c d ? [Hn Hd]|c d ? [Hn Hd]|c d ? [Hn Hd]].
      - destruct Hfr as [|d [Hn Hd]]; [now elim Hne|]. destruct (L _ Hn Hd) as (u & x & -> & Hx).
        exists (46 :: u), x. split; [now rewrite app_nil_r|assumption].
      - destruct (L _ Hn Hd) as (u & x & -> & Hx). exists (fr ++ c :: u), x. split; [now rewrite <- app_assoc|assumption].
      - destruct (L _ Hn Hd) as (u & x & -> & Hx). exists (fr ++ c :: 43 :: u), x. split; [now rewrite <- app_assoc|assumption].
      - destruct (L _ Hn Hd) as (u & x & -> & Hx). exists (fr ++ c :: 45 :: u), x. split; [now rewrite <- app_assoc|assumption]. }
    destruct Q as (u & d & E & Hd).
    assert (H0 : exists c t, (if neg then [45] else []) ++ ip ++ fr ++ ex = c :: t /\ (digit c \/ c = 45)).
    { destruct neg; [exists 45; cbn; eauto|]. destruct ip as [|c t]; [now specialize (Hcase eq_refl)|].
      cbn. exists c. eexists. split; [reflexivity|]. left. now apply Forall_inv in Hip. }
    destruct H0 as (c & t & H0 & Hc). exists c, t, d, ((if neg then [45] else []) ++ ip ++ u).
    refine (conj H0 (conj _ (conj Hc Hd))). rewrite E, <- !app_assoc. reflexivity.
Qed.

Lemma num_byte_no_start c t : digit c \/ c = 45 -> no_start space_encs (c :: t) /\ no_start rencs (c :: t).
Proof.
  unfold digit. intros Hc. split; intros e u He Heq; unfold rencs, space_encs in He; cbn [map rev app In] in He;
    repeat (destruct He as [<-|He]; [injection Heq as Heq _; lia|]); destruct He.
Qed.

Lemma trim_lit s lit : spells s lit -> trim_space s = lit.
Proof.
  intros (w1 & w2 & H1 & H2 & Hl & ->). destruct (lax_num_ends lit Hl) as (c & t & d & u & E1 & E2 & Hc & Hd).
  apply trim_space_of; [assumption|assumption|..].
  - rewrite E1. cbn [app]. now apply num_byte_no_start.
  - rewrite E2, rev_app_distr. cbn [rev app]. apply num_byte_no_start. now left.
Qed.

Lemma parse_number_reach E b off v e r : parse_number E b off = Ok (v, e, r) -> r = (List.length b - e =? 0)%nat.
Proof.
  unfold parse_number. destruct (num_loop _ b off off nst0) as [[s idx]| | |]; cbn [rbind]; try discriminate.
  destruct (s_flt s).
  - destruct (s_dot s && negb (s_iad s)); [discriminate|].
    destruct (parse_float_result E b off idx); cbn [rbind]; try discriminate. now intros [= _ <- <-].
  - destruct (bget b off); cbn [rbind]; try discriminate.
    destruct ((0 <? s_int s) && (a =? 48)); [discriminate|].
    match goal with |- (if ?x then _ else _) = _ -> _ => destruct x end; [discriminate|].
    destruct (if s_neg s then parse_neg_result b off idx (s_int s) else parse_pos_result b off idx (s_int s));
      cbn [rbind]; try discriminate. now intros [= _ <- <-].
Qed.

Lemma q_num_loop_flt r : forall pos s sf src rest, s_flt s = true -> q_num_loop r pos s = Ok (sf, src, rest) -> s_flt sf = true.
Proof.
  induction r as [|c r IH]; intros pos s sf src rest Hs; cbn [q_num_loop]; [now intros [= <- _ _]|].
  destruct (num_step s c (pos =? 0)%nat (pos =? 1)%nat) as [o| | |] eqn:En; cbn [rbind]; try discriminate.
  destruct o as [s'|]; [|now intros [= <- _ _]].
  destruct (q_num_loop r (S pos) s') as [[[sf' src'] rest']| | |] eqn:El; cbn [rbind]; try discriminate.
  intros [= <- _ _]. eapply IH; [|exact El]. revert En. unfold num_step. rewrite Hs. cbn [negb].
  repeat match goal with |- context [if ?x then _ else _] => destruct x end; intros [= <-]; cbn; auto.
Qed.

Lemma parse_float_e c t : c = 101 \/ c = 69 -> parse_float (c :: t) = None.
Proof. intros [->| ->]; reflexivity. Qed.

(** What parsing a non-empty text as a whole number literal gives. *)
Lemma whole_number E b : b <> [] ->
  match (let* (v, _, reach) := parse_number E b 0 in if reach : bool then Ok v else Err EOther) with
  | Ok v => q_number E b = Ok (v, [])
  | Err _ => ~ lax_num b
  | _ => False
  end.
Proof.
  intros Hb. destruct b as [|c t]; [contradiction|].
  destruct (is_num_start c) eqn:Hc.
  - pose proof (parse_number_spec E (c :: t) 0 c t eq_refl Hc) as P.
    destruct (q_number E (c :: t)) as [[v rest]|e| |] eqn:Eq; try contradiction.
    + destruct P as (e & reach & n & src & H1 & -> & H2 & H3 & H4 & H5). rewrite H1. cbn [rbind].
      apply parse_number_reach in H1. destruct reach.
      * symmetry in H1. apply Nat.eqb_eq in H1. rewrite skipn_all2 in H2 by lia. now subst rest.
      * intros HL. destruct (lax_number_value E _ HL) as (n' & Hq & _). rewrite Eq in Hq. injection Hq as _ _ ->.
        symmetry in H1. apply Nat.eqb_neq in H1. apply (f_equal (@List.length Z)) in H2. rewrite skipn_length in H2. cbn in H2, H4, H1. lia.
    + rewrite P. cbn [rbind]. intros HL. destruct (lax_number_value E _ HL) as (n' & Hq & _). congruence.
  - assert (HnL : ~ lax_num (c :: t)).
    { intros HL. destruct (lax_num_ends _ HL) as (c' & t' & _ & _ & [= <- <-] & _ & Hd & _).
      unfold is_num_start, is_digit, digit in *. lia. }
    unfold parse_number. rewrite Nat.sub_0_r.
    pose proof (num_loop_spec (c :: t) 0 (c :: t) 0 nst0 eq_refl) as P. cbn [Nat.add] in P.
    destruct (q_num_loop (c :: t) 0 nst0) as [[[sf src] rest]|e| |] eqn:El; try contradiction; [|now rewrite P].
    destruct P as [-> HR]. cbn [rbind].
    assert (Cc : (c = 101 \/ c = 69) \/ (c <> 101 /\ c <> 69)) by lia.
    destruct Cc as [Ce|Cn].
    + assert (Hf : s_flt sf = true /\ exists src', src = c :: src').
      { revert El. cbn [q_num_loop]. change ((0 =? 0)%nat) with true. change ((0 =? 1)%nat) with false.
        assert (En : num_step nst0 c true false = Ok (Some {| s_neg := false; s_flt := true; s_exp := true; s_dot := false; s_iad := false; s_int := 0 |})).
        { destruct Ce as [->| ->]; reflexivity. }
        rewrite En. cbn [rbind].
        destruct (q_num_loop t 1 _) as [[[sf' src'] rest']| | |] eqn:El'; cbn [rbind]; try discriminate.
        intros [= <- <- <-]. split; [|eauto]. eapply q_num_loop_flt; [|exact El']. reflexivity. }
      destruct Hf as [-> (src' & ->)]. destruct (s_dot sf && negb (s_iad sf)); [assumption|].
      assert (Hsl : bslice (c :: t) 0 (List.length (c :: src')) = Ok (c :: src')).
      { rewrite HR. apply (bslice_app [] (c :: src') rest); reflexivity. }
      unfold parse_float_result. rewrite Hsl. cbn [rbind].
      rewrite parse_float_e by assumption. assumption.
    + assert (Hs : src = [] /\ sf = nst0).
      { revert El. cbn [q_num_loop]. change ((0 =? 0)%nat) with true. change ((0 =? 1)%nat) with false.
        unfold is_num_start, is_digit in Hc. unfold num_step.
        destruct (Z.eqb_spec c 48); [lia|]. destruct ((49 <=? c) && (c <=? 57)) eqn:H9; [lia|].
        destruct (Z.eqb_spec c 101); [lia|]. destruct (Z.eqb_spec c 69); [lia|]. cbn [orb].
        destruct (c =? 43); [discriminate|]. destruct (Z.eqb_spec c 45); [lia|].
        destruct (c =? 46); [discriminate|]. cbn [rbind]. now intros [= <- <- _]. }
      destruct Hs as [-> ->]. cbn [nst0 s_flt s_int s_neg List.length]. change (bget (c :: t) 0) with (Ok c). cbn [rbind].
      change (0 <? 0) with false. cbn [andb].
      change ((0 - 0 =? 1)%nat) with false. cbn [andb]. unfold parse_pos_result.
      change ((20 <? 0 - 0)%nat) with false. change ((0 - 0 =? 20)%nat) with false. cbn [andb].
      change (bslice (c :: t) 0 0) with (Ok (@nil Z)). cbn [rbind List.length Nat.sub Nat.eqb]. assumption.
Qed.

Lemma number_of_text_spec E s : ~ spaces s ->
  (exists lit n, spells s lit /\ lax_value lit n /\ number_of_text E s = Ok (VNum n lit)) \/
  ((forall lit, ~ spells s lit) /\ exists e, number_of_text E s = Err e).
Proof.
  intros Hs. unfold number_of_text. destruct (trim_space_split s) as (w1 & w2 & H1 & H2 & Heq).
  set (b := trim_space s) in *.
  assert (Hb : b <> []). { intros Hb. rewrite Hb in Heq. cbn in Heq. apply Hs. rewrite Heq. now apply spaces_app. }
  pose proof (whole_number E b Hb) as P.
  destruct (let* (v, _, reach) := parse_number E b 0 in if reach : bool then Ok v else Err EOther) as [v|e| |]; try contradiction.
  - left. pose proof (q_number_lax _ _ _ P) as HL. destruct (lax_number_value E b HL) as (n & Hq & Hv).
    rewrite P in Hq. injection Hq as ->. exists b, n. repeat split; [|assumption]. exists w1, w2. auto.
  - right. split; [|eauto]. intros lit Hl. apply trim_lit in Hl as E1. destruct Hl as (_ & _ & _ & _ & HL & _).
    apply P. unfold b. now rewrite E1.
Qed.
