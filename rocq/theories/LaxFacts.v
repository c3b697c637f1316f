(** Facts about RFC 8259 texts, used to show that some texts are none. *)
From Verif Require Import Base Utf8 Float64 Value Scan Unmarshal Pure Opt Marshal ListLemmas SpecJson SpecValue SpecLax SpecText
  Utf8Proof EscapeProof UnmarshalProof ValueLemmas NumProof ParseComplete ParseFacts LaxNum LaxParse RoundTrip.

Definition text_byte (c : Z) : Prop := 32 <= c \/ is_ws c.

Lemma Forall_app_intro {A} (P : A -> Prop) l l' : Forall P l -> Forall P l' -> Forall P (l ++ l').
Proof. intros. apply Forall_app. auto. Qed.

Lemma ws_text w : ws w -> Forall text_byte w.
Proof. apply Forall_impl. unfold text_byte. auto. Qed.
Lemma digit_text d : Forall digit d -> Forall text_byte d.
Proof. apply Forall_impl. unfold digit, text_byte. intros; lia. Qed.
Lemma utf8_text cp : scalar cp -> 32 <= cp -> Forall text_byte (utf8 cp).
Proof.
  intros Hs H. unfold utf8, text_byte. unfold scalar in Hs.
  destruct (cp <? 128); [repeat constructor; lia|]. destruct (cp <? 2048); [|destruct (cp <? 65536)];
    repeat (apply Forall_cons; [left; Z.div_mod_to_equations; lia|]); constructor.
Qed.
Lemma hex_text h v : hex4d h v -> Forall text_byte h.
Proof.
  intros H. inversion H as [a b c d ? ? ? ? Ha Hb Hc Hd]; subst.
  repeat (apply Forall_cons; [left; match goal with |- 32 <= ?x => match goal with Hx : hexd x _ |- _ => inversion Hx; lia end end|]). constructor.
Qed.
Lemma str_body_text t s : str_body t s -> Forall text_byte t.
Proof.
  induction 1 as [|cp t s Hs H32 _ _ _ IH|c d t s He _ IH|h cp t s Hh _ _ IH|h1 h2 hi lo t s H1 _ H2 _ _ IH].
  - constructor.
  - apply Forall_app_intro; [now apply utf8_text|assumption].
  - constructor; [left; lia|]. constructor; [left; inversion He; lia|assumption].
  - constructor; [left; lia|]. constructor; [left; lia|]. apply Forall_app_intro; [eapply hex_text; eassumption|assumption].
  - constructor; [left; lia|]. constructor; [left; lia|]. apply Forall_app_intro; [eapply hex_text; eassumption|].
    constructor; [left; lia|]. constructor; [left; lia|]. apply Forall_app_intro; [eapply hex_text; eassumption|assumption].
Qed.
Lemma int_part_digits ip : int_part ip -> Forall digit ip.
Proof. destruct 1; constructor; auto; unfold digit; lia. Qed.
Lemma num_lit_bytes lit neg ip fd e i : num_lit lit neg ip fd e i -> Forall number_byte lit.
Proof.
  assert (D : forall l, Forall digit l -> Forall number_byte l) by (intros l; apply Forall_impl; unfold number_byte; auto).
  destruct 1 as [neg ip fr fd ex e Hi Hf He]. repeat apply Forall_app_intro.
  - destruct neg; [|constructor]. constructor; [unfold number_byte; auto|constructor].
  - now apply D, int_part_digits.
  - destruct Hf as [|d [_ Hd]]; [constructor|]. constructor; [unfold number_byte; auto|auto].
  - destruct He as [|c d Hc [_ Hd]|c d Hc [_ Hd]|c d Hc [_ Hd]]; [constructor|..];
      repeat first [apply D; assumption | apply Forall_cons; [unfold number_byte; tauto|]].
Qed.
Lemma number_text lit : Forall number_byte lit -> Forall text_byte lit.
Proof. apply Forall_impl. unfold number_byte, digit, text_byte. intros; lia. Qed.

Ltac text_tac := repeat first
  [ assumption | apply Forall_app_intro | (apply Forall_cons; [left; lia|])
  | (apply Forall_nil) | (apply ws_text; assumption) | (eapply str_body_text; eassumption) ].

Lemma json_text :
  (forall t j, jval t j -> Forall text_byte t) /\ (forall t l, jelems t l -> Forall text_byte t) /\
  (forall t l, jmembers t l -> Forall text_byte t).
Proof.
  apply json_mutind; intros; text_tac; cbn; text_tac.
  eapply number_text, num_lit_bytes; eassumption.
Qed.
Lemma doc_text b j : json_doc b j -> Forall text_byte b.
Proof. intros (w1 & t & w2 & -> & H1 & Hj & H2). text_tac. eapply (proj1 json_text); eassumption. Qed.

(** First bytes of values. *)
Lemma doc_head c b j : json_doc (c :: b) j -> ~ is_ws c -> exists t w, c :: b = t ++ w /\ jval t j /\ ws w.
Proof.
  intros (w1 & t & w2 & E & H1 & Hj & H2) Hc. destruct w1 as [|d w1]; [exists t, w2; auto|].
  cbn in E. injection E as -> E. inversion H1; contradiction.
Qed.
Lemma num_lit_head c t neg ip fd e i : num_lit (c :: t) neg ip fd e i -> c = 45 \/ digit c.
Proof.
  intros H. apply num_lit_bytes in H as Hb. inversion H as [neg0 ip0 fr fd0 ex e0 Hi Hf He E1]; subst.
  destruct neg; cbn in E1; [injection E1 as <- _; auto|]. right. destruct Hi; injection E1 as <- _; unfold digit; lia.
Qed.

(** What does not start as a JSON value is no JSON text. *)
Definition starts_value (c : Z) : Prop :=
  c = 110 \/ c = 116 \/ c = 102 \/ c = 34 \/ c = 91 \/ c = 123 \/ c = 45 \/ digit c.
Lemma jval_head t j : jval t j -> exists c r, t = c :: r /\ starts_value c.
Proof.
  unfold starts_value, digit. destruct 1 as [| | |lit neg ip fd e i Hn| | | | |]; try (eexists; eexists; split; [cbv; reflexivity|]; lia).
  destruct lit as [|c r].
  - exfalso. remember [] as l0 eqn:E0 in Hn. destruct Hn as [neg ip fr fd ex e Hi Hf He]. destruct neg; [discriminate|]. destruct Hi; discriminate.
  - exists c, r. split; [reflexivity|]. destruct (num_lit_head _ _ _ _ _ _ _ Hn) as [H|H]; unfold digit in *; lia.
Qed.

(** Quotes inside strings are escaped. *)
Lemma utf8_byte cp c : scalar cp -> In c (utf8 cp) -> c < 128 -> c = cp.
Proof. intros H1 H2. now apply utf8_byte_ascii. Qed.
Lemma str_body_quote t s : str_body t s -> ~ In 92 t -> ~ In 34 t.
Proof.
  induction 1 as [|cp t s Hs H32 Hq Hb _ IH|c d t s He _ IH|h cp t s Hh _ _ IH|h1 h2 hi lo t s H1 _ H2 _ _ IH]; intros Hn Hi.
  - contradiction.
  - apply in_app_or in Hi as [Hi|Hi].
    + apply utf8_byte in Hi; [congruence|assumption|lia].
    + apply IH; [|assumption]. intros H. apply Hn. apply in_or_app. auto.
  - apply Hn. now left.
  - apply Hn. now left.
  - apply Hn. now left.
Qed.

(** *** C11: texts that are accepted and no JSON *)

Lemma ws_last_no w c : ~ is_ws c -> forall t r, t ++ w = r ++ [c] -> ws w -> w = [].
Proof.
  intros Hc t r E H. destruct w as [|x w] using rev_ind; [reflexivity|]. rewrite app_assoc in E. apply app_inj_tail in E as [_ ->].
  apply Forall_app in H as [_ H]. inversion H; contradiction.
Qed.

Lemma not_json_missing_comma j : ~ json_doc (bs "[1 2]") j.
Proof.
  intros H. match type of H with json_doc ?b _ => let b' := eval vm_compute in b in change b with b' in H end.
  apply doc_head in H as (t & w & E & Hj & Hw); [|unfold is_ws; lia].
  assert (w = []) by (eapply (ws_last_no w 93); [unfold is_ws; lia|symmetry; exact (E : [91; 49; 32; 50] ++ [93] = _)|assumption]).
  subst w. rewrite app_nil_r in E. subst t.
  inversion Hj as [| | |lit neg ip fd e i Hn| |w Hw' E1|t l He E1| |]; subst.
  - apply num_lit_head in Hn. unfold digit in Hn. lia.
  - destruct w as [|a w]; [discriminate|]. injection E1 as -> _. inversion Hw' as [|? ? H1]. unfold is_ws in H1. lia.
  - assert (t = [49; 32; 50]) by (change (t ++ [93] = [49; 32; 50] ++ [93]) in E1; now apply app_inj_tail in E1). subst t. clear E1.
    inversion He as [w1 t w2 j0 H1 Ht H2 E2|w1 t w2 j0 te l0 H1 Ht H2 Hte E2]; subst.
    + destruct w1 as [|a w1]; [|injection E2 as -> _; inversion H1 as [|? ? Hx]; unfold is_ws in Hx; lia].
      assert (w2 = []) by (eapply (ws_last_no w2 50); [unfold is_ws; lia|exact (E2 : t ++ w2 = [49; 32] ++ [50])|assumption]).
      subst w2. cbn in E2. rewrite app_nil_r in E2. subst t. apply jval_head in Ht as Hd.
      inversion Ht as [| | |lit neg ip fd e i Hn| | | | |]. apply num_lit_bytes in Hn.
      inversion Hn as [|? ? _ H5]; subst. inversion H5 as [|? ? H6]; subst. unfold number_byte, digit in H6. lia.
    + assert (Hi : In 44 [49; 32; 50]) by (rewrite <- E2; rewrite !in_app_iff; cbn; auto).
      cbn in Hi. lia.
Qed.

(** Bytes of a text that are neither printable nor white space. *)
Lemma not_json_byte b c : In c b -> ~ text_byte c -> forall j, ~ json_doc b j.
Proof. intros Hi Hc j H. apply doc_text in H. rewrite Forall_forall in H. auto. Qed.

Lemma not_json_two_members j : ~ json_doc (bs "{""a"":1""c"":2}") j.
Proof.
  intros H. match type of H with json_doc ?b _ => let b' := eval vm_compute in b in change b with b' in H end.
  apply doc_head in H as (t & w & E & Hj & Hw); [|unfold is_ws; lia].
  assert (w = []) by (eapply (ws_last_no w 125); [unfold is_ws; lia|symmetry; exact (E : [123; 34; 97; 34; 58; 49; 34; 99; 34; 58; 50] ++ [125] = _)|assumption]).
  subst w. rewrite app_nil_r in E. subst t.
  inversion Hj as [| | |lit neg ip fd e i Hn| | | |w Hw' E1|t l He E1]; subst.
  - apply num_lit_head in Hn. unfold digit in Hn. lia.
  - destruct w as [|a w]; [discriminate|]. injection E1 as -> _. inversion Hw' as [|? ? H1]. unfold is_ws in H1. lia.
  - assert (t = [34; 97; 34; 58; 49; 34; 99; 34; 58; 50]) by (change (t ++ [125] = [34; 97; 34; 58; 49; 34; 99; 34; 58; 50] ++ [125]) in E1; now apply app_inj_tail in E1). subst t. clear E1.
    inversion He as [w1 tk k w2 w3 t w4 j0 H1 Hk H2 H3 Ht H4 E2|w1 tk k w2 w3 t w4 j0 te l0 H1 Hk H2 H3 Ht H4 Hte E2]; subst.
    + destruct w1 as [|a w1]; [|injection E2 as -> _; inversion H1 as [|? ? Hx]; unfold is_ws in Hx; lia].
      cbn in E2. injection E2 as E2.
      assert (Hq : ~ In 34 tk).
      { apply str_body_quote with k; [assumption|]. intros Hi.
        assert (Hi' : In 92 [97; 34; 58; 49; 34; 99; 34; 58; 50]) by (rewrite <- E2; apply in_or_app; auto). cbn in Hi'. lia. }
      destruct tk as [|a [|b tk]]; [discriminate| |injection E2 as _ -> _; apply Hq; right; now left].
      injection E2 as -> E2. destruct w2 as [|a w2]; [|injection E2 as -> _; inversion H2 as [|? ? Hx]; unfold is_ws in Hx; lia].
      cbn in E2. injection E2 as E2. destruct w3 as [|a w3]; [|injection E2 as -> _; inversion H3 as [|? ? Hx]; unfold is_ws in Hx; lia].
      cbn in E2. assert (w4 = []) by (eapply (ws_last_no w4 50); [unfold is_ws; lia|exact (E2 : t ++ w4 = [49; 34; 99; 34; 58] ++ [50])|assumption]).
      subst w4. rewrite app_nil_r in E2. subst t. inversion Ht as [| | |lit neg ip fd e i Hn| | | | |].
      apply num_lit_bytes in Hn. inversion Hn as [|? ? _ H5]; subst. inversion H5 as [|? ? H6]; subst. unfold number_byte, digit in H6. lia.
    + assert (Hi : In 44 ([34; 97; 34; 58; 49; 34; 99; 34; 58; 50])) by (rewrite <- E2; rewrite in_app_iff; cbn; rewrite in_app_iff; cbn; rewrite in_app_iff; cbn; rewrite !in_app_iff; cbn; auto 20).
      cbn in Hi. lia.
Qed.
