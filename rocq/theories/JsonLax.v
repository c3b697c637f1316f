(** A text that is JSON and accepted has the same tree in both grammars. *)
From Verif Require Import Base Float64 Value Scan Unmarshal Pure ListLemmas SpecJson SpecValue SpecLax
  UnmarshalProof ValueLemmas NumProof ParseComplete LaxNum LaxParse MarshalProof.
From Verif Require Import LaxFacts.

Lemma lax_num_bytes lit : lax_num lit -> Forall number_byte lit.
Proof.
  assert (D : forall l, Forall digit l -> Forall number_byte l) by (intros l; apply Forall_impl; unfold number_byte; auto).
  intros [ip Hi _ _|ip [_ Hd] _ _ _|neg ip fr fd ex e Hip Hc _ Hfr Hex _ _].
  - apply D, int_part_digits, Hi.
  - constructor; [unfold number_byte; auto|now apply D].
  - apply Forall_app_intro; [destruct neg; constructor; [unfold number_byte; auto|constructor]|].
    apply Forall_app_intro; [now apply D|]. apply Forall_app_intro.
    + destruct Hfr as [|d [_ Hd]]; constructor; [unfold number_byte; auto|now apply D].
    + destruct Hex as [|c d Hc' [_ Hd]|c d Hc' [_ Hd]|c d Hc' [_ Hd]]; [constructor|..];
        repeat (constructor; [unfold number_byte; lia|]); now apply D.
Qed.

Lemma lval_head t j : lval t j -> exists c r, t = c :: r /\ starts_value c /\
  match j with
  | JNull => c = 110 | JBool true => c = 116 | JBool false => c = 102
  | JNum _ => c = 45 \/ digit c | JStr _ => c = 34 | JArr _ => c = 91 | JObj _ => c = 123
  end.
Proof.
  unfold starts_value. destruct 1 as [| | |lit HL|t s|t l|t l]; try (eexists; eexists; split; [cbv; reflexivity|]; split; [lia|reflexivity]).
  - destruct (lax_num_head lit HL) as (c & t' & -> & Hc). exists c, t'. split; [reflexivity|].
    assert (c = 45 \/ digit c) by (unfold is_num_start, is_digit, digit in *; lia). split; [unfold digit in *; lia|assumption].
Qed.

Lemma starts_not_blank c : starts_value c -> ~ is_lblank c.
Proof. unfold starts_value, is_lblank, is_ws, digit. lia. Qed.

Lemma blanks_eq w w' c c' r r' : lblanks w -> lblanks w' -> ~ is_lblank c -> ~ is_lblank c' ->
  w ++ c :: r = w' ++ c' :: r' -> w = w' /\ c = c' /\ r = r'.
Proof.
  intros H. revert w'. induction H as [|x w Hx Hw IH]; intros w' H' N N' E.
  - destruct w' as [|y w']; cbn in E; injection E as -> ->; [auto|]. inversion H'; subst. contradiction.
  - destruct w' as [|y w']; cbn in E; injection E as -> E; [contradiction|]. inversion H'; subst.
    destruct (IH w' ltac:(assumption) N N' E) as (-> & -> & ->). auto.
Qed.

Lemma str_same t s t' s' r r' : str_body t s -> lstr t' s' -> t ++ 34 :: r = t' ++ 34 :: r' -> t = t' /\ s = s' /\ r = r'.
Proof.
  intros H H' E. pose proof (str_body_app_lstr t s H [] [] LS_nil) as H1. rewrite !app_nil_r in H1.
  set (f := S (List.length t + List.length t')).
  pose proof (q_str_lax t s H1 f r ltac:(lia)) as A. pose proof (q_str_lax t' s' H' f r' ltac:(lia)) as B.
  rewrite E, B in A. injection A as <- <-. apply app_inv_tail in E. auto.
Qed.

(** Runs of number bytes. *)
Lemma run_eq a b r r' : Forall number_byte a -> Forall number_byte b ->
  (match r with c :: _ => ~ number_byte c | [] => True end) -> (match r' with c :: _ => ~ number_byte c | [] => True end) ->
  a ++ r = b ++ r' -> a = b /\ r = r'.
Proof.
  intros H. revert b. induction H as [|x a Hx Ha IH]; intros b Hb N N' E.
  - destruct b as [|y b]; [auto|]. cbn in E. subst r. inversion Hb; subst. contradiction.
  - destruct b as [|y b]; cbn in E.
    + subst r'. contradiction.
    + injection E as -> E. inversion Hb; subst. destruct (IH b ltac:(assumption) N N' E) as [-> ->]. auto.
Qed.

Lemma ws_blanks w : ws w -> lblanks w.
Proof. apply Forall_impl. intros c H. now left. Qed.

Ltac blanks := repeat match goal with H : ws ?w |- _ => apply ws_blanks in H end.

(** Which kind of value the first byte says. *)
Definition kind (j : jv) : Z :=
  match j with JNull => 0 | JBool true => 1 | JBool false => 2 | JNum _ => 3 | JStr _ => 4 | JArr _ => 5 | JObj _ => 6 end.
Definition kind_of (c : Z) : Z :=
  if c =? 110 then 0 else if c =? 116 then 1 else if c =? 102 then 2 else if c =? 34 then 4 else if c =? 91 then 5
  else if c =? 123 then 6 else 3.
Lemma lval_kind c t j : lval (c :: t) j -> kind_of c = kind j.
Proof.
  intros H. destruct (lval_head _ _ H) as (c' & r & E & _ & K). injection E as <- <-. unfold kind_of, kind, digit in *.
  destruct j as [|[]| | | |]; subst; try reflexivity.
  repeat match goal with |- context [?a =? ?b] => destruct (Z.eqb_spec a b); [lia|] end. reflexivity.
Qed.
Lemma lval_first t j x r r' : lval t j -> x :: r = t ++ r' -> exists t0, t = x :: t0 /\ kind_of x = kind j.
Proof.
  intros H E. destruct (lval_head _ _ H) as (c & t0 & -> & _). cbn in E. injection E as <- _.
  exists t0. split; [reflexivity|]. eapply lval_kind. exact H.
Qed.

Lemma lval_nonblank t j r w c x : lval t j -> lblanks w -> t ++ r = w ++ c :: x -> w = [] .
Proof.
  intros H B E. destruct (lval_head _ _ H) as (d & t0 & -> & S & _). apply starts_not_blank in S.
  destruct w as [|y w]; [reflexivity|]. cbn in E. injection E as -> _. inversion B; subst. contradiction.
Qed.

(** The rest of the elements after the blanks. *)
Lemma lelems_cases w c r t l r' : lblanks w -> ~ is_lblank c -> w ++ c :: r = t ++ 93 :: r' -> lelems t l ->
  (c = 93 /\ t = w /\ l = [] /\ r = r') \/
  (c = 44 /\ exists t0, t = w ++ 44 :: t0 /\ lelems t0 l /\ r = t0 ++ 93 :: r') \/
  (starts_value c /\ exists t0 j te l0, t = w ++ t0 ++ te /\ l = j :: l0 /\ lval t0 j /\ after_num j te /\ lelems te l0 /\
     c :: r = t0 ++ te ++ 93 :: r').
Proof.
  intros B N E H. destruct H as [w' B'|w' t' l' B' H'|w' t0 j te l' B' Hv Ha He].
  - left. destruct (blanks_eq w w' c 93 r r' B B' N ltac:(unfold is_lblank, is_ws; lia) E) as (-> & -> & ->). auto.
  - right. left. rewrite <- app_assoc in E. cbn [app] in E.
    destruct (blanks_eq w w' c 44 r _ B B' N ltac:(unfold is_lblank, is_ws; lia) E) as (-> & -> & ->).
    split; [reflexivity|]. exists t'. auto.
  - right. right. destruct (lval_head _ _ Hv) as (d & t1 & -> & S & _). rewrite <- !app_assoc in E. cbn [app] in E.
    destruct (blanks_eq w w' c d r _ B B' N (starts_not_blank _ S) E) as (-> & -> & ->).
    split; [exact S|]. exists (d :: t1), j, te, l'. auto 10.
Qed.

Lemma lmembers_cases w c r t l r' : lblanks w -> ~ is_lblank c -> w ++ c :: r = t ++ 125 :: r' -> lmembers t l ->
  (c = 125 /\ t = w /\ l = [] /\ r = r') \/
  (c = 44 /\ exists t0, t = w ++ 44 :: t0 /\ lmembers t0 l /\ r = t0 ++ 125 :: r') \/
  (c = 34 /\ exists tk k w2 w3 t0 j te l0, t = w ++ 34 :: tk ++ 34 :: w2 ++ 58 :: w3 ++ t0 ++ te /\ l = (k, j) :: l0 /\
     lstr tk k /\ lblanks w2 /\ lblanks w3 /\ lval t0 j /\ after_num j te /\ lmembers te l0 /\
     r = tk ++ 34 :: w2 ++ 58 :: w3 ++ t0 ++ te ++ 125 :: r').
Proof.
  intros B N E H. destruct H as [w' B'|w' t' l' B' H'|w' tk k w2 w3 t0 j te l' B' Hk B2 B3 Hv Ha He].
  - left. destruct (blanks_eq w w' c 125 r r' B B' N ltac:(unfold is_lblank, is_ws; lia) E) as (-> & -> & ->). auto.
  - right. left. rewrite <- app_assoc in E. cbn [app] in E.
    destruct (blanks_eq w w' c 44 r _ B B' N ltac:(unfold is_lblank, is_ws; lia) E) as (-> & -> & ->).
    split; [reflexivity|]. exists t'. auto.
  - right. right. repeat (rewrite <- app_assoc in E; cbn [app] in E).
    destruct (blanks_eq w w' c 34 r _ B B' N ltac:(unfold is_lblank, is_ws; lia) E) as (-> & -> & ->).
    split; [reflexivity|]. exists tk, k, w2, w3, t0, j, te, l'. auto 15.
Qed.

Lemma jval_first t j : jval t j -> exists c r, t = c :: r /\ ~ is_lblank c /\ c <> 93 /\ c <> 44 /\ c <> 125.
Proof.
  intros H. destruct (jval_head t j H) as (c & r & -> & S). exists c, r. split; [reflexivity|].
  split; [now apply starts_not_blank|]. unfold starts_value, digit in S. lia.
Qed.

Lemma nb c : c = 93 \/ c = 44 \/ c = 125 \/ c = 34 \/ c = 58 -> ~ is_lblank c.
Proof. unfold is_lblank, is_ws. lia. Qed.
Lemma nn c w r : c = 93 \/ c = 44 \/ c = 125 -> lblanks w -> forall j, after_num j (w ++ c :: r).
Proof.
  intros H B j. destruct j; try exact I. destruct w as [|x w]; cbn.
  - unfold number_byte, digit. lia.
  - inversion B as [|? ? B1 _]; subst. unfold number_byte, digit, is_lblank, is_ws in *. lia.
Qed.

Lemma json_same :
  (forall t j, jval t j -> forall t' j' r r', lval t' j' -> t ++ r = t' ++ r' -> after_num j r -> after_num j' r' ->
     t = t' /\ j = j' /\ r = r') /\
  (forall t l, jelems t l -> forall t' l' r r', lelems t' l' -> t ++ 93 :: r = t' ++ 93 :: r' -> t = t' /\ l = l' /\ r = r') /\
  (forall t l, jmembers t l -> forall t' l' r r', lmembers t' l' -> t ++ 125 :: r = t' ++ 125 :: r' -> t = t' /\ l = l' /\ r = r').
Proof.
  apply json_mutind.
  - intros t' j' r r' H E _ _. destruct (lval_first _ _ _ _ _ H E) as (t0 & -> & K).
    destruct j' as [|[]| | | |]; try discriminate K. inversion H; subst. apply app_inv_head in E. auto.
  - intros t' j' r r' H E _ _. destruct (lval_first _ _ _ _ _ H E) as (t0 & -> & K).
    destruct j' as [|[]| | | |]; try discriminate K. inversion H; subst. apply app_inv_head in E. auto.
  - intros t' j' r r' H E _ _. destruct (lval_first _ _ _ _ _ H E) as (t0 & -> & K).
    destruct j' as [|[]| | | |]; try discriminate K. inversion H; subst. apply app_inv_head in E. auto.
  - intros lit neg ip fd e i HL t' j' r r' H E A A'.
    pose proof (num_lit_bytes _ _ _ _ _ _ HL) as N.
    destruct lit as [|c lit]; [apply JT_num in HL; destruct (jval_head _ _ HL) as (? & ? & X & _); discriminate|].
    destruct (num_lit_head _ _ _ _ _ _ _ HL) as [Hc|Hc].
    all: destruct (lval_first _ _ _ _ _ H E) as (t0 & -> & K).
    all: assert (K' : kind_of c = 3) by (unfold kind_of, digit in *; repeat match goal with |- context [?a =? ?b] => destruct (Z.eqb_spec a b); [lia|] end; reflexivity).
    all: rewrite K' in K; destruct j' as [|[]| | | |]; try discriminate K; inversion H; subst.
    all: destruct (run_eq _ _ r r' N (lax_num_bytes _ ltac:(eassumption)) A A' E) as [X ->]; rewrite X; auto.
  - intros t s Hs t' j' r r' H E _ _. destruct (lval_first _ _ _ _ _ H E) as (t0 & -> & K).
    destruct j' as [|[]| | | |]; try discriminate K. inversion H as [| | | |t1 s1 Hs1| |]; subst.
    cbn [app] in E. injection E as E. rewrite <- !app_assoc in E. cbn [app] in E.
    destruct (str_same _ _ _ _ _ _ Hs Hs1 E) as (-> & -> & ->). auto.
  - intros w Hw t' j' r r' H E _ _. destruct (lval_first _ _ _ _ _ H E) as (t0 & -> & K).
    destruct j' as [|[]| | | |]; try discriminate K. inversion H as [| | | | |t1 s1 Hs1|]; subst.
    cbn [app] in E. injection E as E. rewrite <- !app_assoc in E. cbn [app] in E. blanks.
    destruct (lelems_cases w 93 r t1 _ r' Hw (nb 93 ltac:(auto)) E Hs1) as [(_ & -> & -> & ->)|[(X & _)|(X & _)]]; [auto|discriminate|].
    exfalso. unfold starts_value, digit in X. lia.
  - intros t l Ht IH t' j' r r' H E _ _. destruct (lval_first _ _ _ _ _ H E) as (t0 & -> & K).
    destruct j' as [|[]| | | |]; try discriminate K. inversion H as [| | | | |t1 s1 Hs1|]; subst.
    cbn [app] in E. injection E as E. rewrite <- !app_assoc in E. cbn [app] in E.
    destruct (IH _ _ _ _ Hs1 E) as (-> & -> & ->). auto.
  - intros w Hw t' j' r r' H E _ _. destruct (lval_first _ _ _ _ _ H E) as (t0 & -> & K).
    destruct j' as [|[]| | | |]; try discriminate K. inversion H as [| | | | | |t1 s1 Hs1]; subst.
    cbn [app] in E. injection E as E. rewrite <- !app_assoc in E. cbn [app] in E. blanks.
    destruct (lmembers_cases w 125 r t1 _ r' Hw (nb 125 ltac:(auto)) E Hs1) as [(_ & -> & -> & ->)|[(X & _)|(X & _)]]; [auto|discriminate|discriminate].
  - intros t l Ht IH t' j' r r' H E _ _. destruct (lval_first _ _ _ _ _ H E) as (t0 & -> & K).
    destruct j' as [|[]| | | |]; try discriminate K. inversion H as [| | | | | |t1 s1 Hs1]; subst.
    cbn [app] in E. injection E as E. rewrite <- !app_assoc in E. cbn [app] in E.
    destruct (IH _ _ _ _ Hs1 E) as (-> & -> & ->). auto.
  - (* last element *)
    intros w1 t w2 j H1 Hj IH H2 t' l' r r' H E. blanks.
    destruct (jval_first t j Hj) as (c & t1 & -> & N & N93 & N44 & _).
    rewrite <- !app_assoc in E. cbn [app] in E.
    destruct (lelems_cases w1 c _ t' l' r' H1 N E H) as [(X & _)|[(X & _)|(_ & t0 & j0 & te & l0 & -> & -> & Hv & Ha & He & E')]]; [congruence|congruence|].
    change (c :: t1 ++ w2 ++ 93 :: r) with ((c :: t1) ++ w2 ++ 93 :: r) in E'.
    destruct (IH _ _ _ _ Hv E') as (<- & <- & E''); [now apply nn; auto|apply after_num_te; [exact Ha|unfold number_byte, digit; lia]|].
    destruct (lelems_cases w2 93 r te l0 r' H2 (nb 93 ltac:(auto)) E'' He) as [(_ & -> & -> & ->)|[(X & _)|(X & _)]]; [auto|discriminate|].
    exfalso. unfold starts_value, digit in X. lia.
  - intros w1 t w2 j te l H1 Hj IH H2 Hte IHe t' l' r r' H E. blanks.
    destruct (jval_first t j Hj) as (c & t1 & -> & N & N93 & N44 & _).
    repeat (rewrite <- app_assoc in E; cbn [app] in E).
    destruct (lelems_cases w1 c _ t' l' r' H1 N E H) as [(X & _)|[(X & _)|(_ & t0 & j0 & te' & l0 & -> & -> & Hv & Ha & He & E')]]; [congruence|congruence|].
    change (c :: t1 ++ w2 ++ 44 :: te ++ 93 :: r) with ((c :: t1) ++ w2 ++ 44 :: te ++ 93 :: r) in E'.
    destruct (IH _ _ _ _ Hv E') as (<- & <- & E''); [now apply nn; auto|apply after_num_te; [exact Ha|unfold number_byte, digit; lia]|].
    destruct (lelems_cases w2 44 _ te' l0 r' H2 (nb 44 ltac:(auto)) E'' He) as [(X & _)|[(_ & t2 & -> & Ht2 & E2)|(X & _)]]; [discriminate| |].
    + destruct (IHe _ _ _ _ Ht2 E2) as (-> & -> & ->). auto.
    + exfalso. unfold starts_value, digit in X. lia.
  - (* last member *)
    intros w1 tk k w2 w3 t w4 j H1 Hk H2 H3 Hj IH H4 t' l' r r' H E. blanks.
    repeat (rewrite <- app_assoc in E; cbn [app] in E).
    destruct (lmembers_cases w1 34 _ t' l' r' H1 (nb 34 ltac:(auto)) E H)
      as [(X & _)|[(X & _)|(_ & tk' & k' & w2' & w3' & t0 & j0 & te & l0 & -> & -> & Hk' & B2 & B3 & Hv & Ha & He & E')]]; [discriminate|discriminate|].
    destruct (str_same _ _ _ _ _ _ Hk Hk' E') as (-> & -> & E2).
    destruct (blanks_eq w2 w2' 58 58 _ _ H2 B2 (nb 58 ltac:(auto)) (nb 58 ltac:(auto)) E2) as (-> & _ & E3).
    destruct (jval_first t j Hj) as (c & t1 & -> & N & N93 & N44 & _).
    destruct (lval_head _ _ Hv) as (d & t2 & -> & S & _). cbn [app] in E3.
    destruct (blanks_eq w3 w3' c d _ _ H3 B3 N (starts_not_blank _ S) E3) as (-> & -> & E4).
    destruct (IH (d :: t2) j0 (w4 ++ 125 :: r) (te ++ 125 :: r') Hv) as (<- & <- & E5);
      [cbn; now rewrite E4|now apply nn; auto|apply after_num_te; [exact Ha|unfold number_byte, digit; lia]|].
    destruct (lmembers_cases w4 125 r te l0 r' H4 (nb 125 ltac:(auto)) E5 He) as [(_ & -> & -> & ->)|[(X & _)|(X & _)]]; [auto|discriminate|discriminate].
  - intros w1 tk k w2 w3 t w4 j tm l H1 Hk H2 H3 Hj IH H4 Htm IHm t' l' r r' H E. blanks.
    repeat (rewrite <- app_assoc in E; cbn [app] in E).
    destruct (lmembers_cases w1 34 _ t' l' r' H1 (nb 34 ltac:(auto)) E H)
      as [(X & _)|[(X & _)|(_ & tk' & k' & w2' & w3' & t0 & j0 & te & l0 & -> & -> & Hk' & B2 & B3 & Hv & Ha & He & E')]]; [discriminate|discriminate|].
    destruct (str_same _ _ _ _ _ _ Hk Hk' E') as (-> & -> & E2).
    destruct (blanks_eq w2 w2' 58 58 _ _ H2 B2 (nb 58 ltac:(auto)) (nb 58 ltac:(auto)) E2) as (-> & _ & E3).
    destruct (jval_first t j Hj) as (c & t1 & -> & N & N93 & N44 & _).
    destruct (lval_head _ _ Hv) as (d & t2 & -> & S & _). cbn [app] in E3.
    destruct (blanks_eq w3 w3' c d _ _ H3 B3 N (starts_not_blank _ S) E3) as (-> & -> & E4).
    destruct (IH (d :: t2) j0 (w4 ++ 44 :: tm ++ 125 :: r) (te ++ 125 :: r') Hv) as (<- & <- & E5);
      [cbn; now rewrite E4|now apply nn; auto|apply after_num_te; [exact Ha|unfold number_byte, digit; lia]|].
    destruct (lmembers_cases w4 44 _ te l0 r' H4 (nb 44 ltac:(auto)) E5 He) as [(X & _)|[(_ & t3 & -> & Ht3 & E6)|(X & _)]]; [discriminate| |discriminate].
    destruct (IHm _ _ _ _ Ht3 E6) as (-> & -> & ->). auto.
Qed.

Lemma blank_tail w j : lblanks w -> after_num j w.
Proof.
  intros B. destruct j; try exact I. destruct w as [|x w]; [exact I|]. cbn.
  inversion B as [|? ? B1 _]; subst. unfold number_byte, digit, is_lblank, is_ws in *. lia.
Qed.

Theorem doc_same b j j' : json_doc b j -> lax_doc b j' -> j = j'.
Proof.
  intros (w1 & t & w2 & -> & H1 & Hj & H2) (w1' & t' & w2' & E & H1' & Hj' & H2'). blanks.
  destruct (jval_first t j Hj) as (c & t1 & -> & N & _). destruct (lval_head _ _ Hj') as (d & t2 & -> & S & _).
  cbn [app] in E. destruct (blanks_eq w1 w1' c d _ _ H1 H1' N (starts_not_blank _ S) E) as (_ & -> & E').
  destruct (proj1 json_same _ _ Hj (d :: t2) j' w2 w2' Hj') as (_ & X & _); [cbn; now rewrite E'|now apply blank_tail|now apply blank_tail|exact X].
Qed.
