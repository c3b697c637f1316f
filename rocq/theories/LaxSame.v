(** The accepted language is unambiguous. *)
From Verif Require Import Base Float64 Value Scan Unmarshal Pure ListLemmas SpecJson SpecValue SpecLax
  UnmarshalProof ValueLemmas NumProof ParseComplete LaxNum LaxParse MarshalProof LaxFacts JsonLax.

Lemma lstr_same t s t' s' r r' : lstr t s -> lstr t' s' -> t ++ 34 :: r = t' ++ 34 :: r' -> t = t' /\ s = s' /\ r = r'.
Proof.
  intros H H' E. set (f := S (List.length t + List.length t')).
  pose proof (q_str_lax t s H f r ltac:(lia)) as A. pose proof (q_str_lax t' s' H' f r' ltac:(lia)) as B.
  rewrite E, B in A. injection A as <- <-. apply app_inv_tail in E. auto.
Qed.

Lemma start_not c : starts_value c -> c <> 93 /\ c <> 44 /\ c <> 125.
Proof. unfold starts_value, digit. lia. Qed.

Lemma lax_same :
  (forall t j, lval t j -> forall t' j' r r', lval t' j' -> t ++ r = t' ++ r' -> after_num j r -> after_num j' r' ->
     t = t' /\ j = j' /\ r = r') /\
  (forall t l, lelems t l -> forall t' l' r r', lelems t' l' -> t ++ 93 :: r = t' ++ 93 :: r' -> t = t' /\ l = l' /\ r = r') /\
  (forall t l, lmembers t l -> forall t' l' r r', lmembers t' l' -> t ++ 125 :: r = t' ++ 125 :: r' -> t = t' /\ l = l' /\ r = r').
Proof.
  apply lax_mutind.
  - intros t' j' r r' H E _ _. destruct (lval_first _ _ _ _ _ H E) as (t0 & -> & K).
    destruct j' as [|[]| | | |]; try discriminate K. inversion H; subst. apply app_inv_head in E. auto.
  - intros t' j' r r' H E _ _. destruct (lval_first _ _ _ _ _ H E) as (t0 & -> & K).
    destruct j' as [|[]| | | |]; try discriminate K. inversion H; subst. apply app_inv_head in E. auto.
  - intros t' j' r r' H E _ _. destruct (lval_first _ _ _ _ _ H E) as (t0 & -> & K).
    destruct j' as [|[]| | | |]; try discriminate K. inversion H; subst. apply app_inv_head in E. auto.
  - intros lit HL t' j' r r' H E A A'. pose proof (lval_head _ _ (LV_num _ HL)) as (c & t1 & -> & _ & Hc).
    assert (K' : kind_of c = 3) by (unfold kind_of, digit in *; repeat match goal with |- context [?a =? ?b] => destruct (Z.eqb_spec a b); [lia|] end; reflexivity).
    destruct (lval_first _ _ _ _ _ H E) as (t0 & -> & K).
    rewrite K' in K; destruct j' as [|[]| | | |]; try discriminate K; inversion H; subst.
    destruct (run_eq _ _ r r' (lax_num_bytes _ HL) (lax_num_bytes _ ltac:(eassumption)) A A' E) as [X ->]; rewrite X; auto.
  - intros t s Hs t' j' r r' H E _ _. destruct (lval_first _ _ _ _ _ H E) as (t0 & -> & K).
    destruct j' as [|[]| | | |]; try discriminate K. inversion H as [| | | |t1 s1 Hs1| |]; subst.
    cbn [app] in E. injection E as E. rewrite <- !app_assoc in E. cbn [app] in E.
    destruct (lstr_same _ _ _ _ _ _ Hs Hs1 E) as (-> & -> & ->). auto.
  - intros t l Ht IH t' j' r r' H E _ _. destruct (lval_first _ _ _ _ _ H E) as (t0 & -> & K).
    destruct j' as [|[]| | | |]; try discriminate K. inversion H as [| | | | |t1 s1 Hs1|]; subst.
    cbn [app] in E. injection E as E. rewrite <- !app_assoc in E. cbn [app] in E.
    destruct (IH _ _ _ _ Hs1 E) as (-> & -> & ->). auto.
  - intros t l Ht IH t' j' r r' H E _ _. destruct (lval_first _ _ _ _ _ H E) as (t0 & -> & K).
    destruct j' as [|[]| | | |]; try discriminate K. inversion H as [| | | | | |t1 s1 Hs1]; subst.
    cbn [app] in E. injection E as E. rewrite <- !app_assoc in E. cbn [app] in E.
    destruct (IH _ _ _ _ Hs1 E) as (-> & -> & ->). auto.
  - intros w B t' l' r r' H E.
    destruct (lelems_cases w 93 r t' l' r' B (nb 93 ltac:(auto)) E H) as [(_ & -> & -> & ->)|[(X & _)|(X & _)]]; [auto|discriminate|].
    now apply start_not in X as (X & _).
  - intros w t l B Ht IH t' l' r r' H E. rewrite <- app_assoc in E. cbn [app] in E.
    destruct (lelems_cases w 44 _ t' l' r' B (nb 44 ltac:(auto)) E H) as [(X & _)|[(_ & t0 & -> & H0 & E0)|(X & _)]]; [discriminate| |].
    + destruct (IH _ _ _ _ H0 E0) as (-> & -> & ->). auto.
    + now apply start_not in X as (_ & X & _).
  - intros w t j te l B Hv IHv Ha He IHe t' l' r r' H E. destruct (lval_head _ _ Hv) as (c & t1 & -> & S & _).
    destruct (start_not _ S) as (N93 & N44 & _). rewrite <- !app_assoc in E. cbn [app] in E.
    destruct (lelems_cases w c _ t' l' r' B (starts_not_blank _ S) E H) as [(X & _)|[(X & _)|(_ & t0 & j0 & te' & l0 & -> & -> & Hv' & Ha' & He' & E')]]; [congruence|congruence|].
    change (c :: t1 ++ te ++ 93 :: r) with ((c :: t1) ++ te ++ 93 :: r) in E'.
    destruct (IHv _ _ _ _ Hv' E') as (<- & <- & E''); [apply after_num_te; [exact Ha|unfold number_byte, digit; lia]|apply after_num_te; [exact Ha'|unfold number_byte, digit; lia]|].
    destruct (IHe _ _ _ _ He' E'') as (-> & -> & ->). auto.
  - intros w B t' l' r r' H E.
    destruct (lmembers_cases w 125 r t' l' r' B (nb 125 ltac:(auto)) E H) as [(_ & -> & -> & ->)|[(X & _)|(X & _)]]; [auto|discriminate|discriminate].
  - intros w t l B Ht IH t' l' r r' H E. rewrite <- app_assoc in E. cbn [app] in E.
    destruct (lmembers_cases w 44 _ t' l' r' B (nb 44 ltac:(auto)) E H) as [(X & _)|[(_ & t0 & -> & H0 & E0)|(X & _)]]; [discriminate| |discriminate].
    destruct (IH _ _ _ _ H0 E0) as (-> & -> & ->). auto.
  - intros w1 tk k w2 w3 t j tm l B Hk B2 B3 Hv IHv Ha Hm IHm t' l' r r' H E.
    repeat (rewrite <- app_assoc in E; cbn [app] in E).
    destruct (lmembers_cases w1 34 _ t' l' r' B (nb 34 ltac:(auto)) E H)
      as [(X & _)|[(X & _)|(_ & tk' & k' & w2' & w3' & t0 & j0 & te & l0 & -> & -> & Hk' & B2' & B3' & Hv' & Ha' & He & E')]]; [discriminate|discriminate|].
    destruct (lstr_same _ _ _ _ _ _ Hk Hk' E') as (-> & -> & E2).
    destruct (blanks_eq w2 w2' 58 58 _ _ B2 B2' (nb 58 ltac:(auto)) (nb 58 ltac:(auto)) E2) as (-> & _ & E3).
    destruct (lval_head _ _ Hv) as (c & t1 & -> & S1 & _). destruct (lval_head _ _ Hv') as (d & t2 & -> & S2 & _). cbn [app] in E3.
    destruct (blanks_eq w3 w3' c d _ _ B3 B3' (starts_not_blank _ S1) (starts_not_blank _ S2) E3) as (-> & -> & E4).
    destruct (IHv (d :: t2) j0 (tm ++ 125 :: r) (te ++ 125 :: r') Hv') as (<- & <- & E5);
      [cbn; now rewrite E4|apply after_num_te; [exact Ha|unfold number_byte, digit; lia]|apply after_num_te; [exact Ha'|unfold number_byte, digit; lia]|].
    destruct (IHm _ _ _ _ He E5) as (-> & -> & ->). auto.
Qed.

Theorem lax_doc_same b j j' : lax_doc b j -> lax_doc b j' -> j = j'.
Proof.
  intros (w1 & t & w2 & -> & H1 & Hj & H2) (w1' & t' & w2' & E & H1' & Hj' & H2').
  destruct (lval_head _ _ Hj) as (c & t1 & -> & S1 & _). destruct (lval_head _ _ Hj') as (d & t2 & -> & S2 & _).
  cbn [app] in E. destruct (blanks_eq w1 w1' c d _ _ H1 H1' (starts_not_blank _ S1) (starts_not_blank _ S2) E) as (_ & -> & E').
  destruct (proj1 lax_same _ _ Hj (d :: t2) j' w2 w2' Hj') as (_ & X & _); [cbn; now rewrite E'|now apply blank_tail|now apply blank_tail|exact X].
Qed.
