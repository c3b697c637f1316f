(** Values and bytes of a parsed document: proofs. *)
From Verif Require Import Base Float64 Value Scan Unmarshal Pure ListLemmas SpecJson SpecValue SpecLax SpecBulk
  UnmarshalProof ParseComplete NumProof LaxNum LaxParse LaxClaims JsonLax ExampleWorld.

(** The same for the tree of the grammar. *)
Fixpoint jweight (a c : nat) (j : jv) : nat :=
  a + match j with
      | JStr s => c * List.length s
      | JNum lit => c * List.length lit
      | JArr l => list_sum (map (jweight a c) l)
      | JObj l => list_sum (map (fun e : bytes * jv => c * List.length (fst e) + jweight a c (snd e)) l)
      | _ => 0
      end%nat.

Lemma sum_app l1 l2 : (list_sum (l1 ++ l2) = list_sum l1 + list_sum l2)%nat.
Proof. apply list_sum_app. Qed.

(** Members: each entry of the object comes from a different pair of the text. *)
Lemma members_weight (w : V -> nat) (wj : jv -> nat) (c : nat) : forall (kvs : list kv) (l : list (bytes * jv)), NoDup (map fst kvs) ->
  (forall k id x, In (k, (id, x)) kvs -> exists j, In (k, j) l /\ (w x <= wj j)%nat) ->
  (list_sum (map (fun e : kv => let '(k, (_, x)) := e in c * List.length k + w x) kvs) <=
   list_sum (map (fun e => c * List.length (fst e) + wj (snd e)) l))%nat.
Proof.
  induction kvs as [|[k [id x]] kvs IH]; intros l HN HI; [apply Nat.le_0_l|].
  cbn [map fst] in HN. apply NoDup_cons_iff in HN as [HK HN]. destruct (HI k id x (or_introl eq_refl)) as (j & Hj & Hw).
  apply in_split in Hj as (l1 & l2 & ->). specialize (IH (l1 ++ l2) HN).
  rewrite map_app in *. cbn [map]. rewrite sum_app in *. cbn [list_sum fold_right fst snd] in *. unfold list_sum in *. cbn [fold_right].
  enough ((fold_right Nat.add 0 (map (fun e : kv => let '(k0, (_, x0)) := e in c * List.length k0 + w x0) kvs) <=
    fold_right Nat.add 0 (map (fun e => c * List.length (fst e) + wj (snd e)) l1) + fold_right Nat.add 0 (map (fun e => c * List.length (fst e) + wj (snd e)) l2))%nat) by lia.
  apply IH. intros k' id' x' H'. destruct (HI k' id' x' (or_intror H')) as (j' & Hj' & Hw'). exists j'. split; [|exact Hw'].
  apply in_app_or in Hj' as [Hj'|[Hj'|Hj']]; apply in_or_app; auto.
  exfalso. injection Hj' as <- _. apply HK. apply in_map_iff. exists (k, (id', x')). auto.
Qed.

Lemma last_occurrence {A} k : forall l : list (bytes * A), In k (map fst l) -> exists l1 x l2, l = l1 ++ (k, x) :: l2 /\ ~ In k (map fst l2).
Proof.
  induction l as [|[k' x] l IH]; [intros []|]. intros H. destruct (in_dec (list_eq_dec Z.eq_dec) k (map fst l)) as [Hi|Hn].
  - destruct (IH Hi) as (l1 & y & l2 & -> & H2). exists ((k', x) :: l1), y, l2. auto.
  - destruct H as [<-|H]; [|contradiction]. exists [], x, l. auto.
Qed.

Lemma tree_weight PN a c : forall j v, tree_of PN j v -> (weight a c v <= jweight a c j)%nat.
Proof.
  induction j as [ |b|lit|s|l IH|l IH] using jv_ind'; intros v H; inversion H; subst; cbn [weight jweight]; try lia.
  - clear H. apply Nat.add_le_mono_l. match goal with F : Forall2 _ _ _ |- _ => revert IH; induction F as [|x y l l' Hxy _ IHF]; intros IH; [apply Nat.le_refl|] end.
    inversion IH; subst. cbn [map]. unfold list_sum in *. cbn [fold_right]. apply Nat.add_le_mono; auto.
  - match goal with N : NoDup _, K : forall k, _ <-> _, M : forall l1 k x l2, _ |- _ => rename N into HN; rename K into HKs; rename M into HM end.
    apply Nat.add_le_mono_l. apply members_weight; [assumption|].
    intros k id x Hi. assert (HK : In k (map fst l)) by (apply HKs; apply in_map_iff; exists (k, (id, x)); auto).
    destruct (last_occurrence k l HK) as (l1 & y & l2 & -> & HL). destruct (HM l1 k y l2 eq_refl HL) as (id' & x' & Hx & HT).
    assert (X : (id, x) = (id', x')).
    { clear - HN Hi Hx. induction kvs as [|[k0 p] kvs IHk]; [destruct Hi|]. cbn [map fst] in HN. apply NoDup_cons_iff in HN as [Hn Hd].
      destruct Hi as [Hi|Hi], Hx as [Hx|Hx].
      - congruence.
      - exfalso. apply Hn. injection Hi as -> _. apply in_map_iff. exists (k, (id', x')). auto.
      - exfalso. apply Hn. injection Hx as -> _. apply in_map_iff. exists (k, (id, x)). auto.
      - auto. }
    injection X as <- <-. exists y. split; [apply in_or_app; right; now left|].
    rewrite Forall_forall in IH. apply (IH (k, y)); [apply in_or_app; right; now left|exact HT].
Qed.

(** *** The lengths of texts *)
Lemma utf8_short cp : (List.length (utf8 cp) <= 4)%nat.
Proof. unfold utf8. repeat match goal with |- context [if ?b then _ else _] => destruct b end; cbn; lia. Qed.
Lemma hex4_length h cp : hex4d h cp -> List.length h = 4%nat.
Proof. now intros []. Qed.
Lemma lstr_shorter t s : lstr t s -> (List.length s <= List.length t)%nat.
Proof.
  induction 1; cbn [List.length]; try lia.
  - rewrite !app_length. pose proof (utf8_short cp). apply hex4_length in H. lia.
  - repeat (rewrite app_length; cbn [List.length]). apply hex4_length in H. apply hex4_length in H1. cbn. lia.
Qed.
Lemma body_shorter t s : str_body t s -> (List.length s <= List.length t)%nat.
Proof.
  induction 1; cbn [List.length]; try lia.
  - rewrite !app_length. lia.
  - rewrite !app_length. pose proof (utf8_short cp). apply hex4_length in H. lia.
  - match goal with |- context [utf8 ?x] => pose proof (utf8_short x) end.
    repeat (rewrite app_length; cbn [List.length]). apply hex4_length in H. apply hex4_length in H1. lia.
Qed.

Ltac lens := repeat first [rewrite app_length in * | progress cbn [List.length] in *].

Lemma sum_cons x l : (list_sum (x :: l) = x + list_sum l)%nat. Proof. reflexivity. Qed.

(** Bytes. *)
Lemma lax_content :
  (forall t j, lval t j -> (jweight 0 1 j <= List.length t)%nat) /\
  (forall t l, lelems t l -> (list_sum (map (jweight 0 1) l) <= List.length t)%nat) /\
  (forall t l, lmembers t l -> (list_sum (map (fun e : bytes * jv => 1 * List.length (fst e) + jweight 0 1 (snd e)) l) <= List.length t)%nat).
Proof.
  apply lax_mutind; intros; cbn [jweight map fst snd] in *; rewrite ?sum_cons; lens; repeat match goal with H : lstr _ _ |- _ => apply lstr_shorter in H end; cbn in *; lia.
Qed.

(** Values.  A number takes one byte, and the next byte does not belong to a
    number. *)
Definition no_number_first (t : bytes) : Prop := match t with c :: _ => ~ number_byte c | [] => True end.

Lemma lax_num_first lit : lax_num lit -> exists c r, lit = c :: r /\ number_byte c.
Proof.
  assert (D : forall c r, digits (c :: r) -> number_byte c) by (intros c r [_ H]; inversion H; subst; now left).
  intros [ip H _ _|ip H _ _ _|neg ip fr fd ex e H1 H2 _ Hf He Hn _].
  - destruct (int_part_digits ip H) as [Hd Hne]. destruct ip as [|c r]; [congruence|]. exists c, r. split; [reflexivity|]. left. now inversion Hd.
  - exists 45, ip. split; [reflexivity|]. unfold number_byte. auto.
  - destruct neg; [exists 45; eexists; split; [reflexivity|unfold number_byte; auto]|].
    destruct ip as [|c r]; [specialize (H2 eq_refl); discriminate|]. exists c. eexists. split; [reflexivity|]. left. now inversion H1.
Qed.

Lemma lax_values :
  (forall t j, lval t j -> match j with JNum _ => (jweight 1 0 j = 1 /\ 1 <= List.length t)%nat /\ ~ no_number_first t | _ => (4 * jweight 1 0 j + 1 <= 3 * List.length t)%nat end) /\
  (forall t l, lelems t l -> (4 * list_sum (map (jweight 1 0) l) <= 3 * List.length t + 1)%nat /\
     (no_number_first t -> (4 * list_sum (map (jweight 1 0) l) <= 3 * List.length t)%nat)) /\
  (forall t l, lmembers t l -> (4 * list_sum (map (fun e : bytes * jv => 0 * List.length (fst e) + jweight 1 0 (snd e)) l) <= 3 * List.length t)%nat).
Proof.
  apply lax_mutind; intros; cbn [jweight map fst snd] in *; rewrite ?sum_cons; lens; try lia; try (cbn; lia).
  - apply lax_num_first in H as (c & r & -> & Hc). split; [cbn; lia|]. intros N. now apply N.
  - destruct H4 as [H4 H4']. destruct j as [ |b|lit|s|lj|lj].
    3:{ destruct H1 as [[H1 H1l] H1n]. destruct w as [|cw w].
        - cbn [app List.length]. assert (N : no_number_first te).
          { destruct te as [|ct te]; [exact I|exact H2]. }
          specialize (H4' N). rewrite H1. split; [lia|]. intros N'. exfalso. apply H1n. destruct t as [|ct t]; [exact I|exact N'].
        - cbn [List.length]. rewrite H1. lia. }
    all: split; [|intros _]; cbn [jweight] in *; lia.
  - destruct j as [ |b|lit|s|lj|lj]; cbn [jweight] in *; lia.
Qed.

Theorem parsed_content E b v : Forall is_byte b -> unmarshal E b = Ok (v, None) -> (content v <= List.length b)%nat.
Proof.
  intros Hb H. destruct (proj1 (accepted_language E b Hb) v H) as (j & (w1 & t & w2 & -> & _ & HV & _) & HT).
  pose proof (tree_weight _ 0 1 _ _ HT) as H1. pose proof (proj1 lax_content _ _ HV) as H2. unfold content. lens. lia.
Qed.
Theorem parsed_values E b v : Forall is_byte b -> unmarshal E b = Ok (v, None) -> (4 * values v <= 3 * List.length b + 1)%nat.
Proof.
  intros Hb H. destruct (proj1 (accepted_language E b Hb) v H) as (j & (w1 & t & w2 & -> & _ & HV & _) & HT).
  pose proof (tree_weight _ 1 0 _ _ HT) as H1. pose proof (proj1 lax_values _ _ HV) as H2. unfold values. lens.
  destruct j; lia.
Qed.

(** RFC 8259 *)
Lemma num_lit_ne lit neg ip fd e i : num_lit lit neg ip fd e i -> (1 <= List.length lit)%nat.
Proof.
  intros H. destruct H as [neg' ip' fr fd' ex e' Hi _ _]. destruct (int_part_digits _ Hi) as [_ Hne]. lens.
  destruct ip'; [congruence|cbn; lia].
Qed.
Lemma json_values :
  (forall t j, jval t j -> (2 * jweight 1 0 j <= List.length t + 1)%nat) /\
  (forall t l, jelems t l -> (2 * list_sum (map (jweight 1 0) l) <= List.length t + 1)%nat) /\
  (forall t l, jmembers t l -> (2 * list_sum (map (fun e : bytes * jv => 0 * List.length (fst e) + jweight 1 0 (snd e)) l) <= List.length t)%nat).
Proof.
  apply json_mutind; intros; cbn [jweight map fst snd] in *; rewrite ?sum_cons in *; lens; try (cbn in *; lia).
  apply num_lit_ne in H. cbn. lia.
Qed.
Theorem json_parsed_values E b j v : Forall is_byte b -> json_doc b j -> unmarshal E b = Ok (v, None) -> (2 * values v <= List.length b + 1)%nat.
Proof.
  intros Hb HJ H. destruct (proj1 (accepted_language E b Hb) v H) as (j' & HL & HT).
  pose proof (doc_same b j j' HJ HL) as <-. destruct HJ as (w1 & t & w2 & -> & _ & HV & _).
  pose proof (tree_weight _ 1 0 _ _ HT) as H1. pose proof (proj1 json_values _ _ HV) as H2. unfold values. lens. lia.
Qed.

Example bulk_example :
  (exists v, unmarshal env0 (bs "{""ab"":[1,""A""],""ab"":""c""}") = Ok (v, None) /\ values v = 2%nat /\ content v = 3%nat) /\
  (exists v, unmarshal env0 (bs "1") = Ok (v, None) /\ values v = 1%nat /\ content v = 1%nat) /\
  (exists v, unmarshal env0 (bs "[1,2,3]") = Ok (v, None) /\ values v = 4%nat /\ content v = 3%nat) /\
  (exists v, unmarshal env0 (bs "[1[1]1]") = Ok (v, None) /\ values v = 5%nat).
Proof. repeat split; (eexists; split; [vm_compute; reflexivity|]); repeat split. Qed.
