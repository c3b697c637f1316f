(** Fields that compete for a name: proofs. *)
From Verif Require Import Base Utf8 Float64 Value Scan Unmarshal Opt Marshal GoValue Import SpecJson SpecValue SpecImport SpecParts SpecCompete
  ListLemmas ValueLemmas ImportProof PartsProof PartsMore PartsRest StructOrder NewObjectProof ExampleWorld ExampleImport ExampleParts.
Local Open Scope Z_scope.

Lemma Forall_pick {A B} (P : A -> B -> Prop) l : Forall (fun a => exists b, P a b) l -> exists l', Forall2 P l l'.
Proof. induction 1 as [|a l (b & Hb) _ (l' & IH)]; [exists []; constructor|exists (b :: l'); now constructor]. Qed.

Lemma last_such {A} (P : A -> Prop) (dec : forall a, P a \/ ~ P a) l : (exists a, In a l /\ P a) ->
  exists pre a post, l = pre ++ a :: post /\ P a /\ forall b, In b post -> ~ P b.
Proof.
  induction l as [|a l IH]; intros (b & Hi & Hb); [destruct Hi|].
  assert (D : (exists c, In c l /\ P c) \/ forall c, In c l -> ~ P c).
  { clear -dec. induction l as [|c l [(c' & H1 & H2)|IH]]; [right; intros c []|left; exists c'; split; [now right|exact H2]|].
    destruct (dec c) as [H|H]; [left; exists c; split; [now left|exact H]|right]. intros c' [<-|Hc]; auto. }
  destruct D as [D|D].
  - destruct (IH D) as (pre & c & post & -> & Hc & Hp). exists (a :: pre), c, post. auto.
  - destruct Hi as [->|Hi]; [|now apply D in Hi]. exists [], b, l. auto.
Qed.

Lemma member_dec v k : (exists x, member v k x) \/ ~ exists x, member v k x.
Proof.
  destruct v as [ | | |i kvs lo| | | | | ]; try (right; intros (x & ? & ? & ? & ? & ? & _); discriminate).
  destruct (in_dec (list_eq_dec Z.eq_dec) k (map fst kvs)) as [H|H].
  - left. apply in_map_iff in H as ((k' & id & x) & <- & H). exists x, i, kvs, lo, id. auto.
  - right. intros (x & i' & kvs' & lo' & id & [= <- <- <-] & Hi). apply H, in_map_iff. exists (k, (id, x)). auto.
Qed.

Section Compete.
Variables (E : Env) (W : World) (d : opt) (o : list option_).
Local Notation gives := (gives E W d o).
Local Notation last_given := (last_given E W d o).

Lemma struct_cons e fs v : import E W d o (GStruct (e :: fs)) = Ok (v, None) ->
  exists w v', import E W d o (GStruct [e]) = Ok (w, None) /\ import E W d o (GStruct fs) = Ok (v', None) /\
    forall k x, member v k x <-> member v' k x \/ member w k x /\ forall y, ~ member v' k y.
Proof using.
  intros H. pose proof (struct_each E W d o _ _ H) as F. apply Forall_pick in F as (vs & F).
  inversion F as [|? w ? vs' F1 F2]; subst. destruct (struct_parts E W d o _ _ F) as (v1 & H1 & _ & M1).
  rewrite H in H1. injection H1 as <-. destruct (struct_parts E W d o _ _ F2) as (v' & H2 & _ & M2).
  exists w, v'. split; [exact F1|]. split; [exact H2|]. intros k x. rewrite M1, M2. split.
  - intros ([|w0 a] & u & b & Eq & Hm & Hb); cbn in Eq; injection Eq as -> Eq.
    + right. subst b. split; [exact Hm|]. intros y Hy. apply M2 in Hy as (a' & u' & b' & -> & Hy & _). apply (Hb u' y); [|exact Hy].
      apply in_or_app. right. now left.
    + left. exists a, u, b. auto.
  - intros [(a & u & b & -> & Hm & Hb)|(Hm & Hn)].
    + exists (w :: a), u, b. auto.
    + exists [], w, vs'. split; [reflexivity|]. split; [exact Hm|]. intros w' y Hi Hy.
      apply in_split in Hi as (a & b & ->). clear -Hy Hn M2.
      assert (G : exists z, exists a0 u b0, a ++ w' :: b = a0 ++ u :: b0 /\ member u k z /\ forall w0 y0, In w0 b0 -> ~ member w0 k y0).
      { destruct (last_such (fun u => exists z, member u k z) (fun u => member_dec u k) (a ++ w' :: b)) as (a0 & u & b0 & Eq & (z & Hz) & Hb0).
        - exists w'. split; [apply in_or_app; right; now left|eauto].
        - exists z, a0, u, b0. split; [exact Eq|]. split; [exact Hz|]. intros w0 y0 Hi Hm. apply (Hb0 w0 Hi). eauto. }
      destruct G as (z & G). apply (Hn z). apply M2. exact G.
Qed.

Lemma given_dec k c : (c_key c = k /\ exists z, gives c z) \/ ~ (c_key c = k /\ exists z, gives c z).
Proof using.
  destruct (list_eq_dec Z.eq_dec (c_key c) k) as [<-|N]; [|right; intros (H & _); contradiction].
  destruct (import E W d o (GStruct [(c_field c, c_data c)])) as [[w [e|]]| | |] eqn:Ei; try (right; intros (_ & z & w' & Hw & _); congruence).
  destruct (member_dec w (c_key c)) as [(x & H)|N].
  - left. split; [reflexivity|]. exists x, w. auto.
  - right. intros (_ & x & w' & Hw & Hx). rewrite Ei in Hw. injection Hw as <-. apply N. eauto.
Qed.

Lemma given_cons c cs k x : last_given (c :: cs) k x <-> last_given cs k x \/ (c_key c = k /\ gives c x) /\ forall y, ~ last_given cs k y.
Proof using.
  split.
  - intros ([|c0 pre] & c1 & post & Eq & Hk & Hg & Hp); cbn in Eq; injection Eq as -> Eq.
    + subst post. right. split; [auto|]. intros y (pre & c2 & post & -> & Hk2 & Hg2 & _). apply (Hp c2) in Hg2; auto. apply in_or_app. right. now left.
    + left. exists pre, c1, post. auto.
  - intros [(pre & c1 & post & -> & Hk & Hg & Hp)|((Hk & Hg) & Hn)].
    + exists (c :: pre), c1, post. auto.
    + exists [], c, cs. split; [reflexivity|]. split; [exact Hk|]. split; [exact Hg|]. intros c' Hi Hk' y Hy.
      destruct (last_such (fun u => c_key u = k /\ exists z, gives u z) (given_dec k) cs) as (a0 & u & b0 & Eq & (Hku & z & Hz) & Hb0).
      * exists c'. split; [exact Hi|]. eauto.
      * apply (Hn z). exists a0, u, b0. split; [exact Eq|]. split; [exact Hku|]. split; [exact Hz|]. intros c2 Hi2 Hk2 y2 Hy2. apply (Hb0 c2 Hi2). eauto.
Qed.

Lemma given_app ds cs k x : last_given (ds ++ cs) k x <-> last_given cs k x \/ last_given ds k x /\ forall y, ~ last_given cs k y.
Proof using.
  revert x. induction ds as [|c ds IH]; intros x; cbn [app].
  - split; [auto|]. intros [H|((pre & c & post & Eq & _) & _)]; [exact H|]. now destruct pre.
  - rewrite !given_cons, IH. split.
    + intros [[H|(H & N)]|(H & N)]; [auto| |].
      * right. split; [auto|exact N].
      * right. split.
        -- right. split; [exact H|]. intros y Hy. apply (N y). apply IH. right. split; [exact Hy|]. intros z Hz. apply (N z). apply IH. auto.
        -- intros y Hy. apply (N y). apply IH. auto.
    + intros [H|([H|(H & N')] & N)]; [auto|auto|]. right. split; [exact H|]. intros y Hy. apply IH in Hy as [Hy|(Hy & _)]; [exact (N y Hy)|exact (N' y Hy)].
Qed.

Lemma no_member_empty k x : ~ member (VObj 0 [] None) k x.
Proof using. intros (i & kvs & lo & id & [= <- <- <-] & []). Qed.

(** C82 *)
Theorem last_field n fs cs : promoted n fs cs -> forall v, import E W d o (GStruct fs) = Ok (v, None) ->
  forall k x, member v k x <-> last_given cs k x.
Proof using.
  induction 1 as [n|n f g fs cs Ha Hs Hp IH|n f g fs cs name opts He Ha Ht Hc Hsp Hk Hp IH|n f g gs fs ds cs opts Ha Hst Hn Ht Hg Hd IHd Hp IH];
    intros v H k x.
  - unfold import in H. cbn in H. injection H as <-. split; [intros Hm; now apply no_member_empty in Hm|].
    intros (pre & c & post & Eq & _). now destruct pre.
  - apply struct_cons in H as (w & v' & Hw & Hv' & Hm). rewrite Hm, <- (IH _ Hv').
    rewrite field_unseen in Hw; [|exact Ha|]. 2:{ destruct Hs as [Hs|Hs]; [now left|right]. exists []. rewrite Hs. now apply (parts "-" "-" []). }
    injection Hw as <-. split; [intros [Hx|(Hx & _)]; [exact Hx|now apply no_member_empty in Hx]|auto].
  - apply struct_cons in H as (w & v' & Hw & Hv' & Hm). rewrite Hm, given_cons. cbn [c_key].
    assert (P : plain_field f (field_key f name) opts). { split; [exact He|]. split; [exact Ha|]. exists name. auto. }
    assert (G : forall y, member w k y <-> field_key f name = k /\ gives (mkCand n match name with [] => false | _ => true end (field_key f name) f g) y).
    { intros y. unfold SpecCompete.gives. cbn [c_field c_data c_key]. split.
      - intros Hy. assert (K : k = field_key f name).
        { destruct (plain_single E W d o _ _ _ _ _ P Hw) as (i & kvs & lo & -> & Hkvs). destruct Hy as (? & ? & ? & id & [= <- <- <-] & Hi).
          destruct Hkvs as [->|(id' & x' & ->)]; [destruct Hi|]. destruct Hi as [[= <- _ _]|[]]. reflexivity. }
        split; [auto|]. exists w. rewrite <- K. auto.
      - intros (<- & w' & Hw' & Hy). rewrite Hw in Hw'. injection Hw' as <-. exact Hy. }
    rewrite G. setoid_rewrite <- (IH _ Hv'). reflexivity.
  - apply struct_cons in H as (w & v' & Hw & Hv' & Hm). rewrite Hm, given_app.
    assert (P : embedded_field f).
    { split; [exact Ha|]. exists [], opts. split; [exact Ht|]. split; [|exact Hn].
      intros e Hi. split; intros r Er; repeat (destruct Hi as [<-|Hi]; [destruct r; discriminate|]); destruct Hi. }
    apply (embedded_struct E W d o f g gs P Hg) in Hw as (u & Hu & _ & _ & Hs).
    rewrite Hs, (IHd _ Hu). setoid_rewrite <- (IH _ Hv'). reflexivity.
Qed.

Lemma gives_one c x y : gives c x -> gives c y -> x = y.
Proof using.
  intros (w & Hw & Hx) (w' & Hw' & Hy). rewrite Hw in Hw'. injection Hw' as <-.
  destruct (import_object E W d o _ _ Hw) as (i & kvs & lo & -> & Hn). destruct Hx as (? & ? & ? & id & [= <- <- <-] & Hx). destruct Hy as (? & ? & ? & id' & [= <- <- <-] & Hy).
  exact (same_entry _ _ _ _ _ _ Hn Hx Hy).
Qed.

Lemma last_with cs k : (exists c, In c cs /\ c_key c = k) -> exists pre c post, cs = pre ++ c :: post /\ c_key c = k /\ forall c', In c' post -> c_key c' <> k.
Proof using. intros (c & Hi & Hk). destruct (last_such (fun c => c_key c = k) (fun c => match list_eq_dec Z.eq_dec (c_key c) k with left H => or_introl H | right H => or_intror H end) cs) as (a & u & b & Eq & Hu & Hb); [eauto|]. eauto 6. Qed.

Lemma ahead_irrefl c c' : ahead c c' -> ahead c' c -> False.
Proof using. intros [H|(H & H1 & H2)] [H'|(H' & H1' & H2')]; try lia; congruence. Qed.

Lemma dominant_one pre c post pre' c' post' : pre ++ c :: post = pre' ++ c' :: post' -> c_key c = c_key c' -> dominant_at pre c post -> dominant_at pre' c' post' -> pre = pre' /\ c = c' /\ post = post'.
Proof using.
  revert pre'. induction pre as [|a pre IH]; intros [|a' pre'] Eq Hk D D'; cbn in Eq; injection Eq as Ea Eq.
  - auto.
  - subst. exfalso. apply (ahead_irrefl a' c').
    + apply D; [|now symmetry]. cbn [app]. apply in_or_app. right. now left.
    + apply D'; [|exact Hk]. now left.
  - subst. exfalso. apply (ahead_irrefl c c').
    + apply D; [|now symmetry]. now left.
    + apply D'; [|exact Hk]. cbn [app]. apply in_or_app. right. now left.
  - subst. destruct (IH pre' Eq Hk) as (-> & -> & ->); auto.
    + intros c0 Hi. apply D. now right.
    + intros c0 Hi. apply D'. now right.
Qed.

Theorem dominance_enough n fs cs v : promoted n fs cs -> import E W d o (GStruct fs) = Ok (v, None) ->
  Forall (fun c => exists x, gives c x) cs -> last_dominant cs -> by_dominance E W d o cs v.
Proof using.
  intros Hp Hv Hg Hl k x. rewrite (last_field _ _ _ Hp _ Hv). split.
  - intros (pre & c & post & -> & Hk & Hx & Hpost). exists c. split; [|exact Hx]. exists pre, post. split; [reflexivity|]. split; [exact Hk|].
    apply (Hl pre c post eq_refl). intros c' Hi Hk'. rewrite Forall_forall in Hg. destruct (Hg c') as (y & Hy); [apply in_or_app; right; now right|].
    apply (Hpost c' Hi) in Hy; [exact Hy|congruence].
  - intros (c & (pre & post & Eq & Hk & D) & Hx).
    destruct (last_with cs k) as (pre' & c' & post' & Eq' & Hk' & Hpost'). { exists c. split; [|exact Hk]. rewrite Eq. apply in_or_app. right. now left. }
    assert (D' : dominant_at pre' c' post'). { apply Hl; [exact Eq'|]. rewrite Hk'. exact Hpost'. }
    rewrite Eq in Eq'. destruct (dominant_one _ _ _ _ _ _ Eq' (eq_trans Hk (eq_sym Hk')) D D') as (-> & -> & ->).
    exists pre', c', post'. split; [exact Eq|]. split; [exact Hk|]. split; [exact Hx|]. intros c2 Hi Hk2. now apply Hpost' in Hi.
Qed.

Theorem dominance_exactly n fs cs v : promoted n fs cs -> import E W d o (GStruct fs) = Ok (v, None) ->
  Forall (fun c => exists x, gives c x) cs -> told_apart E W d o cs -> (by_dominance E W d o cs v <-> last_dominant cs).
Proof using.
  intros Hp Hv Hg Ht. split; [|now apply (dominance_enough n fs)]. intros Hd pre c post Eq Hpost.
  pose proof Hg as Hg'. rewrite Forall_forall in Hg'. destruct (Hg' c) as (x & Hx); [rewrite Eq; apply in_or_app; right; now left|].
  assert (L : last_given cs (c_key c) x). { exists pre, c, post. split; [exact Eq|]. split; [reflexivity|]. split; [exact Hx|]. intros c' Hi Hk. now apply Hpost in Hi. }
  apply (last_field _ _ _ Hp _ Hv) in L. apply Hd in L as (c' & (pre' & post' & Eq' & Hk' & D') & Hx').
  rewrite Eq in Eq'. assert (G : pre = pre' /\ c = c' /\ post = post').
  { clear -Eq Eq' Hpost Hk' Ht Hx Hx'. subst cs. revert pre' Eq' Ht. 
    enough (G : forall hd pre', pre ++ c :: post = pre' ++ c' :: post' -> told_apart E W d o (hd ++ pre ++ c :: post) -> pre = pre' /\ c = c' /\ post = post').
    { intros pre' Eq Ht. exact (G [] pre' Eq Ht). }
    induction pre as [|a pre IH]; intros hd [|a' pre'] Eq Ht; cbn in Eq; injection Eq as Ea Eq.
    - auto.
    - subst. exfalso. apply (Hpost c'); [apply in_or_app; right; now left|exact Hk'].
    - subst. exfalso. apply (Ht hd c' pre c post x x); auto.
    - subst a'. destruct (IH (hd ++ [a]) pre' Eq) as (-> & -> & ->); [|auto]. rewrite <- app_assoc. exact Ht. }
  destruct G as (-> & -> & ->). exact D'.
Qed.
End Compete.
