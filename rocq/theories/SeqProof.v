(** Duplicate members and the set sequence of parsed objects. *)
From Verif Require Import Base Utf8 Float64 Value Scan Unmarshal Pure Opt Marshal ListLemmas SpecJson SpecValue SpecLax SpecText SpecOrder
  UnmarshalProof ValueLemmas NumProof ParseComplete ParseFacts SortProof EscapeProof MarshalProof OrderProof LaxNum LaxParse RoundTrip.

Notation neqk k := (fun x => negb (beqb (fst x) k)).

Lemma last_wins_snoc {A} (ms : list (bytes * A)) k x :
  last_wins (ms ++ [(k, x)]) = filter (neqk k) (last_wins ms) ++ [(k, x)].
Proof.
  induction ms as [|[k0 x0] r IH]; cbn [app last_wins map].
  - reflexivity.
  - rewrite map_app. cbn [map fst].
    destruct (in_dec _ k0 (map fst r ++ [k])) as [Hi|Hi], (in_dec _ k0 (map fst r)) as [Hr|Hr]; try exact IH.
    + apply in_app_or in Hi as [Hi|[<-|[]]]; [contradiction|]. cbn [filter fst]. rewrite beqb_refl. exact IH.
    + exfalso. apply Hi. apply in_or_app. now left.
    + cbn [filter fst]. destruct (beqb_spec k0 k) as [->|N]; [exfalso; apply Hi; apply in_or_app; right; now left|].
      cbn [negb app]. now rewrite IH.
Qed.
Lemma last_wins_In {A} (ms : list (bytes * A)) m : In m (last_wins ms) -> In m ms.
Proof.
  induction ms as [|[k x] r IH]; cbn; [auto|]. destruct (in_dec _ _ _); [auto|]. intros [<-|H]; auto.
Qed.

Lemma aset_perm {A} k (a : A) l : NoDup (akeys l) -> Permutation (aset k a l) (filter (neqk k) l ++ [(k, a)]).
Proof.
  induction l as [|[k' a'] r IH]; intros Hn; [reflexivity|]. cbn in Hn. inversion Hn; subst. cbn [aset filter fst].
  rewrite (beqb_sym k' k). destruct (beqb_spec k k') as [->|N]; cbn [negb app].
  - assert (Hf : filter (neqk k') r = r).
    { clear -H1. induction r as [|[k2 a2] r IHr]; [reflexivity|]. cbn [filter fst].
      destruct (beqb_spec k2 k') as [->|N]; [exfalso; apply H1; now left|]. cbn. f_equal. apply IHr. intros H. apply H1. now right. }
    rewrite Hf. apply Permutation_cons_append.
  - constructor. now apply IH.
Qed.

Lemma filter_perm {A} (f : A -> bool) l l' : Permutation l l' -> Permutation (filter f l) (filter f l').
Proof.
  induction 1; cbn; repeat (match goal with |- context [f ?b] => destruct (f b) end); eauto using Permutation.
Qed.
Lemma ForallOrdPairs_filter {A} (P : A -> A -> Prop) f l : ForallOrdPairs P l -> ForallOrdPairs P (filter f l).
Proof.
  induction 1 as [|x l Hx Hl IH]; cbn; [constructor|]. destruct (f x); [|assumption]. constructor; [|assumption].
  rewrite Forall_forall in *. intros y Hy. apply filter_In in Hy. apply Hx. tauto.
Qed.
Lemma ForallOrdPairs_snoc {A} (P : A -> A -> Prop) l x : ForallOrdPairs P l -> Forall (fun y => P y x) l -> ForallOrdPairs P (l ++ [x]).
Proof.
  induction 1 as [|y l Hy Hl IH]; intros Hf; cbn [app]; [repeat constructor|].
  inversion Hf; subst. constructor; [|auto]. apply Forall_app. split; [assumption|]. now constructor.
Qed.

Definition member_of E (m : bytes * jv) (x : bytes * (Z * V)) : Prop := fst x = fst m /\ snd (snd x) = to_V E (snd m).

Lemma filter_members E k l l' : Forall2 (member_of E) l l' -> Forall2 (member_of E) (filter (neqk k) l) (filter (neqk k) l').
Proof.
  induction 1 as [|m x l l' [Hk Hv] H IH]; cbn [filter]; [constructor|]. rewrite Hk.
  destruct (negb (beqb (fst m) k)); [constructor; [now split|assumption]|assumption].
Qed.

Lemma put_all_seq E l : forall ms0 i kvs lo kvs',
  NoDup (akeys kvs) -> Permutation kvs kvs' -> by_id kvs' -> Forall (fun x => fst (snd x) <= i) kvs' -> 0 <= i ->
  i + Z.of_nat (List.length l) < two32 -> Forall2 (member_of E) (last_wins ms0) kvs' ->
  exists i2 kvs2 lo2 kvs2', put_all E l (VObj i kvs lo) = VObj i2 kvs2 lo2 /\
    Permutation kvs2 kvs2' /\ by_id kvs2' /\ Forall2 (member_of E) (last_wins (ms0 ++ l)) kvs2'.
Proof.
  induction l as [|[k x] l IH]; intros ms0 i kvs lo kvs' Hn Hp Hs Hb Hi Hl Hf.
  - exists i, kvs, lo, kvs'. rewrite app_nil_r. auto.
  - cbn [List.length] in Hl. rewrite Nat2Z.inj_succ in Hl.
    cbn [put_all fold_left]. unfold oput at 2. cbn [set_to_object fst snd].
    assert (Ew : wrap_u32 (i + 1) = i + 1) by (unfold wrap_u32; apply Z.mod_small; lia). rewrite Ew.
    replace (ms0 ++ (k, x) :: l) with ((ms0 ++ [(k, x)]) ++ l) by (rewrite <- app_assoc; reflexivity).
    apply (IH (ms0 ++ [(k, x)]) (i + 1) (aset k (i + 1, to_V E x) kvs) (add_caseless_key E k lo)
              (filter (neqk k) kvs' ++ [(k, (i + 1, to_V E x))])).
    + now apply NoDup_aset.
    + etransitivity; [now apply aset_perm|]. apply Permutation_app_tail. now apply filter_perm.
    + apply ForallOrdPairs_snoc; [now apply ForallOrdPairs_filter|].
      rewrite Forall_forall in *. intros y Hy. apply filter_In in Hy as [Hy _]. apply Hb in Hy. cbn. lia.
    + apply Forall_app. split.
      * rewrite Forall_forall in *. intros y Hy. apply filter_In in Hy as [Hy _]. apply Hb in Hy. lia.
      * constructor; [cbn; lia|constructor].
    + lia.
    + lia.
    + rewrite last_wins_snoc. apply Forall2_app; [now apply filter_members|]. constructor; [now split|constructor].
Qed.

(** All objects have fewer than [N] members. *)
Section Small.
Variable N : Z.
Fixpoint small (j : jv) : Prop :=
  match j with
  | JArr l => (fix go (l : list jv) : Prop := match l with [] => True | x :: r => small x /\ go r end) l
  | JObj ms => Z.of_nat (List.length ms) < N /\
               (fix go (l : list (bytes * jv)) : Prop := match l with [] => True | (_, x) :: r => small x /\ go r end) ms
  | _ => True
  end.
Lemma small_arr l : small (JArr l) <-> Forall small l.
Proof.
  cbn. induction l as [|x l IH]; [split; auto|]. rewrite IH. split.
  - intros [H1 H2]; constructor; auto.
  - intros H; inversion H; auto.
Qed.
Lemma small_obj l : small (JObj l) <-> Z.of_nat (List.length l) < N /\ Forall (fun m => small (snd m)) l.
Proof.
  cbn [small]. apply and_iff_compat_l. induction l as [|[k x] l IH]; [split; auto|]. rewrite IH. split.
  - intros [H1 H2]; constructor; auto.
  - intros H; inversion H; auto.
Qed.
Lemma lax_small :
  (forall t j, lval t j -> Z.of_nat (List.length t) < N -> small j) /\
  (forall t l, lelems t l -> Z.of_nat (List.length t) < N -> Forall small l) /\
  (forall t l, lmembers t l -> Z.of_nat (List.length t) < N -> (List.length l <= List.length t)%nat /\ Forall (fun m => small (snd m)) l).
Proof.
  apply lax_mutind; try (intros; exact I).
  - intros t l _ IH H. apply small_arr. apply IH. cbn [List.length] in H. rewrite app_length in H. lia.
  - intros t l _ IH H. apply small_obj. cbn [List.length] in H. rewrite app_length in H. destruct IH; [lia|]. split; [lia|assumption].
  - intros. constructor.
  - intros w t l _ _ IH H. apply IH. rewrite app_length in H. cbn [List.length] in H. lia.
  - intros w t j te l _ _ IH1 _ _ IH2 H. rewrite !app_length in H. constructor; [apply IH1; lia|apply IH2; lia].
  - intros. cbn. split; [lia|constructor].
  - intros w t l _ _ IH H. rewrite app_length in *. cbn [List.length] in *. destruct IH; [lia|]. split; [lia|assumption].
  - intros w1 tk k w2 w3 t j tm l _ _ _ _ _ IH1 _ _ IH2 H.
    repeat (rewrite app_length in * || cbn [List.length] in * ). destruct IH2; [lia|]. split; [lia|].
    constructor; [apply IH1; lia|assumption].
Qed.
End Small.

Lemma to_V_obj_seq E ms : Z.of_nat (List.length ms) < two32 ->
  exists i kvs lo kvs', to_V E (JObj ms) = VObj i kvs lo /\ Permutation kvs kvs' /\ by_id kvs' /\
    Forall2 (member_of E) (last_wins ms) kvs'.
Proof.
  intros H. cbn [to_V]. change (fold_left _ ms new_object) with (put_all E ms (VObj 0 [] None)).
  apply (put_all_seq E ms [] 0 [] None []); try constructor; try lia.
Qed.

Lemma shows_norm E (NT : num -> bytes -> jv -> Prop) (ORD : list (bytes * (Z * V)) -> Prop) j :
  (forall kvs, ORD kvs -> by_id kvs) -> (forall n src j, NT n src j -> j = JNum src) ->
  small two32 j -> all_lits lax_num j -> forall j', shows NT false ORD (to_V E j) j' -> norm j j'.
Proof.
  intros HO HN. induction j as [ |b|lit|s|l IH|l IH] using jv_ind'; intros Hsm Hl j' Hs.
  - inversion Hs; subst; constructor.
  - inversion Hs; subst; constructor.
  - cbn [to_V] in Hs. cbn [all_lits] in Hl. destruct (lax_number E lit Hl) as (n & Hq). rewrite Hq in Hs.
    inversion Hs; subst. match goal with H : NT _ _ _ |- _ => apply HN in H; subst end. constructor.
  - inversion Hs; subst. now constructor.
  - apply small_arr in Hsm. apply all_lits_arr in Hl. cbn [to_V] in Hs. inversion Hs as [| | | |l0 l' Hf E1 E2|]; subst. constructor.
    clear Hs. revert l' Hf. induction l as [|x l IHl]; intros l' Hf; cbn [map] in Hf; inversion Hf; subst; constructor;
      inversion IH; inversion Hsm; inversion Hl; subst; auto.
  - apply small_obj in Hsm as [Hlen Hsm]. apply all_lits_obj in Hl.
    destruct (to_V_obj_seq E l Hlen) as (i & kvs & lo & kvs1 & Ev & P1 & S1 & F1). rewrite Ev in Hs.
    inversion Hs as [| | | | |i0 kvs0 lo0 kvs' ms Hp Hor Hm E1 E2]; subst. apply HO in Hor. cbn [kept] in Hm.
    assert (kvs' = kvs1).
    { eapply sorted_unique; [|etransitivity; [symmetry; exact Hp|exact P1]|exact Hor|exact S1]. cbn. intros; lia. }
    subst kvs1. constructor.
    assert (Hin : forall m, In m (last_wins l) -> In m l) by apply last_wins_In.
    clear -IH Hsm Hl Hm F1 Hin. revert ms Hm. rewrite Forall_forall in IH, Hsm, Hl.
    induction F1 as [|m x l1 kvs' [Hk Hv] F1 IHF]; intros ms Hm; inversion Hm as [|? y ? ms' [Hf Hs] Hm']; subst; constructor.
    + rewrite Hk in Hf. split; [assumption|]. rewrite Hv in Hs.
      assert (Hi : In m l) by (apply Hin; now left). apply (IH m Hi); auto.
    + apply IHF; [|assumption]. intros z Hz. apply Hin. now right.
Qed.

Lemma by_id_NoDup (kvs : list (bytes * (Z * V))) : by_id kvs -> NoDup (map (fun x => fst (snd x)) kvs).
Proof.
  induction 1 as [|x l Hx Hl IH]; cbn; constructor; [|assumption].
  intros Hin. apply in_map_iff in Hin as (y & Ey & Hy). rewrite Forall_forall in Hx. apply Hx in Hy. lia.
Qed.

Lemma to_V_ids E j : small two32 j -> all_objs (fun kvs => NoDup (map (fun x => fst (snd x)) kvs)) (to_V E j).
Proof.
  induction j as [ |b|lit|s|l IH|l IH] using jv_ind'; intros Hsm; try exact I.
  - cbn [to_V]. destruct (q_number E lit) as [[v r]| | |] eqn:Eq; try exact I.
    apply q_number_num in Eq as (n & src & -> & _). exact I.
  - apply small_arr in Hsm. cbn [to_V]. apply all_objs_arr, Forall_map. rewrite Forall_forall in *. auto.
  - apply small_obj in Hsm as [Hlen Hsm].
    destruct (to_V_obj_seq E l Hlen) as (i & kvs & lo & kvs1 & -> & P1 & S1 & F1). apply all_objs_obj. split.
    + eapply Permutation_NoDup; [apply Permutation_map, Permutation_sym, P1|]. now apply by_id_NoDup.
    + eapply Permutation_Forall; [apply Permutation_sym, P1|].
      assert (Hin : forall m, In m (last_wins l) -> In m l) by apply last_wins_In.
      clear -IH Hsm F1 Hin. rewrite Forall_forall in IH, Hsm.
      induction F1 as [|m x l1 kvs' [Hk Hv] F1 IHF]; constructor.
      * rewrite Hv. apply IH; [|apply Hsm]; apply Hin; now left.
      * apply IHF. intros z Hz. apply Hin. now right.
Qed.
