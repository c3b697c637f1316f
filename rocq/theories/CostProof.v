(** The work of Unmarshal: proofs for C77. *)
From Verif Require Import Base Float64 Value Scan Unmarshal ListLemmas Cost ExampleWorld.

(** *** The results are those of the parser *)

Lemma fst_wbind {A B} (m : work (res A)) (k : A -> work (res B)) : fst (wbind m k) = rbind (fst m) (fun a => fst (k a)).
Proof. destruct m as [[a|e| |] n]; cbn; try reflexivity. now destruct (k a). Qed.
Lemma fst_wlift {A B} (m : work (res A)) s (k : A -> work (pres B)) : fst (wlift m s k) = lift (fst m) s (fun a => fst (k a)).
Proof. destruct m as [[a|e| |] n]; cbn; try reflexivity. now destruct (k a). Qed.
Lemma fst_wpbind {A B} (m : work (pres A)) (k : A -> pst -> work (pres B)) :
  fst (wpbind m k) = pbind (fst m) (fun a s => fst (k a s)).
Proof. destruct m as [[a s|e s| |] n]; cbn; try reflexivity. now destruct (k a s). Qed.

Lemma rbind_same {A B} (m m' : res A) (k k' : A -> res B) : m = m' -> (forall a, k a = k' a) -> rbind m k = rbind m' k'.
Proof. intros -> H. destruct m'; cbn; auto. Qed.
Lemma lift_same {A B} (m m' : res A) s (k k' : A -> pres B) : m = m' -> (forall a, k a = k' a) -> lift m s k = lift m' s k'.
Proof. intros -> H. destruct m'; cbn; auto. Qed.
Lemma pbind_same {A B} (m m' : pres A) (k k' : A -> pst -> pres B) : m = m' -> (forall a s, k a s = k' a s) -> pbind m k = pbind m' k'.
Proof. intros -> H. destruct m'; cbn; auto. Qed.

Ltac same_step := first
  [ rewrite fst_wbind; apply rbind_same; [|intros]
  | rewrite fst_wlift; apply lift_same; [|intros]
  | rewrite fst_wpbind; apply pbind_same; [|intros] ].
Ltac same := repeat (reflexivity || same_step || (match goal with
  | |- context [if ?c then _ else _] => destruct c
  | |- fst (let '(_, _) := ?p in _) = _ => destruct p
  end)).

Lemma skip_same b n : forall off e, fst (skip_blanks_aux_c n b off e) = skip_blanks_aux n b off e.
Proof. induction n as [|n IH]; intros off e; cbn [skip_blanks_aux_c skip_blanks_aux]; same. apply IH. Qed.

Lemma escape_unicode_same b i se : fst (handle_escape_unicode_c b i se) = handle_escape_unicode b i se.
Proof. unfold handle_escape_unicode_c, handle_escape_unicode. same. Qed.

Lemma escape_same b i se : fst (handle_escape_c b i se) = handle_escape b i se.
Proof. unfold handle_escape_c, handle_escape. same. apply escape_unicode_same. Qed.

Lemma shift_same b i se le : fst (shift_c b i se le) = shift b i se le.
Proof. unfold shift_c, shift. same. Qed.

Lemma str_loop_same f : forall b off i se, fst (parse_str_loop_c f b off i se) = parse_str_loop f b off i se.
Proof.
  induction f as [|f IH]; intros b off i se; cbn [parse_str_loop_c parse_str_loop]; [reflexivity|].
  same; first [apply escape_same|apply shift_same|apply IH].
Qed.

Lemma num_loop_same b offset n : forall idx s, fst (num_loop_c n b offset idx s) = num_loop n b offset idx s.
Proof.
  induction n as [|n IH]; intros idx s; cbn [num_loop_c num_loop]; [reflexivity|]. same.
  match goal with |- fst match ?o with _ => _ end = _ => destruct o end; [apply IH|reflexivity].
Qed.

Lemma number_same E b off : fst (parse_number_c E b off) = parse_number E b off.
Proof. unfold parse_number_c, parse_number. same_step; [apply num_loop_same|]. same. Qed.

Lemma p_string_same s off : fst (p_string_c s off) = p_string s off.
Proof. unfold p_string_c, p_string. same_step; [apply str_loop_same|]. same. Qed.

Lemma p_number_same E s off : fst (p_number_c E s off) = p_number E s off.
Proof.
  unfold p_number_c, p_number. same_step; [apply number_same|]. destruct a as [[v e] r]. destruct v; reflexivity.
Qed.

Lemma p_scalar_same E s c off : option_map fst (p_scalar_c E s c off) = p_scalar E s c off.
Proof.
  unfold p_scalar_c, p_scalar. destruct (is_num_start c); [cbn; now rewrite p_number_same|].
  destruct (c =? 116); [cbn [option_map]; f_equal; same|].
  destruct (c =? 102); [cbn [option_map]; f_equal; same|].
  destruct (c =? 110); [cbn [option_map]; f_equal; same|reflexivity].
Qed.

Lemma scalar_same E s c off : match p_scalar_c E s c off with
  | Some r => p_scalar E s c off = Some (fst r) | None => p_scalar E s c off = None end.
Proof. rewrite <- p_scalar_same. destruct (p_scalar_c E s c off); reflexivity. Qed.

Lemma loops_same E f :
  (forall s off right acc, fst (arr_loop_c E f s off right acc) = arr_loop E f s off right acc) /\
  (forall s off right obj ks ke colon, fst (obj_loop_c E f s off right obj ks ke colon) = obj_loop E f s off right obj ks ke colon).
Proof.
  induction f as [|f [IHa IHo]]; [split; reflexivity|]. split.
  - intros s off right acc. cbn [arr_loop_c arr_loop].
    destruct (off <? right)%nat; [|reflexivity]. same_step; [apply skip_same|]. destruct a as [o r].
    destruct r; [reflexivity|]. same_step; [reflexivity|]. rename a into c.
    destruct (c =? 93); [reflexivity|]. destruct (c =? 44); [apply IHa|].
    destruct (c =? 123). { same_step; [apply IHo|]. destruct a. apply IHa. }
    destruct (c =? 91). { same_step; [apply IHa|]. destruct a. apply IHa. }
    destruct (c =? 34). { same_step; [apply p_string_same|]. destruct a as [[? ?] ?]. apply IHa. }
    pose proof (scalar_same E s c o) as H. destruct (p_scalar_c E s c o) as [r|]; rewrite H; [|reflexivity].
    same_step; [reflexivity|]. destruct a. apply IHa.
  - intros s off right obj ks ke colon. cbn [obj_loop_c obj_loop].
    destruct (off <? right)%nat; [|reflexivity]. same_step; [apply skip_same|]. destruct a as [o r].
    destruct r; [reflexivity|]. same_step; [reflexivity|]. rename a into c.
    destruct (c =? 125); [destruct (0 <? ke)%nat; reflexivity|].
    destruct (c =? 44). { destruct (0 <? ke)%nat; [reflexivity|apply IHo]. }
    destruct (c =? 58). { destruct colon; [reflexivity|]. destruct (key_missing ke true); [reflexivity|apply IHo]. }
    destruct (c =? 123).
    { destruct (key_missing ke colon); [reflexivity|]. same_step; [apply IHo|]. destruct a.
      same_step; [reflexivity|]. same_step; [reflexivity|]. apply IHo. }
    destruct (c =? 91).
    { destruct (key_missing ke colon); [reflexivity|]. same_step; [apply IHa|]. destruct a.
      same_step; [reflexivity|]. same_step; [reflexivity|]. apply IHo. }
    destruct (c =? 34).
    { destruct (0 <? ke)%nat.
      - destruct (negb colon); [reflexivity|]. same_step; [apply p_string_same|]. destruct a as [[? ?] ?].
        same_step; [reflexivity|]. same_step; [reflexivity|]. apply IHo.
      - same_step; [apply p_string_same|]. destruct a as [[? ?] ?]. apply IHo. }
    pose proof (scalar_same E s c o) as H. destruct (p_scalar_c E s c o) as [r|]; rewrite H; [|reflexivity].
    destruct (key_missing ke colon); [reflexivity|]. same_step; [reflexivity|]. destruct a.
    same_step; [reflexivity|]. same_step; [reflexivity|]. apply IHo.
Qed.

Lemma iter_same E s off : fst (unmarshal_iter_c E s off) = unmarshal_iter E s off.
Proof.
  unfold unmarshal_iter_c, unmarshal_iter. same_step; [apply skip_same|]. destruct a as [o r].
  destruct r; [reflexivity|]. same_step; [reflexivity|]. rename a into c. same_step.
  - destruct (c =? 123); [apply loops_same|]. destruct (c =? 91); [apply loops_same|].
    destruct (c =? 34). { same_step; [apply p_string_same|]. destruct a as [[? ?] ?]. reflexivity. }
    pose proof (scalar_same E s c o) as H. destruct (p_scalar_c E s c o) as [r|]; rewrite H; reflexivity.
  - destruct a. same_step; [apply skip_same|]. destruct a as [? [|]]; reflexivity.
Qed.

Theorem cost_same E b : fst (unmarshal_c E b) = unmarshal E b /\ fst (unmarshal_nocopy_c E b) = unmarshal_nocopy E b.
Proof.
  unfold unmarshal_c, unmarshal, unmarshal_nocopy_c, unmarshal_nocopy, run_unmarshal. destruct b as [|x b]; [split; reflexivity|].
  rewrite <- iter_same. destruct (unmarshal_iter_c E (pst0 (x :: b)) 0). split; reflexivity.
Qed.

(** *** Bounds *)

Local Open Scope nat_scope.

Lemma bset_len b i x b' : bset b i x = Ok b' -> List.length b' = List.length b.
Proof. unfold bset. destruct (i <? List.length b); [|discriminate]. intros [= <-]. apply length_upd. Qed.

Lemma bwrite_len src : forall b dst, List.length (bwrite b dst src) = List.length b.
Proof. induction src as [|x r IH]; intros b dst; cbn [bwrite]; [reflexivity|]. rewrite IH. apply length_upd. Qed.

Lemma memcpy_len b d s n b' : memcpy b d s n = Ok b' -> List.length b' = List.length b.
Proof.
  unfold memcpy. destruct (d =? s); [now intros [= <-]|]. unfold bslice at 1.
  destruct ((d <=? d + n) && (d + n <=? List.length b)); [|discriminate]. cbn [rbind].
  destruct (bslice b s (s + n)); try discriminate. cbn [rbind]. intros [= <-]. apply bwrite_len.
Qed.

Lemma assign_len b d r b' n : assign_rune b d r = Ok (b', n) ->
  List.length b' = List.length b /\ n <= 4 /\ ((r <= 65535)%Z -> n <= 3).
Proof.
  unfold assign_rune. intros H.
  repeat match type of H with
  | (if ?c then _ else _) = _ => destruct c eqn:?
  | rbind (bset ?b ?i ?x) _ = _ => let E := fresh in destruct (bset b i x) eqn:E; try discriminate; cbn [rbind] in H; apply bset_len in E
  end; injection H as <- <-; repeat split; (congruence || lia).
Qed.

(** Skipping blanks. *)
Lemma skip_work b n : forall off,
  match fst (skip_blanks_aux_c n b off (off + n)) with
  | Ok (o, false) => off <= o < off + n /\ snd (skip_blanks_aux_c n b off (off + n)) <= o - off + 1
  | Ok (_, true) => snd (skip_blanks_aux_c n b off (off + n)) <= n
  | _ => snd (skip_blanks_aux_c n b off (off + n)) <= n
  end.
Proof.
  induction n as [|n IH]; intros off; cbn [skip_blanks_aux_c]; [cbn; lia|].
  unfold bget_c, costs, wbind. destruct (bget b off) as [c|e| |]; try (cbn; lia).
  destruct ((c =? 32)%Z || (c =? 13)%Z || (c =? 10)%Z || (c =? 9)%Z || (c =? 8)%Z); [|cbn; lia].
  specialize (IH (S off)). replace (S off + n) with (off + S n) in IH by lia.
  destruct (skip_blanks_aux_c n b (S off) (off + S n)) as [r k]. cbn in *.
  destruct r as [[o [|]]|e| |]; lia.
Qed.

Lemma skip_work' b off e : off <= e ->
  match fst (skip_blanks_c b off e) with
  | Ok (o, false) => off <= o < e /\ snd (skip_blanks_c b off e) <= o - off + 1
  | _ => snd (skip_blanks_c b off e) <= e - off
  end.
Proof.
  intros H. unfold skip_blanks_c. pose proof (skip_work b (e - off) off) as X. replace (off + (e - off)) with e in X by lia.
  destruct (fst (skip_blanks_aux_c (e - off) b off e)) as [[o [|]]|er| |]; lia.
Qed.

(** Strings. *)
Definition str_good (n i se c : nat) (r : work (res (bytes * nat * nat))) : Prop :=
  match fst r with
  | Ok (b', i', se') => List.length b' = n /\ i < i' <= n /\ se' + i <= i' + se /\ snd r + c <= 3 * (i' - i)
  | _ => snd r + c <= 18
  end.

Lemma hex4_range b i r : hex4 b i = Ok r -> (0 <= r <= 65535)%Z.
Proof.
  unfold hex4. intros H.
  assert (X : forall c h, chr_to_hex c = Ok h -> (0 <= h <= 15)%Z).
  { intros c h. unfold chr_to_hex.
    destruct ((48 <=? c)%Z && (c <=? 57)%Z) eqn:H1; [intros [= <-]; lia|].
    destruct ((65 <=? c)%Z && (c <=? 70)%Z) eqn:H2; [intros [= <-]; lia|].
    destruct ((97 <=? c)%Z && (c <=? 102)%Z) eqn:H3; [intros [= <-]; lia|discriminate]. }
  repeat match type of H with
  | rbind (chr_to_hex ?m) _ = _ => let E := fresh in destruct (chr_to_hex m) eqn:E; try discriminate; cbn [rbind] in H; apply X in E
  | rbind (bget ?b ?i) _ = _ => destruct (bget b i); try discriminate; cbn [rbind] in H
  end. injection H as <-. lia.
Qed.

Lemma assign_work r : (r <= 65535)%Z ->
  (if (r <=? 127)%Z then 1 else if (r <=? 2047)%Z then 2 else if (r <=? 65535)%Z then 3 else 4) <= 3.
Proof. intros H. destruct (r <=? 127)%Z, (r <=? 2047)%Z, (Z.leb_spec r 65535); lia. Qed.
Lemma assign_work' r : (if (r <=? 127)%Z then 1 else if (r <=? 2047)%Z then 2 else if (r <=? 65535)%Z then 3 else 4) <= 4.
Proof. destruct (r <=? 127)%Z, (r <=? 2047)%Z, (r <=? 65535)%Z; lia. Qed.

Lemma good_step {A} n i se c k (m : res A) (f : A -> work (res (bytes * nat * nat))) : k + c <= 18 ->
  (forall a, m = Ok a -> str_good n i se (c + k) (f a)) -> str_good n i se c (wbind (costs k m) f).
Proof.
  intros H F. unfold str_good, costs, wbind. destruct m as [a|e| |]; cbn [fst snd]; try lia.
  specialize (F a eq_refl). unfold str_good in F. destruct (f a) as [[[[b' i'] se']|e| |] j]; cbn [fst snd] in *; lia.
Qed.

Lemma good_err n i se c e : c <= 18 -> str_good n i se c (free (Err e)).
Proof. intros H. exact H. Qed.

Lemma escape_unicode_work b i se : str_good (List.length b) i se 2 (handle_escape_unicode_c b i se).
Proof.
  unfold handle_escape_unicode_c.
  destruct (Nat.leb_spec (List.length b - i) 6); [apply good_err; lia|].
  apply good_step; [lia|]. intros r Hr.
  apply hex4_range in Hr. pose proof (assign_work r ltac:(lia)) as Hw.
  destruct ((r <=? 55295)%Z || (57344 <=? r)%Z).
  { apply good_step; [lia|]. intros [b' le] Ha. apply assign_len in Ha. unfold str_good. cbn [free fst snd]. lia. }
  destruct (Nat.leb_spec (List.length b - i) 12); [apply good_err; lia|].
  apply good_step; [lia|]. intros c6 _. apply good_step; [lia|]. intros c7 _.
  destruct (negb _); [apply good_err; lia|].
  apply good_step; [lia|]. intros ex _.
  destruct (ex <? 56320)%Z; [apply good_err; lia|]. destruct (1023 <? ex - 56320)%Z; [apply good_err; lia|]. cbv zeta.
  set (r' := (Z.shiftl _ _ + _ + _)%Z). pose proof (assign_work' r') as Hw'.
  apply good_step; [lia|]. intros [b' le] Ha. apply assign_len in Ha. unfold str_good. cbn [free fst snd]. lia.
Qed.

Lemma escape_work b i se : str_good (List.length b) i se 1 (handle_escape_c b i se).
Proof.
  unfold handle_escape_c.
  destruct (Nat.ltb_spec (List.length b - i) 2); [apply good_err; lia|].
  apply good_step; [lia|]. intros c _. cbv zeta.
  assert (P : forall x, str_good (List.length b) i se (1 + 1) (wbind (bset_c b se x) (fun b' => free (Ok (b', i + 2, S se))))).
  { intros x. apply good_step; [lia|]. intros b' Hb. apply bset_len in Hb. unfold str_good. cbn [free fst snd]. lia. }
  destruct ((c =? 34)%Z || (c =? 39)%Z || (c =? 47)%Z || (c =? 92)%Z); [apply P|].
  destruct (c =? 98)%Z; [apply P|]. destruct (c =? 102)%Z; [apply P|]. destruct (c =? 114)%Z; [apply P|].
  destruct (c =? 110)%Z; [apply P|]. destruct (c =? 116)%Z; [apply P|]. destruct (c =? 117)%Z; [|apply good_err; lia].
  apply escape_unicode_work.
Qed.

Lemma shift_work b i se le : 1 <= le <= 4 -> str_good (List.length b) i se 1 (shift_c b i se le).
Proof.
  intros H. unfold shift_c. destruct (Nat.ltb_spec (List.length b - i) le); [apply good_err; lia|].
  apply good_step; [lia|]. intros b' Hb. apply memcpy_len in Hb. unfold str_good. cbn [free fst snd]. lia.
Qed.

Lemma str_work n f : forall b off i se, List.length b = n -> off <= i -> se <= i -> i <= n ->
  match fst (parse_str_loop_c f b off i se) with
  | Ok (b', l, e) => List.length b' = n /\ i < e <= n /\ l + off < e /\ snd (parse_str_loop_c f b off i se) <= 3 * (e - i)
  | _ => snd (parse_str_loop_c f b off i se) <= 3 * (n - i) + 18
  end.
Proof.
  induction f as [|f IH]; intros b off i se Hn H1 H1' H2; cbn [parse_str_loop_c]; [cbn; lia|].
  destruct (Nat.ltb_spec i (List.length b)) as [L|L]; [|cbn; lia].
  change (bget_c b i) with (bget b i, 1). destruct (bget b i) as [c|e| |]; cbn [wbind fst snd]; try lia.
  destruct (c =? 34)%Z; [cbn [free fst snd]; lia|].
  match goal with |- context [wbind ?m ?k] => assert (G : str_good (List.length b) i se 1 m) end.
  { destruct (c =? 92)%Z; [apply escape_work|].
    destruct (c <=? 127)%Z.
    { apply good_step; [lia|]. intros b' Hb. apply bset_len in Hb. unfold str_good. cbn [free fst snd]. lia. }
    destruct (rune_bytes2 c); [apply shift_work; lia|]. destruct (rune_bytes3 c); [apply shift_work; lia|].
    destruct (rune_bytes4 c); [apply shift_work; lia|apply good_err; lia]. }
  match goal with |- context [wbind ?m ?k] => destruct m as [[[[b' i'] se']|e| |] j] end;
    unfold str_good in G; cbn [wbind fst snd] in *; try lia.
  destruct G as (G1 & G2 & G3 & G4).
  specialize (IH b' off i' se' ltac:(lia) ltac:(lia) ltac:(lia) ltac:(lia)).
  destruct (parse_str_loop_c f b' off i' se') as [[[[b2 l] e]|e| |] k]; cbn [fst snd] in *; lia.
Qed.

(** Numbers. *)
Lemma num_work b offset n : forall idx s,
  match fst (num_loop_c n b offset idx s) with
  | Ok (_, e) => idx <= e <= idx + n /\ snd (num_loop_c n b offset idx s) <= e - idx + 1
  | _ => snd (num_loop_c n b offset idx s) <= n
  end.
Proof.
  induction n as [|n IH]; intros idx s; cbn [num_loop_c]; [cbn [free fst snd]; lia|].
  change (bget_c b idx) with (bget b idx, 1). destruct (bget b idx) as [c|e| |]; cbn [wbind fst snd]; try lia.
  destruct (num_step s c (idx =? offset) (idx =? S offset)) as [[s'|]|e| |]; cbn [free wbind fst snd]; try lia.
  specialize (IH (S idx) s'). destruct (num_loop_c n b offset (S idx) s') as [[[s2 e]|e| |] k]; cbn [fst snd] in *; lia.
Qed.

Lemma num_step_start s c f g : is_num_start c = true -> num_step s c f g <> Ok None.
Proof.
  intros H. unfold is_num_start, is_digit in H. unfold num_step.
  destruct (Z.eqb_spec c 48) as [->|]; [repeat match goal with |- context [if ?x then _ else _] => destruct x end; discriminate|].
  destruct ((49 <=? c)%Z && (c <=? 57)%Z) eqn:H1; [repeat match goal with |- context [if ?x then _ else _] => destruct x end; discriminate|].
  assert (c = 45%Z) by lia. subst c. cbn [Z.eqb orb Pos.eqb].
  repeat match goal with |- context [if ?x then _ else _] => destruct x end; discriminate.
Qed.

Lemma num_progress b offset n s c : is_num_start c = true -> bget b offset = Ok c ->
  match fst (num_loop_c (S n) b offset offset s) with Ok (_, e) => offset < e | _ => True end.
Proof.
  intros H Hb. cbn [num_loop_c]. change (bget_c b offset) with (bget b offset, 1). rewrite Hb. cbn [wbind].
  pose proof (num_step_start s c (offset =? offset) (offset =? S offset) H) as N.
  destruct (num_step s c (offset =? offset) (offset =? S offset)) as [[s'|]|e| |]; cbn [free wbind fst snd]; try exact I; [|congruence].
  pose proof (num_work b offset n (S offset) s') as W.
  destruct (num_loop_c n b offset (S offset) s') as [[[s2 e]|e| |] k]; cbn [fst snd] in *; try exact I. lia.
Qed.

Lemma number_work E b off c : off < List.length b -> is_num_start c = true -> bget b off = Ok c ->
  match fst (parse_number_c E b off) with
  | Ok (_, e, _) => off < e <= List.length b /\ snd (parse_number_c E b off) + 2 <= 6 * (e - off)
  | _ => snd (parse_number_c E b off) + 2 <= 6 * (List.length b - off)
  end.
Proof.
  intros L Hc Hb. unfold parse_number_c.
  pose proof (num_work b off (S (List.length b - S off)) off nst0) as W.
  pose proof (num_progress b off (List.length b - S off) nst0 c Hc Hb) as P.
  replace (S (List.length b - S off)) with (List.length b - off) in * by lia.
  destruct (num_loop_c (List.length b - off) b off off nst0) as [[[s e]|e| |] k]; cbn [wbind fst snd] in *; try lia.
  destruct (s_flt s).
  - destruct (s_dot s && negb (s_iad s)); [cbn [free fst snd]; lia|].
    unfold costs. destruct (parse_float_result E b off e); cbn [wbind free fst snd]; lia.
  - unfold costs. rewrite Hb. cbn [wbind].
    destruct ((0 <? s_int s)%Z && (c =? 48)%Z); [cbn [free fst snd]; lia|].
    destruct ((e - off =? 1) && negb ((48 <=? c)%Z && (c <=? 57)%Z)); [cbn [free fst snd]; lia|].
    destruct (if s_neg s then parse_neg_result b off e (s_int s) else parse_pos_result b off e (s_int s)); cbn [wbind free fst snd]; lia.
Qed.

(** *** Documents *)

(** [c] has been spent before, [d] is granted in addition; the text has [n] bytes. *)
Definition good (n off c d : nat) (r : work (pres (V * nat))) : Prop :=
  match fst r with
  | POk (_, e) s => List.length (p_buf s) = n /\ off < e <= n /\ snd r + c <= 6 * (e - off) + d
  | _ => snd r + c <= 6 * (n - off) + d + 20
  end.

Lemma good_bind n off c d d' m k : good n off c d m ->
  (forall v e s, List.length (p_buf s) = n -> off < e <= n -> good n e 0 d' (k (v, e) s)) ->
  good n off c (d + d') (wpbind m k).
Proof.
  intros G F. unfold good in *. destruct m as [[[v e] s|e s| |] j]; cbn [wpbind fst snd] in *; try lia.
  destruct G as (G1 & G2 & G3). specialize (F v e s G1 G2).
  destruct (k (v, e) s) as [[[v2 e2] s2|e2 s2| |] i]; cbn [fst snd] in *; lia.
Qed.

Lemma good_perr n off c d e s : off <= n -> c <= d + 20 -> good n off c d (free (PErr e s)).
Proof. intros H1 H2. unfold good. cbn [free fst snd]. lia. Qed.

Lemma good_dispatch n s off d x (k : nat -> Z -> work (pres (V * nat))) : List.length (p_buf s) = n -> off <= n ->
  (forall o c, off <= o < n -> bget (p_buf s) o = Ok c -> good n o 2 d (k o c)) ->
  good n off 0 d (wlift (skip_blanks_c (p_buf s) off n) s (fun '(o, reach) =>
    if reach : bool then free (PErr x s) else wlift (bget_c (p_buf s) o) s (k o))).
Proof.
  intros Hn Ho F. pose proof (skip_work' (p_buf s) off n Ho) as W. unfold good in *.
  destruct (skip_blanks_c (p_buf s) off n) as [[[o [|]]|e| |] j]; cbn [wlift free fst snd] in *; try lia.
  destruct W as [W1 W2]. specialize (F o). change (bget_c (p_buf s) o) with (bget (p_buf s) o, 1).
  destruct (bget (p_buf s) o) as [c|e| |]; cbn [wlift fst snd]; try lia.
  specialize (F c W1 eq_refl). destruct (k o c) as [[[v e] s2|e2 s2| |] i]; cbn [fst snd] in *; lia.
Qed.

Lemma good_string n s off d (k : bytes * nat * nat -> pst -> work (pres (V * nat))) : List.length (p_buf s) = n -> off < n ->
  (forall str ke e s', List.length (p_buf s') = n -> off < e <= n -> S off <= ke <= e -> good n e 0 (d + (ke - S off)) (k (str, ke, e) s')) ->
  good n off 2 d (wpbind (p_string_c s off) k).
Proof.
  intros Hn Ho F. unfold p_string_c, parse_str_c.
  pose proof (str_work n (S (List.length (p_buf s))) (p_buf s) (S off) (S off) (S off) Hn ltac:(lia) ltac:(lia) ltac:(lia)) as W.
  unfold good in *. destruct (parse_str_loop_c (S (List.length (p_buf s))) (p_buf s) (S off) (S off) (S off)) as [[[[b' l] e]|e| |] j];
    cbn [wlift wpbind fst snd] in *; try lia.
  destruct W as (W1 & W2 & W3 & W4).
  destruct (bslice b' (S off) (S off + l)) as [str|er| |]; cbn [wlift wpbind free fst snd]; try lia.
  specialize (F str (S off + l) e (log_slice (set_buf s b') (S off) (S off + l) str) W1 ltac:(lia) ltac:(lia)).
  change (S off + l) with (S (off + l)) in *. cbn [Nat.add] in *.
  destruct (k (str, S (off + l), e) _) as [[[v2 e2] s2|e2 s2| |] i]; cbn [fst snd] in *; lia.
Qed.

Lemma good_scalar E n s c off r : List.length (p_buf s) = n -> off < n -> bget (p_buf s) off = Ok c ->
  p_scalar_c E s c off = Some r -> good n off 2 0 r.
Proof.
  intros Hn Ho Hb. unfold p_scalar_c.
  assert (L : forall lit e1 e2 v, 1 <= List.length lit <= 10 ->
    good n off 2 0 (wlift (parse_lit_c lit e1 e2 (p_buf s) off) s (fun e => free (POk (v, e) s)))).
  { intros lit e1 e2 v Hl. unfold parse_lit_c, costs, parse_lit, good.
    destruct (Nat.ltb_spec (List.length (p_buf s) - off) (List.length lit)); [cbn [wlift fst snd]; lia|].
    destruct (match_lit (p_buf s) off lit) as [[|]|e| |]; cbn [rbind wlift free fst snd]; lia. }
  destruct (is_num_start c) eqn:Hc.
  { intros [= <-]. pose proof (number_work E (p_buf s) off c ltac:(lia) Hc Hb) as W. unfold p_number_c, good.
    destruct (parse_number_c E (p_buf s) off) as [[[[v e] rr]|e| |] j]; cbn [wlift fst snd] in *; try lia.
    destruct v; cbn [free fst snd log_slice pool_get p_buf]; lia. }
  destruct (c =? 116)%Z; [intros [= <-]; apply L; cbn; lia|].
  destruct (c =? 102)%Z; [intros [= <-]; apply L; cbn; lia|].
  destruct (c =? 110)%Z; [intros [= <-]; apply L; cbn; lia|discriminate].
Qed.

Lemma good_less n off off' c c' d d' r : good n off c d r -> off' <= off -> off <= n -> c' + d <= c + d' + 6 * (off - off') ->
  good n off' c' d' r.
Proof. unfold good. intros H H1 H2 H3. destruct r as [[[v e] s|e s| |] j]; cbn [fst snd] in *; lia. Qed.

Lemma good_store E n s e ks ke obj v d (k : V -> work (pres (V * nat))) : e <= n -> (forall obj', good n e 0 d (k obj')) ->
  good n e 0 (d + (ke - ks)) (wlift (costs (ke - ks) (bslice (p_buf s) ks ke)) s (fun key =>
     wlift (free (set_to_object E obj key v)) s k)).
Proof.
  intros He F. unfold good in *. unfold costs. destruct (bslice (p_buf s) ks ke) as [key|er| |]; cbn [wlift free fst snd]; try lia.
  destruct (set_to_object E obj key v) as [obj'|er| |]; cbn [wlift free fst snd]; try lia.
  specialize (F obj'). destruct (k obj') as [[[v2 e2] s2|e2 s2| |] i]; cbn [fst snd] in *; lia.
Qed.

Lemma loops_work E n f :
  (forall s off acc, List.length (p_buf s) = n -> off <= n -> good n off 0 0 (arr_loop_c E f s off n acc)) /\
  (forall s off obj ks ke colon, List.length (p_buf s) = n -> off <= n -> good n off 0 (ke - ks) (obj_loop_c E f s off n obj ks ke colon)).
Proof.
  induction f as [|f [IHa IHo]]; [split; intros; unfold good; cbn; lia|]. split.
  - intros s off acc Hn Ho. cbn [arr_loop_c]. destruct (Nat.ltb_spec off n) as [L|L]; [|apply good_perr; lia].
    apply good_dispatch; [exact Hn|lia|]. intros o c Ho' Hb. clear Ho L; rename off into off0, o into off, Ho' into Ho.
    destruct (c =? 93)%Z; [unfold good; cbn [free fst snd]; lia|].
    destruct (c =? 44)%Z. { apply (good_less n (S off) off 0 2 0 0); [apply IHa; lia|lia|lia|lia]. }
    destruct (c =? 123)%Z.
    { apply (good_bind n off 2 0 0). { apply (good_less n (S off) off 0 2 (0 - 0) 0); [apply IHo; [exact Hn|lia]|lia|lia|lia]. }
      intros v e s' H1 H2. apply IHa; [exact H1|lia]. }
    destruct (c =? 91)%Z.
    { apply (good_bind n off 2 0 0). { apply (good_less n (S off) off 0 2 0 0); [apply IHa; [exact Hn|lia]|lia|lia|lia]. }
      intros v e s' H1 H2. apply IHa; [exact H1|lia]. }
    destruct (c =? 34)%Z.
    { apply good_string; [exact Hn|lia|]. intros str ke e s' H1 H2 H3.
      apply (good_less n e e 0 0 0); [apply IHa; [exact H1|lia]|lia|lia|lia]. }
    destruct (p_scalar_c E s c off) as [r|] eqn:Hr; [|apply good_perr; lia].
    apply (good_bind n off 2 0 0). { exact (good_scalar E n s c off r Hn ltac:(lia) Hb Hr). }
    intros v e s' H1 H2. apply IHa; [exact H1|lia].
  - intros s off obj ks ke colon Hn Ho. cbn [obj_loop_c]. destruct (Nat.ltb_spec off n) as [L|L]; [|apply good_perr; lia].
    apply good_dispatch; [exact Hn|lia|]. intros o c Ho' Hb. clear Ho L; rename off into off0, o into off, Ho' into Ho. cbv zeta.
    assert (S1 : forall v e s', List.length (p_buf s') = n -> off < e <= n -> good n e 0 (ke - ks)
      (wlift (costs (ke - ks) (bslice (p_buf s') ks ke)) s' (fun key =>
       wlift (free (set_to_object E obj key v)) s' (fun obj' => obj_loop_c E f s' e n obj' ks 0 false)))).
    { intros v e s' H1 H2. apply (good_store E n s' e ks ke obj v 0 (fun obj' => obj_loop_c E f s' e n obj' ks 0 false)); [lia|].
      intros obj'. exact (IHo s' e obj' ks 0 false H1 ltac:(lia)). }
    destruct (c =? 125)%Z. { destruct (0 <? ke); [apply good_perr; lia|]. unfold good; cbn [free fst snd]; lia. }
    destruct (c =? 44)%Z. { destruct (0 <? ke); [apply good_perr; lia|].
      apply (good_less n (S off) off 0 2 (ke - ks) (ke - ks)); [apply IHo; lia|lia|lia|lia]. }
    destruct (c =? 58)%Z. { destruct colon; [apply good_perr; lia|]. destruct (key_missing ke true); [apply good_perr; lia|].
      apply (good_less n (S off) off 0 2 (ke - ks) (ke - ks)); [apply IHo; lia|lia|lia|lia]. }
    destruct (c =? 123)%Z.
    { destruct (key_missing ke colon); [apply good_perr; lia|].
      apply (good_bind n off 2 0 (ke - ks)). { apply (good_less n (S off) off 0 2 (0 - 0) 0); [apply IHo; [exact Hn|lia]|lia|lia|lia]. }
      exact S1. }
    destruct (c =? 91)%Z.
    { destruct (key_missing ke colon); [apply good_perr; lia|].
      apply (good_bind n off 2 0 (ke - ks)). { apply (good_less n (S off) off 0 2 0 0); [apply IHa; [exact Hn|lia]|lia|lia|lia]. }
      exact S1. }
    destruct (c =? 34)%Z.
    { destruct (0 <? ke).
      - destruct (negb colon); [apply good_perr; lia|].
        apply good_string; [exact Hn|lia|]. intros str ke' e s' H1 H2 H3.
        apply (good_less n e e 0 0 (ke - ks)); [apply S1; [exact H1|lia]|lia|lia|lia].
      - apply good_string; [exact Hn|lia|]. intros str ke' e s' H1 H2 H3.
        apply (good_less n e e 0 0 (ke' - S off)); [apply IHo; [exact H1|lia]|lia|lia|lia]. }
    destruct (p_scalar_c E s c off) as [r|] eqn:Hr; [|apply good_perr; lia].
    destruct (key_missing ke colon); [apply good_perr; lia|].
    apply (good_bind n off 2 0 (ke - ks)). { exact (good_scalar E n s c off r Hn ltac:(lia) Hb Hr). }
    exact S1.
Qed.

Lemma iter_work E b : b <> [] -> snd (unmarshal_iter_c E (pst0 b) 0) <= 6 * List.length b + 20.
Proof.
  intros Hb. set (n := List.length b). unfold unmarshal_iter_c. cbn [pst0 p_buf]. fold n.
  pose proof (skip_work' b 0 n ltac:(lia)) as W.
  destruct (skip_blanks_c b 0 n) as [[[o [|]]|e| |] j]; cbn [wlift free fst snd] in *; try lia.
  destruct W as [W1 W2]. change (bget_c b o) with (bget b o, 1). destruct (bget b o) as [c|e| |] eqn:Hc; cbn [wlift fst snd]; try lia.
  match goal with |- context [wpbind ?m ?k] => assert (G : good n o 2 0 m) end.
  { destruct (c =? 123)%Z. { apply (good_less n (S o) o 0 2 (0 - 0) 0); [apply loops_work; [reflexivity|lia]|lia|lia|lia]. }
    destruct (c =? 91)%Z. { apply (good_less n (S o) o 0 2 0 0); [apply loops_work; [reflexivity|lia]|lia|lia|lia]. }
    destruct (c =? 34)%Z.
    { pose proof (str_work n (S n) b (S o) (S o) (S o) eq_refl ltac:(lia) ltac:(lia) ltac:(lia)) as X.
      unfold p_string_c, parse_str_c, good. cbn [pst0 p_buf]. fold n.
      destruct (parse_str_loop_c (S n) b (S o) (S o) (S o)) as [[[[b' l] e]|e| |] i]; cbn [wlift wpbind fst snd] in *; try lia.
      destruct (bslice b' (S o) (S o + l)) as [str|er| |]; cbn [wlift wpbind free fst snd log_slice set_buf p_buf]; lia. }
    destruct (p_scalar_c E (pst0 b) c o) as [r|] eqn:Hr; [|apply good_perr; lia].
    exact (good_scalar E n (pst0 b) c o r eq_refl ltac:(lia) Hc Hr). }
  match goal with |- context [wpbind ?m ?k] => destruct m as [[[v e] s|e s| |] i] end;
    unfold good in G; cbn [wpbind fst snd] in *; try lia.
  pose proof (skip_work' (p_buf s) e n ltac:(lia)) as W.
  destruct (skip_blanks_c (p_buf s) e n) as [[[o2 [|]]|e2| |] k2]; cbn [wlift free fst snd] in *; lia.
Qed.

Theorem work_bound E b : snd (unmarshal_nocopy_c E b) <= 6 * List.length b + 20 /\ snd (unmarshal_c E b) <= 7 * List.length b + 20.
Proof.
  unfold unmarshal_nocopy_c, unmarshal_c. destruct b as [|x b]; [cbn; lia|].
  pose proof (iter_work E (x :: b) ltac:(discriminate)) as H. destruct (unmarshal_iter_c E (pst0 (x :: b)) 0) as [r k].
  cbn [fst snd] in *. lia.
Qed.
