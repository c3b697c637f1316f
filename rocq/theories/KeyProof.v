(** The key paths in memory: right while Marshal runs, in part afterwards. *)
From Verif Require Import Base Float64 Value Opt Marshal ListLemmas ValueLemmas SortProof OrderProof SpecOut MarshalProof IndentProof KeyMem SpecKeys.
Local Open Scope nat_scope.

Section Keys.
Variable g : nat -> nat.
Hypothesis grows : forall n, n < g n.

(** The length at which an array was allocated and its capacity. *)
Inductive born : nat -> nat -> Prop :=
| B_one : born 1 1
| B_more n : full g n -> born (S n) (g n).

Definition cells (m : list arr) (a : nat) : list key := a_cells (nth a m arr0).
Definition alloc (b : nat) (x : arr) : Prop :=
  born b (a_cap x) /\ b <= List.length (a_cells x) /\ List.length (a_cells x) <= a_cap x.
Definition inv (B : list nat) (m : list arr) : Prop := Forall2 alloc B m.
Definition valid (B : list nat) (m : list arr) (s : slice) : Prop :=
  exists b, nth_error B (s_arr s) = Some b /\ b <= s_len s /\ s_len s <= List.length (cells m (s_arr s)).
Definition okp (B : list nat) (m : list arr) (pi : option sinfo) : Prop :=
  match pi with Some p => valid B m (si_path p) | None => True end.

(** A call for a value below [pi] leaves alone all cells but those behind the
    path of [pi]. *)
Definition frame (pi : option sinfo) (B : list nat) (m m' : list arr) : Prop :=
  forall a, a < List.length B -> List.length (cells m a) <= List.length (cells m' a) /\
    forall i, (forall p, pi = Some p -> a = s_arr (si_path p) -> i < s_len (si_path p)) ->
      nth_error (cells m' a) i = nth_error (cells m a) i.

Lemma inv_nth B m a : inv B m -> a < List.length B -> exists b, nth_error B a = Some b /\ alloc b (nth a m arr0).
Proof.
  unfold inv. intros H. revert a. induction H as [|b x B m H1 H2 IH]; intros a Ha; cbn [List.length] in Ha; [lia|].
  destruct a as [|a]; [exists b; split; [reflexivity|exact H1]|]. apply IH. lia.
Qed.
Lemma inv_len B m : inv B m -> List.length B = List.length m.
Proof. unfold inv. induction 1; cbn [List.length]; congruence. Qed.
Lemma inv_snoc B m b x : inv B m -> alloc b x -> inv (B ++ [b]) (m ++ [x]).
Proof. intros. apply Forall2_app; [assumption|]. constructor; [assumption|constructor]. Qed.
Lemma inv_set B m a b x : inv B m -> nth_error B a = Some b -> alloc b x -> inv B (set_arr m a x).
Proof.
  unfold inv, set_arr. intros H. revert a. induction H as [|b0 x0 B m H1 H2 IH]; intros a Ha Hx; [destruct a; discriminate|].
  destruct a as [|a]; cbn [nth_error firstn skipn app] in *.
  - injection Ha as ->. now constructor.
  - constructor; [assumption|]. now apply IH.
Qed.
Lemma set_arr_same m a x : a < List.length m -> nth a (set_arr m a x) arr0 = x.
Proof.
  unfold set_arr. revert a. induction m as [|y m IH]; intros a Ha; cbn [List.length] in Ha; [lia|].
  destruct a as [|a]; cbn [firstn skipn app nth]; [reflexivity|]. apply IH. lia.
Qed.
Lemma set_arr_other m a b x : a < List.length m -> a <> b -> nth b (set_arr m a x) arr0 = nth b m arr0.
Proof.
  unfold set_arr. revert a b. induction m as [|y m IH]; intros a b Ha Hab; cbn [List.length] in Ha; [lia|].
  destruct a as [|a]; cbn [firstn skipn app nth].
  - destruct b; [lia|reflexivity].
  - destruct b as [|b]; [reflexivity|]. apply IH; lia.
Qed.
Lemma set_arr_len m a x : a < List.length m -> List.length (set_arr m a x) = List.length m.
Proof. intros H. unfold set_arr. rewrite app_length, firstn_length. cbn [List.length]. rewrite skipn_length. lia. Qed.

(** *** Appending *)

(** The new path: valid, shows what it should; the rest is as before. *)
Lemma new_info B st v pi k st' p : inv B (st_mem st) -> okp B (st_mem st) pi ->
  new_sinfo g st v pi k = (st', p) ->
  exists B', inv B' (st_mem st') /\ (exists X, B' = B ++ X) /\ valid B' (st_mem st') (si_path p) /\
    read_info st' (Some p) = Some (new_parent_info v (read_info st pi) k) /\ st_told st' = st_told st /\
    frame pi B (st_mem st) (st_mem st') /\
    (forall q, pi = Some q -> s_arr (si_path p) = s_arr (si_path q) \/ List.length B <= s_arr (si_path p)) /\
    (forall q, pi = Some q -> s_len (si_path q) < s_len (si_path p)) /\
    (pi = None -> List.length B <= s_arr (si_path p)).
Proof.
  intros Hi Hp. unfold new_sinfo. destruct pi as [q|].
  - cbn [okp] in Hp. destruct q as [pv [a n]]. destruct Hp as (b & Hb & Hbn & Hn). cbn [si_path s_arr s_len] in *.
    assert (Ha : a < List.length B) by (apply nth_error_Some; congruence).
    destruct (inv_nth B _ a Hi Ha) as (b' & Hb' & Hal). rewrite Hb in Hb'. injection Hb' as <-.
    assert (Ham : a < List.length (st_mem st)) by now rewrite <- (inv_len _ _ Hi).
    unfold append_key. cbn [s_arr s_len]. unfold cells in Hn. set (x := nth a (st_mem st) arr0) in *.
    set (cs := firstn n (a_cells x) ++ k :: skipn (S n) (a_cells x)).
    set (cs1 := firstn n (a_cells x) ++ [k]).
    destruct (n <? a_cap x) eqn:En; intros H; injection H as <- <-.
    + apply Nat.ltb_lt in En. destruct Hal as (Hborn & Hl & Hc).
      exists B. cbn [st_mem st_told si_path s_arr s_len].
      assert (L : List.length cs = Nat.max (S n) (List.length (a_cells x))).
      { unfold cs. rewrite app_length, firstn_length. cbn [List.length]. rewrite skipn_length. lia. }
      split; [|split; [|split; [|split; [|split; [|split; [|split; [|split]]]]]]].
      * eapply inv_set; [exact Hi|exact Hb|]. split; [exact Hborn|]. cbn [a_cells a_cap]. rewrite L. lia.
      * exists []. now rewrite app_nil_r.
      * exists b. split; [exact Hb|]. cbn [s_len s_arr]. unfold cells. rewrite set_arr_same by assumption. cbn [a_cells]. rewrite L. lia.
      * cbn [read_info new_parent_info si_parent si_path pi_path st_mem]. do 2 f_equal. unfold shows. cbn [s_arr s_len].
        rewrite set_arr_same by assumption. cbn [a_cells]. fold x. unfold cs.
        rewrite firstn_app, firstn_firstn, firstn_length. rewrite (Nat.min_l n) by lia.
        replace (S n - n) with 1 by lia. rewrite Nat.min_r by lia. reflexivity.
      * reflexivity.
      * intros c Hci. unfold cells.
        destruct (Nat.eq_dec c a) as [->|Hne].
        -- rewrite set_arr_same by assumption. cbn [a_cells]. split; [fold x; rewrite L; lia|]. intros i Hq.
           specialize (Hq _ eq_refl eq_refl). cbn [si_path s_arr s_len] in Hq. unfold cs. rewrite nth_error_app1 by (rewrite firstn_length; lia). fold x. clear -Hq Hn.
           revert Hq Hn. generalize (a_cells x). intros l. revert i n. induction l as [|y l IH]; intros i n Hi Hn; cbn [List.length] in Hn; [lia|].
           destruct n as [|n]; [lia|]. cbn [firstn]. destruct i as [|i]; [reflexivity|]. cbn [nth_error]. apply IH; lia.
        -- rewrite set_arr_other by auto. split; [lia|reflexivity].
      * intros q Hq. injection Hq as <-. now left.
      * intros q Hq. injection Hq as <-. cbn [si_path s_len]. lia.
      * discriminate.
    + apply Nat.ltb_ge in En. destruct Hal as (Hborn & Hl & Hc).
      exists (B ++ [S n]). cbn [st_mem st_told si_path s_arr s_len].
      assert (Hx : n = a_cap x) by lia.
      assert (L : List.length cs1 = S n) by (unfold cs1; rewrite app_length, firstn_length; cbn [List.length]; lia).
      split; [|split; [|split; [|split; [|split; [|split; [|split; [|split]]]]]]].
      * apply inv_snoc; [exact Hi|]. split; [|cbn [a_cells a_cap]; rewrite L; specialize (grows n); lia].
        cbn [a_cap]. constructor. rewrite Hx. destruct Hborn; now constructor.
      * now exists [S n].
      * exists (S n). cbn [s_arr s_len]. rewrite <- (inv_len _ _ Hi). split; [now rewrite nth_error_app2, Nat.sub_diag by lia|].
        unfold cells. rewrite app_nth2 by (rewrite (inv_len _ _ Hi); lia). rewrite (inv_len _ _ Hi), Nat.sub_diag. cbn [nth a_cells]. rewrite L. lia.
      * cbn [read_info new_parent_info si_parent si_path pi_path st_mem]. do 2 f_equal. unfold shows. cbn [s_arr s_len].
        rewrite app_nth2, Nat.sub_diag by lia. cbn [nth a_cells]. rewrite firstn_all2 by (rewrite L; lia). reflexivity.
      * reflexivity.
      * intros c Hci. unfold cells. rewrite app_nth1 by now rewrite <- (inv_len _ _ Hi). split; [lia|reflexivity].
      * intros q Hq. right. rewrite <- (inv_len _ _ Hi). lia.
      * intros q Hq. injection Hq as <-. cbn [si_path s_len]. lia.
      * discriminate.
  - unfold new_slice. intros H. injection H as <- <-. exists (B ++ [1]). cbn [st_mem st_told si_path s_arr s_len].
    split; [|split; [|split; [|split; [|split; [|split; [|split; [|split]]]]]]].
    + apply inv_snoc; [exact Hi|]. split; [constructor|]. cbn. lia.
    + now exists [1].
    + exists 1. cbn [s_arr s_len]. rewrite <- (inv_len _ _ Hi). split; [now rewrite nth_error_app2, Nat.sub_diag by lia|].
      unfold cells. rewrite app_nth2 by (rewrite (inv_len _ _ Hi); lia). rewrite (inv_len _ _ Hi), Nat.sub_diag. cbn. lia.
    + cbn [read_info new_parent_info si_parent si_path st_mem]. unfold shows. cbn [s_arr s_len].
      rewrite app_nth2, Nat.sub_diag by lia. reflexivity.
    + reflexivity.
    + intros c Hci. unfold cells. rewrite app_nth1 by now rewrite <- (inv_len _ _ Hi). split; [lia|reflexivity].
    + discriminate.
    + discriminate.
    + intros _. rewrite <- (inv_len _ _ Hi). lia.
Qed.

(** *** What a call does to the memory *)

(** A path told earlier: the cells up to the birth of its array are as they
    were. *)
Definition entry_ok (B : list nat) (m : list arr) (e : slice * list key) : Prop :=
  valid B m (fst e) /\ List.length (snd e) = s_len (fst e) /\
  forall b i, nth_error B (s_arr (fst e)) = Some b -> i < b -> nth_error (cells m (s_arr (fst e))) i = nth_error (snd e) i.

Definition base (st : store) (pi : option sinfo) : list key :=
  match read_info st pi with Some p => pi_path p | None => [] end.

Record effect (pi : option sinfo) (P : list key -> Prop) (B : list nat) (st : store) (B' : list nat) (st' : store) : Prop := {
  sp_inv : inv B' (st_mem st');
  sp_more : exists X, B' = B ++ X;
  sp_frame : frame pi B (st_mem st) (st_mem st');
  sp_told : exists T, st_told st' = st_told st ++ T /\ Forall (entry_ok B' (st_mem st')) T /\ Forall (fun e => P (snd e)) T
}.

Lemma frame_births pi B m m' : okp B m pi -> frame pi B m m' ->
  forall a b i, nth_error B a = Some b -> i < b -> nth_error (cells m' a) i = nth_error (cells m a) i.
Proof.
  intros Hp Hf a b i Hb Hi. apply Hf; [apply nth_error_Some; congruence|]. intros p -> Ha. destruct Hp as (b' & Hb' & Hl & _).
  rewrite <- Ha, Hb in Hb'. injection Hb' as <-. lia.
Qed.

Lemma frame_shows pi B m m' : okp B m pi -> frame pi B m m' -> forall p, pi = Some p -> shows m' (si_path p) = shows m (si_path p).
Proof.
  intros Hp Hf p ->. destruct Hp as (b & Hb & Hbl & Hl). unfold shows. set (n := s_len (si_path p)) in *. set (a := s_arr (si_path p)) in *.
  assert (Ha : a < List.length B) by (apply nth_error_Some; congruence).
  assert (H : forall i, i < n -> nth_error (cells m' a) i = nth_error (cells m a) i).
  { intros i Hi. apply Hf; [exact Ha|]. intros q Hq _. injection Hq as <-. exact Hi. }
  unfold cells in *. clearbody n. clear -H. revert H. generalize (a_cells (nth a m' arr0)) (a_cells (nth a m arr0)).
  induction n as [|n IH]; intros l l' H; [reflexivity|]. specialize (H 0) as H0. cbn in H0. specialize (H0 ltac:(lia)).
  destruct l as [|x l], l' as [|y l']; try discriminate; [reflexivity|]. injection H0 as <-. cbn [firstn]. f_equal.
  apply IH. intros i Hi. apply (H (S i)). lia.
Qed.
Lemma frame_read pi B st st' : okp B (st_mem st) pi -> frame pi B (st_mem st) (st_mem st') -> read_info st' pi = read_info st pi.
Proof. intros Hp Hf. destruct pi as [p|]; [|reflexivity]. cbn [read_info]. now rewrite (frame_shows _ _ _ _ Hp Hf p eq_refl). Qed.

Lemma valid_stays pi B X m m' s : frame pi B m m' -> valid B m s -> valid (B ++ X) m' s.
Proof.
  intros Hf (b & Hb & Hbl & Hl). assert (Ha : s_arr s < List.length B) by (apply nth_error_Some; congruence).
  exists b. rewrite nth_error_app1 by exact Ha. split; [exact Hb|]. split; [exact Hbl|]. destruct (Hf _ Ha) as [Hc _]. lia.
Qed.
Lemma okp_stays pi B X m m' q : frame pi B m m' -> okp B m q -> okp (B ++ X) m' q.
Proof. destruct q as [q|]; [|auto]. cbn [okp]. apply valid_stays. Qed.

Lemma entry_stays pi B X m m' e : okp B m pi -> frame pi B m m' -> entry_ok B m e -> entry_ok (B ++ X) m' e.
Proof.
  intros Hp Hf (Hv & Hlen & Hc). assert (Hv' := Hv). destruct Hv' as (b & Hb & _).
  assert (Ha : s_arr (fst e) < List.length B) by (apply nth_error_Some; congruence).
  split; [eapply valid_stays; eauto|]. split; [exact Hlen|]. intros b' i. rewrite nth_error_app1 by exact Ha. intros Hb' Hi.
  rewrite (frame_births pi B m m' Hp Hf _ b' i Hb' Hi). now apply (Hc b').
Qed.

Lemma step_refl pi P B st : inv B (st_mem st) -> effect pi P B st B st.
Proof.
  intros H. constructor; [exact H|exists []; now rewrite app_nil_r|intros a Ha; split; [lia|reflexivity]|].
  exists []. rewrite app_nil_r. auto.
Qed.

(** A second call after a first one, both below [pi]. *)
Lemma step_trans pi P B1 st1 B2 st2 B3 st3 : okp B1 (st_mem st1) pi ->
  effect pi P B1 st1 B2 st2 -> effect pi P B2 st2 B3 st3 -> effect pi P B1 st1 B3 st3.
Proof.
  intros Hp [I1 [X1 ->] F1 (T1 & E1 & O1 & P1)] [I2 [X2 ->] F2 (T2 & E2 & O2 & P2)]. constructor.
  - exact I2.
  - exists (X1 ++ X2). now rewrite app_assoc.
  - intros a Ha. destruct (F1 a Ha) as [L1 C1]. destruct (F2 a ltac:(rewrite app_length; lia)) as [L2 C2].
    split; [lia|]. intros i Hi. rewrite C2, C1; auto.
  - exists (T1 ++ T2). split; [now rewrite E2, E1, app_assoc|]. split; apply Forall_app; auto. split; [|exact O2].
    eapply Forall_impl; [|exact O1]. intros e He. eapply entry_stays; [|exact F2|exact He]. eapply okp_stays; eauto.
Qed.

(** A call below the path of a member or an element is a call below [pi]. *)
Lemma step_child o pi v k (P Q : list key -> Prop) B st st0 ci :
  inv B (st_mem st) -> okp B (st_mem st) pi -> child_info g o st v pi k = (st0, ci) ->
  exists B0, inv B0 (st_mem st0) /\ okp B0 (st_mem st0) ci /\
    read_info st0 ci = match o_less o with Some _ => Some (new_parent_info v (read_info st pi) k) | None => None end /\
    effect pi P B st B0 st0 /\
    forall B' st', (forall ks, Q ks -> P ks) -> effect ci Q B0 st0 B' st' -> effect pi P B st B' st'.
Proof.
  intros Hi Hp. unfold child_info. destruct (o_less o) as [f|].
  - destruct (new_sinfo g st v pi k) as [st1 p] eqn:En. intros H. injection H as <- <-.
    destruct (new_info B st v pi k st1 p Hi Hp En) as (B0 & I0 & [X ->] & V0 & R0 & T0 & F0 & S1 & S2 & S3).
    exists (B ++ X). split; [exact I0|]. split; [exact V0|]. split; [exact R0|].
    assert (St : forall P, effect pi P B st (B ++ X) st1).
    { intros P'. constructor; [exact I0|now exists X|exact F0|]. exists []. rewrite app_nil_r. auto. }
    split; [apply St|]. intros B' st' PQ [I1 [X1 ->] F1 (T1 & E1 & O1 & P1)].
    constructor; [exact I1|exists (X ++ X1); now rewrite app_assoc| |].
    + intros a Ha. destruct (F0 a Ha) as [L0 C0]. destruct (F1 a ltac:(rewrite app_length; lia)) as [L1 C1]. split; [lia|].
      intros i Hi'. rewrite C1, C0; [reflexivity|exact Hi'|]. intros q Hq Haq. injection Hq as <-.
      destruct pi as [p0|].
      * specialize (S1 _ eq_refl). specialize (S2 _ eq_refl). specialize (Hi' _ eq_refl). destruct S1 as [S1|S1]; [|lia].
        specialize (Hi' ltac:(congruence)). lia.
      * specialize (S3 eq_refl). lia.
    + exists T1. split; [now rewrite E1, T0|]. split; [exact O1|]. eapply Forall_impl; [|exact P1]. auto.
  - intros H. injection H as <- <-. exists B. split; [exact Hi|]. split; [exact I|]. split; [reflexivity|]. split; [now apply step_refl|].
    intros B' st' PQ [I1 X1 F1 (T1 & E1 & O1 & P1)]. constructor; [exact I1|exact X1| |].
    + intros a Ha. destruct (F1 a Ha) as [L1 C1]. split; [exact L1|]. intros i _. apply C1. discriminate.
    + exists T1. split; [exact E1|]. split; [exact O1|]. eapply Forall_impl; [|exact P1]. auto.
Qed.

(** *** Refinement *)

Definition told_in (o : opt) (st : store) (pi : option sinfo) (v : V) (ks : list key) : Prop :=
  (pi = None -> o_less o <> None) /\
  exists p i kvs lo, at_path v p (VObj i kvs lo) /\ 2 <= List.length kvs /\ ks = base st pi ++ map step_key p.

Definition refines {A} (pi : option sinfo) (P : list key -> Prop) (B : list nat) (st : store)
  (r : res (store * A)) (r' : res A) : Prop :=
  match r with
  | Ok (st', x) => r' = Ok x /\ exists B', effect pi P B st B' st'
  | Err e => r' = Err e
  | Panic => r' = Panic
  | Fuel => r' = Fuel
  end.

Section Doc.
Variable E : Env.
Variable W : World.
Variable o : opt.

Definition run_ok (v : V) (run : store -> option sinfo -> list key -> nat -> smres)
  (run' : option pinfo -> list key -> nat -> mres) : Prop :=
  forall B st pi path cnt, inv B (st_mem st) -> okp B (st_mem st) pi ->
    refines pi (told_in o st pi v) B st (run st pi path cnt) (run' (read_info st pi) path cnt).

Lemma base_child st pi st0 ci v k :
  read_info st0 ci = match o_less o with Some _ => Some (new_parent_info v (read_info st pi) k) | None => None end ->
  forall x ks, told_in o st0 ci x ks -> exists p i kvs lo, at_path x p (VObj i kvs lo) /\ 2 <= List.length kvs /\
    ks = base st pi ++ k :: map step_key p /\ o_less o <> None.
Proof.
  intros R x ks (Hn & p & i & kvs & lo & Hp & Hl & ->). exists p, i, kvs, lo. split; [exact Hp|]. split; [exact Hl|].
  destruct (o_less o) as [f|].
  - split; [|discriminate]. unfold base. rewrite R. unfold new_parent_info. destruct (read_info st pi); cbn [pi_path]; [now rewrite <- app_assoc|reflexivity].
  - destruct ci; [discriminate|]. now elim (Hn eq_refl).
Qed.

Lemma members_ok pi (P : list key -> Prop) path cnt : forall es es' B st first,
  Forall2 (fun e e' => se_key e = e_key e' /\ se_val e = e_val e' /\ run_ok (se_val e) (se_run e) (e_run e')) es es' ->
  Forall (fun e => forall p i kvs lo, at_path (se_val e) p (VObj i kvs lo) -> 2 <= List.length kvs -> o_less o <> None ->
     P (base st pi ++ string_key (se_key e) :: map step_key p)) es ->
  inv B (st_mem st) -> okp B (st_mem st) pi ->
  refines pi P B st (s_members g o st pi path cnt first es) (write_members o (read_info st pi) path cnt first es').
Proof.
  intros es es' B st first H. revert B st first. induction H as [|e e' es es' (Hk & Hv & Hr) H IH]; intros B st first HP Hi Hp.
  - cbn [s_members write_members refines]. split; [reflexivity|]. exists B. now apply step_refl.
  - pose proof (Forall_inv HP) as HP1. pose proof (Forall_inv_tail HP) as HP2. cbn [s_members].
    destruct (child_info g o st (se_val e) pi (string_key (se_key e))) as [st0 ci] eqn:Ec.
    destruct (step_child o pi _ _ P (told_in o st0 ci (se_val e)) B st st0 ci Hi Hp Ec) as (B0 & I0 & V0 & R0 & S0 & S1).
    assert (HQ : forall ks, told_in o st0 ci (se_val e) ks -> P ks).
    { intros ks Hks. destruct (base_child _ _ _ _ _ _ R0 _ _ Hks) as (p & i & kvs & lo & Hp' & Hl & -> & Ho). eapply HP1; eauto. }
    assert (Rest : forall B1 st1 first, effect pi P B st B1 st1 ->
       refines pi P B1 st1 (s_members g o st1 pi path cnt first es) (write_members o (read_info st pi) path cnt first es')).
    { intros B1 st1 first' [I1 [X1 ->] F1 T1]. rewrite <- (frame_read pi B st st1 Hp F1). apply IH; [|exact I1|eapply okp_stays; eauto].
      unfold base. rewrite (frame_read pi B st st1 Hp F1). exact HP2. }
    assert (Run : refines pi P B st
      (let* (st, b) := se_run e st0 ci (path ++ [string_key (se_key e)]) cnt in
       let* (st, rest) := s_members g o st pi path cnt false es in
       Ok (st, (if first then [] else [44%Z]) ++ nl_indent o cnt ++ quoted (o_esc o) (se_key e)
               ++ (if o_indent o then [58; 32]%Z else [58%Z]) ++ fst b ++ rest))
      (let* (b, _) := e_run e' (match o_less o with
                              | Some _ => Some (new_parent_info (e_val e') (read_info st pi) (string_key (e_key e')))
                              | None => None end)
                           (path ++ [string_key (e_key e')]) cnt in
       let* rest := write_members o (read_info st pi) path cnt false es' in
       Ok ((if first then [] else [44%Z]) ++ nl_indent o cnt ++ quoted (o_esc o) (e_key e')
          ++ (if o_indent o then [58; 32]%Z else [58%Z]) ++ b ++ rest))).
    { rewrite <- Hk, <- Hv, <- R0. pose proof (Hr B0 st0 ci (path ++ [string_key (se_key e)]) cnt I0 V0) as Hrun. unfold refines in Hrun.
      destruct (se_run e st0 ci (path ++ [string_key (se_key e)]) cnt) as [[st1 [b er]]| | |]; [|rewrite Hrun; cbn [rbind refines]; reflexivity..].
      destruct Hrun as [Hrun (B1 & St1)]. rewrite Hrun. cbn [rbind fst]. apply S1 in St1; [|exact HQ].
      specialize (Rest B1 st1 false St1). unfold refines in Rest.
      destruct (s_members g o st1 pi path cnt false es) as [[st2 rest]| | |]; [|rewrite Rest; cbn [rbind refines]; reflexivity..].
      destruct Rest as [Rest (B2 & St2)]. rewrite Rest. cbn [rbind refines]. split; [reflexivity|]. exists B2.
      eapply step_trans; eauto. }
    assert (Skip : refines pi P B st (s_members g o st0 pi path cnt true es) (write_members o (read_info st pi) path cnt true es')).
    { specialize (Rest B0 st0 true S0). unfold refines in *. destruct (s_members g o st0 pi path cnt true es) as [[st2 rest]| | |]; auto.
      destruct Rest as [-> (B2 & St2)]. split; [reflexivity|]. exists B2. eapply step_trans; eauto. }
    cbn [write_members]. rewrite <- Hv in Run |- *. destruct (se_val e); try exact Run; [|reflexivity].
    destruct (o_omit_null o); [exact Skip|exact Run].
Qed.

Lemma elems_ok v pi (P : list key -> Prop) path cnt : forall es es' B st n,
  Forall2 (fun e e' => run_ok (fst e) (snd e) e') es es' ->
  (forall j e, nth_error es j = Some e -> forall p i kvs lo, at_path (fst e) p (VObj i kvs lo) -> 2 <= List.length kvs -> o_less o <> None ->
     P (base st pi ++ int_key (Z.of_nat (n + j)) :: map step_key p)) ->
  inv B (st_mem st) -> okp B (st_mem st) pi ->
  refines pi P B st (s_elems g o v st pi path cnt (Z.of_nat n) (map snd es)) (write_elems o v (read_info st pi) path cnt (Z.of_nat n) es').
Proof.
  intros es es' B st n H. revert B st n. induction H as [|e e' es es' Hr H IH]; intros B st n HP Hi Hp.
  - cbn [map s_elems write_elems refines]. split; [reflexivity|]. exists B. now apply step_refl.
  - cbn [map s_elems write_elems].
    destruct (child_info g o st v pi (int_key (Z.of_nat n))) as [st0 ci] eqn:Ec.
    destruct (step_child o pi _ _ P (told_in o st0 ci (fst e)) B st st0 ci Hi Hp Ec) as (B0 & I0 & V0 & R0 & S0 & S1).
    assert (HQ : forall ks, told_in o st0 ci (fst e) ks -> P ks).
    { intros ks Hks. destruct (base_child _ _ _ _ _ _ R0 _ _ Hks) as (p & i & kvs & lo & Hp' & Hl & -> & Ho).
      rewrite <- (Nat.add_0_r n). eapply (HP 0 e); eauto. }
    rewrite <- R0. pose proof (Hr B0 st0 ci (path ++ [int_key (Z.of_nat n)]) cnt I0 V0) as Hrun. unfold refines in Hrun.
    destruct (snd e st0 ci (path ++ [int_key (Z.of_nat n)]) cnt) as [[st1 [b er]]| | |]; [|rewrite Hrun; cbn [rbind refines]; reflexivity..].
    destruct Hrun as [Hrun (B1 & St1)]. rewrite Hrun. cbn [rbind fst]. apply S1 in St1; [|exact HQ].
    assert (St1' := St1). destruct St1' as [I1 [X1 ->] F1 T1].
    assert (Rest : refines pi P (B ++ X1) st1 (s_elems g o v st1 pi path cnt (Z.of_nat n + 1) (map snd es))
       (write_elems o v (read_info st pi) path cnt (Z.of_nat n + 1) es')).
    { replace (Z.of_nat n + 1)%Z with (Z.of_nat (S n)) by lia. rewrite <- (frame_read pi B st st1 Hp F1).
      apply IH; [|exact I1|eapply okp_stays; eauto].
      unfold base. rewrite (frame_read pi B st st1 Hp F1). intros j e1 Hj. rewrite Nat.add_succ_comm. now apply (HP (S j)). }
    unfold refines in Rest. destruct (s_elems g o v st1 pi path cnt (Z.of_nat n + 1) (map snd es)) as [[st2 rest]| | |]; [|rewrite Rest; cbn [rbind refines]; reflexivity..].
    destruct Rest as [Rest (B2 & St2)]. rewrite Rest. cbn [rbind refines]. split; [reflexivity|]. exists B2. eapply step_trans; eauto.
Qed.

Definition mk_sentry (x : kvt) : sentry := SEntry (fst x) (fst (snd x)) (snd (snd x)) (s_marshal g E W o (snd (snd x))).
Definition sent_kv (e : sentry) : kvt := (se_key e, (se_id e, se_val e)).

Lemma s_order_map pi path kvs : s_order W o pi path (map mk_sentry kvs) = map mk_sentry (order_kvs W o pi path kvs).
Proof.
  unfold s_order, order_kvs, kv_less. rewrite go_range_map.
  destruct (o_less o) as [f|]; [|destruct (o_keyseq o) as [|]; [destruct (o_setseq o)|]]; try reflexivity;
    (rewrite go_sort_map; f_equal; apply go_sort_ext; intros x y _ _; reflexivity).
Qed.

Lemma tell_step n pi (P : list key -> Prop) B st : inv B (st_mem st) -> okp B (st_mem st) pi ->
  (2 <= n -> pi <> None -> P (base st pi)) -> effect pi P B st B (tell n pi st).
Proof.
  intros Hi Hp HP. unfold tell. destruct pi as [p|]; [|now apply step_refl]. destruct (2 <=? n) eqn:En; [|now apply step_refl].
  apply Nat.leb_le in En. constructor; cbn [st_mem st_told].
  - exact Hi.
  - exists []. now rewrite app_nil_r.
  - intros a Ha. split; [lia|reflexivity].
  - eexists. split; [reflexivity|]. split; (constructor; [|constructor]); cbn [fst snd].
    + split; [exact Hp|]. assert (Hp' := Hp). destruct Hp' as (b & Hb & Hbl & Hl). unfold cells in Hl. cbn [fst snd]. unfold shows. split.
      * rewrite firstn_length. lia.
      * intros b' i Hb' Hi'. rewrite Hb in Hb'. injection Hb' as <-. unfold cells.
        assert (Hlt : i < s_len (si_path p)) by lia. clear -Hlt. revert i Hlt. generalize (s_len (si_path p)) (a_cells (nth (s_arr (si_path p)) (st_mem st) arr0)).
        intros n l. revert n. induction l as [|x l IH]; intros n i H; [now rewrite firstn_nil|]. destruct n as [|n]; [lia|].
        destruct i as [|i]; [reflexivity|]. cbn [firstn nth_error]. apply IH. lia.
    + apply HP; [exact En|discriminate].
Qed.
Lemma tell_mem n pi st : st_mem (tell n pi st) = st_mem st.
Proof. unfold tell. destruct pi; [|reflexivity]. destruct (2 <=? n); reflexivity. Qed.
Lemma tell_read n pi st q : read_info (tell n pi st) q = read_info st q.
Proof. unfold read_info. rewrite tell_mem. reflexivity. Qed.

Theorem marshal_refines : forall v, run_ok v (s_marshal g E W o v) (marshal_to E W o v).
Proof.
  induction v as [| s | n src | i kvs lo IH | l IH | b | | | ] using V_ind'; intros B st pi path cnt Hi Hp;
    try (cbn [s_marshal marshal_to mok rbind refines]; try split; try reflexivity; exists B; now apply step_refl).
  - cbn [s_marshal marshal_to]. destruct (marshal_number E o n src) as [r| | |]; cbn [rbind refines]; try reflexivity.
    split; [reflexivity|]. exists B. now apply step_refl.
  - rewrite marshal_obj. cbn [s_marshal]. change (fun x => SEntry _ _ _ _) with mk_sentry.
    destruct kvs as [|x0 kvs0] eqn:Ek; [cbn [map refines mok]; split; [reflexivity|]; exists B; now apply step_refl|]. rewrite <- Ek in *.
    assert (Em : exists y ys, map mk_sentry kvs = y :: ys) by (rewrite Ek; cbn; eauto).
    destruct Em as (y & ys & Em). rewrite s_order_map.
    assert (Hlen : List.length (map mk_sentry kvs) = List.length kvs) by apply map_length.
    rewrite Hlen.
    set (P := told_in o st pi (VObj i kvs lo)).
    assert (St0 : effect pi P B st B (tell (List.length kvs) pi st)).
    { apply tell_step; [exact Hi|exact Hp|]. intros Hn Hpi. split; [contradiction|]. exists [], i, kvs, lo.
      split; [constructor|]. split; [exact Hn|]. cbn [map]. now rewrite app_nil_r. }
    assert (St0' := St0). destruct St0' as [I0 _ F0 _].
    pose proof (members_ok pi P path (S cnt) (map mk_sentry (order_kvs W o (read_info st pi) path kvs))
       (map (mk_entry E W o) (order_kvs W o (read_info st pi) path kvs)) B (tell (List.length kvs) pi st) true) as M.
    assert (Hin : forall x, In x (order_kvs W o (read_info st pi) path kvs) -> In x kvs)
      by (intros x; apply Permutation_in, order_kvs_perm).
    assert (M' : refines pi P B (tell (List.length kvs) pi st)
      (s_members g o (tell (List.length kvs) pi st) pi path (S cnt) true (map mk_sentry (order_kvs W o (read_info st pi) path kvs)))
      (write_members o (read_info st pi) path (S cnt) true (map (mk_entry E W o) (order_kvs W o (read_info st pi) path kvs)))).
    { rewrite (tell_read (List.length kvs) pi st pi) in M. apply M.
      - revert Hin. generalize (order_kvs W o (read_info st pi) path kvs). intros L Hin. induction L as [|x L IHL]; cbn [map]; constructor.
        + split; [reflexivity|]. split; [reflexivity|]. cbn [mk_sentry mk_entry se_val se_run e_run]. rewrite Forall_forall in IH.
          apply IH. apply Hin. now left.
        + apply IHL. intros z Hz. apply Hin. now right.
      - apply Forall_forall. intros e He. apply in_map_iff in He as (x & <- & Hx). apply Hin in Hx.
        intros p i' kvs' lo' Hp' Hl' Ho. cbn [mk_sentry se_val se_key] in *. split; [auto|]. exists (SKey (fst x) :: p), i', kvs', lo'.
        destruct x as [k [id x]]. cbn [fst snd] in *. split; [econstructor; eauto|]. split; [exact Hl'|]. cbn [map step_key].
        unfold base. rewrite tell_read. reflexivity.
      - exact I0.
      - now rewrite tell_mem. }
    clear M. rewrite Em. unfold refines in M'.
    destruct (s_members g o (tell (List.length kvs) pi st) pi path (S cnt) true (map mk_sentry (order_kvs W o (read_info st pi) path kvs))) as [[st2 rest]| | |];
      [|rewrite M'; cbn [rbind refines]; reflexivity..].
    destruct M' as [-> (B2 & St2)]. cbn [rbind refines mok]. split; [reflexivity|]. exists B2. eapply step_trans; eauto.
  - cbn [s_marshal marshal_to]. destruct l as [|x0 l0] eqn:El; [split; [reflexivity|]; exists B; now apply step_refl|]. rewrite <- El in *.
    set (P := told_in o st pi (VArr l)).
    pose proof (elems_ok (VArr l) pi P path (S cnt) (map (fun x => (x, s_marshal g E W o x)) l) (map (marshal_to E W o) l) B st 0) as M.
    rewrite map_map in M. cbn [snd] in M. change (map (fun x => s_marshal g E W o x) l) with (map (s_marshal g E W o) l) in M.
    change (Z.of_nat 0) with 0%Z in M.
    assert (M' : refines pi P B st (s_elems g o (VArr l) st pi path (S cnt) 0 (map (s_marshal g E W o) l))
      (write_elems o (VArr l) (read_info st pi) path (S cnt) 0 (map (marshal_to E W o) l))).
    { apply M; [| |exact Hi|exact Hp].
      - clear -IH. induction l as [|x l IHl]; cbn [map]; constructor; [exact (Forall_inv IH)|]. apply IHl. exact (Forall_inv_tail IH).
      - intros j e He p i kvs lo Hp' Hl' Ho. rewrite nth_error_map in He. destruct (nth_error l j) as [x|] eqn:Ej; [|discriminate].
        injection He as <-. cbn [fst] in *. split; [auto|]. exists (SIdx j :: p), i, kvs, lo. split; [econstructor; eauto|].
        split; [exact Hl'|]. reflexivity. }
    clear M. unfold refines in M'. destruct (s_elems g o (VArr l) st pi path (S cnt) 0 (map (s_marshal g E W o) l)) as [[st2 rest]| | |]; [|rewrite M'; cbn [rbind refines]; reflexivity..].
    destruct M' as [-> (B2 & St2)]. cbn [rbind refines mok]. split; [reflexivity|]. exists B2. exact St2.
Qed.
End Doc.
End Keys.

Lemma born_fresh g b c : born g b c -> fresh_length g b.
Proof. destruct 1; now constructor. Qed.

Lemma full_iter g n : full g n -> exists k, n = Nat.iter k g 1.
Proof. induction 1 as [|n H [k ->]]; [now exists 0|]. now exists (S k). Qed.
Lemma iter_le g : (forall n, n < g n) -> forall j k, j <= k -> Nat.iter j g 1 <= Nat.iter k g 1.
Proof.
  intros Hg j k H. induction H as [|k H IH]; [lia|]. change (Nat.iter (S k) g 1) with (g (Nat.iter k g 1)). specialize (Hg (Nat.iter k g 1)). lia.
Qed.
Lemma full_order g : (forall n, n < g n) -> forall a b, full g a -> full g b -> a <= b \/ g b <= a.
Proof.
  intros Hg a b Ha Hb. destruct (full_iter g a Ha) as [j ->], (full_iter g b Hb) as [k ->].
  destruct (le_lt_dec j k) as [H|H]; [left; now apply iter_le|]. right. change (g (Nat.iter k g 1)) with (Nat.iter (S k) g 1). now apply iter_le.
Qed.
Lemma full_pos g n : (forall n, n < g n) -> full g n -> 1 <= n.
Proof. intros Hg H. destruct (full_iter g n H) as [k ->]. apply (iter_le g Hg 0 k). lia. Qed.

(** A fresh length that fits into an array does not exceed its birth. *)
Lemma fresh_birth g b c f : (forall n, n < g n) -> born g b c -> fresh_length g f -> f <= c -> f <= b.
Proof.
  intros Hg Hb Hf Hc. destruct Hb as [|n Hn].
  - exact Hc.
  - destruct Hf as [|m Hm]; [specialize (full_pos g n Hg Hn); lia|]. destruct (full_order g Hg m n Hm Hn) as [H|H]; lia.
Qed.

Lemma firstn_ext {A} (l l' : list A) : forall n, (forall i, i < n -> nth_error l i = nth_error l' i) -> firstn n l = firstn n l'.
Proof.
  revert l'. induction l as [|x l IH]; intros [|y l'] n H; destruct n as [|n]; try reflexivity.
  - specialize (H 0 ltac:(lia)). discriminate.
  - specialize (H 0 ltac:(lia)). discriminate.
  - pose proof (H 0 ltac:(lia)) as H0. injection H0 as <-. cbn [firstn]. f_equal. apply IH. intros i Hi. apply (H (S i)). lia.
Qed.

Theorem key_paths g E W o v : (forall n, n < g n) ->
  match s_marshal_opt g E W o v with
  | Ok (st, b) => marshal_opt E W o v = Ok b /\
      Forall (fun e => told_right v (snd e) /\ List.length (shows (st_mem st) (fst e)) = List.length (snd e) /\
        forall n, fresh_length g n -> n <= List.length (snd e) -> firstn n (shows (st_mem st) (fst e)) = firstn n (snd e)) (st_told st)
  | Err e => marshal_opt E W o v = Err e
  | Panic => marshal_opt E W o v = Panic
  | Fuel => marshal_opt E W o v = Fuel
  end.
Proof.
  intros Hg.
  assert (M : refines g None (told_in o (Store [] []) None v) [] (Store [] []) (s_marshal g E W o v (Store [] []) None [] 0) (marshal_to E W o v None [] 0)).
  { apply (marshal_refines g Hg E W o v [] (Store [] []) None [] 0); [constructor|exact I]. }
  assert (Hok : forall st be, s_marshal g E W o v (Store [] []) None [] 0 = Ok (st, be) -> marshal_to E W o v None [] 0 = Ok be /\
     Forall (fun e => told_right v (snd e) /\ List.length (shows (st_mem st) (fst e)) = List.length (snd e) /\
        forall n, fresh_length g n -> n <= List.length (snd e) -> firstn n (shows (st_mem st) (fst e)) = firstn n (snd e)) (st_told st)).
  { intros st be Hs. rewrite Hs in M. destruct M as [M (B & [I1 _ F1 (T & HT & HO & HP)])]. split; [exact M|].
    cbn [st_told app] in HT. rewrite HT. rewrite Forall_forall in *. intros e He. specialize (HO e He). specialize (HP e He). split.
    - destruct HP as (_ & p & i & kvs & lo & H1 & H2 & H3). exists p, i, kvs, lo. auto.
    - destruct HO as ((b & Hb & Hbl & Hlc) & Hlen & Hc). unfold cells in Hlc. split; [unfold shows; rewrite firstn_length; lia|].
      intros n Hn Hl. unfold shows. rewrite Hlen in Hl.
      rewrite firstn_firstn, Nat.min_l by exact Hl. apply firstn_ext. intros j Hj. apply (Hc b); [exact Hb|].
      assert (Ha : s_arr (fst e) < List.length B) by (apply nth_error_Some; congruence).
      destruct (inv_nth g Hg B _ _ I1 Ha) as (b' & Hb' & Hborn & Hx & Hy). rewrite Hb in Hb'. injection Hb' as <-.
      enough (n <= b) by lia. eapply fresh_birth; [exact Hg|exact Hborn|exact Hn|]. lia. }
  unfold s_marshal_opt, marshal_opt. destruct v; try reflexivity;
    match goal with |- context[rbind ?x _] => destruct x as [[st be]| | |] eqn:Es end;
    try (rewrite M; reflexivity);
    (destruct (Hok st be eq_refl) as [H1 H2]; rewrite H1; destruct be as [bb [e|]]; cbn [rbind fst snd]; [reflexivity|split; [reflexivity|exact H2]]).
Qed.
