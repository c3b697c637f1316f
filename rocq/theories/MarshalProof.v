(** The text written by Marshal is JSON. *)
From Verif Require Import Base Utf8 Float64 Value Opt Marshal ListLemmas SpecJson SpecValue SpecLax SpecText
  ValueLemmas SortProof EscapeProof.

Lemma all_text_arr PS PN l : all_text PS PN (VArr l) <-> Forall (all_text PS PN) l.
Proof.
  cbn. induction l as [|x l IH]; [split; auto|]. rewrite IH. split.
  - intros [H1 H2]; constructor; auto.
  - intros H; inversion H; auto.
Qed.
Lemma all_text_obj PS PN i kvs lo : all_text PS PN (VObj i kvs lo) <->
  Forall (fun x => PS (fst x) /\ all_text PS PN (snd (snd x))) kvs.
Proof.
  cbn. induction kvs as [|[k [id x]] l IH]; [split; auto|]. rewrite IH. split.
  - intros (H1 & H2 & H3); constructor; auto.
  - intros H; inversion H as [|? ? [H1 H2] H3]; auto.
Qed.
Lemma all_objs_arr P l : all_objs P (VArr l) <-> Forall (all_objs P) l.
Proof.
  cbn. induction l as [|x l IH]; [split; auto|]. rewrite IH. split.
  - intros [H1 H2]; constructor; auto.
  - intros H; inversion H; auto.
Qed.
Lemma all_objs_obj P i kvs lo : all_objs P (VObj i kvs lo) <->
  P kvs /\ Forall (fun x => all_objs P (snd (snd x))) kvs.
Proof.
  cbn. apply and_iff_compat_l. induction kvs as [|[k [id x]] l IH]; [split; auto|]. rewrite IH. split.
  - intros (H1 & H2); constructor; auto.
  - intros H; inversion H; auto.
Qed.

Definition nonnull (x : bytes * (Z * V)) : bool := negb (is_null (snd (snd x))).

(** Nulls do not come between written members: there are none, or at most one
    member is written. *)
Definition omit_guard (om : bool) (kvs : list (bytes * (Z * V))) : Prop :=
  om = true -> Forall (fun x => nonnull x = true) kvs \/ (List.length (filter nonnull kvs) <= 1)%nat.

Lemma ws_nil : ws []. Proof. constructor. Qed.
Lemma ws_app a b : ws a -> ws b -> ws (a ++ b).
Proof. intros. now apply Forall_app. Qed.
Lemma ws_concat_repeat w n : ws w -> ws (List.concat (repeat w n)).
Proof. intros H. induction n; cbn; [constructor|now apply ws_app]. Qed.
Lemma ws_nl_indent o cnt : ws (o_prefix o) -> ws (o_indent_str o) -> ws (nl_indent o cnt).
Proof.
  intros H1 H2. unfold nl_indent. destruct (o_indent o); [|constructor].
  constructor; [unfold is_ws; lia|]. apply ws_app; [assumption|now apply ws_concat_repeat].
Qed.

Section Valid.
Variable E : Env.
Variable W : World.
Variable o : opt.
Variable NT : num -> bytes -> jv -> Prop.
Variable ORD : list (bytes * (Z * V)) -> Prop.
Hypothesis Hpre : ws (o_prefix o).
Hypothesis Hind : ws (o_indent_str o).

(** The grammar is a parameter: instantiated below with the one of RFC 8259 and
    with the language the parser accepts (SpecLax.v). *)
Variable PS : bytes -> Prop.
Variable GV : bytes -> jv -> Prop.
Variable GE : bytes -> list jv -> Prop.
Variable GM : bytes -> list (bytes * jv) -> Prop.
Hypothesis PS_byte : forall s, PS s -> Forall is_byte s.
Hypothesis G_null : GV (bs "null") JNull.
Hypothesis G_true : GV (bs "true") (JBool true).
Hypothesis G_false : GV (bs "false") (JBool false).
Hypothesis G_str : forall s, PS s -> GV (34 :: escape_string (o_esc o) s ++ [34]) (JStr (fix_utf8 s)).
Hypothesis G_arr0 : forall w, ws w -> GV (91 :: w ++ [93]) (JArr []).
Hypothesis G_arr : forall t l, GE t l -> GV (91 :: t ++ [93]) (JArr l).
Hypothesis G_obj0 : forall w, ws w -> GV (123 :: w ++ [125]) (JObj []).
Hypothesis G_obj : forall t l, GM t l -> GV (123 :: t ++ [125]) (JObj l).
Hypothesis GE_one : forall w1 t w2 j, ws w1 -> GV t j -> ws w2 -> GE (w1 ++ t ++ w2) [j].
Hypothesis GE_cons : forall w1 t w2 j te l,
  ws w1 -> GV t j -> ws w2 -> GE te l -> GE (w1 ++ t ++ w2 ++ 44 :: te) (j :: l).
Hypothesis GM_one : forall w1 k w2 w3 t w4 j,
  ws w1 -> PS k -> ws w2 -> ws w3 -> GV t j -> ws w4 ->
  GM (w1 ++ 34 :: escape_string (o_esc o) k ++ 34 :: w2 ++ 58 :: w3 ++ t ++ w4) [(fix_utf8 k, j)].
Hypothesis GM_cons : forall w1 k w2 w3 t w4 j tm l,
  ws w1 -> PS k -> ws w2 -> ws w3 -> GV t j -> ws w4 -> GM tm l ->
  GM (w1 ++ 34 :: escape_string (o_esc o) k ++ 34 :: w2 ++ 58 :: w3 ++ t ++ w4 ++ 44 :: tm) ((fix_utf8 k, j) :: l).

Notation om := (o_omit_null o).
Notation SHOWS := (shows NT om ORD).

(** What is known of each entry. *)
Definition good_run (v : V) (run : option pinfo -> list key -> nat -> mres) : Prop :=
  v <> VNil /\
  forall pi path cnt, exists b j, run pi path cnt = Ok (b, None) /\ GV b j /\ SHOWS v j.
Definition good_entry (e : entry) : Prop :=
  PS (e_key e) /\ good_run (e_val e) (e_run e).

Definition e_shows (e : entry) (m : bytes * jv) : Prop :=
  fixed (e_key e) (fst m) /\ SHOWS (e_val e) (snd m).

Definition written (e : entry) : bool := negb (om && is_null (e_val e)).

Definition member_text (cnt : nat) (e : entry) (b : bytes) : bytes :=
  nl_indent o cnt ++ quoted (o_esc o) (e_key e) ++ (if o_indent o then [58; 32] else [58]) ++ b.

Lemma write_members_step pi path cnt first e r :
  good_entry e -> written e = true ->
  exists b j, GV b j /\ SHOWS (e_val e) j /\
    write_members o pi path cnt first (e :: r)
    = let* rest := write_members o pi path cnt false r in
      Ok ((if first then [] else [44]) ++ member_text cnt e b ++ rest).
Proof.
  intros [Hk [Hn Hr]] Hw. cbn [write_members].
  destruct (Hr (match o_less o with
                | Some _ => Some (new_parent_info (e_val e) pi (string_key (e_key e)))
                | None => None end) (path ++ [string_key (e_key e)]) cnt) as (b & j & Hrun & Hj & Hs).
  exists b, j. repeat split; try assumption. unfold written in Hw. unfold member_text.
  assert (Eq : forall rest, (if first then [] else [44]) ++ nl_indent o cnt ++ quoted (o_esc o) (e_key e)
      ++ (if o_indent o then [58; 32] else [58]) ++ b ++ rest =
      (if first then [] else [44]) ++ (nl_indent o cnt ++ quoted (o_esc o) (e_key e) ++ (if o_indent o then [58; 32] else [58]) ++ b) ++ rest).
  { intros rest. now rewrite <- !app_assoc. }
  destruct (e_val e) eqn:Ev; try congruence; try (rewrite Hrun; cbn [rbind]; destruct (write_members o pi path cnt false r); cbn [rbind]; [now rewrite Eq|reflexivity..]).
  destruct om; [discriminate|].
  rewrite Hrun. cbn [rbind]. destruct (write_members o pi path cnt false r); cbn [rbind]; [now rewrite Eq|reflexivity..].
Qed.

Lemma write_members_skip pi path cnt first e r :
  written e = false ->
  write_members o pi path cnt first (e :: r) = write_members o pi path cnt true r.
Proof.
  unfold written. cbn [write_members]. destruct (e_val e); cbn; destruct om; cbn; try discriminate; reflexivity.
Qed.

Lemma member_gram cnt e b j w : good_entry e -> GV b j -> ws w ->
  GM (member_text cnt e b ++ w) [(fix_utf8 (e_key e), j)].
Proof.
  intros [Hk _] Hj Hw. unfold member_text, quoted.
  replace ((nl_indent o cnt ++ (34 :: escape_string (o_esc o) (e_key e) ++ [34]) ++ (if o_indent o then [58; 32] else [58]) ++ b) ++ w)
    with (nl_indent o cnt ++ 34 :: escape_string (o_esc o) (e_key e) ++ 34 :: [] ++ 58 :: (if o_indent o then [32] else []) ++ b ++ w).
  - apply GM_one; auto using ws_nl_indent, ws_nil.
    destruct (o_indent o); [repeat constructor; unfold is_ws; lia|constructor].
  - repeat (rewrite <- app_assoc || cbn [app]). destruct (o_indent o); reflexivity.
Qed.

Lemma member_gram_cons cnt e b j t l : good_entry e -> GV b j -> GM t l ->
  GM (member_text cnt e b ++ 44 :: t) ((fix_utf8 (e_key e), j) :: l).
Proof.
  intros [Hk _] Hj Ht. unfold member_text, quoted.
  replace ((nl_indent o cnt ++ (34 :: escape_string (o_esc o) (e_key e) ++ [34]) ++ (if o_indent o then [58; 32] else [58]) ++ b) ++ 44 :: t)
    with (nl_indent o cnt ++ 34 :: escape_string (o_esc o) (e_key e) ++ 34 :: [] ++ 58 :: (if o_indent o then [32] else []) ++ b ++ [] ++ 44 :: t).
  - apply GM_cons; auto using ws_nl_indent, ws_nil.
    destruct (o_indent o); [repeat constructor; unfold is_ws; lia|constructor].
  - repeat (rewrite <- app_assoc || cbn [app]). destruct (o_indent o); reflexivity.
Qed.

Lemma write_members_all pi path cnt : forall es first,
  es <> [] -> Forall good_entry es -> Forall (fun e => written e = true) es ->
  exists b ms, write_members o pi path cnt first es = Ok ((if first then [] else [44]) ++ b) /\
    (forall w, ws w -> GM (b ++ w) ms) /\ Forall2 e_shows es ms.
Proof.
  induction es as [|e r IH]; intros first Hne Hg Hw; [congruence|].
  inversion Hg as [|? ? Hge Hgr]; subst. inversion Hw as [|? ? Hwe Hwr]; subst.
  destruct (write_members_step pi path cnt first e r Hge Hwe) as (b & j & Hj & Hs & ->).
  assert (Hfx : fixed (e_key e) (fix_utf8 (e_key e))) by (apply fix_fixed, PS_byte; apply Hge).
  destruct r as [|e' r'].
  - cbn [write_members rbind]. exists (member_text cnt e b), [(fix_utf8 (e_key e), j)].
    rewrite app_nil_r. split; [reflexivity|]. split.
    + intros w Hws. now apply member_gram.
    + constructor; [split; assumption|constructor].
  - destruct (IH false) as (b' & ms & -> & Hm & Hsh); try assumption; [discriminate|].
    cbn [rbind]. exists (member_text cnt e b ++ 44 :: b'), ((fix_utf8 (e_key e), j) :: ms).
    split; [reflexivity|]. split.
    + intros w Hws. rewrite <- app_assoc. cbn [app]. apply member_gram_cons; auto.
    + constructor; [split; assumption|assumption].
Qed.

Lemma write_members_none pi path cnt : forall es first,
  Forall (fun e => written e = false) es -> write_members o pi path cnt first es = Ok [].
Proof.
  induction es as [|e r IH]; intros first H; [reflexivity|]. inversion H; subst.
  rewrite write_members_skip by assumption. now apply IH.
Qed.

Lemma filter_all_false {A} (f : A -> bool) l : filter f l = [] -> Forall (fun x => f x = false) l.
Proof.
  induction l as [|x l IH]; intros H; [constructor|]. cbn in H. destruct (f x) eqn:Ex; [discriminate|]. constructor; auto.
Qed.
Lemma filter_all_true {A} (f : A -> bool) l : Forall (fun x => f x = true) l -> filter f l = l.
Proof.
  induction 1 as [|x l H _ IH]; cbn; [reflexivity|]. now rewrite H, IH.
Qed.

(** Some grammars ([free]) take any sequence of members, however separated. *)
Variable free : Prop.
Hypothesis GM_free : free -> forall pi path cnt es first,
  Forall good_entry es ->
  exists b ms, write_members o pi path cnt first es = Ok b /\
    (forall w, ws w -> GM (b ++ w) ms) /\ Forall2 e_shows (filter written es) ms.

(** The members are written as a member list (possibly empty) of the grammar. *)
Lemma write_members_ok pi path cnt : forall es,
  Forall good_entry es ->
  free \/ Forall (fun e => written e = true) es \/ (List.length (filter written es) <= 1)%nat ->
  exists b ms, write_members o pi path cnt true es = Ok b /\
    (forall w, ws w -> GV (123 :: b ++ w ++ [125]) (JObj ms)) /\
    Forall2 e_shows (filter written es) ms.
Proof.
  intros es Hg [Hf|[Hw|Hl]].
  - destruct (GM_free Hf pi path cnt es true Hg) as (b & ms & -> & Hm & Hs). exists b, ms.
    repeat split; try assumption. intros w Hws. rewrite app_assoc. apply G_obj. auto.
  - rewrite filter_all_true by assumption. destruct es as [|e r].
    + exists [], []. repeat split; [|constructor]. intros w Hws. now apply G_obj0.
    + destruct (write_members_all pi path cnt (e :: r) true) as (b & ms & -> & Hm & Hs); try assumption; [discriminate|].
      exists b, ms. repeat split; try assumption. intros w Hws. rewrite app_assoc. apply G_obj. auto.
  - induction es as [|e r IH].
    + exists [], []. repeat split; [|constructor]. intros w Hws. now apply G_obj0.
    + inversion Hg as [|? ? Hge Hgr]; subst. cbn [filter] in *. destruct (written e) eqn:We.
      * cbn [List.length] in Hl. assert (Hn : filter written r = []) by (destruct (filter written r); [reflexivity|cbn [List.length] in Hl; lia]).
        rewrite Hn. destruct (write_members_step pi path cnt true e r Hge We) as (b & j & Hj & Hs & ->).
        rewrite write_members_none by (now apply filter_all_false). cbn [rbind app]. rewrite app_nil_r.
        exists (member_text cnt e b), [(fix_utf8 (e_key e), j)]. split; [reflexivity|]. split.
        -- intros w Hws. rewrite app_assoc. apply G_obj. now apply member_gram.
        -- constructor; [split; [apply fix_fixed, PS_byte; apply Hge|assumption]|constructor].
      * rewrite write_members_skip by assumption. apply IH; assumption.
Qed.

Lemma write_elems_ok v pi path cnt : forall es vs i,
  0 <= i -> es <> [] -> Forall2 good_run vs es ->
  exists b js, write_elems o v pi path cnt i es = Ok ((if 0 <? i then [44] else []) ++ b) /\
    (forall w, ws w -> GE (b ++ w) js) /\ Forall2 SHOWS vs js.
Proof.
  induction es as [|run r IH]; intros vs i Hi Hne Hg; [congruence|].
  inversion Hg as [|x ? vs' ? [Hnx Hrx] Hgr]; subst. cbn [write_elems].
  destruct (Hrx (match o_less o with
                 | Some _ => Some (new_parent_info v pi (int_key i))
                 | None => None end) (path ++ [int_key i]) cnt) as (b & j & -> & Hj & Hs).
  cbn [rbind]. pose proof (ws_nl_indent o cnt Hpre Hind) as Hnl.
  destruct r as [|run' r'].
  - inversion Hgr; subst. cbn [write_elems rbind]. exists (nl_indent o cnt ++ b), [j].
    rewrite app_nil_r. split; [reflexivity|]. split.
    + intros w Hws. rewrite <- app_assoc. now apply GE_one.
    + constructor; [assumption|constructor].
  - destruct (IH vs' (i + 1)) as (b' & js & -> & Hm & Hsh); [lia|discriminate|assumption|].
    cbn [rbind]. replace (0 <? i + 1) with true by lia.
    exists (nl_indent o cnt ++ b ++ 44 :: b'), (j :: js). split.
    { repeat (rewrite <- app_assoc || cbn [app]). reflexivity. }
    split.
    + intros w Hws. repeat (rewrite <- app_assoc || cbn [app]).
      change (b ++ 44 :: b' ++ w) with (b ++ [] ++ 44 :: b' ++ w). apply GE_cons; auto using ws_nil.
    + constructor; assumption.
Qed.

(** What is asked of numbers: the text written is a JSON value. *)
Definition num_written (n : num) (src : bytes) : Prop :=
  exists b j, marshal_number E o n src = Ok (b, None) /\ GV b j /\ NT n src j.

Definition mk_entry (x : bytes * (Z * V)) : entry :=
  Entry (fst x) (fst (snd x)) (snd (snd x)) (marshal_to E W o (snd (snd x))).

(** Any order of the members that the writer may choose satisfies [ORD]. *)
Definition in_order (kvs : list (bytes * (Z * V))) : Prop := forall pi path kvs',
  order_entries W o pi path (map mk_entry kvs) = map mk_entry kvs' -> Permutation kvs kvs' -> ORD kvs'.

Lemma Forall2_map_l {A B C} (f : A -> B) (R : B -> C -> Prop) l l' :
  Forall2 R (map f l) l' <-> Forall2 (fun x y => R (f x) y) l l'.
Proof.
  revert l'. induction l as [|x l IH]; intros l'; split; intros H; inversion H; subst; constructor; try assumption; now apply IH.
Qed.

Lemma marshal_valid : forall v,
  json_typed v -> all_text PS num_written v -> all_objs (fun kvs => (free \/ omit_guard om kvs) /\ in_order kvs) v ->
  good_run v (marshal_to E W o v).
Proof.
  induction v as [| s | n src | i kvs lo IH | l IH | b | | | ] using V_ind'; intros Ht Ha Ho.
  - contradiction.
  - split; [discriminate|]. intros pi path cnt. cbn in Ha.
    exists (quoted (o_esc o) s), (JStr (fix_utf8 s)). split; [reflexivity|]. split.
    + now apply G_str.
    + constructor. now apply fix_fixed, PS_byte.
  - split; [discriminate|]. intros pi path cnt. destruct Ha as (b & j & Hm & Hj & Hn).
    exists b, j. split; [exact Hm|]. split; [assumption|now constructor].
  - split; [discriminate|]. intros pi path cnt.
    apply json_typed_obj in Ht. apply all_text_obj in Ha. apply all_objs_obj in Ho. destruct Ho as [[Hog Hord] Ho].
    destruct Ht as [Hnd Ht].
    cbn [marshal_to]. change (map _ kvs) with (map mk_entry kvs).
    destruct kvs as [|kv0 kvs0] eqn:Ek.
    { exists [123; 125], (JObj []). split; [reflexivity|]. split; [apply (G_obj0 []), ws_nil|].
      apply (SH_obj _ _ _ i [] lo [] []); [constructor| |unfold kept; destruct om; constructor].
      apply (Hord None []); [|constructor]. apply Permutation_nil, Permutation_sym, order_entries_perm. }
    rewrite <- Ek in *. assert (Hne : map mk_entry kvs <> []) by (rewrite Ek; discriminate).
    destruct (map mk_entry kvs) as [|e0 es0] eqn:Ee; [congruence|]. rewrite <- Ee. clear e0 es0 Ee Hne Ek kv0 kvs0.
    pose proof (order_entries_perm W o pi path (map mk_entry kvs)) as P.
    set (es := order_entries W o pi path (map mk_entry kvs)) in *.
    apply Permutation_map_inv in P as (kvs' & Ees & P).
    destruct (write_members_ok pi path (S cnt) es) as (b & ms & -> & Hm & Hs).
    + rewrite Ees. apply Forall_map. eapply Permutation_Forall; [exact P|].
      rewrite Forall_forall in IH, Ht, Ha, Ho |- *. intros x Hx. split; [apply (Ha x Hx)|].
      apply (IH x Hx); [now apply Ht|apply (Ha x Hx)|now apply Ho].
    + rewrite Ees. destruct Hog as [Hog|Hog]; [now left|right]. unfold omit_guard in Hog.
      assert (Hwr : forall x, written (mk_entry x) = negb (om && is_null (snd (snd x)))) by reflexivity.
      destruct om eqn:Eom.
      * destruct (Hog eq_refl) as [Hall|Hone]; [left|right].
        -- apply Forall_map. eapply Permutation_Forall; [exact P|]. eapply Forall_impl; [|exact Hall].
           intros x Hx. rewrite Hwr. exact Hx.
        -- assert (Hf : forall l, List.length (filter written (map mk_entry l)) = List.length (filter nonnull l)).
           { induction l as [|x l IHl]; [reflexivity|]. cbn [map filter]. rewrite Hwr. unfold nonnull at 1.
             cbn [andb]. destruct (negb _); cbn [List.length]; rewrite IHl; reflexivity. }
           rewrite Hf. assert (Hfp : List.length (filter nonnull kvs') = List.length (filter nonnull kvs)).
           { clear -P. induction P; cbn; try destruct (nonnull x); try destruct (nonnull y); cbn; congruence. }
           lia.
      * left. apply Forall_map. apply Forall_forall. intros x _. rewrite Hwr. reflexivity.
    + cbn [rbind]. eexists; exists (JObj ms). split; [reflexivity|]. split; [apply Hm; now apply ws_nl_indent|].
      apply (SH_obj _ _ _ i kvs lo kvs' ms).
      * assumption.
      * apply (Hord pi path); assumption.
      * assert (Hk : filter written es = map mk_entry (kept om kvs')).
        { rewrite Ees. unfold kept. fold nonnull. assert (Hwr : forall x, written (mk_entry x) = negb (om && is_null (snd (snd x)))) by reflexivity.
          clear -Hwr. destruct om; cbn [andb] in Hwr.
          - induction kvs' as [|x l IHl]; [reflexivity|]. cbn [map filter]. rewrite Hwr. unfold nonnull at 1.
            destruct (negb _); cbn [map]; rewrite IHl; reflexivity.
          - apply filter_all_true. apply Forall_map, Forall_forall. intros x _. apply Hwr. }
        rewrite Hk in Hs. exact (proj1 (Forall2_map_l _ _ _ _) Hs).
  - split; [discriminate|]. intros pi path cnt.
    apply json_typed_arr in Ht. apply all_text_arr in Ha. apply all_objs_arr in Ho.
    cbn [marshal_to]. destruct l as [|x l0] eqn:El.
    { exists [91; 93], (JArr []). split; [reflexivity|]. split; [apply (G_arr0 []), ws_nil|]. constructor. constructor. }
    rewrite <- El in *.
    destruct (write_elems_ok (VArr l) pi path (S cnt) (map (marshal_to E W o) l) l 0) as (b & js & -> & Hm & Hs); [lia|rewrite El; discriminate| |].
    { clear El. induction l as [|y l IHl]; [constructor|].
      inversion IH; inversion Ht; inversion Ha; inversion Ho; subst. cbn [map]. constructor; auto. }
    cbn [rbind app]. change (0 <? 0) with false. cbn [app].
    exists (91 :: b ++ nl_indent o cnt ++ [93]), (JArr js). split; [reflexivity|]. split.
    + rewrite app_assoc. apply G_arr. apply Hm. now apply ws_nl_indent.
    + now constructor.
  - split; [discriminate|]. intros pi path cnt. cbn [marshal_to].
    exists (if b then bs "true" else bs "false"), (JBool b). split; [reflexivity|].
    split; [destruct b; assumption|constructor].
  - split; [discriminate|]. intros pi path cnt. exists (bs "null"), JNull. split; [reflexivity|]. split; [assumption|constructor].
  - contradiction.
  - contradiction.
Qed.
End Valid.

(** *** The two grammars *)

Lemma all_objs_impl (P Q : list (bytes * (Z * V)) -> Prop) : (forall kvs, P kvs -> Q kvs) ->
  forall v, all_objs P v -> all_objs Q v.
Proof.
  intros H. induction v as [| s | n src | i kvs lo IH | l IH | b | | | ] using V_ind'; try exact (fun x => x).
  - rewrite !all_objs_obj. intros [H1 H2]. split; [auto|]. rewrite Forall_forall in *. auto.
  - rewrite !all_objs_arr. rewrite !Forall_forall in *. auto.
Qed.
Lemma all_objs_all (P : list (bytes * (Z * V)) -> Prop) : (forall kvs, P kvs) -> forall v, all_objs P v.
Proof.
  intros H. induction v as [| s | n src | i kvs lo IH | l IH | b | | | ] using V_ind'; try exact I.
  - rewrite !all_objs_obj. split; auto.
  - now rewrite !all_objs_arr.
Qed.

Lemma marshal_rfc E W o NT ORD :
  ws (o_prefix o) -> ws (o_indent_str o) ->
  forall v, json_typed v -> all_text str_ok (num_written E o NT jval) v ->
  all_objs (fun kvs => omit_guard (o_omit_null o) kvs /\ in_order E W o ORD kvs) v ->
  good_run o NT ORD jval v (marshal_to E W o v).
Proof.
  intros Hp Hi v Ht Ha Ho.
  apply (all_objs_impl _ (fun kvs => (False \/ omit_guard (o_omit_null o) kvs) /\ in_order E W o ORD kvs)) in Ho; [|tauto]. revert v Ht Ha Ho.
  apply (marshal_valid E W o NT ORD Hp Hi str_ok jval jelems jmembers); try contradiction; try solve [constructor; auto]; try (intros; econstructor; eassumption).
  - intros s H; apply H.
  - intros s [Hs Hv]. apply JT_str. now apply escape_string_body.
  - intros w1 k w2 w3 t w4 j H1 [Hs Hv] H2 H3 Hj H4. apply JM_one; auto. now apply escape_string_body.
  - intros w1 k w2 w3 t w4 j tm l H1 [Hs Hv] H2 H3 Hj H4 Hm. apply JM_cons; auto. now apply escape_string_body.
Qed.

Lemma ws_lblanks w : ws w -> lblanks w.
Proof. apply Forall_impl. intros c H. now left. Qed.

Lemma utf8_lstr cp t s : scalar cp -> cp <> 34 -> cp <> 92 -> lstr t s -> lstr (utf8 cp ++ t) (utf8 cp ++ s).
Proof.
  unfold scalar, utf8. intros Hs H1 H2 H.
  destruct (Z.ltb_spec cp 128); [apply LS_ascii; auto; lia|].
  destruct (Z.ltb_spec cp 2048); [apply LS_two; auto; lia|].
  destruct (Z.ltb_spec cp 65536); [apply LS_three; auto; lia|]. apply LS_four; auto; lia.
Qed.

Lemma utf8_pair cp : 65536 <= cp <= 1114111 -> utf8 cp = pair_bytes cp.
Proof.
  intros H. unfold utf8, pair_bytes. replace (cp <? 128) with false by lia. replace (cp <? 2048) with false by lia.
  replace (cp <? 65536) with false by lia. f_equal. lia.
Qed.

(** An RFC 8259 string is accepted by the lax grammar, with the same meaning. *)
Lemma str_body_app_lstr t s : str_body t s -> forall t' s', lstr t' s' -> lstr (t ++ t') (s ++ s').
Proof.
  induction 1 as [|cp t s Hs H1 H2 H3 _ IH|c d t s Hd _ IH|h cp t s Hh Hs _ IH|h1 h2 hi lo t s Hh1 Hhi Hh2 Hlo _ IH]; intros t' s' H'.
  - exact H'.
  - rewrite <- !app_assoc. apply utf8_lstr; auto.
  - cbn [app]. apply LS_esc; auto.
  - cbn [app]. rewrite <- !app_assoc. apply LS_unicode; auto.
  - cbn [app]. rewrite <- !app_assoc. cbn [app]. rewrite <- !app_assoc. rewrite utf8_pair by lia. apply LS_pair; auto; lia.
Qed.

Lemma esc_rune_vt esc : esc_rune esc 11 = [11].
Proof.
  unfold esc_rune, esc_ascii. cbn [Z.leb]. change (11 <=? 127) with true. cbn iota.
  rewrite !andb_false_r. reflexivity.
Qed.

Lemma escape_runes_lstr esc l : Forall scalar l -> lstr (flat_map (esc_rune esc) l) (utf8_enc l).
Proof.
  induction 1 as [|r l Hr Hl IH]; cbn; [constructor|].
  destruct (Z.eq_dec r 11) as [->|N].
  - rewrite esc_rune_vt. cbn. apply LS_ascii; auto; lia.
  - pose proof (esc_rune_body esc r [] [] Hr N SB_nil) as H. rewrite !app_nil_r in H.
    now apply str_body_app_lstr.
Qed.

Lemma escape_string_lstr esc s : Forall is_byte s -> lstr (escape_string esc s) (fix_utf8 s).
Proof. intros Hs. apply escape_runes_lstr. eapply utf8_read_scalar. now apply runes_read. Qed.

Lemma ws_after_num j w : ws w -> after_num j w.
Proof.
  intros H. destruct j; try exact I. destruct w as [|c w]; [exact I|]. cbn. inversion H; subst.
  unfold is_ws in *. unfold number_byte, digit. lia.
Qed.
Lemma ws_comma_after_num j w t : ws w -> after_num j (w ++ 44 :: t).
Proof.
  intros H. destruct j; try exact I. destruct w as [|c w]; cbn; [unfold number_byte, digit; lia|]. inversion H; subst.
  unfold is_ws in *. unfold number_byte, digit. lia.
Qed.

Lemma write_members_lax o NT ORD pi path cnt : ws (o_prefix o) -> ws (o_indent_str o) -> forall es first,
  Forall (good_entry o NT ORD (Forall is_byte) lval) es ->
  exists b ms, write_members o pi path cnt first es = Ok b /\
    (forall w, ws w -> lmembers (b ++ w) ms) /\
    (forall j w, ws w -> after_num j (b ++ w)) /\
    Forall2 (e_shows o NT ORD) (filter (written o) es) ms.
Proof.
  intros Hp Hi. pose proof (ws_nl_indent o cnt Hp Hi) as Hnl.
  induction es as [|e r IH]; intros first Hg.
  { exists [], []. split; [reflexivity|]. split; [intros w Hw; apply LM_end; auto using ws_lblanks|]. split; [intros; now apply ws_after_num|constructor]. }
  inversion Hg as [|? ? Hge Hgr]; subst. cbn [filter]. destruct (written o e) eqn:We.
  - destruct (write_members_step o NT ORD (Forall is_byte) lval pi path cnt first e r Hge We) as (b & j & Hj & Hs & ->).
    destruct (IH false Hgr) as (b' & ms & -> & Hm & Han & Hsh). cbn [rbind].
    assert (Hfx : fixed (e_key e) (fix_utf8 (e_key e))) by (apply fix_fixed; apply Hge).
    eexists; exists ((fix_utf8 (e_key e), j) :: ms). split; [reflexivity|].
    assert (Hmem : forall w, ws w -> lmembers ((member_text o cnt e b ++ b') ++ w) ((fix_utf8 (e_key e), j) :: ms)).
    { intros w Hw. unfold member_text, quoted.
      replace (_ ++ w) with (nl_indent o cnt ++ 34 :: escape_string (o_esc o) (e_key e) ++ 34 :: [] ++ 58 :: (if o_indent o then [32] else []) ++ b ++ b' ++ w)
        by (repeat (rewrite <- app_assoc || cbn [app]); destruct (o_indent o); reflexivity).
      apply LM_cons; auto using ws_lblanks, ws_nil.
      - apply escape_string_lstr, Hge.
      - apply ws_lblanks. destruct (o_indent o); [repeat constructor; unfold is_ws; lia|constructor]. }
    split; [|split].
    + intros w Hw. rewrite <- app_assoc. destruct first; [now apply Hmem|]. cbn [app].
      apply (LM_comma []); [constructor|now apply Hmem].
    + intros j' w Hw. destruct j'; try exact I. destruct first; [|cbn; unfold number_byte, digit; lia].
      cbn [app]. unfold member_text, quoted. unfold nl_indent. destruct (o_indent o); cbn; unfold number_byte, digit; lia.
    + constructor; [split; assumption|assumption].
  - rewrite write_members_skip by assumption. apply IH. assumption.
Qed.

Lemma marshal_lax E W o NT ORD :
  ws (o_prefix o) -> ws (o_indent_str o) ->
  forall v, json_typed v -> all_text (Forall is_byte) (num_written E o NT lval) v -> all_objs (in_order E W o ORD) v ->
  good_run o NT ORD lval v (marshal_to E W o v).
Proof.
  intros Hp Hi v Ht Ha Ho.
  apply (all_objs_impl _ (fun kvs => (True \/ omit_guard (o_omit_null o) kvs) /\ in_order E W o ORD kvs)) in Ho; [|tauto]. revert v Ht Ha Ho.
  apply (marshal_valid E W o NT ORD Hp Hi (Forall is_byte) lval lelems lmembers);
    try solve [auto | constructor; auto using escape_string_lstr, ws_lblanks | constructor; constructor; auto using ws_lblanks].
  - intros w1 t w2 j H1 Hj H2. apply LE_cons; auto using ws_lblanks, ws_after_num. apply LE_end. auto using ws_lblanks.
  - intros w1 t w2 j te l H1 Hj H2 He. apply LE_cons; auto using ws_lblanks, ws_comma_after_num. apply LE_comma; auto using ws_lblanks.
  - intros w1 k w2 w3 t w4 j H1 Hs H2 H3 Hj H4. apply LM_cons; auto using ws_lblanks, escape_string_lstr, ws_after_num. apply LM_end. auto using ws_lblanks.
  - intros w1 k w2 w3 t w4 j tm l H1 Hs H2 H3 Hj H4 Hm. apply LM_cons; auto using ws_lblanks, escape_string_lstr, ws_comma_after_num. apply LM_comma; auto using ws_lblanks.
  - intros _ pi path cnt es first Hg.
    destruct (write_members_lax o NT ORD pi path cnt Hp Hi es first Hg) as (b & ms & H1 & H2 & _ & H3). eauto.
Qed.

Lemma in_any_order E W o kvs : in_order E W o any_order kvs.
Proof. intros pi path kvs' _ _. exact I. Qed.
