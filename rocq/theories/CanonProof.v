(** Texts that parsing and marshalling reproduce (C60). *)
From Verif Require Import Base Utf8 Float64 Value Scan Unmarshal Pure Opt Marshal ListLemmas SpecJson SpecValue SpecLax SpecText SpecOrder SpecOut SpecOpts SpecCanon
  UnmarshalProof ValueLemmas NumProof ParseComplete ParseFacts SortProof Utf8Proof EscapeProof MarshalProof OrderProof LaxNum LaxParse
  RoundTrip NumFacts SeqProof LaxFacts MarshalFacts IndentProof LaxSame.

(** *** The output is determined by the tree that it shows *)

Fixpoint spell (esc : Z) (j : jv) : rtree :=
  match j with
  | JNull => RLeaf (bs "null")
  | JBool b => RLeaf (if b then bs "true" else bs "false")
  | JNum lit => RLeaf lit
  | JStr s => RLeaf (quoted esc s)
  | JArr l => RArr (map (spell esc) l)
  | JObj ms => RObj (map (fun m => (quoted esc (fst m), spell esc (snd m))) ms)
  end.

Lemma fix_well_formed s : Forall is_byte s -> well_formed (fix_utf8 s).
Proof. intros H. exists (runes s). split; [apply (utf8_read_scalar s), runes_read, H|reflexivity]. Qed.
Lemma fixed_wf s s' : Forall is_byte s -> fixed s s' -> well_formed s'.
Proof. intros Hs H. rewrite (fixed_fix s s' Hs H). now apply fix_well_formed. Qed.
Lemma quoted_fix esc s : Forall is_byte s -> quoted esc (fix_utf8 s) = quoted esc s.
Proof.
  intros H. unfold quoted, escape_string. do 2 f_equal. f_equal.
  symmetry. apply utf8_read_det; [|apply well_formed_bytes, fix_well_formed, H].
  apply utf8_read_enc, (utf8_read_scalar s), runes_read, H.
Qed.

Section Spell.
Variable E : Env.
Variable W : World.
Variable o : opt.
Variable ORD : list (bytes * (Z * V)) -> Prop.
Hypothesis Hom : o_omit_null o = false.

Definition spells (v : V) : Prop := forall pi path, exists j, shows num_text false ORD v j /\
  forall cnt, marshal_to E W o v pi path cnt = Ok (render (lay_of o) cnt (spell (o_esc o) j), None).

Lemma members_spell pi path : forall l,
  Forall (fun x => snd (snd x) <> VNil /\ Forall is_byte (fst x) /\ spells (snd (snd x))) l ->
  exists ms, Forall2 (fun x m => fixed (fst x) (fst m) /\ shows num_text false ORD (snd (snd x)) (snd m)) l ms /\
    forall (cnt : nat) (first : bool),
    let comma : bytes := if first then [] else match ms with [] => [] | _ => [44] end in
    write_members o pi path cnt first (map (mk_entry E W o) l)
    = Ok (comma ++ join (map (fun m => line (lay_of o) cnt ++ quoted (o_esc o) (fst m) ++ colon (lay_of o) ++ render (lay_of o) cnt (spell (o_esc o) (snd m))) ms)).
Proof.
  induction l as [|x l IH]; intros Hf.
  - exists []. split; [constructor|]. intros cnt [|]; reflexivity.
  - inversion Hf as [|? ? (Hn & Hk & Hb) Hf']; subst. destruct (IH Hf') as (ms & Hms & Hw).
    destruct (Hb (match o_less o with
                  | Some _ => Some (new_parent_info (snd (snd x)) pi (string_key (fst x)))
                  | None => None end) (path ++ [string_key (fst x)])) as (j & Hj & Hr).
    exists ((fix_utf8 (fst x), j) :: ms). split; [constructor; [split; [now apply fix_fixed|exact Hj]|exact Hms]|].
    intros cnt first. specialize (Hr cnt). specialize (Hw cnt false).
    assert (HC : forall (A : Type) (a : A) (v : V) (k1 k2 : A), v <> VNil ->
        match v with VNil => a | VNull => if o_omit_null o then k2 else k1 | _ => k1 end = k1).
    { intros A a v k1 k2 Hv. rewrite Hom. destruct v; try reflexivity. congruence. }
    cbn [map write_members mk_entry e_key e_val e_run]. etransitivity; [apply HC; assumption|]. rewrite Hr. cbn [rbind].
    rewrite Hw. cbn [rbind]. f_equal. rewrite nl_line, colon_lay. cbn [fst snd]. rewrite (quoted_fix (o_esc o) (fst x) Hk). destruct first; cbn [app].
    + destruct ms as [|m ms]; cbn [map]; [cbn [join fst snd app]; now rewrite app_nil_r|]. rewrite join_cons. cbn [fst snd].
      repeat (rewrite <- app_assoc || cbn [app]). reflexivity.
    + f_equal. destruct ms as [|m ms]; cbn [map]; [cbn [join fst snd app]; now rewrite app_nil_r|]. rewrite join_cons. cbn [fst snd].
      repeat (rewrite <- app_assoc || cbn [app]). reflexivity.
Qed.

Lemma elems_spell v pi path : forall l, Forall spells l -> forall i, 0 <= i ->
  exists js, Forall2 (shows num_text false ORD) l js /\ forall cnt,
    let comma : bytes := if 0 <? i then match js with [] => [] | _ => [44] end else [] in
    write_elems o v pi path cnt i (map (marshal_to E W o) l)
    = Ok (comma ++ join (map (fun x => line (lay_of o) cnt ++ render (lay_of o) cnt (spell (o_esc o) x)) js)).
Proof.
  induction l as [|x l IH]; intros Hf i Hi.
  - exists []. split; [constructor|]. intros cnt. destruct (0 <? i); reflexivity.
  - inversion Hf as [|? ? Hb Hf']; subst. destruct (IH Hf' (i + 1)) as (js & Hjs & Hw); [lia|].
    destruct (Hb (match o_less o with
                  | Some _ => Some (new_parent_info v pi (int_key i))
                  | None => None end) (path ++ [int_key i])) as (j & Hj & Hr).
    exists (j :: js). split; [constructor; assumption|].
    intros cnt. specialize (Hr cnt). specialize (Hw cnt). replace (0 <? i + 1) with true in Hw by lia.
    cbn [map write_elems]. rewrite Hr. cbn [rbind]. rewrite Hw. cbn [rbind]. f_equal. rewrite nl_line.
    f_equal. destruct js as [|m ms]; cbn [map]; [cbn [join app]; now rewrite app_nil_r|]. rewrite join_cons.
      repeat (rewrite <- app_assoc || cbn [app]). reflexivity.
Qed.

Lemma marshal_spell v : json_typed v -> all_text (Forall is_byte) (fun _ src => src <> []) v -> all_objs (in_order E W o ORD) v -> spells v.
Proof.
  induction v as [| s | n src | i kvs lo IH | l IH | b | | | ] using V_ind'; intros Ht Ha Ho pi path; try contradiction.
  - exists (JStr (fix_utf8 s)). split; [constructor; now apply fix_fixed|]. intros cnt. cbn [spell render]. rewrite quoted_fix by exact Ha. reflexivity.
  - exists (JNum src). split; [now constructor|]. intros cnt. cbn [marshal_to marshal_number spell render]. destruct src; [now elim Ha|reflexivity].
  - apply json_typed_obj in Ht as [Hnd Ht]. apply all_text_obj in Ha. apply all_objs_obj in Ho as [Hord Ho].
    assert (Hp := order_kvs_perm W o pi path kvs).
    destruct (members_spell pi path (order_kvs W o pi path kvs)) as (ms & Hms & Hw).
    { eapply Permutation_Forall; [apply Permutation_sym, Hp|]. rewrite Forall_forall in *. intros x Hx.
      split; [|split; [apply (Ha x Hx)|apply IH; [exact Hx|now apply Ht|apply (Ha x Hx)|now apply Ho]]].
      specialize (Ht x Hx). destruct (snd (snd x)); try discriminate. contradiction. }
    exists (JObj ms). split.
    + apply (SH_obj _ _ _ i kvs lo (order_kvs W o pi path kvs) ms); [apply Permutation_sym, Hp| |exact Hms].
      apply (Hord pi path); [apply order_mk|apply Permutation_sym, Hp].
    + intros cnt. rewrite marshal_obj. destruct kvs as [|kv0 kvs0] eqn:Ek.
      * apply Permutation_sym, Permutation_nil in Hp. rewrite Hp in Hms. inversion Hms; subst. reflexivity.
      * rewrite (Hw (S cnt) true). cbn [rbind app]. rewrite nl_line.
        destruct ms as [|m ms]; [inversion Hms as [H0|]; rewrite <- H0 in Hp; apply Permutation_nil in Hp; discriminate|].
        cbn [spell render map]. rewrite map_map. reflexivity.
  - apply json_typed_arr in Ht. apply all_text_arr in Ha. apply all_objs_arr in Ho.
    destruct (elems_spell (VArr l) pi path l) with (i := 0) as (js & Hjs & Hw); [|lia|].
    { rewrite Forall_forall in *. auto. }
    exists (JArr js). split; [now constructor|]. intros cnt. cbn [marshal_to]. destruct l as [|x l].
    + inversion Hjs; subst. reflexivity.
    + rewrite (Hw (S cnt)). replace (0 <? 0) with false by reflexivity. cbn [rbind app]. rewrite nl_line.
      destruct js as [|m ms]; [inversion Hjs|]. cbn [spell render map]. rewrite map_map. reflexivity.
  - exists (JBool b). split; [constructor|]. intros cnt. destruct b; reflexivity.
  - exists JNull. split; [constructor|]. intros cnt. reflexivity.
Qed.
End Spell.

(** *** The tree shown is unique *)

Section Canon.
Variable E : Env.
Variable P : kvt -> kvt -> Prop.
Hypothesis Pasym : forall x y, P x y -> P y x -> False.
Notation ORD := (ForallOrdPairs P).
Notation shown := (shows num_text false ORD).

Lemma shown_unique v : all_text (Forall is_byte) (fun _ _ => True) v -> forall j j', shown v j -> shown v j' -> j = j'.
Proof using Pasym.
  induction v as [| s | n src | i kvs lo IH | l IH | b | | | ] using V_ind'; intros Ht j j' H H';
    inversion H as [|b' Eb Ej|n0 src0 j0 HN En Ej|s0 s' Hf Es Ej|l0 l' Hl El Ej|i0 kvs0 lo0 kvs' ms Hp Hor Hm Ek Ej]; subst;
    inversion H' as [|b2 Eb2 Ej2|n2 src2 j2 HN2 En2 Ej2|s2 s2' Hf2 Es2 Ej2|l2 l2' Hl2 El2 Ej2|i2 kvs2 lo2 kvs2' ms2 Hp2 Hor2 Hm2 Ek2 Ej2]; subst; try reflexivity.
  - f_equal. cbn in Ht. rewrite (fixed_fix s s'), (fixed_fix s s2') by assumption. reflexivity.
  - unfold num_text in *. congruence.
  - apply all_text_obj in Ht. f_equal. cbn [kept] in *.
    assert (Ek : kvs' = kvs2').
    { eapply sorted_unique with (P := P); try eassumption; [|etransitivity; [symmetry|]; eassumption].
      intros x y _ _ A B. elim (Pasym x y A B). }
    subst kvs2'. apply (Permutation_Forall Hp) in IH. apply (Permutation_Forall Hp) in Ht.
    clear H H' Hp Hp2 Hor Hor2. revert ms2 Hm2.
    induction Hm as [|x m ks ms [F1 S1] Hm IHm]; intros ms2 Hm2; inversion Hm2 as [|? m' ? ms2' [F2 S2] R2]; subst; [reflexivity|].
    inversion IH; inversion Ht as [|? ? [Hb Hv]]; subst.
    f_equal; [|apply IHm; assumption].
    destruct m as [k j], m' as [k' j']. cbn [fst snd] in *. f_equal; [|eauto].
    rewrite (fixed_fix _ _ Hb F1), (fixed_fix _ _ Hb F2). reflexivity.
  - apply all_text_arr in Ht. f_equal. clear H H'. revert l2' Hl2.
    induction Hl as [|x m ks ms S1 Hm IHm]; intros l2' Hl2; inversion Hl2; subst; [reflexivity|].
    inversion IH; inversion Ht; subst. f_equal; eauto.
Qed.

(** Strings and names of a tree. *)
Fixpoint texts (S : bytes -> Prop) (j : jv) : Prop :=
  match j with
  | JStr s => S s
  | JArr l => (fix go (l : list jv) : Prop := match l with [] => True | x :: r => texts S x /\ go r end) l
  | JObj ms => (fix go (l : list (bytes * jv)) : Prop := match l with [] => True | (k, x) :: r => (S k /\ texts S x) /\ go r end) ms
  | _ => True
  end.
Lemma texts_arr S l : texts S (JArr l) <-> Forall (texts S) l.
Proof using.
  cbn. induction l as [|x l IH]; [split; auto|]. rewrite IH. split.
  - intros [H1 H2]; constructor; auto.
  - intros H; inversion H; auto.
Qed.
Lemma texts_obj S l : texts S (JObj l) <-> Forall (fun m => S (fst m) /\ texts S (snd m)) l.
Proof using.
  cbn. induction l as [|[k x] l IH]; [split; auto|]. rewrite IH. split.
  - intros [H1 H2]; constructor; auto.
  - intros H; inversion H; auto.
Qed.
Lemma texts_bytes j : texts well_formed j -> j_bytes j.
Proof using.
  induction j as [ |b|lit|s|l IH|l IH] using jv_ind'; intros H; try exact I.
  - now apply well_formed_bytes.
  - apply texts_arr in H. apply j_bytes_arr. rewrite Forall_forall in *. auto.
  - apply texts_obj in H. apply j_bytes_obj. rewrite Forall_forall in *. intros m Hm. destruct (H m Hm). split; [now apply well_formed_bytes|auto].
Qed.
Lemma to_V_texts S j : all_lits lax_num j -> texts S j -> all_text S (fun _ src => lax_num src) (to_V E j).
Proof using.
  induction j as [ |b|lit|s|l IH|l IH] using jv_ind'; intros Hl Hb; try exact I.
  - cbn [all_lits] in Hl. destruct (lax_number E lit Hl) as (n & Hn). cbn [to_V]. rewrite Hn. exact Hl.
  - exact Hb.
  - apply all_lits_arr in Hl. apply texts_arr in Hb. cbn [to_V]. apply all_text_arr, Forall_map.
    rewrite Forall_forall in *. auto.
  - apply all_lits_obj in Hl. apply texts_obj in Hb. cbn [to_V].
    change (fold_left _ l new_object) with (put_all E l (VObj 0 [] None)).
    apply all_text_put_all; [|exact I]. rewrite Forall_forall in *.
    intros x Hx. split; [now apply Hb|]. apply IH; [assumption|now apply Hl|now apply Hb].
Qed.
(** The names of every object of a tree. *)
Fixpoint all_names (N : list bytes -> Prop) (j : jv) : Prop :=
  match j with
  | JArr l => (fix go (l : list jv) : Prop := match l with [] => True | x :: r => all_names N x /\ go r end) l
  | JObj ms => N (map fst ms) /\
               (fix go (l : list (bytes * jv)) : Prop := match l with [] => True | (_, x) :: r => all_names N x /\ go r end) ms
  | _ => True
  end.
Lemma all_names_arr N l : all_names N (JArr l) <-> Forall (all_names N) l.
Proof using.
  cbn. induction l as [|x l IH]; [split; auto|]. rewrite IH. split.
  - intros [H1 H2]; constructor; auto.
  - intros H; inversion H; auto.
Qed.
Lemma all_names_obj N l : all_names N (JObj l) <-> N (map fst l) /\ Forall (fun m => all_names N (snd m)) l.
Proof using.
  cbn [all_names]. apply and_iff_compat_l. induction l as [|[k x] l IH]; [split; auto|]. rewrite IH. split.
  - intros [H1 H2]; constructor; auto.
  - intros H; inversion H; auto.
Qed.

Lemma shown_texts v : all_text (Forall is_byte) (fun _ _ => True) v -> forall j, shown v j -> texts well_formed j.
Proof using.
  induction v as [| s | n src | i kvs lo IH | l IH | b | | | ] using V_ind'; intros Ht j H;
    inversion H as [|b' Eb Ej|n0 src0 j0 HN En Ej|s0 s' Hf Es Ej|l0 l' Hl El Ej|i0 kvs0 lo0 kvs' ms Hp Hor Hm Ek Ej]; subst; try exact I.
  - cbn in *. eapply fixed_wf; eassumption.
  - unfold num_text in HN. subst. exact I.
  - apply all_text_obj in Ht. apply texts_obj. cbn [kept] in Hm.
    apply (Permutation_Forall Hp) in IH. apply (Permutation_Forall Hp) in Ht. clear - IH Ht Hm.
    induction Hm as [|x m ks ms [F1 S1] Hm IHm]; constructor; inversion IH; inversion Ht as [|? ? [Hb Hv]]; subst.
    + split; [eapply fixed_wf; eassumption|auto].
    + auto.
  - apply all_text_arr in Ht. apply texts_arr. clear - IH Ht Hl.
    induction Hl; constructor; inversion IH; inversion Ht; subst; auto.
Qed.

Variable N : list bytes -> Prop.
Variable Q : list kvt -> Prop.
Variable N0 : Z.
Hypothesis Hback : forall ms, Z.of_nat (List.length ms) < N0 -> N (map fst ms) ->
  exists i kvs lo kvs', to_V E (JObj ms) = VObj i kvs lo /\ Permutation kvs kvs' /\ ORD kvs' /\ Forall2 (member_of E) ms kvs'.
Hypothesis Hconv : forall kvs', NoDup (map fst kvs') -> ORD kvs' -> N (map fst kvs').
Hypothesis HQ : forall kvs' names, NoDup (map fst kvs') -> ORD kvs' -> Forall (Forall is_byte) (map fst kvs') -> Forall2 fixed (map fst kvs') names -> (N names <-> Q kvs').
Hypothesis HQp : forall kvs kvs', Permutation kvs kvs' -> Q kvs <-> Q kvs'.

Lemma back_shows j : small N0 j -> all_lits lax_num j -> texts well_formed j -> all_names N j -> shown (to_V E j) j.
Proof using Hback.
  induction j as [ |b|lit|s|l IH|l IH] using jv_ind'; intros Hsm Hl Ht Hn; try (constructor; fail).
  - cbn [all_lits to_V] in *. destruct (lax_number E lit Hl) as (n & ->). constructor. reflexivity.
  - constructor. now apply fixed_well_formed.
  - apply small_arr in Hsm. apply all_lits_arr in Hl. apply texts_arr in Ht. apply all_names_arr in Hn. cbn [to_V]. constructor.
    induction IH; inversion Hsm; inversion Hl; inversion Ht; inversion Hn; subst; constructor; auto.
  - apply small_obj in Hsm as [Hlen Hsm]. apply all_lits_obj in Hl. apply texts_obj in Ht. apply all_names_obj in Hn as [Hnn Hn].
    destruct (Hback l Hlen Hnn) as (i & kvs & lo & kvs' & -> & Hp & Ho & Hm).
    apply (SH_obj _ _ _ i kvs lo kvs' l Hp Ho). cbn [kept]. clear - IH Hsm Hl Ht Hn Hm.
    induction Hm as [|m x ms ks [Hk Hv] Hm IHm]; constructor; inversion IH; inversion Hsm; inversion Hl; inversion Ht as [|? ? [? ?]]; inversion Hn; subst; [|auto].
    rewrite Hk, Hv. split; [now apply fixed_well_formed|auto].
Qed.

Lemma shows_names v j : shown v j -> json_typed v -> all_text (Forall is_byte) (fun _ _ => True) v -> (all_names N j <-> all_objs Q v).
Proof using HQ HQp.
  revert j. induction v as [| s | n src | i kvs lo IH | l IH | b | | | ] using V_ind'; intros j H Hty Ht;
    inversion H as [|b' Eb Ej|n0 src0 j0 HN En Ej|s0 s' Hf Es Ej|l0 l' Hl El Ej|i0 kvs0 lo0 kvs' ms Hp Hor Hm Ek Ej]; subst; try (split; intros; exact I).
  - unfold num_text in HN. subst. split; intros; exact I.
  - apply json_typed_obj in Hty as [Hnd Hty]. apply all_text_obj in Ht. rewrite all_names_obj, all_objs_obj. cbn [kept] in Hm.
    rewrite (HQp kvs kvs' Hp).
    assert (Hnd' : NoDup (map fst kvs')) by (eapply Permutation_NoDup; [apply Permutation_map, Hp|exact Hnd]).
    apply (Permutation_Forall Hp) in IH, Ht.
    assert (Hty' : Forall (fun x => json_typed (snd (snd x))) kvs') by (apply (Permutation_Forall Hp), Hty).
    assert (HP : Forall (fun x => all_objs Q (snd (snd x))) kvs <-> Forall (fun x => all_objs Q (snd (snd x))) kvs').
    { split; intros A; [apply (Permutation_Forall Hp A)|apply (Permutation_Forall (Permutation_sym Hp) A)]. }
    rewrite HP. rewrite (HQ kvs' (map fst ms) Hnd' Hor).
    + apply and_iff_compat_l. clear - IH Hm Ht Hty'.
      induction Hm as [|x m ks ms [F S] Hm IHm]; [split; constructor|]. inversion IH; inversion Ht as [|? ? [? ?]]; inversion Hty'; subst.
      rewrite !Forall_cons_iff, <- IHm by assumption. match goal with HH : forall j, shown _ j -> _ |- _ => rewrite (HH _ S) by assumption end. tauto.
    + apply Forall_map. eapply Forall_impl; [|exact Ht]. cbn. tauto.
    + clear - Hm. induction Hm as [|x m ks ms [F S] Hm IHm]; constructor; auto.
  - apply json_typed_arr in Hty. apply all_text_arr in Ht. rewrite all_names_arr, all_objs_arr. clear - IH Hl Ht Hty.
    induction Hl as [|x m ks ms S Hm IHm]; [split; constructor|]. inversion IH; inversion Ht; inversion Hty; subst.
    rewrite !Forall_cons_iff, <- IHm by assumption. match goal with HH : forall j, shown _ j -> _ |- _ => rewrite (HH _ S) by assumption end. tauto.
Qed.

(** A tree of well-formed strings that its value shows has its names in order. *)
Lemma shown_back j : texts well_formed j -> shown (to_V E j) j -> all_names N j.
Proof using Hconv.
  induction j as [ |b|lit|s|l IH|l IH] using jv_ind'; intros Ht H; try exact I.
  - cbn [to_V] in H. inversion H as [| | | |? ? Hl|]; subst. apply all_names_arr. apply texts_arr in Ht. clear H.
    assert (G : forall l', Forall2 shown (map (to_V E) l) l' -> l' = l -> Forall (all_names N) l); [|eauto].
    induction IH as [|x l Hx IH IHl]; intros l' A ->; [constructor|]. cbn in A. inversion A; subst. inversion Ht; subst. constructor; eauto.
  - apply texts_obj in Ht. apply all_names_obj.
    destruct (put_all_obj E l 0 [] None) as (i & kvs & lo & Ev & Hnd & Hin & _ & Hlk).
    assert (Ev' : to_V E (JObj l) = VObj i kvs lo) by exact Ev. rewrite Ev' in H.
    inversion H as [| | | | |i0 kvs0 lo0 kvs' ms Hp Hor Hm Ek Ej]; subst. cbn [kept] in Hm. clear H Ev Ev'.
    assert (Hnd' : NoDup (map fst kvs')) by (eapply Permutation_NoDup; [apply Permutation_map, Hp|apply Hnd; constructor]).
    assert (Hi' : forall x, In x kvs' -> In (fst x) (map fst l)).
    { intros x Hx. destruct (proj1 (Hin (fst x))) as [[]|G]; [|exact G]. apply in_map. eapply Permutation_in; [symmetry; exact Hp|exact Hx]. }
    assert (Hwf : forall k, In k (map fst l) -> well_formed k).
    { intros k Hk. apply in_map_iff in Hk as (m & <- & Hm'). rewrite Forall_forall in Ht. apply (Ht m Hm'). }
    assert (Em : map fst l = map fst kvs').
    { assert (G : forall ks ms, Forall2 (fun (x : kvt) m => fixed (fst x) (fst m) /\ shown (snd (snd x)) (snd m)) ks ms -> (forall x, In x ks -> well_formed (fst x)) -> map fst ms = map fst ks).
      { clear. induction 1 as [|x m ks ms [F S] Hm IHm]; intros Hw; cbn; [reflexivity|]. f_equal; [|apply IHm; intros y Hy; apply Hw; now right].
        symmetry. apply (fixed_fix (fst x) (fst m)) in F as ->; [|apply well_formed_bytes, Hw; now left].
        apply (fixed_fix (fst x) (fst x)); [apply well_formed_bytes, Hw; now left|apply fixed_well_formed, Hw; now left]. }
      apply G; [exact Hm|]. intros x Hx. apply Hwf, Hi', Hx. }
    split; [rewrite Em; now apply Hconv|].
    assert (Hndl : NoDup (map fst l)) by now rewrite Em.
    assert (G : Forall (fun m => shown (to_V E (snd m)) (snd m)) l).
    { rewrite Forall_forall. intros m Hml. destruct (in_split m l Hml) as (l1 & l2 & El).
      destruct m as [k x]. destruct (Hlk l1 k x l2 El) as (id & Hid).
      { rewrite El, map_app in Hndl. cbn in Hndl. apply NoDup_remove_2 in Hndl. intros A. apply Hndl, in_or_app. now right. }
      apply alookup_In in Hid. apply (Permutation_in _ Hp) in Hid.
      assert (G : forall (ks : list kvt) ms k id v x, Forall2 (fun (x : kvt) m => fixed (fst x) (fst m) /\ shown (snd (snd x)) (snd m)) ks ms -> map fst ms = map fst ks -> NoDup (map fst ks) -> In (k, (id, v)) ks -> In (k, x) ms -> shown v x).
      { clear. induction 1 as [|y m ks ms [F S] Hm IHm]; intros Eq Hn H1 H2; [inversion H1|]. cbn in Eq, Hn. injection Eq as E1 E2. inversion Hn; subst.
        destruct H1 as [->|H1], H2 as [->|H2]; cbn [fst snd] in *; auto.
        - elim H3. rewrite <- E2. apply in_map_iff. now exists (k, x).
        - elim H3. rewrite <- E1. apply in_map_iff. now exists (k, (id, v)). }
      cbn [snd]. eapply G; eassumption. }
    rewrite Forall_forall in *. intros m Hml. apply IH; [exact Hml|apply (Ht m Hml)|apply (G m Hml)].
Qed.

Lemma fix_point W W' o v :
  o_omit_null o = false -> opt_ws o -> json_typed v -> all_text (Forall is_byte) (fun _ src => lax_num src) v ->
  all_objs (in_order E W o ORD) v ->
  (forall b, marshal_opt E W o v = Ok b -> Z.of_nat (List.length b) < N0) ->
  (forall j, small N0 j -> json_typed (to_V E j) -> all_objs (in_order E W' o ORD) (to_V E j)) ->
  exists b j, marshal_opt E W o v = Ok b /\ unmarshal E b = Ok (to_V E j, None) /\
    small N0 j /\ json_typed (to_V E j) /\ all_text well_formed (fun _ src => lax_num src) (to_V E j) /\
    (marshal_opt E W' o (to_V E j) = Ok b <-> all_objs Q v).
Proof using Pasym Hback Hconv HQ HQp.
  intros Hom [Hws1 Hws2] Hty Ht Hord Hlen Hord'.
  assert (Ht0 : all_text (Forall is_byte) (fun _ _ => True) v) by (eapply all_text_impl; [| |exact Ht]; auto).
  assert (Ht1 : all_text (Forall is_byte) (fun _ src => src <> []) v).
  { eapply all_text_impl; [| |exact Ht]; [auto|]. intros _ src Hs ->. destruct (lax_num_cons [] Hs) as (c & t & Hc). discriminate. }
  destruct (marshal_spell E W o ORD Hom v Hty Ht1 Hord None []) as (j & Hj & Hr). specialize (Hr 0%nat).
  assert (Hrun := marshal_lax E W o num_text ORD Hws1 Hws2 v Hty).
  destruct Hrun as [_ Hrun]; [|exact Hord|].
  { eapply all_text_impl; [| |exact Ht]; [auto|]. intros n src Hs. exists src, (JNum src). destruct (lax_num_cons src Hs) as (c & t & ->).
    split; [reflexivity|]. split; [now constructor|reflexivity]. }
  destruct (Hrun None [] 0%nat) as (b & j2 & Hb & Hv & Hs). rewrite Hom in Hs.
  assert (j2 = j) by (eapply shown_unique; eassumption). subst j2.
  assert (Hd : lax_doc b j) by (exists [], b, []; rewrite app_nil_r; repeat split; auto; constructor).
  assert (Hbo : marshal_opt E W o v = Ok b) by now apply marshal_opt_run.
  rewrite Hr in Hb. injection Hb as Eb.
  exists b, j. split; [exact Hbo|]. assert (Hu := unmarshal_of_lax E b j Hd). split; [exact Hu|].
  assert (Hwf := shown_texts v Ht0 j Hj).
  assert (Hty' : json_typed (to_V E j)).
  { destruct (unmarshal_total E b) as (v' & e & He & Hq). rewrite Hu in He. injection He as <- <-. exact Hq. }
  assert (Ht' := to_V_text E j (proj1 lax_lits b j Hv) (texts_bytes j Hwf)).
  assert (Htl : all_text (Forall is_byte) (fun _ src => lax_num src) (to_V E j)).
  { eapply all_text_impl; [| |exact Ht']; [auto|]. intros n src. apply q_number_lax. }
  assert (Htn : all_text (Forall is_byte) (fun _ src => src <> []) (to_V E j)).
  { eapply all_text_impl; [| |exact Htl]; [auto|]. intros _ src Hss ->. destruct (lax_num_cons [] Hss) as (c & t & Hc). discriminate. }
  assert (Ht2 : all_text (Forall is_byte) (fun _ _ => True) (to_V E j)) by (eapply all_text_impl; [| |exact Htl]; auto).
  assert (Hsm : small N0 j) by (apply (proj1 (lax_small N0) b j Hv); now apply Hlen). specialize (Hord' j Hsm Hty').
  destruct (marshal_spell E W' o ORD Hom (to_V E j) Hty' Htn Hord' None []) as (j' & Hj' & Hr'). specialize (Hr' 0%nat).
  assert (Hrun' := marshal_lax E W' o num_text ORD Hws1 Hws2 (to_V E j) Hty').
  destruct Hrun' as [_ Hrun']; [|exact Hord'|].
  { eapply all_text_impl; [| |exact Htl]; [auto|]. intros n src Hss. exists src, (JNum src). destruct (lax_num_cons src Hss) as (c & t & ->).
    split; [reflexivity|]. split; [now constructor|reflexivity]. }
  destruct (Hrun' None [] 0%nat) as (b' & j2 & Hb' & Hv' & Hs'). rewrite Hom in Hs'.
  assert (j2 = j') by (eapply shown_unique; eassumption). subst j2.
  assert (Hd' : lax_doc b' j') by (exists [], b', []; rewrite app_nil_r; repeat split; auto; constructor).
  assert (Hbo' : marshal_opt E W' o (to_V E j) = Ok b') by now apply marshal_opt_run.
  rewrite Hr' in Hb'. injection Hb' as Eb'.
  split; [exact Hsm|]. split; [exact Hty'|].
  split; [apply to_V_texts; [now apply (proj1 lax_lits b)|exact Hwf]|].
  rewrite <- (shows_names v j Hj Hty Ht0), Hbo'.
  split.
  - intros G. injection G as ->. assert (j' = j) by (eapply lax_doc_same; eassumption). subst j'. now apply shown_back.
  - intros G. assert (B : shown (to_V E j) j).
    { apply back_shows; auto. now apply (proj1 lax_lits b). }
    assert (j' = j) by (eapply shown_unique; eassumption). subst j'. congruence.
Qed.
End Canon.

(** *** The three orders *)

Lemma fixed_same s s1 s2 : Forall is_byte s -> fixed s s1 -> fixed s s2 -> s1 = s2.
Proof. intros Hb H1 H2. rewrite (fixed_fix _ _ Hb H1), (fixed_fix _ _ Hb H2). reflexivity. Qed.

Lemma ForallOrdPairs_NoDup {A} (R : A -> A -> Prop) l : (forall x, ~ R x x) -> ForallOrdPairs R l -> NoDup l.
Proof.
  intros Hi H. induction H as [|x l Hx Hl IH]; constructor; [|exact IH]. intros A1. rewrite Forall_forall in Hx. exact (Hi x (Hx x A1)).
Qed.

Lemma put_all_sorted E (lt : bytes -> bytes -> Prop) ms : (forall x, ~ lt x x) -> ForallOrdPairs lt (map fst ms) ->
  exists i kvs lo kvs', to_V E (JObj ms) = VObj i kvs lo /\ Permutation kvs kvs' /\ by_key lt kvs' /\ Forall2 (member_of E) ms kvs'.
Proof.
  intros Hi H. destruct (put_all_nodup E ms 0 [] None) as (i & new & lo & Ev & Hm).
  { cbn. eapply ForallOrdPairs_NoDup; eassumption. }
  exists i, new, lo, new. split; [exact Ev|]. split; [reflexivity|]. split; [|exact Hm].
  unfold by_key. apply (ForallOrdPairs_map fst lt). replace (map fst new) with (map fst ms); [exact H|].
  clear - Hm. induction Hm as [|m x ms ks [Hk _] Hm IH]; cbn; [reflexivity|]. now rewrite Hk, IH.
Qed.

Lemma kept_iff (lt : bytes -> bytes -> Prop) : (forall a b, lt a b -> lt b a -> False) ->
  forall keys names, NoDup keys -> ForallOrdPairs lt keys -> Forall (Forall is_byte) keys -> Forall2 fixed keys names ->
  (ForallOrdPairs lt names <->
   forall k1 k2 s1 s2, In k1 keys -> In k2 keys -> fixed k1 s1 -> fixed k2 s2 -> lt k1 k2 -> lt s1 s2).
Proof.
  intros Has keys names Hn Ho Hb Hf. revert Hn Ho Hb. induction Hf as [|k s keys names F Hf IH]; intros Hn Ho Hb.
  - split; [intros _ k1 k2 s1 s2 []|constructor].
  - inversion Hn as [|? ? Hni Hn']; inversion Ho as [|? ? Hk Ho']; inversion Hb as [|? ? Hbk Hb']; subst. split.
    + intros H. inversion H as [|? ? Hs Hr]; subst.
      assert (IH' := proj1 (IH Hn' Ho' Hb') Hr). clear IH.
      rewrite Forall_forall in Hk, Hs.
      intros k1 k2 s1 s2 [<-|I1] [<-|I2] F1 F2 L.
      * elim (Has k k L L).
      * rewrite (fixed_same _ _ _ Hbk F1 F). apply Hs.
        clear - Hf I2 F2 Hb'. induction Hf as [|a s' ks ns Fa Hf IHf]; [contradiction|]. inversion Hb'; subst.
        destruct I2 as [->|I2]; [left; eapply fixed_same; eassumption|right; auto].
      * elim (Has k1 k L (Hk k1 I1)).
      * exact (IH' k1 k2 s1 s2 I1 I2 F1 F2 L).
    + intros H. constructor.
      * rewrite Forall_forall in *. intros s' Hs'.
        assert (G : exists k', In k' keys /\ fixed k' s').
        { clear - Hf Hs'. induction Hf; [contradiction|]. destruct Hs' as [<-|Hs']; [eexists; split; [left; reflexivity|assumption]|].
          destruct (IHHf Hs') as (k' & A & B). exists k'. split; [now right|exact B]. }
        destruct G as (k' & I' & F'). apply (H k k' s s'); auto; [now left|now right].
      * apply IH; try assumption. intros k1 k2 s1 s2 I1 I2. apply H; now right.
Qed.

Lemma distinct_iff keys names : NoDup keys -> Forall (Forall is_byte) keys -> Forall2 fixed keys names ->
  (NoDup names <-> forall k1 k2 s, In k1 keys -> In k2 keys -> fixed k1 s -> fixed k2 s -> k1 = k2).
Proof.
  intros Hn Hb Hf. revert Hn Hb. induction Hf as [|k s keys names F Hf IH]; intros Hn Hb.
  - split; [intros _ k1 k2 s []|constructor].
  - inversion Hn as [|? ? Hni Hn']; inversion Hb as [|? ? Hbk Hb']; subst.
    assert (G : forall k' s', In k' keys -> fixed k' s' -> In s' names).
    { clear - Hf Hb'. intros k' s' I2 F2. induction Hf as [|a s2 ks ns Fa Hf IHf]; [contradiction|]. inversion Hb'; subst.
      destruct I2 as [->|I2]; [left; eapply fixed_same; eassumption|right; auto]. }
    split.
    + intros H. inversion H as [|? ? Hs Hr]; subst. intros k1 k2 s' [<-|I1] [<-|I2] F1 F2; [reflexivity| | |].
      * elim Hs. rewrite (fixed_same _ _ _ Hbk F F1). eauto.
      * elim Hs. rewrite (fixed_same _ _ _ Hbk F F2). eauto.
      * eapply (proj1 (IH Hn' Hb') Hr); eassumption.
    + intros H. constructor; [|apply IH; try assumption; intros k1 k2 s' I1 I2; apply H; now right].
      intros Hs. assert (G' : exists k', In k' keys /\ fixed k' s).
      { clear - Hf Hs. induction Hf; [contradiction|]. destruct Hs as [<-|Hs']; [eexists; split; [left; reflexivity|assumption]|].
        destruct (IHHf Hs') as (k' & A & B). exists k'. split; [now right|exact B]. }
      destruct G' as (k' & I' & F'). assert (k = k') by (apply (H k k' s); auto; [now left|now right]). subst k'. contradiction.
Qed.

Section Keyed.
Variable E : Env.
Variable lt : bytes -> bytes -> Prop.
Hypothesis Has : forall a b, lt a b -> lt b a -> False.
Lemma keyed_fix_point W W' o v :
  (forall W kvs, NoDup (akeys kvs) -> in_order E W o (by_key lt) kvs) ->
  o_omit_null o = false -> opt_ws o -> json_typed v -> all_text (Forall is_byte) (fun _ src => lax_num src) v ->
  exists b v', marshal_opt E W o v = Ok b /\ unmarshal E b = Ok (v', None) /\
    json_typed v' /\ all_text well_formed (fun _ src => lax_num src) v' /\
    (marshal_opt E W' o v' = Ok b <-> all_objs (order_kept lt) v).
Proof.
  intros Hin Hom Hws Hty Ht.
  assert (HO : forall W u, json_typed u -> all_objs (in_order E W o (by_key lt)) u).
  { intros W2. induction u as [| s | n src | i kvs lo IH | l IH | b | | | ] using V_ind'; intros Hu; try exact I.
    - apply json_typed_obj in Hu as [Hnd Hu]. apply all_objs_obj. split; [now apply Hin|]. rewrite Forall_forall in *. auto.
    - apply json_typed_arr in Hu. apply all_objs_arr. rewrite Forall_forall in *. auto. }
  assert (HI : forall x, ~ lt x x) by (intros x Hx; exact (Has x x Hx Hx)).
  destruct (fix_point E (fun x y => lt (fst x) (fst y)) (fun x y => Has _ _) (ForallOrdPairs lt) (order_kept lt)
          (match marshal_opt E W o v with Ok b => Z.of_nat (List.length b) + 1 | _ => 0 end)
          (fun ms _ => put_all_sorted E lt ms HI)) with (W := W) (W' := W') (o := o) (v := v) as (b & j & Hb & Hu & _ & H1 & H2 & H3); auto.
  - intros kvs' _ H. apply (ForallOrdPairs_map fst lt), H.
  - intros kvs' names Hn Ho Hb Hf. apply kept_iff; auto. apply (ForallOrdPairs_map fst lt), Ho.
  - assert (G : forall kvs kvs', Permutation kvs kvs' -> order_kept lt kvs -> order_kept lt kvs').
    { intros kvs kvs' Hp H k1 k2 s1 s2 H1 H2. apply Permutation_sym, (Permutation_map fst) in Hp.
      apply H; [exact (Permutation_in _ Hp H1)|exact (Permutation_in _ Hp H2)]. }
    intros kvs kvs' Hp. split; apply G; [|symmetry]; exact Hp.
  - intros b ->. lia.
  - exists b, (to_V E j). auto.
Qed.
End Keyed.

Lemma seq_fix_point E W W' o v :
  o_less o = None -> o_keyseq o = [] -> o_setseq o = true ->
  o_omit_null o = false -> opt_ws o -> json_typed v -> all_text (Forall is_byte) (fun _ src => lax_num src) v ->
  all_objs (fun kvs => NoDup (map (fun x => fst (snd x)) kvs)) v ->
  (forall b, marshal_opt E W o v = Ok b -> Z.of_nat (List.length b) < two32) ->
  exists b v', marshal_opt E W o v = Ok b /\ unmarshal E b = Ok (v', None) /\
    json_typed v' /\ all_text well_formed (fun _ src => lax_num src) v' /\
    all_objs (fun kvs => NoDup (map (fun x => fst (snd x)) kvs)) v' /\
    (marshal_opt E W' o v' = Ok b <-> all_objs names_distinct v).
Proof.
  intros H1 H2 H3 Hom Hws Hty Ht Hid Hlen.
  assert (HO : forall W u, json_typed u -> all_objs (fun kvs => NoDup (map (fun x => fst (snd x)) kvs)) u -> all_objs (in_order E W o by_id) u).
  { intros W2. induction u as [| s | n src | i kvs lo IH | l IH | b | | | ] using V_ind'; intros Hu Hi; try exact I.
    - apply json_typed_obj in Hu as [Hnd Hu]. apply all_objs_obj in Hi as [Hi Hi2]. apply all_objs_obj. split; [now apply in_order_setseq|]. rewrite Forall_forall in *. auto.
    - apply json_typed_arr in Hu. apply all_objs_arr in Hi. apply all_objs_arr. rewrite Forall_forall in *. auto. }
  destruct (fix_point E (fun x y => fst (snd x) < fst (snd y)) (fun x y H H' => Z.lt_asymm _ _ H H') (@NoDup bytes) names_distinct two32)
    with (W := W) (W' := W') (o := o) (v := v) as (b & j & Hb & Hu & Hs & H4 & H5 & H6); auto.
  - intros ms Hl Hn. destruct (to_V_obj_seq E ms Hl) as (i & kvs & lo & kvs' & Ev & Hp & Hi & Hm).
    exists i, kvs, lo, kvs'. split; [exact Ev|]. split; [exact Hp|]. split; [exact Hi|].
    replace ms with (last_wins ms); [exact Hm|]. clear - Hn. induction ms as [|[k x] r IH]; [reflexivity|]. cbn in *. inversion Hn; subst.
    destruct (in_dec _ k (map fst r)); [contradiction|]. now rewrite IH.
  - intros kvs' names Hn _ Hb Hf. now apply distinct_iff.
  - assert (G : forall kvs kvs', Permutation kvs kvs' -> names_distinct kvs -> names_distinct kvs').
    { intros kvs kvs' Hp H k1 k2 s I1 I2. apply Permutation_sym, (Permutation_map fst) in Hp.
      apply H; [exact (Permutation_in _ Hp I1)|exact (Permutation_in _ Hp I2)]. }
    intros kvs kvs' Hp. split; apply G; [|symmetry]; exact Hp.
  - intros j Hsm Hj. apply HO; [exact Hj|]. now apply to_V_ids.
  - exists b, (to_V E j). repeat (split; [assumption|]). split; [now apply to_V_ids|assumption].
Qed.

(** *** The second output *)

Lemma wf_objs (Q : list kvt -> Prop) PN v : (forall kvs, Forall well_formed (map fst kvs) -> Q kvs) ->
  all_text well_formed PN v -> all_objs Q v.
Proof.
  intros HQ. induction v as [| s | n src | i kvs lo IH | l IH | b | | | ] using V_ind'; intros H; try exact I.
  - apply all_text_obj in H. apply all_objs_obj. split.
    + apply HQ, Forall_map. eapply Forall_impl; [|exact H]. cbn. tauto.
    + rewrite Forall_forall in *. intros x Hx. apply IH; [exact Hx|apply (H x Hx)].
  - apply all_text_arr in H. apply all_objs_arr. rewrite Forall_forall in *. auto.
Qed.
Lemma wf_kept lt kvs : Forall well_formed (map fst kvs) -> order_kept lt kvs.
Proof.
  intros H k1 k2 s1 s2 I1 I2 F1 F2 L. rewrite Forall_forall in H.
  rewrite (fixed_same k1 s1 k1), (fixed_same k2 s2 k2); auto using fixed_well_formed, well_formed_bytes.
Qed.
Lemma wf_distinct kvs : Forall well_formed (map fst kvs) -> names_distinct kvs.
Proof.
  intros H k1 k2 s I1 I2 F1 F2. rewrite Forall_forall in H.
  rewrite (fixed_same k1 k1 s), (fixed_same k2 k2 s); auto using fixed_well_formed, well_formed_bytes.
Qed.
Lemma wf_text_bytes v : all_text well_formed (fun _ src => lax_num src) v -> all_text (Forall is_byte) (fun _ src => lax_num src) v.
Proof. intros H. eapply all_text_impl; [| |exact H]; [apply well_formed_bytes|auto]. Qed.

Lemma blt_asym a b : blt a b -> blt b a -> False.
Proof. intros H1 H2. exact (blt_irrefl a (blt_trans _ _ _ H1 H2)). Qed.
Lemma seq_asym seq a b : seq_before seq a b -> seq_before seq b a -> False.
Proof.
  rewrite <- !seq_lt_spec. intros H1 H2. pose proof (seq_lt_trans _ _ _ _ H1 H2) as H. now rewrite seq_lt_irrefl in H.
Qed.

Section Claims.
Variable E : Env.
Variables W W' : World.
Variable o : opt.
Variable v : V.
Hypothesis Hom : o_omit_null o = false.
Hypothesis Hws : opt_ws o.
Hypothesis Hty : json_typed v.
Hypothesis Ht : all_text (Forall is_byte) (fun _ src => lax_num src) v.

Lemma canon_sorted : o_less o = Some default_string_sequence ->
  exists b v', marshal_opt E W o v = Ok b /\ unmarshal E b = Ok (v', None) /\
    (marshal_opt E W' o v' = Ok b <-> all_objs (order_kept blt) v).
Proof using Hom Hws Hty Ht.
  intros Ho. destruct (keyed_fix_point E blt blt_asym W W' o v) as (b & v' & H1 & H2 & _ & _ & H3); auto.
  - intros W2 kvs Hn. now apply in_order_default.
  - exists b, v'. auto.
Qed.
Lemma canon_keyseq : o_less o = None -> o_keyseq o <> [] ->
  exists b v', marshal_opt E W o v = Ok b /\ unmarshal E b = Ok (v', None) /\
    (marshal_opt E W' o v' = Ok b <-> all_objs (order_kept (seq_before (o_keyseq o))) v).
Proof using Hom Hws Hty Ht.
  intros Ho Hk. destruct (keyed_fix_point E (seq_before (o_keyseq o)) (seq_asym _) W W' o v) as (b & v' & H1 & H2 & _ & _ & H3); auto.
  - intros W2 kvs Hn. now apply in_order_keyseq.
  - exists b, v'. auto.
Qed.
Lemma canon_setseq : o_less o = None -> o_keyseq o = [] -> o_setseq o = true ->
  all_objs (fun kvs => NoDup (map (fun x => fst (snd x)) kvs)) v ->
  (forall b, marshal_opt E W o v = Ok b -> Z.of_nat (List.length b) < two32) ->
  exists b v', marshal_opt E W o v = Ok b /\ unmarshal E b = Ok (v', None) /\
    (marshal_opt E W' o v' = Ok b <-> all_objs names_distinct v).
Proof using Hom Hws Hty Ht.
  intros H1 H2 H3 H4 H5. destruct (seq_fix_point E W W' o v) as (b & v' & A & B & _ & _ & _ & C); auto. exists b, v'. auto.
Qed.

Definition two_passes (W'' : World) : Prop := exists b v' b' v'',
  marshal_opt E W o v = Ok b /\ unmarshal E b = Ok (v', None) /\
  marshal_opt E W' o v' = Ok b' /\ unmarshal E b' = Ok (v'', None) /\ marshal_opt E W'' o v'' = Ok b'.
Lemma passes_keyed (lt : bytes -> bytes -> Prop) W'' : (forall a b, lt a b -> lt b a -> False) ->
  (forall W kvs, NoDup (akeys kvs) -> in_order E W o (by_key lt) kvs) -> two_passes W''.
Proof using Hom Hws Hty Ht.
  intros Has Hin. destruct (keyed_fix_point E lt Has W W' o v) as (b & v' & H1 & H2 & H3 & H4 & _); auto.
  destruct (keyed_fix_point E lt Has W' W'' o v') as (b' & v'' & G1 & G2 & _ & _ & G5); auto using wf_text_bytes.
  exists b, v', b', v''. repeat (split; [assumption|]). apply G5. eapply wf_objs; [|exact H4]. apply wf_kept.
Qed.
Lemma passes_sorted W'' : o_less o = Some default_string_sequence -> two_passes W''.
Proof using Hom Hws Hty Ht. intros Ho. apply (passes_keyed blt W'' blt_asym). intros W2 kvs Hn. now apply in_order_default. Qed.
Lemma passes_keyseq W'' : o_less o = None -> o_keyseq o <> [] -> two_passes W''.
Proof using Hom Hws Hty Ht. intros Ho Hk. apply (passes_keyed _ W'' (seq_asym (o_keyseq o))). intros W2 kvs Hn. now apply in_order_keyseq. Qed.
Lemma passes_setseq W'' : o_less o = None -> o_keyseq o = [] -> o_setseq o = true ->
  all_objs (fun kvs => NoDup (map (fun x => fst (snd x)) kvs)) v ->
  (forall b, marshal_opt E W o v = Ok b -> Z.of_nat (List.length b) < two32) ->
  exists b v', marshal_opt E W o v = Ok b /\ unmarshal E b = Ok (v', None) /\
    forall b', marshal_opt E W' o v' = Ok b' -> Z.of_nat (List.length b') < two32 ->
    exists v'', unmarshal E b' = Ok (v'', None) /\ marshal_opt E W'' o v'' = Ok b'.
Proof using Hom Hws Hty Ht.
  intros H1 H2 H3 H4 H5. destruct (seq_fix_point E W W' o v) as (b & v' & A & B & C & D & F & _); auto. exists b, v'.
  split; [exact A|]. split; [exact B|]. intros b' Hb' Hl.
  destruct (seq_fix_point E W' W'' o v') as (b2 & v'' & G1 & G2 & _ & _ & _ & G3); auto using wf_text_bytes.
  { intros b2 Hb2. rewrite Hb' in Hb2. now injection Hb2 as <-. }
  rewrite Hb' in G1. injection G1 as <-. exists v''. split; [exact G2|]. apply G3. eapply wf_objs; [|exact D]. apply wf_distinct.
Qed.
End Claims.
