(** When a value survives being written and read back: proofs. *)
From Verif Require Import Base Utf8 Float64 Value Scan Unmarshal Pure Opt Marshal ListLemmas SpecJson SpecValue SpecLax SpecText SpecOpts
  UnmarshalProof ValueLemmas NumProof ParseComplete ParseFacts SortProof EscapeProof MarshalProof LaxNum LaxParse RoundTrip MarshalClaims.

Definition kept_distinct (om : bool) (kvs : list (bytes * (Z * V))) : Prop := names_distinct (kept om kvs).

Lemma shows_same_kept E NR om ORD v : forall j,
  json_typed v -> all_objs (kept_distinct om) v ->
  shows (fun n src j => j = JNum src /\ exists n', q_number E src = Ok (VNum n' src, []) /\ NR n src n') om ORD v j ->
  same_json NR om v (to_V E j).
Proof.
  induction v as [| s | n src | i kvs lo IH | l IH | b | | | ] using V_ind'; intros j Ht Ho Hs;
    inversion Hs as [|b' Eb Ej|n0 src0 j0 HN En Ej|s0 s' Hf Es Ej|l0 l' Hl El Ej|i0 kvs0 lo0 kvs' ms Hp Hor Hm Ek Ej]; subst; try contradiction.
  - now constructor.
  - destruct HN as (-> & n' & Hq & Hr). cbn [to_V]. rewrite Hq. now constructor.
  - apply json_typed_obj in Ht as [Hnd Ht]. apply all_objs_obj in Ho as [Hd Ho].
    assert (Hd' : names_distinct (kept om kvs')) by (eapply names_distinct_perm; [apply kept_perm; exact Hp|exact Hd]).
    assert (Hn' : NoDup (map fst (kept om kvs'))).
    { assert (H1 : NoDup (map fst kvs')) by (eapply Permutation_NoDup; [apply Permutation_map; exact Hp|exact Hnd]).
      unfold kept. destruct om; [now apply NoDup_map_filter|exact H1]. }
    assert (Hin : forall x, In x (kept om kvs') -> In x kvs).
    { intros x Hx. apply kept_In in Hx. revert Hx. apply Permutation_in. now symmetry. }
    assert (Hms : NoDup (map fst ms)).
    { eapply Forall2_keys_nodup; [|exact Hn'|exact Hd']. clear -Hm. induction Hm as [|x m kvs2 ms2 [Hf _] Hm IHm]; constructor; assumption. }
    cbn [to_V]. change (fold_left _ ms new_object) with (put_all E ms (VObj 0 [] None)).
    destruct (put_all_nodup E ms 0 [] None) as (i' & new & lo' & -> & Hnew); [exact Hms|].
    cbn [app]. apply (SJ_obj _ _ i kvs lo (kept om kvs') i' new lo'); [now apply kept_perm|].
    clear Hp Hn' Hd' Hms Hs Hor. revert new Hnew. induction Hm as [|x m kvs2 ms [Hf Hsh] Hm IHm]; intros new Hnew.
    + inversion Hnew; subst. constructor.
    + inversion Hnew as [|? y ? new' [E1 E2] Hnew']; subst. constructor.
      * rewrite E1, E2. split; [assumption|]. rewrite Forall_forall in IH, Ht, Ho.
        assert (Hx : In x kvs) by (apply Hin; now left). apply (IH x Hx); [now apply Ht|now apply Ho|exact Hsh].
      * apply IHm; [|exact Hnew']. intros z Hz. apply Hin. now right.
  - apply json_typed_arr in Ht. apply all_objs_arr in Ho. cbn [to_V]. constructor.
    clear Hs. revert IH Ht Ho. induction Hl as [|x j l l' Hx Hl IHl]; intros IH Ht Ho; cbn [map]; [constructor|].
    inversion IH; inversion Ht; inversion Ho; subst. constructor; auto.
  - constructor.
  - constructor.
Qed.

Lemma fixed_fun s a b : Forall is_byte s -> fixed s a -> fixed s b -> a = b.
Proof.
  intros Hs Ha Hb. rewrite (fixed_fix s a Hs Ha). symmetry. now apply fixed_fix.
Qed.

Lemma paired_distinct (kvs2 kvs' : list (bytes * (Z * V))) R :
  Forall2 (fun x y => fixed (fst x) (fst y) /\ R x y) kvs2 kvs' -> Forall (fun x => Forall is_byte (fst x)) kvs2 ->
  NoDup (map fst kvs') -> names_distinct kvs2.
Proof.
  intros H. induction H as [|x y l l' [Hf _] Hl IH]; intros Hb Hn k1 k2 s H1 H2 F1 F2; [destruct H1|].
  inversion Hb as [|? ? Hbx Hbl]; subst. cbn [map] in Hn. inversion Hn as [|? ? Hni Hn']; subst.
  assert (X : forall k, In k (map fst l) -> fixed k s -> s <> fst y).
  { intros k Hk Fk ->. apply Hni. apply in_map_iff in Hk as (z & <- & Hz). clear -Hl Hbl Hz Fk.
    induction Hl as [|a b l l' [Fa _] _ IHl]; [destruct Hz|]. inversion Hbl; subst. destruct Hz as [->|Hz].
    - left. eapply fixed_fun; eauto.
    - right. auto. }
  destruct H1 as [<-|H1], H2 as [<-|H2].
  - reflexivity.
  - exfalso. apply (X k2 H2 F2). eapply fixed_fun; eauto.
  - exfalso. apply (X k1 H1 F1). eapply fixed_fun; eauto.
  - apply (IH Hbl Hn' k1 k2 s); assumption.
Qed.

Lemma same_distinct NR om PN v : forall v', same_json NR om v v' -> json_typed v' -> all_text (Forall is_byte) PN v ->
  all_objs (kept_distinct om) v.
Proof.
  induction v as [| s | n src | i kvs lo IH | l IH | b | | | ] using V_ind'; intros v' H Ht Ha; try exact I;
    inversion H as [| | | |l0 l' F|i0 kvs0 lo0 kvs2 i' kvs' lo' P F]; subst.
  - apply json_typed_obj in Ht as [Hd Ht]. apply all_text_obj in Ha.
    assert (Hk : Forall (fun x => Forall is_byte (fst x)) kvs2).
    { apply Forall_forall. intros x Hx. apply (Permutation_in _ (Permutation_sym P)) in Hx. apply kept_In in Hx.
      rewrite Forall_forall in Ha. now apply Ha. }
    apply all_objs_obj. split.
    + apply (names_distinct_perm kvs2); [now apply Permutation_sym|].
      exact (paired_distinct _ _ (fun x y => same_json NR om (snd (snd x)) (snd (snd y))) F Hk Hd).
    + rewrite Forall_forall in *. intros x Hx.
      assert (D : In x (kept om kvs) \/ snd (snd x) = VNull).
      { unfold kept. destruct om; [|now left]. destruct (snd (snd x)) eqn:Ex; [left|left|left|left|left|left|right; reflexivity|left|left];
          apply filter_In; split; try assumption; rewrite Ex; reflexivity. }
      destruct D as [D| ->]; [|exact I]. apply (Permutation_in _ P) in D.
      assert (Y : exists y, In y kvs' /\ same_json NR om (snd (snd x)) (snd (snd y))).
      { clear -F D. induction F as [|a b l l' [_ F1] _ IHl]; [destruct D|]. destruct D as [->|D]; [exists b; split; [now left|exact F1]|].
        destruct (IHl D) as (y & Y1 & Y2). exists y. split; [now right|exact Y2]. }
      destruct Y as (y & Y1 & Y2). apply (IH x Hx (snd (snd y)) Y2); [now apply Ht|now apply Ha].
  - apply json_typed_arr in Ht. apply all_text_arr in Ha. apply all_objs_arr. clear H.
    induction F as [|x y l l' F1 _ IHl]; [constructor|]. inversion IH; subst. inversion Ht; subst. inversion Ha; subst. constructor; eauto.
Qed.

Theorem round_trip_exact E W o NR (PN : num -> bytes -> Prop) v :
  opt_ws o -> json_typed v ->
  (forall n src, PN n src -> exists n', q_number E src = Ok (VNum n' src, []) /\ NR n src n') ->
  all_text (Forall is_byte) PN v ->
  exists b v', marshal_opt E W o v = Ok b /\ unmarshal E b = Ok (v', None) /\
    (same_json NR (o_omit_null o) v v' <-> all_objs (kept_distinct (o_omit_null o)) v).
Proof.
  intros Ho Ht Hn Ha.
  destruct (marshal_accepted E W o PN v Ho Ht) as (b & j & Hm & Hj & Hs); [|exact Ha|].
  { intros n src H. destruct (Hn _ _ H) as (n' & Hq & _). now apply q_number_lax in Hq. }
  pose proof (unmarshal_of_lax E b j Hj) as Hu.
  exists b, (to_V E j). split; [assumption|]. split; [exact Hu|]. split.
  - intros H. eapply same_distinct; [exact H| |exact Ha].
    destruct (unmarshal_total E b) as (v' & e & He & Htv). rewrite Hu in He. injection He as <- <-. exact Htv.
  - intros Hd. apply (shows_same_kept E NR (o_omit_null o) any_order); [assumption|assumption|]. eapply shows_impl; [| |exact Hs]; [|auto].
    cbn. intros n src j' [-> H]. auto.
Qed.

Theorem round_trip_text_exact E W o v :
  opt_ws o -> json_typed v -> all_text (Forall is_byte) (fun _ src => lax_num src) v ->
  exists b v', marshal_opt E W o v = Ok b /\ unmarshal E b = Ok (v', None) /\
    (same_json (fun _ src n' => lax_value src n') (o_omit_null o) v v' <->
     all_objs (fun kvs => names_distinct (kept (o_omit_null o) kvs)) v).
Proof.
  intros Ho Ht Ha. apply (round_trip_exact E W o _ (fun _ src => lax_num src)); try assumption.
  intros n src H. destruct (lax_number_value E src H) as (n' & H1 & H2). eauto.
Qed.
Theorem round_trip_parsed_exact E W o b v :
  opt_ws o -> Forall is_byte b -> unmarshal E b = Ok (v, None) ->
  exists b' v', marshal_opt E W o v = Ok b' /\ unmarshal E b' = Ok (v', None) /\
    (same_json (fun n _ n' => n = n') (o_omit_null o) v v' <->
     all_objs (fun kvs => names_distinct (kept (o_omit_null o) kvs)) v).
Proof.
  intros Ho Hb H. destruct (parsed_text E b v Hb H) as [Ht Ha].
  apply (round_trip_exact E W o _ _ v Ho Ht) with (2 := Ha). eauto.
Qed.

(** A name that collides with another one, of a null member. *)
Definition collide_null : V := VObj 2 [([192; 97], (1, VBool true)); ([193; 97], (2, VNull))] None.
Lemma collide_exact : all_objs (fun kvs => names_distinct (kept true kvs)) collide_null /\ ~ all_objs (fun kvs => names_distinct (kept false kvs)) collide_null.
Proof.
  split.
  - apply all_objs_obj. split; [|repeat constructor]. intros k1 k2 s H1 H2 _ _. cbn in H1, H2. intuition congruence.
  - intros H. apply all_objs_obj in H as [H _].
    assert (X : forall c, c = 192 \/ c = 193 -> fixed [c; 97] (utf8_enc [65533; 97])).
    { intros c Hc. exists [65533; 97]. split; [|reflexivity].
      assert (B : Forall is_byte [c; 97]) by (repeat constructor; unfold is_byte; lia).
      pose proof (runes_read [c; 97] B) as R. destruct Hc as [-> | ->]; vm_compute in R; exact R. }
    assert (K : [192; 97] = [193; 97]) by (apply (H _ _ (utf8_enc [65533; 97])); [now left|right; now left|auto|auto]).
    discriminate K.
Qed.
