(** Every text of the RFC grammar is accepted and read as the tree the grammar
    assigns to it. *)
From Verif Require Import Base Float64 Value Scan Unmarshal Pure ListLemmas UnmarshalProof
  SpecJson SpecValue Utf8Proof NumProof.

Section Complete.
Variable E : Env.

Definition oput (o : V) (k : bytes) (v : V) : V :=
  match set_to_object E o k v with Ok o' => o' | _ => o end.

(** The value the parser builds for a tree. *)
Fixpoint to_V (j : jv) : V :=
  match j with
  | JNull => VNull
  | JBool b => VBool b
  | JNum lit => match q_number E lit with Ok (v, _) => v | _ => VNull end
  | JStr s => VStr s
  | JArr l => VArr (map to_V l)
  | JObj l => fold_left (fun o kx => oput o (fst kx) (to_V (snd kx))) l new_object
  end.

Definition put_all (l : list (bytes * jv)) (o : V) : V :=
  fold_left (fun o kx => oput o (fst kx) (to_V (snd kx))) l o.

Lemma q_num_loop_extend rest : stop rest -> forall r pos s sf,
  q_num_loop r pos s = Ok (sf, r, []) -> q_num_loop (r ++ rest) pos s = Ok (sf, r, rest).
Proof.
  intros Hst. induction r as [|c r IH]; intros pos s sf H; cbn [q_num_loop app] in *.
  - inversion H; subst. destruct rest as [|c rest]; [reflexivity|].
    cbn [q_num_loop]. rewrite num_step_stop by exact Hst. reflexivity.
  - destruct (num_step s c (pos =? 0)%nat (pos =? 1)%nat) as [[s1|]|e| |]; cbn [rbind] in *; try discriminate.
    destruct (q_num_loop r (S pos) s1) as [[[sf' src] rst]|e| |] eqn:El; cbn [rbind] in H; try discriminate.
    inversion H; subst. rewrite (IH _ _ _ El). reflexivity.
Qed.

Lemma q_number_extend lit v rest :
  q_number E lit = Ok (v, []) -> stop rest -> q_number E (lit ++ rest) = Ok (v, rest).
Proof.
  unfold q_number. intros H Hst.
  destruct (q_num_loop lit 0 nst0) as [[[sf src] rst]|e| |] eqn:El; cbn [rbind] in H; try discriminate.
  destruct (q_num_value E sf src) eqn:Ev; cbn [rbind] in H; try discriminate.
  inversion H; subst. pose proof (q_num_loop_split _ _ _ _ _ _ El) as Hs.
  rewrite app_nil_r in Hs. subst src.
  rewrite (q_num_loop_extend rest Hst _ _ _ _ El). cbn [rbind]. rewrite Ev. reflexivity.
Qed.

(** *** White space *)

Lemma is_ws_blank c : is_ws c -> is_blank c = true.
Proof. unfold is_ws, is_blank. lia. Qed.

Lemma q_skip_ws w r : ws w -> q_skip (w ++ r) = q_skip r.
Proof.
  induction 1 as [|c w Hc Hw IH]; [reflexivity|].
  cbn [app q_skip]. rewrite is_ws_blank by assumption. exact IH.
Qed.

Lemma q_skip_here c t : is_blank c = false -> q_skip (c :: t) = c :: t.
Proof. intros H. cbn [q_skip]. now rewrite H. Qed.

Lemma q_skip_ws_nil w : ws w -> q_skip w = [].
Proof. intros H. rewrite <- (app_nil_r w). now rewrite q_skip_ws. Qed.

(** What may follow a value: white space, a structural character, or nothing. *)
Definition follow (r : bytes) : Prop :=
  match r with [] => True | c :: _ => is_ws c \/ c = 44 \/ c = 93 \/ c = 125 end.

Lemma follow_stop r : follow r -> stop r.
Proof.
  destruct r as [|c r]; [trivial|]. cbn. unfold is_ws, num_char, is_digit. intros H. lia.
Qed.

Lemma follow_ws w r : ws w -> follow r -> follow (w ++ r).
Proof. intros H Hr. inversion H; subst; [exact Hr|]. cbn. auto. Qed.

(** First bytes of values. *)
Definition vstart (c : Z) : Prop :=
  c = 123 \/ c = 91 \/ c = 34 \/ c = 116 \/ c = 102 \/ c = 110 \/ is_num_start c = true.

Lemma vstart_props c : vstart c ->
  is_blank c = false /\ (c =? 93) = false /\ (c =? 44) = false /\ (c =? 125) = false /\ (c =? 58) = false.
Proof. unfold vstart, is_num_start, is_digit, is_blank. intros H. lia. Qed.

Lemma q_scalar_vstart c r : vstart c -> c <> 123 -> c <> 91 -> c <> 34 -> q_scalar E c r <> None.
Proof.
  unfold vstart, q_scalar. intros H H1 H2 H3.
  destruct (is_num_start c) eqn:En; [discriminate|].
  destruct (Z.eqb_spec c 116); [discriminate|].
  destruct (Z.eqb_spec c 102); [discriminate|].
  destruct (Z.eqb_spec c 110); [discriminate|]. exfalso.
  destruct H as [?|[?|[?|[?|[?|[?|?]]]]]]; congruence.
Qed.

Lemma q_arr_value f r acc c t :
  q_skip r = c :: t -> vstart c ->
  q_arr E (S f) r acc = (let* (v, r') := q_value E f c t in q_arr E f r' (acc ++ [v])).
Proof.
  intros Hs Hv. cbn [q_arr]. rewrite Hs.
  destruct (vstart_props c Hv) as (_ & -> & -> & _ & _). unfold q_value.
  destruct (Z.eqb_spec c 123); [reflexivity|].
  destruct (Z.eqb_spec c 91); [reflexivity|].
  destruct (Z.eqb_spec c 34).
  - destruct (q_str (S (List.length t)) t) as [[s r']|e'| |]; reflexivity.
  - pose proof (q_scalar_vstart c (c :: t) Hv ltac:(assumption) ltac:(assumption) ltac:(assumption)).
    destruct (q_scalar E c (c :: t)); [reflexivity|congruence].
Qed.

Lemma q_obj_value f r obj k c t :
  q_skip r = c :: t -> vstart c ->
  q_obj E (S f) r obj (Some k) true =
  (let* (v, r') := q_value E f c t in
   let* obj' := set_to_object E obj k v in q_obj E f r' obj' None false).
Proof.
  intros Hs Hv. cbn [q_obj]. rewrite Hs.
  destruct (vstart_props c Hv) as (_ & _ & -> & -> & ->). unfold q_value. cbn [negb].
  destruct (Z.eqb_spec c 123); [reflexivity|].
  destruct (Z.eqb_spec c 91); [reflexivity|].
  destruct (Z.eqb_spec c 34).
  - destruct (q_str (S (List.length t)) t) as [[s r']|e'| |]; reflexivity.
  - pose proof (q_scalar_vstart c (c :: t) Hv ltac:(assumption) ltac:(assumption) ltac:(assumption)).
    destruct (q_scalar E c (c :: t)); [reflexivity|congruence].
Qed.

Lemma oput_set o k v : is_obj o -> set_to_object E o k v = Ok (oput o k v) /\ is_obj (oput o k v).
Proof.
  intros (i & kv & l & ->). unfold oput. cbn [set_to_object]. split; [reflexivity|repeat eexists].
Qed.

Lemma all_lits_arr P l : all_lits P (JArr l) <-> Forall (all_lits P) l.
Proof.
  induction l as [|x l IH]; cbn; [intuition|]. cbn in IH. rewrite IH. split.
  - intros [? ?]; constructor; assumption.
  - intros H; inversion H; auto.
Qed.
Lemma all_lits_obj P l : all_lits P (JObj l) <-> Forall (fun kx => all_lits P (snd kx)) l.
Proof.
  induction l as [|[k x] l IH]; cbn; [intuition|]. cbn in IH. rewrite IH. split.
  - intros [? ?]; constructor; assumption.
  - intros H; inversion H; auto.
Qed.

Definition value_reads (t : bytes) (j : jv) : Prop :=
  all_lits lit_ok j ->
  exists c t', t = c :: t' /\ vstart c /\
    forall f rest, follow rest -> (List.length (t' ++ rest) < f)%nat ->
      q_value E f c (t' ++ rest) = Ok (to_V j, rest).

Lemma lit_head lit neg ip fd e i : num_lit lit neg ip fd e i ->
  exists c t', lit = c :: t' /\ is_num_start c = true.
Proof.
  intros H. inversion H as [neg' ip' fr fd' ex e' Hip Hfr Hex]; subst.
  destruct (int_part_digits ip Hip) as [Hd Hne].
  destruct neg; [eexists; eexists; split; [reflexivity|reflexivity]|].
  destruct ip as [|c ip]; [congruence|]. inversion Hd as [|? ? Hc _]; subst.
  eexists; eexists; split; [reflexivity|]. unfold digit in Hc. unfold is_num_start, is_digit. lia.
Qed.

Lemma q_num_value_head c t : is_num_start c = true -> forall f,
  q_value E f c t = q_number E (c :: t).
Proof.
  intros H f. unfold q_value.
  replace (c =? 123) with false by (unfold is_num_start, is_digit in H; lia).
  replace (c =? 91) with false by (unfold is_num_start, is_digit in H; lia).
  replace (c =? 34) with false by (unfold is_num_start, is_digit in H; lia).
  unfold q_scalar. rewrite H. reflexivity.
Qed.

Lemma q_prefix_app lit rest : q_prefix lit (lit ++ rest) = Some rest.
Proof. induction lit as [|c lit IH]; cbn; [reflexivity|]. now rewrite Z.eqb_refl. Qed.

Lemma q_lit_app lit v e1 e2 rest : q_lit lit v e1 e2 (lit ++ rest) = Ok (v, rest).
Proof.
  unfold q_lit. rewrite app_length.
  replace (_ <? _)%nat with false by (symmetry; apply Nat.ltb_ge; lia).
  now rewrite q_prefix_app.
Qed.

Lemma parse_complete :
  (forall t j, jval t j -> value_reads t j) /\
  (forall t l, jelems t l ->
     Forall (all_lits lit_ok) l -> forall f rest acc,
     (List.length (t ++ 93%Z :: rest) < f)%nat ->
     q_arr E f (t ++ 93 :: rest) acc = Ok (VArr (acc ++ map to_V l), rest)) /\
  (forall t l, jmembers t l ->
     Forall (fun kx => all_lits lit_ok (snd kx)) l -> forall f rest obj,
     is_obj obj -> (List.length (t ++ 125%Z :: rest) < f)%nat ->
     q_obj E f (t ++ 125 :: rest) obj None false = Ok (put_all l obj, rest)).
Proof.
  apply json_mutind.
  - intros _. exists 110, (bs "ull"). split; [reflexivity|]. split; [unfold vstart; auto 10|].
    intros f rest _ _. change (q_value E f 110 (bs "ull" ++ rest))
      with (q_lit (bs "null") VNull ErrNotValidNullValue ErrNotValidBoolValue (bs "null" ++ rest)).
    apply q_lit_app.
  - intros _. exists 116, (bs "rue"). split; [reflexivity|]. split; [unfold vstart; auto 10|].
    intros f rest _ _. change (q_value E f 116 (bs "rue" ++ rest))
      with (q_lit (bs "true") (VBool true) ErrNotValidBoolValue ErrNotValidBoolValue (bs "true" ++ rest)).
    apply q_lit_app.
  - intros _. exists 102, (bs "alse"). split; [reflexivity|]. split; [unfold vstart; auto 10|].
    intros f rest _ _. change (q_value E f 102 (bs "alse" ++ rest))
      with (q_lit (bs "false") (VBool false) ErrNotValidBoolValue ErrNotValidBoolValue (bs "false" ++ rest)).
    apply q_lit_app.
  - intros lit neg ip fd e i HL Hok. cbn [all_lits] in Hok.
    destruct (lit_head _ _ _ _ _ _ HL) as (c & t' & Ec & Hc).
    destruct (q_number_complete E lit neg ip fd e i [] HL Hok I) as (n & Hn & _).
    rewrite app_nil_r in Hn.
    exists c, t'. split; [assumption|]. split; [unfold vstart; auto 10|].
    intros f rest Hf _. rewrite q_num_value_head by assumption.
    change (c :: t' ++ rest) with ((c :: t') ++ rest). rewrite <- Ec.
    cbn [to_V]. rewrite Hn. apply q_number_extend; [assumption|]. now apply follow_stop.
  - intros t s HS _. exists 34, (t ++ [34]). split; [reflexivity|]. split; [unfold vstart; auto 10|].
    intros f rest _ _. rewrite <- app_assoc. cbn [app]. unfold q_value.
    change (34 =? 123) with false. change (34 =? 91) with false. change (34 =? 34) with true. cbn iota.
    rewrite (q_str_complete t s HS); [reflexivity|]. rewrite app_length. lia.
  - intros w Hw _. exists 91, (w ++ [93]). split; [reflexivity|]. split; [unfold vstart; auto 10|].
    intros f rest _ Hf. rewrite <- app_assoc in *. cbn [app] in *. unfold q_value.
    change (91 =? 123) with false. change (91 =? 91) with true. cbn iota.
    destruct f as [|f]; [lia|]. cbn [q_arr]. rewrite q_skip_ws by assumption. reflexivity.
  - intros t l Hl IH Hok. apply all_lits_arr in Hok. specialize (IH Hok).
    exists 91, (t ++ [93]). split; [reflexivity|]. split; [unfold vstart; auto 10|].
    intros f rest _ Hf. rewrite <- app_assoc in *. cbn [app] in *. unfold q_value.
    change (91 =? 123) with false. change (91 =? 91) with true. cbn iota.
    rewrite IH by assumption. reflexivity.
  - intros w Hw _. exists 123, (w ++ [125]). split; [reflexivity|]. split; [unfold vstart; auto 10|].
    intros f rest _ Hf. rewrite <- app_assoc in *. cbn [app] in *. unfold q_value.
    change (123 =? 123) with true. cbn iota.
    destruct f as [|f]; [lia|]. cbn [q_obj]. rewrite q_skip_ws by assumption. reflexivity.
  - intros t l Hl IH Hok. apply all_lits_obj in Hok. specialize (IH Hok).
    exists 123, (t ++ [125]). split; [reflexivity|]. split; [unfold vstart; auto 10|].
    intros f rest _ Hf. rewrite <- app_assoc in *. cbn [app] in *. unfold q_value.
    change (123 =? 123) with true. cbn iota.
    rewrite IH; [reflexivity|repeat eexists|assumption].
  - (* one element *)
    intros w1 t w2 j Hw1 Hj IH Hw2 Hok f rest acc Hf.
    inversion Hok as [|? ? Hokj _]; subst.
    destruct (IH Hokj) as (c & t' & -> & Hc & HV).
    destruct (vstart_props c Hc) as (Hb & _).
    rewrite <- !app_assoc in *. cbn [app] in *. rewrite app_length in Hf. cbn [List.length] in Hf.
    destruct f as [|f]; [lia|].
    rewrite (q_arr_value f _ acc c (t' ++ w2 ++ 93 :: rest)); [|rewrite q_skip_ws by assumption; now apply q_skip_here|assumption].
    rewrite HV; [|apply follow_ws; [assumption|cbn; auto]|lia].
    cbn [rbind]. rewrite app_length in Hf. rewrite app_length in Hf. cbn [List.length] in Hf.
    destruct f as [|f]; [lia|]. cbn [q_arr]. rewrite q_skip_ws by assumption. reflexivity.
  - (* several elements *)
    intros w1 t w2 j te l Hw1 Hj IH Hw2 Hl IHl Hok f rest acc Hf.
    inversion Hok as [|? ? Hokj Hokl]; subst.
    destruct (IH Hokj) as (c & t' & -> & Hc & HV).
    destruct (vstart_props c Hc) as (Hb & _).
    repeat (rewrite <- app_assoc in * || cbn [app] in * ).
    rewrite app_length in Hf. cbn [List.length] in Hf.
    destruct f as [|f]; [lia|].
    rewrite (q_arr_value f _ acc c (t' ++ w2 ++ 44 :: te ++ 93 :: rest)); [|rewrite q_skip_ws by assumption; now apply q_skip_here|assumption].
    rewrite HV; [|apply follow_ws; [assumption|cbn; auto]|lia].
    cbn [rbind]. rewrite app_length in Hf. rewrite app_length in Hf. cbn [List.length] in Hf.
    destruct f as [|f]; [lia|]. cbn [q_arr]. rewrite q_skip_ws by assumption.
    change (q_skip (44 :: te ++ 93 :: rest)) with (44 :: te ++ 93 :: rest). cbn iota.
    change (44 =? 93) with false. change (44 =? 44) with true. cbn iota.
    rewrite IHl; [|assumption|lia]. rewrite <- app_assoc. reflexivity.
  - (* one member *)
    intros w1 tk k w2 w3 t w4 j Hw1 Hk Hw2 Hw3 Hj IH Hw4 Hok f rest obj Ho Hf.
    inversion Hok as [|? ? Hokj _]; subst. cbn [snd] in Hokj.
    destruct (IH Hokj) as (c & t' & -> & Hc & HV).
    destruct (vstart_props c Hc) as (Hb & _).
    repeat (rewrite <- app_assoc in * || cbn [app] in * ).
    repeat (rewrite app_length in Hf || cbn [List.length] in Hf).
    destruct f as [|f]; [lia|]. cbn [q_obj]. rewrite q_skip_ws by assumption.
    rewrite (q_skip_here 34) by reflexivity. cbn iota.
    change (34 =? 125) with false. change (34 =? 44) with false. change (34 =? 58) with false.
    change (34 =? 123) with false. change (34 =? 91) with false. change (34 =? 34) with true. cbn iota.
    rewrite (q_str_complete tk k Hk) by (rewrite app_length; lia). cbn [rbind].
    destruct f as [|f]; [lia|]. cbn [q_obj]. rewrite q_skip_ws by assumption.
    rewrite (q_skip_here 58) by reflexivity. cbn iota.
    change (58 =? 125) with false. change (58 =? 44) with false. change (58 =? 58) with true.
    cbn [negb]. cbn iota.
    destruct f as [|f]; [lia|].
    rewrite (q_obj_value f _ obj k c (t' ++ w4 ++ 125 :: rest)); [|rewrite q_skip_ws by assumption; now apply q_skip_here|assumption].
    rewrite HV; [|apply follow_ws; [assumption|cbn; auto]|rewrite !app_length; cbn [List.length]; lia].
    cbn [rbind]. destruct (oput_set obj k (to_V j) Ho) as [-> Ho']. cbn [rbind].
    destruct f as [|f]; [lia|]. cbn [q_obj]. rewrite q_skip_ws by assumption. reflexivity.
  - (* several members *)
    intros w1 tk k w2 w3 t w4 j tm l Hw1 Hk Hw2 Hw3 Hj IH Hw4 Hl IHl Hok f rest obj Ho Hf.
    inversion Hok as [|? ? Hokj Hokl]; subst. cbn [snd] in Hokj.
    destruct (IH Hokj) as (c & t' & -> & Hc & HV).
    destruct (vstart_props c Hc) as (Hb & _).
    repeat (rewrite <- app_assoc in * || cbn [app] in * ).
    repeat (rewrite app_length in Hf || cbn [List.length] in Hf).
    destruct f as [|f]; [lia|]. cbn [q_obj]. rewrite q_skip_ws by assumption.
    rewrite (q_skip_here 34) by reflexivity. cbn iota.
    change (34 =? 125) with false. change (34 =? 44) with false. change (34 =? 58) with false.
    change (34 =? 123) with false. change (34 =? 91) with false. change (34 =? 34) with true. cbn iota.
    rewrite (q_str_complete tk k Hk) by (rewrite app_length; lia). cbn [rbind].
    destruct f as [|f]; [lia|]. cbn [q_obj]. rewrite q_skip_ws by assumption.
    rewrite (q_skip_here 58) by reflexivity. cbn iota.
    change (58 =? 125) with false. change (58 =? 44) with false. change (58 =? 58) with true.
    cbn [negb]. cbn iota.
    destruct f as [|f]; [lia|].
    rewrite (q_obj_value f _ obj k c (t' ++ w4 ++ 44 :: tm ++ 125 :: rest)); [|rewrite q_skip_ws by assumption; now apply q_skip_here|assumption].
    rewrite HV; [|apply follow_ws; [assumption|cbn; auto]|repeat (rewrite app_length || cbn [List.length]); lia].
    cbn [rbind]. destruct (oput_set obj k (to_V j) Ho) as [-> Ho']. cbn [rbind].
    destruct f as [|f]; [lia|]. cbn [q_obj]. rewrite q_skip_ws by assumption.
    rewrite (q_skip_here 44) by reflexivity. cbn iota.
    change (44 =? 125) with false. change (44 =? 44) with true. cbn iota.
    rewrite IHl; [reflexivity|assumption|assumption|].
    repeat (rewrite app_length || cbn [List.length]). lia.
Qed.

Lemma q_unmarshal_complete b j :
  json_doc b j -> all_lits lit_ok j -> q_unmarshal E b = Ok (to_V j).
Proof.
  intros (w1 & t & w2 & -> & Hw1 & Hj & Hw2) Hok.
  destruct parse_complete as [P _]. destruct (P t j Hj Hok) as (c & t' & -> & Hc & HV).
  destruct (vstart_props c Hc) as (Hb & _).
  unfold q_unmarshal. rewrite q_skip_ws by assumption. cbn [app].
  rewrite q_skip_here by assumption.
  rewrite HV.
  - cbn [rbind]. now rewrite q_skip_ws_nil.
  - rewrite <- (app_nil_r w2). now apply follow_ws.
  - rewrite !app_length. cbn [List.length]. rewrite !app_length. lia.
Qed.

(** *** The tree that is built denotes the abstract value *)

Lemma put_all_obj l : forall i kvs lo,
  exists i' kvs' lo', put_all l (VObj i kvs lo) = VObj i' kvs' lo' /\
    (NoDup (akeys kvs) -> NoDup (akeys kvs')) /\
    (forall k, In k (akeys kvs') <-> In k (akeys kvs) \/ In k (map fst l)) /\
    (forall k, ~ In k (map fst l) -> alookup k kvs' = alookup k kvs) /\
    (forall l1 k x l2, l = l1 ++ (k, x) :: l2 -> ~ In k (map fst l2) ->
        exists id, alookup k kvs' = Some (id, to_V x)).
Proof.
  induction l as [|[k x] l IH]; intros i kvs lo.
  - exists i, kvs, lo. cbn. split; [reflexivity|]. split; [auto|]. split; [intuition|].
    split; [auto|]. intros [|] ? ? ? Hx; discriminate.
  - unfold put_all. cbn [fold_left fst snd]. fold (put_all l (oput (VObj i kvs lo) k (to_V x))).
    unfold oput. cbn [set_to_object].
    destruct (IH (wrap_u32 (i + 1)) (aset k (wrap_u32 (i + 1), to_V x) kvs) (add_caseless_key E k lo))
      as (i' & kvs' & lo' & -> & H1 & H2 & H3 & H4).
    exists i', kvs', lo'. split; [reflexivity|]. split; [|split; [|split]].
    + intros H. apply H1. now apply NoDup_aset.
    + intros k0. rewrite H2, In_akeys_aset. cbn. intuition.
    + intros k0 Hn. cbn in Hn. rewrite H3 by tauto. apply alookup_aset_other. intros ->. tauto.
    + intros l1 k0 x0 l2 Hl Hn. destruct l1 as [|y l1].
      * inversion Hl; subst. rewrite H3 by assumption. eexists. apply alookup_aset_same.
      * inversion Hl; subst. eapply H4; [reflexivity|assumption].
Qed.

Lemma jv_ind' (P : jv -> Prop) :
  P JNull -> (forall b, P (JBool b)) -> (forall lit, P (JNum lit)) -> (forall s, P (JStr s)) ->
  (forall l, Forall P l -> P (JArr l)) ->
  (forall l, Forall (fun kx => P (snd kx)) l -> P (JObj l)) ->
  forall j, P j.
Proof.
  intros H1 H2 H3 H4 H5 H6. fix IH 1. intros [ |b|lit|s|l|l].
  - exact H1.
  - apply H2.
  - apply H3.
  - apply H4.
  - apply H5. induction l as [|x l IHl]; constructor; [apply IH|assumption].
  - apply H6. induction l as [|[k x] l IHl]; constructor; [apply IH|assumption].
Qed.

(** Trees whose number literals are literals of the grammar. *)
Definition gram_lit (lit : bytes) : Prop := exists neg ip fd e i, num_lit lit neg ip fd e i.

Lemma gram_lits :
  (forall t j, jval t j -> all_lits gram_lit j) /\
  (forall t l, jelems t l -> Forall (all_lits gram_lit) l) /\
  (forall t l, jmembers t l -> Forall (fun kx => all_lits gram_lit (snd kx)) l).
Proof.
  apply json_mutind; try (intros; exact I).
  - intros lit neg ip fd e i H. cbn. repeat eexists. exact H.
  - intros t l _ H. now apply all_lits_arr.
  - intros t l _ H. now apply all_lits_obj.
  - intros; repeat constructor; assumption.
  - intros; constructor; assumption.
  - intros; repeat constructor; assumption.
  - intros; constructor; assumption.
Qed.

Lemma to_V_denotes j : all_lits lit_ok j -> all_lits gram_lit j -> denotes j (to_V j).
Proof.
  induction j as [ |b|lit|s|l IH|l IH] using jv_ind'; intros Hok Hg.
  - exact I.
  - reflexivity.
  - cbn [all_lits] in *. destruct Hg as (neg & ip & fd & e & i & HL).
    destruct (q_number_complete E lit neg ip fd e i [] HL Hok I) as (n & Hn & Hd).
    rewrite app_nil_r in Hn. cbn [to_V]. rewrite Hn. cbn. split; [reflexivity|].
    exists neg, ip, fd, e, i. split; assumption.
  - reflexivity.
  - apply all_lits_arr in Hok. apply all_lits_arr in Hg. cbn.
    induction IH as [|x l Hx Hl IHl]; [exact I|].
    inversion Hok; inversion Hg; subst. cbn. split; [auto|]. apply IHl; assumption.
  - apply all_lits_obj in Hok. apply all_lits_obj in Hg.
    cbn [to_V]. change (fold_left _ l new_object) with (put_all l (VObj 0 [] None)).
    destruct (put_all_obj l 0 [] None) as (i' & kvs & lo & -> & H1 & H2 & H3 & H4).
    cbn [denotes]. split; [|split].
    + apply H1. constructor.
    + intros k. rewrite H2. cbn. tauto.
    + clear H1 H2 H3.
      assert (Gen : forall l2 l1, l = l1 ++ l2 ->
        (fix go (l : list (bytes * jv)) : Prop :=
         match l with
         | [] => True
         | (k, x) :: r =>
             (~ In k (map fst r) -> exists id x', In (k, (id, x')) kvs /\ denotes x x') /\ go r
         end) l2).
      { induction l2 as [|[k x] l2 IH2]; intros l1 Hl; [exact I|]. split.
        - intros Hn. destruct (H4 l1 k x l2 Hl Hn) as (id & Hid).
          exists id, (to_V x). split; [now apply alookup_In|].
          subst l. apply Forall_app in IH as [_ IH]. apply Forall_app in Hok as [_ Hok].
          apply Forall_app in Hg as [_ Hg].
          inversion IH as [|? ? IHx _]; inversion Hok; inversion Hg; subst. apply IHx; assumption.
        - apply (IH2 (l1 ++ [(k, x)])). rewrite <- app_assoc. exact Hl. }
      apply (Gen l []). reflexivity.
Qed.

Lemma unmarshal_complete b j :
  json_doc b j -> all_lits lit_ok j ->
  exists v, unmarshal E b = Ok (v, None) /\ unmarshal_string E b = Ok (v, None) /\ denotes j v.
Proof.
  intros Hd Hok. pose proof (q_unmarshal_complete b j Hd Hok) as Q.
  assert (Hb : b <> []).
  { intros ->. cbn in Q. discriminate. }
  exists (to_V j).
  pose proof (run_unmarshal_spec E b) as R. rewrite Q in R. destruct R as (s' & R & _).
  unfold unmarshal, unmarshal_string, unmarshal_nocopy. destruct b; [congruence|].
  rewrite R. cbn [pres_ret]. split; [reflexivity|]. split; [reflexivity|].
  apply to_V_denotes; [assumption|].
  destruct Hd as (w1 & t & w2 & _ & _ & Hj & _). destruct gram_lits as [G _]. eauto.
Qed.
End Complete.
