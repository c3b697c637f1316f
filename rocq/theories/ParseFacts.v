(** A rule for properties of every value the parser returns. *)
From Verif Require Import Base Float64 Value Scan Unmarshal Pure ListLemmas UnmarshalProof.

Lemma q_arr_S E f r acc : q_arr E (S f) r acc =
    match q_skip r with
    | [] => Err ErrNotArrayValue
    | c :: t =>
      if c =? 93 then Ok (VArr acc, t)
      else if c =? 44 then q_arr E f t acc
      else if c =? 123 then
        let* (v, r') := q_obj E f t new_object None false in q_arr E f r' (acc ++ [v])
      else if c =? 91 then
        let* (v, r') := q_arr E f t [] in q_arr E f r' (acc ++ [v])
      else if c =? 34 then
        let* (s, r') := q_str (S (List.length t)) t in q_arr E f r' (acc ++ [VStr s])
      else match q_scalar E c (c :: t) with
           | Some m => let* (v, r') := m in q_arr E f r' (acc ++ [v])
           | None => Err ErrRawBytesUnrecognized
           end
    end.
Proof. reflexivity. Qed.

Lemma q_obj_S E f r obj key colon : q_obj E (S f) r obj key colon =
    match q_skip r with
    | [] => Err ErrNotObjectValue
    | c :: t =>
      let store (v : V) (r' : bytes) : res (V * bytes) :=
        match key with
        | None => Panic
        | Some k =>
          let* obj' := set_to_object E obj k v in
          q_obj E f r' obj' None false
        end in
      let missing := match key with None => true | Some _ => negb colon end in
      let haskey := match key with None => false | Some _ => true end in
      if c =? 125 then
        if haskey then Err ErrNotObjectValue else Ok (obj, t)
      else if c =? 44 then
        if haskey then Err ErrNotObjectValue else q_obj E f t obj key colon
      else if c =? 58 then
        if colon then Err ErrNotObjectValue
        else if negb haskey then Err ErrNotObjectValue
        else q_obj E f t obj key true
      else if c =? 123 then
        if missing then Err ErrNotObjectValue
        else let* (v, r') := q_obj E f t new_object None false in store v r'
      else if c =? 91 then
        if missing then Err ErrNotObjectValue
        else let* (v, r') := q_arr E f t [] in store v r'
      else if c =? 34 then
        if haskey then
          if negb colon then Err ErrNotObjectValue
          else let* (s, r') := q_str (S (List.length t)) t in store (VStr s) r'
        else
          let* (s, r') := q_str (S (List.length t)) t in q_obj E f r' obj (Some s) colon
      else match q_scalar E c (c :: t) with
           | Some m =>
             if missing then Err ErrNotObjectValue
             else let* (v, r') := m in store v r'
           | None => Err ErrRawBytesUnrecognized
           end
    end.
Proof. reflexivity. Qed.

Section Rule.
Variable E : Env.
Variables P Q : V -> Prop.
Hypothesis Pscalar : forall c r v r', q_scalar E c r = Some (Ok (v, r')) -> P v.
Hypothesis Pstr : forall s, P (VStr s).
Hypothesis Parr : forall l, Forall P l -> P (VArr l).
Hypothesis Qnew : Q new_object.
Hypothesis Qset : forall o k v o', Q o -> P v -> set_to_object E o k v = Ok o' -> Q o'.
Hypothesis QP : forall o, Q o -> P o.

Ltac kk := first [solve [eauto] | solve [eauto 10]].

Lemma q_loops_rule f :
  (forall r acc v r', Forall P acc -> q_arr E f r acc = Ok (v, r') -> P v) /\
  (forall r o key colon v r', Q o -> q_obj E f r o key colon = Ok (v, r') -> P v).
Proof.
  induction f as [|f [IHa IHo]]; [split; intros; discriminate|]. split.
  - intros r acc v r' Hacc H. rewrite q_arr_S in H.
    destruct (q_skip r) as [|c t]; [discriminate|].
    assert (K : forall w r1, P w -> q_arr E f r1 (acc ++ [w]) = Ok (v, r') -> P v).
    { intros w r1 Hw. apply IHa. apply Forall_app. auto. }
    destruct (c =? 93); [inversion H; subst; auto|].
    destruct (c =? 44); [eapply IHa; eauto|].
    destruct (c =? 123).
    { destruct (q_obj E f t new_object None false) as [[w r1]|e| |] eqn:Eo; cbn [rbind] in H; try discriminate. eapply K; [|exact H]. kk. }
    destruct (c =? 91).
    { destruct (q_arr E f t []) as [[w r1]|e| |] eqn:Eo; cbn [rbind] in H; try discriminate. eapply K; [|exact H]. kk. }
    destruct (c =? 34).
    { destruct (q_str _ t) as [[w r1]|e| |] eqn:Eo; cbn [rbind] in H; try discriminate. eapply K; [|exact H]. kk. }
    destruct (q_scalar E c (c :: t)) as [[[w r1]|e| |]|] eqn:Eo; cbn [rbind] in H; try discriminate. eapply K; [|exact H]. kk.
  - intros r o key colon v r' Ho H. rewrite q_obj_S in H.
    destruct (q_skip r) as [|c t]; [discriminate|].
    set (store := fun (w : V) (r1 : bytes) => match key with None => Panic | Some k => let* obj' := set_to_object E o k w in q_obj E f r1 obj' None false end) in H.
    assert (K : forall w r1, P w -> store w r1 = Ok (v, r') -> P v).
    { intros w r1 Hw. unfold store. destruct key as [k|]; [|discriminate].
      destruct (set_to_object E o k w) eqn:Es; cbn [rbind]; try discriminate. apply IHo. eauto. }
    destruct (c =? 125). { destruct key; [discriminate|]. inversion H; subst; auto. }
    destruct (c =? 44). { destruct key; [discriminate|]. eapply IHo; [exact Ho|exact H]. }
    destruct (c =? 58). { destruct colon; [discriminate|]. destruct key; [|discriminate]. eapply IHo; [exact Ho|exact H]. }
    destruct (c =? 123).
    { destruct key as [k|]; [destruct (negb colon); [discriminate|]|discriminate].
      destruct (q_obj E f t new_object None false) as [[w r1]|e| |] eqn:Eo; cbn [rbind] in H; try discriminate. eapply K; [|exact H]. kk. }
    destruct (c =? 91).
    { destruct key as [k|]; [destruct (negb colon); [discriminate|]|discriminate].
      destruct (q_arr E f t []) as [[w r1]|e| |] eqn:Eo; cbn [rbind] in H; try discriminate. eapply K; [|exact H]. kk. }
    destruct (c =? 34).
    { destruct key as [k|].
      - destruct (negb colon); [discriminate|].
        destruct (q_str _ t) as [[w r1]|e| |] eqn:Eo; cbn [rbind] in H; try discriminate. eapply K; [|exact H]. kk.
      - destruct (q_str _ t) as [[w r1]|e| |] eqn:Eo; cbn [rbind] in H; try discriminate. eapply IHo; [exact Ho|exact H]. }
    destruct (q_scalar E c (c :: t)) as [m|] eqn:Eo; [|discriminate].
    destruct key as [k|]; [destruct (negb colon); [discriminate|]|discriminate].
    destruct m as [[w r1]|e| |]; cbn [rbind] in H; try discriminate. eapply K; [|exact H]. kk.
Qed.

Lemma q_value_rule f c t v r' : q_value E f c t = Ok (v, r') -> P v.
Proof.
  unfold q_value. destruct (q_loops_rule f) as [A O]. intros H.
  destruct (c =? 123); [eapply O; [apply Qnew|exact H]|].
  destruct (c =? 91); [eapply A; [constructor|exact H]|].
  destruct (c =? 34).
  { destruct (q_str _ t) as [[w r1]|e| |]; cbn [rbind] in H; try discriminate. inversion H; subst; auto. }
  destruct (q_scalar E c (c :: t)) as [m|] eqn:Em; [|discriminate]. subst m. eauto.
Qed.

Lemma q_unmarshal_rule b v : q_unmarshal E b = Ok v -> P v.
Proof.
  unfold q_unmarshal. destruct (q_skip b) as [|c t]; [discriminate|].
  destruct (q_value E _ c t) as [[w r1]|e| |] eqn:Ev; cbn [rbind]; try discriminate.
  destruct (q_skip r1); [|discriminate]. intros H; inversion H; subst. eapply q_value_rule; eauto.
Qed.

Lemma unmarshal_rule b v : unmarshal E b = Ok (v, None) -> P v.
Proof.
  unfold unmarshal. destruct b as [|c b]; [discriminate|].
  pose proof (run_unmarshal_spec E (c :: b)) as R.
  destruct (q_unmarshal E (c :: b)) as [w|e| |] eqn:Q0; try contradiction.
  - destruct R as (s' & -> & _). cbn. intros H; inversion H; subst. eapply q_unmarshal_rule; eauto.
  - destruct R as (s' & -> & _). discriminate.
Qed.
End Rule.

Lemma q_scalar_cases E c r v r' : q_scalar E c r = Some (Ok (v, r')) ->
  (q_number E r = Ok (v, r') /\ is_num_start c = true) \/ v = VBool true \/ v = VBool false \/ v = VNull.
Proof.
  unfold q_scalar. destruct (is_num_start c).
  { intros H; left; inversion H; auto. }
  unfold q_lit.
  destruct (c =? 116); [|destruct (c =? 102); [|destruct (c =? 110); [|discriminate]]];
    (destruct (_ <? _)%nat; [discriminate|]; destruct (q_prefix _ _); intros H; inversion H; auto).
Qed.

Lemma q_number_num E r v r' : q_number E r = Ok (v, r') -> exists n src, v = VNum n src /\ r = src ++ r'.
Proof.
  unfold q_number. destruct (q_num_loop r 0 nst0) as [[[sf src] rst]|e| |] eqn:El; cbn [rbind]; try discriminate.
  pose proof (q_num_loop_split _ _ _ _ _ _ El) as Hs. subst r.
  destruct (q_num_value E sf src) eqn:Ev; cbn [rbind]; try discriminate.
  intros H; inversion H; subst. exists (match v with VNum n _ => n | _ => Num false false 0 0 f_zero end), src.
  split; [|reflexivity]. clear El H.
  unfold q_num_value, q_float, q_pos, q_neg in Ev. destruct src as [|c0 src]; [discriminate|].
  repeat match type of Ev with context [if ?b then _ else _] => destruct b; try discriminate end;
   try (destruct (parse_float _); [|discriminate]); inversion Ev; reflexivity.
Qed.
