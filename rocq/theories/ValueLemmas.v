(** Induction over values and basic facts about [json_typed]. *)
From Verif Require Import Base Float64 Value ListLemmas SpecJson SpecValue Scan Unmarshal Pure
  UnmarshalProof ParseFacts.

Lemma V_ind' (P : V -> Prop) :
  P VNotExist -> (forall s, P (VStr s)) -> (forall n src, P (VNum n src)) ->
  (forall i kvs lo, Forall (fun x => P (snd (snd x))) kvs -> P (VObj i kvs lo)) ->
  (forall l, Forall P l -> P (VArr l)) ->
  (forall b, P (VBool b)) -> P VNull -> P VUnknown -> P VNil ->
  forall v, P v.
Proof.
  intros H1 H2 H3 H4 H5 H6 H7 H8 H9. fix IH 1. intros [ |s|n src|i kvs lo|l|b| | | ].
  - exact H1.
  - apply H2.
  - apply H3.
  - apply H4. induction kvs as [|[k [id x]] kvs IHl]; constructor; [apply IH|assumption].
  - apply H5. induction l as [|x l IHl]; constructor; [apply IH|assumption].
  - apply H6.
  - exact H7.
  - exact H8.
  - exact H9.
Qed.

Lemma json_typed_arr l : json_typed (VArr l) <-> Forall json_typed l.
Proof.
  induction l as [|x l IH]; cbn; [intuition|]. cbn in IH. rewrite IH.
  split; [intros [? ?]; constructor; assumption|intros H; inversion H; auto].
Qed.

Lemma json_typed_obj i kvs lo : json_typed (VObj i kvs lo) <->
  NoDup (akeys kvs) /\ Forall (fun x => json_typed (snd (snd x))) kvs.
Proof.
  cbn. unfold akeys.
  enough (G : (fix go (l : list (bytes * (Z * V))) : Prop :=
     match l with [] => True | (_, (_, x)) :: r => json_typed x /\ go r end) kvs
     <-> Forall (fun x => json_typed (snd (snd x))) kvs) by (rewrite G; reflexivity).
  induction kvs as [|[k [id x]] kvs IH]; [intuition|]. rewrite IH.
  split; [intros [? ?]; constructor; assumption|intros H; inversion H; auto].
Qed.

Lemma Forall_aset {A} (P : bytes * A -> Prop) k a l :
  Forall P l -> (forall k', k = k' -> P (k', a)) -> Forall P (aset k a l).
Proof.
  intros H Hk. induction H as [|[k' a'] l Hx Hl IH]; cbn.
  - constructor; [now apply Hk|constructor].
  - destruct (beqb_spec k k'); constructor; auto.
Qed.

Lemma Forall_aremove {A} (P : bytes * A -> Prop) k l :
  Forall P l -> Forall P (aremove k l).
Proof.
  induction 1 as [|[k' a'] l Hx Hl IH]; cbn; [constructor|].
  destruct (beqb k k'); [assumption|constructor; assumption].
Qed.

Lemma json_typed_set E i kvs lo k v o' :
  json_typed (VObj i kvs lo) -> json_typed v -> set_to_object E (VObj i kvs lo) k v = Ok o' -> json_typed o'.
Proof.
  intros H Hv Hs. cbn in Hs. inversion Hs; subst. apply json_typed_obj in H as [H1 H2].
  apply json_typed_obj. split; [now apply NoDup_aset|]. apply Forall_aset; auto.
Qed.

Lemma parsed_json_typed E b v : q_unmarshal E b = Ok v -> json_typed v.
Proof.
  apply (q_unmarshal_rule E json_typed (fun o => json_typed o)).
  - intros c r w r' H. apply q_scalar_cases in H as [[H _]|[->|[->| ->]]]; try exact I.
    apply q_number_num in H as (n & src & -> & _). exact I.
  - intros; exact I.
  - intros; now apply json_typed_arr.
  - cbn. split; [constructor|exact I].
  - intros o k w o' Ho Hw Hs. destruct o; try discriminate Hs. eapply json_typed_set; eauto.
  - auto.
Qed.

Lemma unmarshal_total E b : exists v e, unmarshal E b = Ok (v, e) /\
  match e with
  | None => json_typed v
  | Some _ => v = VNotExist \/ (b = [] /\ v = VNil)
  end.
Proof.
  unfold unmarshal. destruct b as [|c b]; [do 2 eexists; split; [reflexivity|cbn; auto]|].
  pose proof (run_unmarshal_spec E (c :: b)) as R.
  destruct (q_unmarshal E (c :: b)) as [w|e| |] eqn:Q0; try contradiction;
    destruct R as (s' & -> & _); cbn [pres_ret]; do 2 eexists; (split; [reflexivity|]); cbn; auto.
  eapply parsed_json_typed; eauto.
Qed.

Lemma unmarshal_nocopy_total E b : exists v e, unmarshal_nocopy E b = Ok (v, e) /\
  match e with None => json_typed v | Some _ => v = VNotExist end.
Proof.
  unfold unmarshal_nocopy. destruct b as [|c b]; [do 2 eexists; split; [reflexivity|cbn; auto]|].
  pose proof (run_unmarshal_spec E (c :: b)) as R.
  destruct (q_unmarshal E (c :: b)) as [w|e| |] eqn:Q0; try contradiction;
    destruct R as (s' & -> & _); cbn [pres_ret]; do 2 eexists; (split; [reflexivity|]); cbn; auto.
  eapply parsed_json_typed; eauto.
Qed.
