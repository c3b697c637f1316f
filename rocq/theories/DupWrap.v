(** Repeated names: which member of the parsed object holds, without a bound on the text, and what the
    order of the members does when the counter of setting times wraps. *)
From Coq Require Import Permutation.
From Verif Require Import Base Utf8 Float64 Value Scan Unmarshal Pure Opt Marshal Access Path
  SpecJson SpecValue SpecText SpecLax SpecOrder ParseComplete UnmarshalProof EscapeProof LitExact LaxSame MarshalClaims RoundTrip EditClaims OrderHistory ExampleWorld.

Theorem last_member_holds E W b l l1 k x l2 : lax_doc b (JObj l) -> l = l1 ++ (k, x) :: l2 -> ~ In k (map fst l2) ->
  exists v c, unmarshal E b = Ok (v, None) /\ get E W false v (PStr k) [] = (v, Ok c) /\ tree_of lax_value x c.
Proof.
  intros Hl El Hk. destruct (unmarshal_lax_tree E b _ Hl) as (v & Hu & Ht).
  inversion Ht as [| | | | |? i kvs lo ND Hn Hm]; subst.
  destruct (Hm l1 k x l2 eq_refl Hk) as (id & c & Hin & Hc).
  exists (VObj i kvs lo), c. split; [exact Hu|]. split; [|exact Hc]. now apply get_member with id.
Qed.

(** ["b":false,"b":false,...], [S n] times *)
Fixpoint bees (n : nat) : bytes :=
  match n with O => bs """b"":false" | S n => bs """b"":false," ++ bees n end.

Definition bees_doc (n : nat) : bytes := bs "{""a"":true," ++ bees n ++ bs "}".
Definition bees_tree (n : nat) : jv := JObj ((bs "a", JBool true) :: repeat (bs "b", JBool false) (S n)).

Lemma letter c : 97 <= c < 123 -> str_body [c] [c].
Proof.
  intros H. assert (U : utf8 c = [c]) by (unfold utf8; destruct (c <? 128) eqn:E; [reflexivity|apply Z.ltb_ge in E; lia]).
  rewrite <- U. rewrite <- (app_nil_r (utf8 c)). apply SB_raw; [unfold scalar; lia|lia|lia|lia|constructor].
Qed.

Lemma bees_members n : jmembers (bees n) (repeat (bs "b", JBool false) (S n)).
Proof.
  induction n as [|n IH].
  - apply (JM_one [] (bs "b") (bs "b") [] [] (bs "false") [] (JBool false)); try constructor. apply letter; vm_compute; intuition discriminate.
  - apply (JM_cons [] (bs "b") (bs "b") [] [] (bs "false") [] (JBool false) (bees n)); try constructor; [apply letter; vm_compute; intuition discriminate|exact IH].
Qed.

Lemma bees_json n : json_doc (bees_doc n) (bees_tree n).
Proof.
  exists [], (bees_doc n), []. split; [now rewrite app_nil_r|]. split; [constructor|]. split; [|constructor].
  change (bees_doc n) with (123 :: (bs """a"":true," ++ bees n) ++ [125]). apply JT_obj.
  apply (JM_cons [] (bs "a") (bs "a") [] [] (bs "true") [] (JBool true) (bees n)); try constructor; [apply letter; vm_compute; intuition discriminate|apply bees_members].
Qed.

Lemma bees_V E n : to_V E (bees_tree n) = wrap_doc (Z.of_nat (S n)).
Proof.
  induction n as [|n IH]; [reflexivity|].
  change (bees_tree (S n)) with (JObj ((bs "a", JBool true) :: repeat (bs "b", JBool false) (S (S n)))).
  change (repeat (bs "b", JBool false) (S (S n))) with ((bs "b", JBool false) :: repeat (bs "b", JBool false) (S n)).
  rewrite repeat_cons. cbn [to_V]. rewrite app_comm_cons, fold_left_app.
  change (fold_left (fun o kx => oput E o (fst kx) (to_V E (snd kx))) ((bs "a", JBool true) :: repeat (bs "b", JBool false) (S n)) new_object)
    with (to_V E (bees_tree n)). rewrite IH. cbn [fold_left fst snd to_V].
  assert (Ew : wrap_u32 (1 + Z.of_nat (S (S n))) = wrap_u32 (wrap_u32 (1 + Z.of_nat (S n)) + 1)).
  { unfold wrap_u32. rewrite Zplus_mod_idemp_l. f_equal. lia. }
  unfold wrap_doc. rewrite Ew. generalize (wrap_u32 (1 + Z.of_nat (S n))). intros z. reflexivity.
Qed.

Lemma bees_last n : last_wins (repeat (bs "b", JBool false) (S n)) = [(bs "b", JBool false)].
Proof.
  induction n as [|n IH]; [reflexivity|].
  change (repeat (bs "b", JBool false) (S (S n))) with ((bs "b", JBool false) :: repeat (bs "b", JBool false) (S n)).
  cbn [last_wins]. destruct (in_dec _ _ _) as [_|H]; [exact IH|]. exfalso. apply H. left. reflexivity.
Qed.

Lemma bees_not_a n : ~ In (bs "a") (map fst (repeat (bs "b", JBool false) n)).
Proof. intros H. apply in_map_iff in H as (x & E & H). apply repeat_spec in H. subst x. discriminate. Qed.

Lemma bees_parsed E n : unmarshal E (bees_doc n) = Ok (wrap_doc (Z.of_nat (S n)), None).
Proof.
  rewrite <- (bees_V E). assert (Hl : all_lits lit_ok (bees_tree n)).
  { unfold bees_tree. apply all_lits_obj. constructor; [exact I|]. apply Forall_forall. intros x Hx. apply repeat_spec in Hx. subst x. exact I. }
  pose proof (q_unmarshal_complete E _ _ (bees_json n) Hl) as Q.
  pose proof (run_unmarshal_spec E (bees_doc n)) as R. rewrite Q in R. destruct R as (s' & R & _).
  unfold unmarshal, unmarshal_nocopy. change (bees_doc n) with (123 :: (bs """a"":true," ++ bees n) ++ [125]) in *. rewrite R. reflexivity.
Qed.

Lemma wrapped_text E W : marshal_opt E W set_sequence (wrap_doc (two32 - 1)) = Ok (bs "{""b"":false,""a"":true}").
Proof.
  rewrite (output_determined E W world1).
  - vm_compute. reflexivity.
  - vm_compute. repeat split. repeat constructor; cbn; intuition discriminate.
  - vm_compute. repeat split. repeat constructor; cbn; intuition discriminate.
Qed.

Lemma swapped n j' : lax_doc (bs "{""b"":false,""a"":true}") j' -> ~ norm (bees_tree n) j'.
Proof.
  intros Hl HN.
  assert (Hd : lax_doc (bs "{""b"":false,""a"":true}") (JObj [(bs "b", JBool false); (bs "a", JBool true)])).
  { apply json_lax; [|repeat split]. exists [], (bs "{""b"":false,""a"":true}"), []. split; [reflexivity|]. split; [constructor|]. split; [|constructor].
    apply (JT_obj (bs """b"":false,""a"":true")).
    apply (JM_cons [] (bs "b") (bs "b") [] [] (bs "false") [] (JBool false) (bs """a"":true")); try constructor; [apply letter; vm_compute; intuition discriminate|].
    apply (JM_one [] (bs "a") (bs "a") [] [] (bs "true") [] (JBool true)); try constructor; apply letter; vm_compute; intuition discriminate. }
  rewrite (lax_doc_same _ _ _ Hl Hd) in HN. inversion HN as [| | | | |ms ms' F]; subst.
  cbn [last_wins] in F. destruct (in_dec _ _ _) as [H|_]; [exact (bees_not_a (S n) H)|].
  inversion F as [|? ? ? ? [Hf _] _]; subst. cbn [fst] in Hf.
  apply fixed_fix in Hf; [discriminate|]. repeat constructor; vm_compute; intuition discriminate.
Qed.

Theorem wrapped_duplicates E W : exists b j v b', json_doc b j /\ unmarshal E b = Ok (v, None) /\
  marshal_opt E W set_sequence v = Ok b' /\ forall j', lax_doc b' j' -> ~ norm j j'.
Proof.
  assert (Hn : exists n, Z.of_nat (S n) = two32 - 1).
  { exists (Z.to_nat (two32 - 2)). rewrite Nat2Z.inj_succ, Z2Nat.id; [reflexivity|]. unfold two32. lia. }
  destruct Hn as [n Hn].
  exists (bees_doc n), (bees_tree n), (wrap_doc (Z.of_nat (S n))), (bs "{""b"":false,""a"":true}").
  split; [apply bees_json|]. split; [apply bees_parsed|]. split; [rewrite Hn; apply wrapped_text|apply swapped].
Qed.
