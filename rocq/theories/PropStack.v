(** C73: how deep the calls of Unmarshal go.  [unmarshal_d E n b] is Unmarshal with room for
    [n] calls of the functions for arrays and objects inside each other; [Panic] is running
    out of stack, which ends the program. *)
From Verif Require Import Base Float64 Value Scan Unmarshal Stack SpecJson SpecValue SpecLax SpecStack StackProof ExampleWorld.

(** The stack runs out exactly on the texts in which [n + 1] containers are open at once at
    some place that is read. *)
Theorem C73_exactly : forall (E : Env) (n : nat) (b : bytes), Forall is_byte b ->
  (unmarshal_d E n b = Panic <-> doc_opens b (S n)).
Proof. exact overflow_exactly. Qed.
Print Assumptions C73_exactly.

(** Otherwise nothing of it is seen. *)
Theorem C73_same : forall (E : Env) (n : nat) (b : bytes),
  unmarshal_d E n b <> Panic -> unmarshal_d E n b = unmarshal E b.
Proof. exact enough_same. Qed.
Print Assumptions C73_same.

(** A document needs as many calls as its tree is nested. *)
Theorem C73_document : forall (E : Env) (n : nat) (b : bytes) (j : jv),
  lax_doc b j -> (unmarshal_d E n b = Panic <-> (n < nesting j)%nat).
Proof. exact document_depth. Qed.
Print Assumptions C73_document.

(** A caller who counts the opening brackets first is safe, whatever the text is. *)
Theorem C73_brackets : forall (E : Env) (n : nat) (b : bytes), Forall is_byte b ->
  (brackets b <= n)%nat -> unmarshal_d E n b = unmarshal E b.
Proof. exact brackets_enough. Qed.
Print Assumptions C73_brackets.

(** What follows does not help. *)
Theorem C73_stays : forall (E : Env) (n : nat) (b x : bytes), Forall is_byte b -> Forall is_byte x ->
  unmarshal_d E n b = Panic -> unmarshal_d E n (b ++ x) = Panic.
Proof. exact overflow_stays. Qed.
Print Assumptions C73_stays.

(** "Some amount of stack is enough for every document": false, also for documents of RFC
    8259, which are accepted when there is room; [n + 1] opening brackets are enough to use up
    [n]. *)
Theorem C73_bounded_refuted : forall (E : Env) (n : nat), exists b j,
  json_doc b j /\ List.length b = (2 * S n)%nat /\ (exists v, unmarshal E b = Ok (v, None)) /\ unmarshal_d E n b = Panic.
Proof. exact some_stack_refuted. Qed.
Print Assumptions C73_bounded_refuted.

Theorem C73_half_refuted : forall (E : Env) (n : nat), unmarshal_d E n (repeat 91 (S n)) = Panic.
Proof. exact half_document. Qed.
Print Assumptions C73_half_refuted.

(** [[1], {"a": [2]}] is nested three deep. *)
Definition doc3 : bytes := bs "[[1], {""a"": [2]}]".
Example C73_two_short : unmarshal_d env0 2 doc3 = Panic.
Proof. vm_compute. reflexivity. Qed.
Example C73_three : unmarshal_d env0 3 doc3 = unmarshal env0 doc3.
Proof. vm_compute. reflexivity. Qed.
Example C73_three_ok : exists v, unmarshal env0 doc3 = Ok (v, None).
Proof. vm_compute. eexists. reflexivity. Qed.
(** An error in front of the brackets is met first; one behind them is not. *)
Example C73_error_first : unmarshal_d env0 1 (bs "[x, [[") = unmarshal env0 (bs "[x, [[").
Proof. vm_compute. reflexivity. Qed.
Example C73_error_later : unmarshal_d env0 1 (bs "[[x") = Panic.
Proof. vm_compute. reflexivity. Qed.
(** A bracket in a string is not a container: [brackets] is a bound, not the need. *)
Example C73_string : unmarshal_d env0 1 (bs "[""[[""]") = unmarshal env0 (bs "[""[[""]") /\ brackets (bs "[""[[""]") = 3%nat.
Proof. vm_compute. auto. Qed.
