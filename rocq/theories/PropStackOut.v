(** C85: how deep the calls of Marshal, Equal and deepCopy go.  [marshal_opt_d], [equal_d] and [deep_copy_d] are
    the functions with room for [n] calls for arrays and objects inside each other; [Panic] and [None] are running
    out of stack, which ends the program.  [stories] is how deep arrays and objects are nested in a value. *)
From Verif Require Import Base Float64 Value Opt Marshal Compare Import Unmarshal Stack StackOut SpecJson SpecValue SpecLax SpecText SpecOpts SpecSize
  StackOutProof ExampleWorld.

(** Marshal needs exactly as many calls as the value is deep, whatever the options are. *)
Theorem C85_marshal : forall (E : Env) (W : World) (o : opt) (n : nat) (v : V),
  marshal_opt_d E W o n v = if (n <? stories v)%nat then Panic else marshal_opt E W o v.
Proof. exact marshal_deep. Qed.
Print Assumptions C85_marshal.

(** The copy that Import makes of a value needs the same. *)
Theorem C85_copy : forall (v : V) (n : nat),
  deep_copy_d v n = if (n <? stories v)%nat then None else Some (deep_copy v).
Proof. exact copy_deep. Qed.
Print Assumptions C85_copy.

(** Equal is safe if one of the two values is not too deep. *)
Theorem C85_equal_enough : forall (W : World) (n : nat) (path : list key) (v a : V),
  (stories v <= n \/ stories a <= n)%nat -> equal_d W n path v a = Some (equal W path v a).
Proof. exact equal_enough. Qed.
Print Assumptions C85_equal_enough.

(** The answer does not depend on the stack. *)
Theorem C85_equal_same : forall (W : World) (v : V) (n : nat) (path : list key) (a : V) (r : bool),
  equal_d W n path v a = Some r -> r = equal W path v a.
Proof. exact equal_deep_same. Qed.
Print Assumptions C85_equal_same.

(** On values that are equal it needs as many calls as they are deep. *)
Theorem C85_equal_exactly : forall (W : World) (n : nat) (path : list key) (v a : V), equal W path v a = true ->
  equal_d W n path v a = if (n <? stories v)%nat then None else Some true.
Proof. exact equal_of_equal. Qed.
Print Assumptions C85_equal_exactly.

(** A stack that was enough to read a text is enough to write, copy and compare the value. *)
Theorem C85_parsed : forall (E : Env) (W : World) (o : opt) (n : nat) (b : bytes) (v : V),
  Forall is_byte b -> unmarshal_d E n b = Ok (v, None) ->
  marshal_opt_d E W o n v = marshal_opt E W o v /\ deep_copy_d v n = Some (deep_copy v) /\
  (forall path a, equal_d W n path v a = Some (equal W path v a)) /\
  (forall path a, equal_d W n path a v = Some (equal W path a v)).
Proof. exact after_parse. Qed.
Print Assumptions C85_parsed.

(** What Marshal has written needs exactly as many calls to be read again: a stack that was enough to write is
    enough to read. *)
Theorem C85_back : forall (E : Env) (W : World) (o : opt) (v : V),
  opt_ws o -> json_typed v -> all_text (Forall is_byte) (fun _ src => lax_num src) v ->
  exists b, marshal_opt E W o v = Ok b /\ forall n, (unmarshal_d E n b = Panic <-> (n < stories v)%nat).
Proof. exact back_deep. Qed.
Print Assumptions C85_back.

(** "Some amount of stack is enough for every value": false. *)
Theorem C85_bounded_refuted : forall (E : Env) (W : World) (o : opt) (n : nat), exists v,
  json_typed v /\ (exists b, marshal_opt E W o v = Ok b) /\
  marshal_opt_d E W o n v = Panic /\ deep_copy_d v n = None /\ equal_d W n [] v v = None.
Proof. exact some_stack_out_refuted. Qed.
Print Assumptions C85_bounded_refuted.

Definition read (b : bytes) : V := match unmarshal env0 b with Ok (v, _) => v | _ => VNil end.
(** [[1], {"a": [2]}] is three deep. *)
Definition three : V := read (bs "[[1], {""a"": [2]}]").
Example C85_two_short : marshal_opt_d env0 world1 opt0 2 three = Panic /\ deep_copy_d three 2 = None.
Proof. vm_compute. auto. Qed.
Example C85_three : marshal_opt_d env0 world1 opt0 3 three = Ok (bs "[[1],{""a"":[2]}]") /\ deep_copy_d three 3 = Some three.
Proof. vm_compute. auto. Qed.
(** Equal stops at the first difference. *)
Example C85_first_difference : equal_d world1 1 [] three (read (bs "[1, {""a"": [2]}]")) = Some false /\
  equal_d world1 1 [] three (read (bs "[[1], {""a"": [2]}]")) = None.
Proof. vm_compute. auto. Qed.
(** A name that is given twice: the text is deeper than the value, so that the converse of [C85_parsed] fails. *)
Example C85_twice : unmarshal_d env0 1 (bs "{""a"":[[]],""a"":1}") = Panic /\
  stories (read (bs "{""a"":[[]],""a"":1}")) = 1%nat /\
  marshal_opt_d env0 world1 opt0 1 (read (bs "{""a"":[[]],""a"":1}")) = Ok (bs "{""a"":1}").
Proof. vm_compute. auto. Qed.
(** An empty container is a call as well. *)
Example C85_empty : marshal_opt_d env0 world1 opt0 0 (VArr []) = Panic /\ marshal_opt_d env0 world1 opt0 0 (VBool true) = Ok (bs "true").
Proof. vm_compute. auto. Qed.
