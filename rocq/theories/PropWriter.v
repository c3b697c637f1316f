(** C87: what the calls inside one Marshal share.  [write_value] (Writer.v) is marshalToBuffer with the buffer, the
    counter of the indentation and the table of the key sequence as state; [good o t]: the table, if it was made,
    was made from the key sequence in force. *)
From Verif Require Import Base Float64 Value Opt Marshal Writer Unmarshal SpecJson SpecValue SpecText WriterProof ExampleWorld.

(** The shared state has no influence on the result: Marshal gives the bytes of the description without state. *)
Theorem C87_same : forall (E : Env) (W : World) (o : opt) (v : V), distinct v -> marshal_w E W o v = marshal_opt E W o v.
Proof. exact writer_same. Qed.
Print Assumptions C87_same.

(** A call for a part only appends to the buffer, and what it appends depends neither on what was written before nor
    on whether the table was made; the counter is back afterwards, also when the call returns an error. *)
Theorem C87_appends : forall (E : Env) (W : World) (o : opt) (v : V) (pi : option pinfo) (path : list key) (cnt : nat), distinct v ->
  (exists b e, forall t, t_cnt t = Z.of_nat cnt -> good o t -> exists t', write_value E W o v pi path t = Ok (t', e) /\
     t_buf t' = t_buf t ++ b /\ t_cnt t' = t_cnt t /\ good o t') \/
  (forall t, t_cnt t = Z.of_nat cnt -> good o t -> write_value E W o v pi path t = Panic).
Proof. exact writer_appends. Qed.
Print Assumptions C87_appends.

(** Two documents written one after the other with one state are the two texts. *)
Theorem C87_two : forall (E : Env) (W : World) (o : opt) (v1 v2 : V) (b1 b2 : bytes), distinct v1 -> distinct v2 ->
  marshal_opt E W o v1 = Ok b1 -> marshal_opt E W o v2 = Ok b2 ->
  exists t1 t2, write_value E W o v1 None [] (WSt [] 0 None) = Ok (t1, None) /\
    write_value E W o v2 None [] t1 = Ok (t2, None) /\ t_buf t2 = b1 ++ b2 /\ t_cnt t2 = 0.
Proof. exact writer_two. Qed.
Print Assumptions C87_two.

Theorem C87_typed : forall v, json_typed v -> distinct v.
Proof. exact typed_distinct. Qed.
Print Assumptions C87_typed.

Definition read (b : bytes) : V := match unmarshal env0 b with Ok (v, _) => v | _ => VNil end.
Definition seq_opt : opt := combine_options opt0 [OKeySeq [bs "b"; bs "a"; bs "b"]; OIndent [] (bs " ")].
Example C87_instance : marshal_w env0 world1 seq_opt (read (bs "[{""b"":1,""a"":{""b"":[]}}]")) = Ok (91 :: bs "
 {
  ""a"": {
   ""b"": []
  },
  ""b"": 1
 }
]").
Proof. vm_compute. reflexivity. Qed.
(** The table is made at the first object, with the last place of each name. *)
Example C87_table : match write_value env0 world1 seq_opt (read (bs "{""a"":1}")) None [] (WSt [] 0 None) with
  | Ok (t, None) => match t_seq t with Some m => alookup (bs "a") m = Some 1 /\ alookup (bs "b") m = Some 2 | None => False end
  | _ => False end.
Proof. vm_compute. auto. Qed.
(** An infinite number is an error that the array drops; the counter is back at 0. *)
Example C87_error : write_value env0 world1 opt0 (VArr [VNum (Num false true 0 0 (S754_infinity false)) []; VNull]) None [] (WSt [] 0 None)
  = Ok (WSt (bs "[,null]") 0 None, None).
Proof. vm_compute. reflexivity. Qed.
(** The condition on the table is needed: one made from another sequence gives another order. *)
Example C87_stale : match write_value env0 world1 (combine_options opt0 [OKeySeq [bs "a"; bs "b"]]) (read (bs "{""a"":1,""b"":2}")) None []
    (WSt [] 0 (Some [(bs "b", 0); (bs "a", 1)])) with
  | Ok (t, None) => t_buf t = bs "{""b"":2,""a"":1}"
  | _ => False end.
Proof. vm_compute. reflexivity. Qed.
