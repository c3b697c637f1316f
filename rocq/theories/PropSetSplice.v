(** C90: what an edit changes in a text written in the order of setting.  [history E n v]: [v] is the outcome of any calls,
    with at most [n] settings in any object.  [deep], [piece], [labelled] as in C88; [closes o post]: the object ends
    where [post] begins. *)
From Verif Require Import Base Float64 Value Opt Marshal Unmarshal Path Edit SpecJson SpecValue SpecText SpecOrder SpecPath SpecHistory SpecPieces SpecSplice
  SpecSetSplice SetSpliceProof ExampleWorld.

(** Set of a member that is there: its text goes from its place and the new one is written at the end of the object.
    What was between moves up unchanged; all the rest stays. *)
Theorem C90_moved : forall (E : Env) (W W' : World) (o : opt), by_setting o -> o_omit_null o = false ->
  forall n m v c p ps v' y ps1 k hs old, history E n v -> history E m c -> json_typed v -> json_typed c -> Z.of_nat (S (n + m)) < two32 ->
  Forall plain (p :: ps) -> p :: ps = ps1 ++ [PStr k] -> leads v (p :: ps) (hs ++ [HKey k]) old ->
  set_at E v (arg_v c) p ps = (v', Ok y) ->
  exists pre mid between mid' post,
    piece (deep (List.length hs) o) (labelled (deep (List.length hs) o) (HKey k) (text_of (marshal_opt E W (deep (S (List.length hs)) o) old))) mid /\
    piece (deep (List.length hs) o) (labelled (deep (List.length hs) o) (HKey k) (text_of (marshal_opt E W (deep (S (List.length hs)) o) c))) mid' /\
    closes (deep (List.length hs) o) post /\
    marshal_opt E W o v = Ok (pre ++ mid ++ between ++ post) /\ marshal_opt E W' o v' = Ok (pre ++ between ++ mid' ++ post).
Proof. exact set_moves. Qed.
Print Assumptions C90_moved.

(** Set of an element: the objects on the way keep their order, the text is replaced in its place. *)
Theorem C90_replaced : forall (E : Env) (W W' : World) (o : opt), by_setting o -> o_omit_null o = false ->
  forall n m v c p ps v' y hs j old, history E n v -> history E m c -> json_typed v -> json_typed c -> Z.of_nat (S (n + m)) < two32 ->
  Forall plain (p :: ps) -> leads v (p :: ps) (hs ++ [HIdx j]) old ->
  set_at E v (arg_v c) p ps = (v', Ok y) ->
  exists pre post, marshal_opt E W o v = Ok (pre ++ text_of (marshal_opt E W (deep (S (List.length hs)) o) old) ++ post) /\
    marshal_opt E W' o v' = Ok (pre ++ text_of (marshal_opt E W (deep (S (List.length hs)) o) c) ++ post).
Proof. exact set_stays. Qed.
Print Assumptions C90_replaced.

(** Set of a new member: it comes last in its object. *)
Theorem C90_member_added : forall (E : Env) (W W' : World) (o : opt), by_setting o -> o_omit_null o = false ->
  forall n m v c p ps v' y ps1 k ps2 hs i kvs lo, history E n v -> history E m c -> json_typed v -> json_typed c -> Z.of_nat (S (n + m)) < two32 ->
  Forall plain (p :: ps) -> p :: ps = ps1 ++ PStr k :: ps2 -> leads v ps1 hs (VObj i kvs lo) -> ~ In k (map fst kvs) ->
  set_at E v (arg_v c) p ps = (v', Ok y) ->
  exists w pre mid post, built ps2 c w /\
    piece (deep (List.length hs) o) (labelled (deep (List.length hs) o) (HKey k) (text_of (marshal_opt E W (deep (S (List.length hs)) o) w))) mid /\
    closes (deep (List.length hs) o) post /\
    marshal_opt E W o v = Ok (pre ++ post) /\ marshal_opt E W' o v' = Ok (pre ++ mid ++ post).
Proof. exact set_adds_last. Qed.
Print Assumptions C90_member_added.

Theorem C90_appended : forall (E : Env) (W W' : World) (o : opt), by_setting o -> o_omit_null o = false ->
  forall n m (front : bool) v c ps v' y hs l, history E n v -> history E m c -> json_typed v -> json_typed c -> Z.of_nat (S (n + m)) < two32 ->
  Forall plain ps -> leads v ps hs (VArr l) -> append_at E W front v (arg_v c) ps = (v', Ok y) ->
  exists pre mid post, piece (deep (List.length hs) o) (text_of (marshal_opt E W (deep (S (List.length hs)) o) c)) mid /\
    marshal_opt E W o v = Ok (pre ++ post) /\ marshal_opt E W' o v' = Ok (pre ++ mid ++ post).
Proof. exact set_order_append. Qed.
Print Assumptions C90_appended.

Theorem C90_inserted : forall (E : Env) (W W' : World) (o : opt), by_setting o -> o_omit_null o = false ->
  forall n m (after : bool) v c ps p first others v' y, history E n v -> history E m c -> json_typed v -> json_typed c -> Z.of_nat (n + m) < two32 ->
  Forall plain (first :: others) -> first :: others = ps ++ [p] ->
  (if after then insert_after E W v (arg_v c) first others else insert_before E W v (arg_v c) first others) = (v', Ok y) ->
  exists hs d pre mid post, leads v ps hs d /\ piece (deep (List.length hs) o) (text_of (marshal_opt E W (deep (S (List.length hs)) o) c)) mid /\
    marshal_opt E W o v = Ok (pre ++ post) /\ marshal_opt E W' o v' = Ok (pre ++ mid ++ post).
Proof. exact set_order_insert. Qed.
Print Assumptions C90_inserted.

(** Delete: the order of the other members stays. *)
Theorem C90_deleted : forall (E : Env) (W W' : World) (o : opt), by_setting o -> o_omit_null o = false ->
  forall n v ps p first others v', history E n v -> json_typed v -> Z.of_nat n < two32 ->
  Forall plain (first :: others) -> first :: others = ps ++ [p] -> delete_at E W false v first others = (v', Ok tt) ->
  exists hs h x pre mid post, leads v (first :: others) (hs ++ [h]) x /\
    piece (deep (List.length hs) o) (labelled (deep (List.length hs) o) h (text_of (marshal_opt E W (deep (S (List.length hs)) o) x))) mid /\
    marshal_opt E W o v = Ok (pre ++ mid ++ post) /\ marshal_opt E W' o v' = Ok (pre ++ post).
Proof. exact set_order_delete. Qed.
Print Assumptions C90_deleted.

Definition read (b : bytes) : V := match unmarshal env0 b with Ok (v, _) => v | _ => VNil end.
Definition sets : opt := combine_options opt0 [OSetSeq].
Definition doc : V := read (bs "{""z"":{""c"":1,""a"":2,""b"":3},""y"":[4]}").
(** The member moves behind the others of its object; the object it is in stays where it is. *)
Example C90_move : exists v',
  set_at env0 doc (arg_v VNull) (PStr (bs "z")) [PStr (bs "c")] = (v', Ok VNull) /\
  marshal_opt env0 world1 sets doc = Ok (bs "{""z"":{" ++ bs """c"":1," ++ bs """a"":2,""b"":3" ++ bs "},""y"":[4]}") /\
  marshal_opt env0 world2 sets v' = Ok (bs "{""z"":{" ++ bs """a"":2,""b"":3" ++ bs ",""c"":null" ++ bs "},""y"":[4]}").
Proof. eexists. split; [vm_compute; reflexivity|]. split; [vm_compute; reflexivity|]. vm_compute; reflexivity. Qed.
Example C90_add : exists v',
  set_at env0 doc (arg_v VNull) (PStr (bs "z")) [PStr (bs "aa"); PInt 0] = (v', Ok VNull) /\
  marshal_opt env0 world2 sets v' = Ok (bs "{""z"":{""c"":1,""a"":2,""b"":3" ++ bs ",""aa"":[null]" ++ bs "},""y"":[4]}").
Proof. eexists. split; [vm_compute; reflexivity|]. vm_compute; reflexivity. Qed.
(** Set of an element does not move the member that holds the array. *)
Example C90_replace : exists v',
  set_at env0 (read (bs "{""y"":[4],""a"":5}")) (arg_v VNull) (PStr (bs "y")) [PInt (-1)] = (v', Ok VNull) /\
  marshal_opt env0 world2 sets v' = Ok (bs "{""y"":[" ++ bs "null" ++ bs "],""a"":5}").
Proof. eexists. split; [vm_compute; reflexivity|]. vm_compute; reflexivity. Qed.
Example C90_delete : exists v',
  delete_at env0 world1 false doc (PStr (bs "z")) [PStr (bs "a")] = (v', Ok tt) /\
  marshal_opt env0 world2 sets v' = Ok (bs "{""z"":{""c"":1,""b"":3},""y"":[4]}").
Proof. eexists. split; [vm_compute; reflexivity|]. vm_compute; reflexivity. Qed.
