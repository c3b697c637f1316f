(** C92: what an edit changes in a text under OptOmitNull.  [unwritten o h x]: the child [h] of a container, holding [x], is a null member and
    OptOmitNull is on.  [piece_omit], [piece_both], [null_gone] (SpecSplice): the commas that come and go with a member. *)
From Verif Require Import Base Float64 Value Opt Marshal Unmarshal Path Edit SpecJson SpecValue SpecText SpecOrder SpecPath SpecPieces SpecSplice
  SpliceOmitProof ExampleWorld.

(** Set at a path that leads to a value, both the old value and the new one being written: the text of the old one is
    replaced by that of the new one. *)
Theorem C92_replaced : forall (E : Env) (W W' : World) (o : opt), by_name o ->
  forall v c p ps v' y hs old, json_typed v -> json_typed c -> Forall plain (p :: ps) ->
  leads v (p :: ps) hs old -> set_at E v (arg_v c) p ps = (v', Ok y) ->
  (forall hs0 h, hs = hs0 ++ [h] -> ~ unwritten o h old /\ ~ unwritten o h c) ->
  exists pre post,
    marshal_opt E W o v = Ok (pre ++ text_of (marshal_opt E W (deep (List.length hs) o) old) ++ post) /\
    marshal_opt E W' o v' = Ok (pre ++ text_of (marshal_opt E W (deep (List.length hs) o) c) ++ post).
Proof. exact set_replaces_omit. Qed.
Print Assumptions C92_replaced.

(** Set to null of a member, under OptOmitNull: the member goes with the commas on both its sides, and what were its
    neighbours are no longer separated. *)
Theorem C92_nulled : forall (E : Env) (W W' : World) (o : opt), by_name o ->
  forall v p ps v' y hs k old, json_typed v -> Forall plain (p :: ps) -> o_omit_null o = true ->
  leads v (p :: ps) (hs ++ [HKey k]) old -> old <> VNull -> set_at E v (arg_v VNull) p ps = (v', Ok y) ->
  exists pre mid post,
    piece_both (deep (List.length hs) o) (labelled (deep (List.length hs) o) (HKey k) (text_of (marshal_opt E W (deep (S (List.length hs)) o) old))) mid /\
    marshal_opt E W o v = Ok (pre ++ mid ++ post) /\ marshal_opt E W' o v' = Ok (pre ++ post).
Proof. exact set_null_omit. Qed.
Print Assumptions C92_nulled.

(** Set of a null member to something else, under OptOmitNull: the member comes with the commas on both its sides. *)
Theorem C92_over_null : forall (E : Env) (W W' : World) (o : opt), by_name o ->
  forall v c p ps v' y hs k, json_typed v -> json_typed c -> Forall plain (p :: ps) -> o_omit_null o = true ->
  leads v (p :: ps) (hs ++ [HKey k]) VNull -> c <> VNull -> set_at E v (arg_v c) p ps = (v', Ok y) ->
  exists pre mid post,
    piece_both (deep (List.length hs) o) (labelled (deep (List.length hs) o) (HKey k) (text_of (marshal_opt E W (deep (S (List.length hs)) o) c))) mid /\
    marshal_opt E W o v = Ok (pre ++ post) /\ marshal_opt E W' o v' = Ok (pre ++ mid ++ post).
Proof. exact set_over_null_omit. Qed.
Print Assumptions C92_over_null.

(** Null to null: nothing changes. *)
Theorem C92_null_null : forall (E : Env) (W W' : World) (o : opt), by_name o ->
  forall v p ps v' y hs k, json_typed v -> Forall plain (p :: ps) -> o_omit_null o = true ->
  leads v (p :: ps) (hs ++ [HKey k]) VNull -> set_at E v (arg_v VNull) p ps = (v', Ok y) ->
  marshal_opt E W o v = marshal_opt E W' o v'.
Proof. exact set_null_null_omit. Qed.
Print Assumptions C92_null_null.

(** Set where an object on the way has no member of the next name.  A new null under OptOmitNull can take a comma away. *)
Theorem C92_member_added : forall (E : Env) (W W' : World) (o : opt), by_name o ->
  forall v c p ps v' y ps1 k ps2 hs i kvs lo, json_typed v -> json_typed c -> Forall plain (p :: ps) ->
  p :: ps = ps1 ++ PStr k :: ps2 -> leads v ps1 hs (VObj i kvs lo) -> ~ In k (map fst kvs) ->
  set_at E v (arg_v c) p ps = (v', Ok y) ->
  exists w pre mid mid' post, built ps2 c w /\
    (unwritten o (HKey k) w /\ null_gone (deep (List.length hs) o) mid' mid \/
     ~ unwritten o (HKey k) w /\ mid = [] /\
       piece_omit (deep (List.length hs) o) (labelled (deep (List.length hs) o) (HKey k) (text_of (marshal_opt E W (deep (S (List.length hs)) o) w))) mid') /\
    marshal_opt E W o v = Ok (pre ++ mid ++ post) /\ marshal_opt E W' o v' = Ok (pre ++ mid' ++ post).
Proof. exact set_adds_member_omit. Qed.
Print Assumptions C92_member_added.

(** Append and Insert are as without OptOmitNull: elements of arrays are always written. *)
Theorem C92_appended : forall (E : Env) (W W' : World) (o : opt), by_name o ->
  forall (front : bool) v c ps v' y hs l, json_typed v -> json_typed c -> Forall plain ps -> leads v ps hs (VArr l) ->
  append_at E W front v (arg_v c) ps = (v', Ok y) ->
  exists pre mid post, piece (deep (List.length hs) o) (text_of (marshal_opt E W (deep (S (List.length hs)) o) c)) mid /\
    marshal_opt E W o v = Ok (pre ++ post) /\ marshal_opt E W' o v' = Ok (pre ++ mid ++ post).
Proof. exact append_text_omit. Qed.
Print Assumptions C92_appended.
Theorem C92_inserted : forall (E : Env) (W W' : World) (o : opt), by_name o ->
  forall (after : bool) v c ps p first others v' y, json_typed v -> json_typed c -> Forall plain (first :: others) ->
  first :: others = ps ++ [p] ->
  (if after then insert_after E W v (arg_v c) first others else insert_before E W v (arg_v c) first others) = (v', Ok y) ->
  exists hs d pre mid post, leads v ps hs d /\
    piece (deep (List.length hs) o) (text_of (marshal_opt E W (deep (S (List.length hs)) o) c)) mid /\
    marshal_opt E W o v = Ok (pre ++ post) /\ marshal_opt E W' o v' = Ok (pre ++ mid ++ post).
Proof. exact insert_text_omit. Qed.
Print Assumptions C92_inserted.

(** Delete: the member or element goes, with a comma if one belongs to it.  Deleting a null that is not written can put
    a comma into the text. *)
Theorem C92_deleted : forall (E : Env) (W W' : World) (o : opt), by_name o ->
  forall v ps p first others v', json_typed v -> Forall plain (first :: others) -> first :: others = ps ++ [p] ->
  delete_at E W false v first others = (v', Ok tt) ->
  exists hs h x pre mid mid' post, leads v (first :: others) (hs ++ [h]) x /\
    (unwritten o h x /\ null_gone (deep (List.length hs) o) mid mid' \/
     ~ unwritten o h x /\ mid' = [] /\
       piece_omit (deep (List.length hs) o) (labelled (deep (List.length hs) o) h (text_of (marshal_opt E W (deep (S (List.length hs)) o) x))) mid) /\
    marshal_opt E W o v = Ok (pre ++ mid ++ post) /\ marshal_opt E W' o v' = Ok (pre ++ mid' ++ post).
Proof. exact delete_text_omit. Qed.
Print Assumptions C92_deleted.

Definition read (b : bytes) : V := match unmarshal env0 b with Ok (v, _) => v | _ => VNil end.
Definition leaving : opt := combine_options opt0 [OOmitNull true; OLess (Some default_string_sequence)].
Definition doc : V := read (bs "[{""d"":3,""b"":2,""a"":1,""c"":null}]").
Definition out (v : V) : res bytes := marshal_opt env0 world1 leaving v.
Example C92_set : exists v1 v2 v3,
  out doc = Ok (bs "[{""a"":1,""b"":2""d"":3}]") /\
  set_at env0 doc (arg_v (VBool true)) (PInt 0) [PStr (bs "b")] = (v1, Ok (VBool true)) /\ out v1 = Ok (bs "[{""a"":1,""b"":true""d"":3}]") /\
  set_at env0 doc (arg_v VNull) (PInt 0) [PStr (bs "b")] = (v2, Ok VNull) /\ out v2 = Ok (bs "[{""a"":1""d"":3}]") /\
  set_at env0 doc (arg_v (VBool true)) (PInt 0) [PStr (bs "c")] = (v3, Ok (VBool true)) /\ out v3 = Ok (bs "[{""a"":1,""b"":2,""c"":true,""d"":3}]").
Proof. eexists _, _, _. split; [vm_compute; reflexivity|]. do 5 (split; [vm_compute; reflexivity|]). vm_compute; reflexivity. Qed.
(** A new null takes the comma between its neighbours away; deleting a null puts it in. *)
Example C92_comma : exists v1 v2,
  set_at env0 doc (arg_v VNull) (PInt 0) [PStr (bs "aa")] = (v1, Ok VNull) /\ out v1 = Ok (bs "[{""a"":1""b"":2""d"":3}]") /\
  delete_at env0 world1 false doc (PInt 0) [PStr (bs "c")] = (v2, Ok tt) /\ out v2 = Ok (bs "[{""a"":1,""b"":2,""d"":3}]").
Proof. eexists _, _. do 3 (split; [vm_compute; reflexivity|]). vm_compute; reflexivity. Qed.
(** A null in an array is written. *)
Example C92_array : exists v1,
  append_at env0 world1 false doc (arg_v VNull) [] = (v1, Ok VNull) /\ out v1 = Ok (bs "[{""a"":1,""b"":2""d"":3}" ++ bs ",null" ++ bs "]").
Proof. eexists. split; [vm_compute; reflexivity|]. vm_compute; reflexivity. Qed.
