(** C88: what an edit changes in the text.  [by_name o]: members are ordered by their names (OptDefaultStringSequence
    or OptKeySequence).  [deep n o] are the options for a part [n] containers deep: those of the whole, but for the
    indentation.  [piece o part mid]: [mid] is [part] with the comma next to it. *)
From Verif Require Import Base Float64 Value Opt Marshal Unmarshal Path Edit SpecJson SpecValue SpecText SpecOrder SpecPath SpecPieces SpecSplice
  SpliceProof ExampleWorld.

(** Set at a path that leads to a value: the text of the old value is replaced by the text of the new one. *)
Theorem C88_replaced : forall (E : Env) (W W' : World) (o : opt), by_name o -> o_omit_null o = false ->
  forall v c p ps v' y hs old, json_typed v -> json_typed c -> Forall plain (p :: ps) ->
  leads v (p :: ps) hs old -> set_at E v (arg_v c) p ps = (v', Ok y) ->
  exists pre post,
    marshal_opt E W o v = Ok (pre ++ text_of (marshal_opt E W (deep (List.length hs) o) old) ++ post) /\
    marshal_opt E W' o v' = Ok (pre ++ text_of (marshal_opt E W (deep (List.length hs) o) c) ++ post).
Proof. exact set_replaces. Qed.
Print Assumptions C88_replaced.

(** Set where an object on the way has no member of the next name: one member is put in, with the containers built
    for the rest of the path. *)
Theorem C88_member_added : forall (E : Env) (W W' : World) (o : opt), by_name o -> o_omit_null o = false ->
  forall v c p ps v' y ps1 k ps2 hs i kvs lo, json_typed v -> json_typed c -> Forall plain (p :: ps) ->
  p :: ps = ps1 ++ PStr k :: ps2 -> leads v ps1 hs (VObj i kvs lo) -> ~ In k (map fst kvs) ->
  set_at E v (arg_v c) p ps = (v', Ok y) ->
  exists w pre mid post, built ps2 c w /\
    piece (deep (List.length hs) o) (labelled (deep (List.length hs) o) (HKey k) (text_of (marshal_opt E W (deep (S (List.length hs)) o) w))) mid /\
    marshal_opt E W o v = Ok (pre ++ post) /\ marshal_opt E W' o v' = Ok (pre ++ mid ++ post).
Proof. exact set_adds_member. Qed.
Print Assumptions C88_member_added.

(** Append to an array, at either end. *)
Theorem C88_appended : forall (E : Env) (W W' : World) (o : opt), by_name o -> o_omit_null o = false ->
  forall (front : bool) v c ps v' y hs l, json_typed v -> json_typed c -> Forall plain ps -> leads v ps hs (VArr l) ->
  append_at E W front v (arg_v c) ps = (v', Ok y) ->
  exists pre mid post, piece (deep (List.length hs) o) (text_of (marshal_opt E W (deep (S (List.length hs)) o) c)) mid /\
    marshal_opt E W o v = Ok (pre ++ post) /\ marshal_opt E W' o v' = Ok (pre ++ mid ++ post).
Proof. exact append_text. Qed.
Print Assumptions C88_appended.

(** Insert, before or after an element. *)
Theorem C88_inserted : forall (E : Env) (W W' : World) (o : opt), by_name o -> o_omit_null o = false ->
  forall (after : bool) v c ps p first others v' y, json_typed v -> json_typed c -> Forall plain (first :: others) ->
  first :: others = ps ++ [p] ->
  (if after then insert_after E W v (arg_v c) first others else insert_before E W v (arg_v c) first others) = (v', Ok y) ->
  exists hs d pre mid post, leads v ps hs d /\
    piece (deep (List.length hs) o) (text_of (marshal_opt E W (deep (S (List.length hs)) o) c)) mid /\
    marshal_opt E W o v = Ok (pre ++ post) /\ marshal_opt E W' o v' = Ok (pre ++ mid ++ post).
Proof. exact insert_text. Qed.
Print Assumptions C88_inserted.

(** Delete: the member or element goes, with one comma. *)
Theorem C88_deleted : forall (E : Env) (W W' : World) (o : opt), by_name o -> o_omit_null o = false ->
  forall v ps p first others v', json_typed v -> Forall plain (first :: others) -> first :: others = ps ++ [p] ->
  delete_at E W false v first others = (v', Ok tt) ->
  exists hs h x pre mid post, leads v (first :: others) (hs ++ [h]) x /\
    piece (deep (List.length hs) o) (labelled (deep (List.length hs) o) h (text_of (marshal_opt E W (deep (S (List.length hs)) o) x))) mid /\
    marshal_opt E W o v = Ok (pre ++ mid ++ post) /\ marshal_opt E W' o v' = Ok (pre ++ post).
Proof. exact delete_text. Qed.
Print Assumptions C88_deleted.

Definition read (b : bytes) : V := match unmarshal env0 b with Ok (v, _) => v | _ => VNil end.
Definition sorted : opt := combine_options opt0 [OLess (Some default_string_sequence)].
Definition lined : opt := combine_options opt0 [OLess (Some default_string_sequence); OIndent (bs ">") (bs "  ")].
Definition doc : V := read (bs "{""b"":[1,{""y"":2}],""a"":true}").
(** The member set last is not written last. *)
Example C88_set : exists v',
  set_at env0 doc (arg_v (VArr [])) (PStr (bs "b")) [PInt 1; PStr (bs "y")] = (v', Ok (VArr [])) /\
  marshal_opt env0 world1 sorted doc = Ok (bs "{""a"":true,""b"":[1,{""y"":" ++ bs "2" ++ bs "}]}") /\
  marshal_opt env0 world2 sorted v' = Ok (bs "{""a"":true,""b"":[1,{""y"":" ++ bs "[]" ++ bs "}]}").
Proof. eexists. split; [vm_compute; reflexivity|]. split; [vm_compute; reflexivity|]. vm_compute; reflexivity. Qed.
(** Containers are built on the way; the member comes first and takes the comma behind it. *)
Example C88_added : exists v',
  set_at env0 doc (arg_v VNull) (PStr (bs "b")) [PInt 1; PStr (bs "x"); PInt 0] = (v', Ok VNull) /\
  marshal_opt env0 world2 sorted v' = Ok (bs "{""a"":true,""b"":[1,{" ++ bs """x"":[null]," ++ bs """y"":2}]}").
Proof. eexists. split; [vm_compute; reflexivity|]. vm_compute; reflexivity. Qed.
Example C88_delete : exists v' v'',
  delete_at env0 world1 false doc (PStr (bs "b")) [PInt (-2)] = (v', Ok tt) /\
  marshal_opt env0 world2 sorted v' = Ok (bs "{""a"":true,""b"":[{""y"":2}]}") /\
  delete_at env0 world1 false doc (PStr (bs "b")) [PInt 1; PStr (bs "y")] = (v'', Ok tt) /\
  marshal_opt env0 world2 sorted v'' = Ok (bs "{""a"":true,""b"":[1,{}]}").
Proof. eexists _, _. split; [vm_compute; reflexivity|]. split; [vm_compute; reflexivity|]. split; [vm_compute; reflexivity|]. vm_compute; reflexivity. Qed.
(** Indented: the line of the new element goes in, with its line break. *)
Example C88_append : exists v',
  append_at env0 world1 false doc (arg_v VNull) [PStr (bs "b")] = (v', Ok VNull) /\
  marshal_opt env0 world1 lined doc = Ok (123 :: bs "
>  ""a"": true,
>  ""b"": [
>    1,
>    {
>      ""y"": 2
>    }" ++ bs "
>  ]
>}") /\ marshal_opt env0 world1 lined v' = Ok (123 :: bs "
>  ""a"": true,
>  ""b"": [
>    1,
>    {
>      ""y"": 2
>    }" ++ bs ",
>    null" ++ bs "
>  ]
>}").
Proof. eexists. split; [vm_compute; reflexivity|]. split; [vm_compute; reflexivity|]. vm_compute; reflexivity. Qed.
(** Under OptSetSequence the same call moves the member: an order by name is needed. *)
Example C88_by_name_needed :
  let o := combine_options opt0 [OSetSeq] in
  let v := read (bs "{""b"":1,""a"":2}") in
  exists v', set_at env0 v (arg_v VNull) (PStr (bs "b")) [] = (v', Ok VNull) /\
  marshal_opt env0 world1 o v = Ok (bs "{""b"":1,""a"":2}") /\ marshal_opt env0 world1 o v' = Ok (bs "{""a"":2,""b"":null}").
Proof. cbv zeta. eexists. split; [vm_compute; reflexivity|]. split; [vm_compute; reflexivity|]. vm_compute; reflexivity. Qed.
(** Under OptOmitNull a new member may take away the comma of another: the condition is needed. *)
Example C88_omit_needed :
  let o := combine_options opt0 [OOmitNull true; OLess (Some default_string_sequence)] in
  let v := read (bs "{""a"":1,""c"":2}") in
  exists v', set_at env0 v (arg_v VNull) (PStr (bs "b")) [] = (v', Ok VNull) /\
  marshal_opt env0 world1 o v = Ok (bs "{""a"":1,""c"":2}") /\ marshal_opt env0 world1 o v' = Ok (bs "{""a"":1""c"":2}").
Proof. cbv zeta. eexists. split; [vm_compute; reflexivity|]. split; [vm_compute; reflexivity|]. vm_compute; reflexivity. Qed.
