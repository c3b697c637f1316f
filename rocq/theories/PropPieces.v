(** C86: Marshal part by part.  [inside W p] is the world as it is for the part at key path [p] (the orders in which
    its maps are ranged over), [part_opt o pi 1] the options for a part: indentation begins one step further to the
    right, and a less function is told the path from the root.  [text_of] of an error is the empty text. *)
From Verif Require Import Base Float64 Value Opt Marshal Unmarshal SpecJson SpecValue SpecText SpecOpts SpecOrder SpecPieces
  PiecesProof ExampleWorld.

(** The text of an array: brackets around the texts that Marshal gives for the elements alone, with commas between
    them.  It panics exactly if one of the parts does. *)
Theorem C86_array : forall (E : Env) (W : World) (o : opt) (l : list V),
  marshal_opt E W o (VArr l) =
  if existsb panics (elements E W o (VArr l) 0 l) then Panic
  else Ok (bracketed o 91 93 (map text_of (elements E W o (VArr l) 0 l))).
Proof. exact array_parts. Qed.
Print Assumptions C86_array.

(** The text of an object, unless OptOmitNull leaves members of it out (which is C30). *)
Theorem C86_object : forall (E : Env) (W : World) (o : opt) (i : Z) (kvs : list (bytes * (Z * V))) lo,
  (o_omit_null o = true -> Forall (fun e => snd (snd e) <> VNull) kvs) ->
  exists kvs', Permutation kvs kvs' /\ (
  marshal_opt E W o (VObj i kvs lo) =
  if existsb panics (map (member E W o) kvs') then Panic
  else Ok (bracketed o 123 125 (map (named_part E W o) kvs'))).
Proof. exact object_parts. Qed.
Print Assumptions C86_object.

(** Any object that is not empty: the members that OptOmitNull leaves out divide the others into stretches; commas
    stand inside the stretches, and none between them. *)
Theorem C86_object_omit : forall (E : Env) (W : World) (o : opt) (i : Z) (kvs : list (bytes * (Z * V))) lo, kvs <> [] ->
  exists kvs', Permutation kvs kvs' /\ (
  marshal_opt E W o (VObj i kvs lo) =
  if existsb panics (map (member E W o) kvs') then Panic
  else Ok (bracketed_stretches o 123 125 (map (map (named_part E W o)) (stretches (omitted o) kvs')))).
Proof. exact object_stretches. Qed.
Print Assumptions C86_object_omit.

(** With an order that does not tie and does not look at the path, the parts are written with the options of the
    whole, but for the indentation ([deeper]). *)
Theorem C86_array_plain : forall (E : Env) (W : World) (o : opt) (l : list V),
  blind o -> json_typed (VArr l) -> all_objs (total_order o) (VArr l) ->
  marshal_opt E W o (VArr l) = Ok (bracketed o 91 93 (map (fun x => text_of (marshal_opt E W (deeper o) x)) l)).
Proof. exact array_plain. Qed.
Print Assumptions C86_array_plain.

Theorem C86_object_plain : forall (E : Env) (W : World) (o : opt) (i : Z) (kvs : list (bytes * (Z * V))) lo,
  blind o -> json_typed (VObj i kvs lo) -> all_objs (total_order o) (VObj i kvs lo) ->
  (o_omit_null o = true -> Forall (fun e => snd (snd e) <> VNull) kvs) ->
  exists kvs', Permutation kvs kvs' /\
  marshal_opt E W o (VObj i kvs lo) = Ok (bracketed o 123 125 (map (fun e => quoted (o_esc o) (fst e) ++ (if o_indent o then [58; 32] else [58]) ++
    text_of (marshal_opt E W (deeper o) (snd (snd e)))) kvs')).
Proof. exact object_plain. Qed.
Print Assumptions C86_object_plain.

(** Without indentation the options of the parts are those of the whole. *)
Theorem C86_flat : forall o, o_indent o = false -> deeper o = o.
Proof. exact deeper_flat. Qed.
Print Assumptions C86_flat.

Definition read (b : bytes) : V := match unmarshal env0 b with Ok (v, _) => v | _ => VNil end.
Definition lined : opt := combine_options opt0 [OSetSeq; OIndent (bs ">") (bs "  ")].
(** The second line of [[1,{"a":2}]] begins where the inner object begins its own lines. *)
Example C86_indented : marshal_opt env0 world1 lined (read (bs "[[1],{""a"":2}]")) = Ok (91 :: bs "
>  [
>    1
>  ],
>  {
>    ""a"": 2
>  }
>]") /\ marshal_opt env0 world1 (deeper lined) (read (bs "{""a"":2}")) = Ok (123 :: bs "
>    ""a"": 2
>  }").
Proof. vm_compute. auto. Qed.
(** An infinite number alone is an error, inside an array it is nothing. *)
Definition inf : V := VNum (Num false true 0 0 (S754_infinity false)) [].
Example C86_infinite : marshal_opt env0 world1 opt0 inf = Err ErrUnsupportedFloat /\
  marshal_opt env0 world1 opt0 (VArr [VBool true; inf; VNull]) = Ok (bs "[true,,null]").
Proof. vm_compute. auto. Qed.
(** A nil element: the part panics, and so does the whole. *)
Example C86_nil : marshal_opt env0 world1 opt0 (VArr [VBool true; VNil]) = Panic.
Proof. reflexivity. Qed.
(** A less function that puts the members at the root in one order and those deeper down in the other: written
    alone, the part has the order of the root, so that the path has to be passed on. *)
Definition rooted : less_func := fun pi k1 k2 _ _ => match pi with None => bltb k1 k2 | Some _ => bltb k2 k1 end.
Definition by_root : opt := combine_options opt0 [OLess (Some rooted)].
Definition two : V := read (bs "{""a"":1,""b"":2}").
Example C86_path : marshal_opt env0 world1 by_root two = Ok (bs "{""a"":1,""b"":2}") /\
  marshal_opt env0 world1 by_root (VArr [two]) = Ok (bs "[{""b"":2,""a"":1}]") /\
  marshal_opt env0 (inside world1 [int_key 0]) (part_opt by_root (Some (PInfo (VArr [two]) [int_key 0])) 1) two = Ok (bs "{""b"":2,""a"":1}").
Proof. vm_compute. auto. Qed.
(** Under OptOmitNull a member that is left out takes a comma with it, so that the texts of the parts are not
    enough: the condition of [C86_object] is needed. *)
Example C86_omitted : marshal_opt env0 world1 (combine_options opt0 [OOmitNull true; OSetSeq]) (read (bs "{""a"":1,""b"":null,""c"":2}"))
  = Ok (bs "{""a"":1""c"":2}").
Proof. vm_compute. reflexivity. Qed.
(** Two members, one left out, one member: two stretches. *)
Example C86_stretches :
  stretches (Z.eqb 0) [1; 2; 0; 3; 0] = [[1; 2]; [3]; []] /\
  marshal_opt env0 world1 (combine_options opt0 [OOmitNull true; OSetSeq]) (read (bs "{""a"":1,""b"":2,""n"":null,""c"":3,""m"":null}"))
    = Ok (bs "{""a"":1,""b"":2""c"":3}").
Proof. split; [reflexivity|]. vm_compute. reflexivity. Qed.
