(** NewObject with key values (C53); Go data as arguments (C34, C35, C37). *)
From Verif Require Import Base Float64 Value Scan Unmarshal Opt Marshal Access Path Edit Iter GoValue Import Compare Contain NewObject
  SpecJson SpecValue SpecPath SpecGet SpecContain SpecImport SpecFault SpecNewObject NewObjectProof ExampleWorld ExampleImport.

(** C53: the object has a member for every entry of a supported kind, with its value,
    and no other, in whatever order the map is run through; further maps are not
    looked at. *)
Theorem C53_new_object : forall (E : Env) m more, NoDup (map fst m) -> Forall (fun e => mval_ok (snd e)) m ->
  exists v, new_object_m E (Some m :: more) = Ok v /\ shows_tree E (TObj (supported m)) v.
Proof. exact new_object_shows. Qed.
Print Assumptions C53_new_object.

Theorem C53_no_map : forall (E : Env) args, (forall m r, args <> Some m :: r) -> new_object_m E args = Ok new_object.
Proof. exact new_object_empty. Qed.
Print Assumptions C53_no_map.

Example C53_instance :
  let m := [(bs "a", IntVal (-5)); (bs "b", ElseVal); (bs "c", UintVal 18446744073709551615); ([], StrVal (bs "x")); (bs "d", NilVal)] in
  supported m = [(bs "a", TInt (-5)); (bs "c", TInt 18446744073709551615); ([], TStr (bs "x")); (bs "d", TNull)] /\
  (let* v := new_object_m env0 [Some m; Some [(bs "z", NilVal)]] in marshal env0 world1 opt0 [OSetSeq] v)
  = Ok (bs "{""a"":-5,""c"":18446744073709551615,"""":""x"",""d"":null}").
Proof. split; [reflexivity|]. vm_compute. reflexivity. Qed.

(** What Set, Insert and Append put into the document for Go data (the limits are
    those of C35_import_partial). *)
Theorem C35_argument_partial : forall (E : Env) (W : World) (d : opt), (forall f fmt bits, fmt_float E f fmt (-1) bits <> []) ->
  forall g t, alike (o_ignore_omitempty (combine_options d [])) g -> enc (o_ignore_omitempty (combine_options d [])) g t ->
  exists w, arg_any E W d g = Ok (w, None) /\ shows_tree E t w.
Proof. exact arg_alike. Qed.
Print Assumptions C35_argument_partial.

Example C35_argument_instance :
  (let* x := arg_any env0 world1 opt0 agreed in snd (set_at env0 (VObj 0 [] None) x (PStr (bs "k")) [PInt 0]))
  = (let* x := arg_any env0 world1 opt0 agreed in Ok (fst x)) /\
  (let* x := arg_any env0 world1 opt0 agreed in
   marshal env0 world1 opt0 [] (fst (set_at env0 (VObj 0 [] None) x (PStr (bs "k")) [PInt 0])))
  = Ok (bs "{""k"":[{""a"":5,""B"":[""x"",null,false],""c"":""true"",""e"":{""-7"":3}}]}").
Proof. split; vm_compute; reflexivity. Qed.

(** beta.Contains of Go data: containment of the JSON of the data.  Data without JSON
    is contained nowhere. *)
Theorem C37_data_partial : forall (E : Env) (W : World) (d : opt), (forall f fmt bits, fmt_float E f fmt (-1) bits <> []) ->
  forall g t v ps, alike (o_ignore_omitempty (combine_options d [])) g -> enc (o_ignore_omitempty (combine_options d [])) g t ->
  json_typed v -> Forall plain ps ->
  exists w b, shows_tree E t w /\ contains_any E W d v g ps = Ok b /\
  (b = true <-> exists hs u, leads v ps hs u /\ contained (fun x y => forall W' path, equal W' path x y = true) u w).
Proof. exact contains_data. Qed.
Print Assumptions C37_data_partial.

Theorem C37_fault : forall (E : Env) (W : World) (d : opt) g v ps, tame g -> tidy g -> faulty E W d g ->
  contains_any E W d v g ps = Ok false.
Proof. exact contains_fault. Qed.
Print Assumptions C37_fault.

Example C37_data_instance :
  let v := match unmarshal env0 (bs "{""a"":[1,{""e"":{""-7"":3.0,""x"":null},""c"":true}]}") with Ok (v, None) => v | _ => VNil end in
  contains_any env0 world1 opt0 v (GMap (Some [(KStr (bs "e"), GMap (Some [(KInt (-7), GInt 3)]))])) [PStr (bs "a"); PInt (-1)] = Ok true /\
  contains_any env0 world1 opt0 v (GMap (Some [(KStr (bs "e"), GMap (Some [(KInt (-7), GInt 4)]))])) [PStr (bs "a"); PInt (-1)] = Ok false /\
  contains_any env0 world1 opt0 v (GSlice (Some [GOther])) [PStr (bs "a")] = Ok false.
Proof. vm_compute. repeat split. Qed.

(** Append of data without JSON reports success, and what Marshal then writes is not
    JSON. *)
Theorem C34_garbage_refuted : exists g, forall (E : Env) (W : World) (d : opt), faulty E W d g /\ exists x v,
  arg_any E W d g = Ok x /\ append_beginning E W (VArr [VBool true]) x [] = (v, Ok VNotExist) /\
  marshal E W opt0 [] v = Ok (bs "[,true]") /\ forall j, ~ json_doc (bs "[,true]") j.
Proof. exact append_garbage. Qed.
Print Assumptions C34_garbage_refuted.
