(** C75: calls on documents that are Equal. *)
From Verif Require Import Base Float64 Value Scan Unmarshal Opt Marshal Access Path Edit Iter Compare Contain SpecJson SpecValue SpecNum SpecPath
  SpecRound SpecSafe SpecTwin TwinProof TwinFloat ExampleWorld.

(** The same series of calls, with Equal arguments, ends call by call alike and leaves
    Equal documents. *)
Theorem C75_series : forall (E : Env) (v w : V) (l l' : list (World * opt * act)),
  twins v w -> Forall2 same_step l l' ->
  snd (series E v l) = snd (series E w l') /\ twins (fst (series E v l)) (fst (series E w l')).
Proof. exact twins_series. Qed.
Print Assumptions C75_series.

(** Get gives Equal values or the same error. *)
Theorem C75_get : forall (E : Env) (W W' : World) v w p o, twins v w ->
  same_answer (snd (get E W false v p o)) (snd (get E W' false w p o)).
Proof. exact twins_get. Qed.
Print Assumptions C75_get.

(** ValueType and Len are the same. *)
Theorem C75_kind : forall v w, twins v w -> value_type v = value_type w /\ api_len v = api_len w.
Proof. exact twins_kind. Qed.
Print Assumptions C75_kind.

(** So is the order, on both sides. *)
Theorem C75_compare : forall v v' w w', twins v v' -> twins w w' ->
  less_than v w = less_than v' w' /\ less_or_equal v w = less_or_equal v' w' /\
  greater_than v w = greater_than v' w' /\ greater_or_equal v w = greater_or_equal v' w'.
Proof. exact twins_compare. Qed.
Print Assumptions C75_compare.

(** And beta.Contains. *)
Theorem C75_contains : forall (E : Env) (W W' : World) v v' w w' ps, twins v v' -> twins w w' -> Forall plain ps ->
  contains E W v w ps = contains E W' v' w' ps.
Proof. exact twins_contains. Qed.
Print Assumptions C75_contains.

(** Float64 of number literals that are Equal: the same in the sense of ==, for literals that
    are rounded to the nearest (C50) and taken in full by Equal (C25). *)
Theorem C75_float64_partial : forall (E : Env) (W : World) path a b v w neg ip fd e i neg' ip' fd' e' i',
  num_lit a neg ip fd e i -> lit_small neg ip e i -> small_exponent a ->
  num_lit b neg' ip' fd' e' i' -> lit_small neg' ip' e' i' -> small_exponent b ->
  unmarshal E a = Ok (v, None) -> unmarshal E b = Ok (w, None) -> equal W path v w = true ->
  exists x y, api_float64 E v = Ok x /\ api_float64 E w = Ok y /\ SFeqb x y = true.
Proof. exact equal_float64. Qed.
Print Assumptions C75_float64_partial.

(** It ends there: texts that are read to Equal values, and Int64, Marshal, or Get without
    regard to case, which tell them apart. *)
Theorem C75_beyond_refuted : exists (E : Env) (W : World) a b v w a' b' v' w',
  unmarshal E a = Ok (v, None) /\ unmarshal E b = Ok (w, None) /\ twins v w /\
  unmarshal E a' = Ok (v', None) /\ unmarshal E b' = Ok (w', None) /\ twins v' w' /\
  api_int64 E v <> api_int64 E w /\ marshal_opt E W opt0 v <> marshal_opt E W opt0 w /\
  ~ same_answer (snd (get E W true v' (PStr (bs "AB")) [])) (snd (get E W true w' (PStr (bs "AB")) [])).
Proof. exact told_apart. Qed.
Print Assumptions C75_beyond_refuted.

(** Two texts of one document, and a series of calls on each. *)
Example C75_instance :
  let v := doc env0 "{""a"":[3,1,{""x"":null}],""b"":20}" in let w := doc env0 "{ ""b"" : 2e1, ""a"":[3.0,10e-1,{""x"":null}]}" in
  let acts c := map (fun a => (world2, opt0, a))
    [ASet (arg_v c) (PStr (bs "c")) [PInt 0; PStr (bs "d")]; AAppend true (arg_v c) [PStr (bs "a")]; ADelete false (PStr (bs "a")) [PInt (-1)];
     ABefore (arg_v c) (PStr (bs "b")) [PInt 0]; AInto false (PStr (bs "a")) []; ASort (Some (fun x y => match less_than x y with Ok r => r | _ => false end)); AGet false (PInt 4) []] in
  twins v w /\ Forall2 same_step (acts (doc env0 "2")) (acts (doc env0 "2.00")) /\
  snd (series env0 v (acts (doc env0 "2"))) = [Ok tt; Ok tt; Ok tt; Err ErrTypeNotMatch; Ok tt; Ok tt; Err ErrOutOfRange] /\
  marshal_opt env0 world1 opt0 (fst (series env0 v (acts (doc env0 "2")))) = Ok (bs "[1,2,3]") /\
  marshal_opt env0 world1 opt0 (fst (series env0 w (acts (doc env0 "2.00")))) = Ok (bs "[10e-1,2.00,3.0]").
Proof.
  assert (T2 : twins (doc env0 "2") (doc env0 "2.00")).
  { apply parsed_twins with (E := env0) (W := world1) (path := []) (a := bs "2") (b := bs "2.00"); vm_compute; reflexivity. }
  split.
  { apply parsed_twins with (E := env0) (W := world1) (path := []) (a := bs "{""a"":[3,1,{""x"":null}],""b"":20}") (b := bs "{ ""b"" : 2e1, ""a"":[3.0,10e-1,{""x"":null}]}");
      vm_compute; reflexivity. }
  split; [|repeat split; vm_compute; reflexivity].
  repeat (constructor; [split; [reflexivity|constructor; try exact T2]|]); [|constructor].
  intros x x' y y' Hx Hy. now rewrite (proj1 (twins_compare _ _ _ _ Hx Hy)).
Qed.
