(** Property of beta.Contains (C37). *)
From Verif Require Import Base Float64 Value Scan Unmarshal Opt Marshal Access Path Iter Compare Contain SpecValue SpecText SpecPath SpecNum SpecContain
  ContainProof ExampleWorld.

(** Contains decides containment, where equality of scalars and elements is that
    of Equal (C25). *)
Theorem C37_contains : forall (E : Env) (W : World) v sub ps, json_typed v -> json_typed sub -> Forall plain ps ->
  exists b, contains E W v sub ps = Ok b /\
  (b = true <-> exists hs w, leads v ps hs w /\
     contained (fun x y => forall W' path, equal W' path x y = true) w sub).
Proof. exact contains_spec. Qed.
Print Assumptions C37_contains.

(** Where the exponents of all literals are those of an int32, equality is that
    of the JSON content. *)
Theorem C37_content : forall (E : Env) (W : World) v sub ps, json_typed v -> json_typed sub -> Forall plain ps ->
  all_text (fun _ => True) (fun _ s => exact_number s) v -> all_text (fun _ => True) (fun _ s => exact_number s) sub ->
  exists b, contains E W v sub ps = Ok b /\
  (b = true <-> exists hs w, leads v ps hs w /\ contained (same_value same_number) w sub).
Proof. exact contains_content. Qed.
Print Assumptions C37_content.

(** A nil pointer contains nothing, as the receiver and as a member of it. *)
Theorem C37_nil : forall (E : Env) (W : World),
  (forall sub ps, contains E W VNil sub ps = Ok false) /\
  (forall i kvs lo id k i' lo' id' x, alookup k kvs = Some (id, VNil) ->
     contains E W (VObj i kvs lo) (VObj i' [(k, (id', x))] lo') [] = Ok false).
Proof. intros E W. exact (conj (contains_nil E W) (contains_nil_member E W)). Qed.
Print Assumptions C37_nil.

Definition doc (b : string) : V := match unmarshal env0 (bs b) with Ok (v, None) => v | _ => VNil end.

Example C37_instance :
  let v := doc "{""a"":[1,{""x"":1,""y"":2},3],""b"":{""c"":""d"",""e"":null}}" in
  contains env0 world2 v (doc "{""b"":{""e"":null}}") [] = Ok true /\
  contains env0 world2 v (doc "{""b"":{""e"":null,""f"":1}}") [] = Ok false /\
  contains env0 world2 v (doc "[{""y"":2.0,""x"":1}, 3]") [PStr (bs "a")] = Ok true /\
  contains env0 world2 v (doc "[1,3]") [PStr (bs "a")] = Ok false /\
  contains env0 world2 v (doc "{""a"":[3]}") [] = Ok true /\
  contains env0 world2 v (doc "[{""x"":1}]") [PStr (bs "a")] = Ok false /\
  contains env0 world2 v (doc "{""x"":1}") [PStr (bs "a"); PInt (-2)] = Ok true /\
  contains env0 world2 v (doc "1") [PStr (bs "z")] = Ok false /\
  contains env0 world2 VNil (doc "1") [] = Ok false /\ contains env0 world2 v VNil [] = Panic.
Proof. repeat split; vm_compute; reflexivity. Qed.
