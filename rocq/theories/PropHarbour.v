(** Documents made by Import with a nil inside (C66). *)
From Verif Require Import Base Utf8 Float64 Value Scan Unmarshal Opt Marshal GoValue Import SpecJson SpecValue SpecNil SpecImport SpecFault SpecParts SpecHarbour
  HarbourProof ExampleWorld ExampleImport ExampleParts ExampleHarbour.
Open Scope Z_scope.

(** Import makes a document with a nil *V inside only from data with a nil *V (or
    a nil value of a type with MarshalJSON, or a nil pointer with MarshalText)
    that is the whole or an element of a slice or array; embedded fields are taken
    to hold structs.  In fields and maps nil is left out. *)
Theorem C66_nil_only : forall (E : Env) (W : World) (d : opt) opts g v,
  embeds_structs g -> import E W d opts g = Ok (v, None) -> nil_at v -> nilled g \/ harbours g.
Proof. exact import_nil. Qed.
Print Assumptions C66_nil_only.

(** Such data gives such a document, if no name hides it. *)
Theorem C66_nil_arrives : forall (E : Env) (W : World) (d : opt) opts g v,
  distinct g -> import E W d opts g = Ok (v, None) -> nilled g \/ harbours g -> nil_at v.
Proof. exact import_harbours. Qed.
Print Assumptions C66_nil_arrives.

(** So these are exactly the data which Import accepts and for which Marshal then
    panics. *)
Theorem C66_marshal_panics : forall (E : Env) (W : World) (d : opt) opts mopts g v,
  embeds_structs g -> distinct g -> import E W d opts g = Ok (v, None) ->
  (marshal E W d mopts v = Panic <-> nilled g \/ harbours g).
Proof. exact import_nil_iff. Qed.
Print Assumptions C66_marshal_panics.

(** Without the condition on embedded fields the first is false: of a map embedded
    under an unexported name, zeros in slices become nil, and Marshal panics. *)
Theorem C66_nil_only_refuted : forall (E : Env) (W : World), exists g, ~ nilled g /\ ~ harbours g /\
  exists v, import E W opt0 [] g = Ok (v, None) /\ nil_at v /\ forall opts, marshal E W opt0 opts v = Panic.
Proof. exact zeros_become_nil. Qed.
Print Assumptions C66_nil_only_refuted.

Example C66_instance : embeds_structs with_nil /\ distinct with_nil /\ harbours with_nil /\
  embeds_structs without_nil /\ ~ nilled without_nil /\ ~ harbours without_nil.
Proof. exact harbour_instances. Qed.
Example C66_instance_calls :
  (let* (v, e) := import env0 world1 opt0 [] with_nil in marshal env0 world1 opt0 [] v) = Panic /\
  (let* (v, e) := import env0 world1 opt0 [] without_nil in marshal env0 world1 opt0 [] v) = Ok (bs "{""c"":{},""E"":[null]}") /\
  (let* (v, e) := import env0 world1 opt0 [] hidden_zeros in marshal env0 world1 opt0 [] v) = Panic.
Proof. repeat split; vm_compute; reflexivity. Qed.
