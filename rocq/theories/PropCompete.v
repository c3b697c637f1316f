(** Fields that compete for a name (C82). *)
From Verif Require Import Base Utf8 Float64 Value Unmarshal Opt Marshal GoValue Import SpecImport SpecParts SpecCompete CompeteProof ExampleWorld
  ExampleImport ExampleCompete.
Local Open Scope Z_scope.

(** Import takes the last field declared that gives a value, however deep it is embedded. *)
Theorem C82_last : forall (E : Env) (W : World) (d : opt) o n fs cs, promoted n fs cs ->
  forall v, import E W d o (GStruct fs) = Ok (v, None) -> forall k x, member v k x <-> last_given E W d o cs k x.
Proof. exact last_field. Qed.
Print Assumptions C82_last.

(** If for every name the last field with it is the dominant one, the members are those that the rule of Go
    selects. *)
Theorem C82_dominance_partial : forall (E : Env) (W : World) (d : opt) o n fs cs v,
  promoted n fs cs -> import E W d o (GStruct fs) = Ok (v, None) -> Forall (fun c => exists x, gives E W d o c x) cs ->
  last_dominant cs -> by_dominance E W d o cs v.
Proof. exact dominance_enough. Qed.
Print Assumptions C82_dominance_partial.

(** ... and only then, as far as the values tell. *)
Theorem C82_exactly : forall (E : Env) (W : World) (d : opt) o n fs cs v,
  promoted n fs cs -> import E W d o (GStruct fs) = Ok (v, None) -> Forall (fun c => exists x, gives E W d o c x) cs ->
  told_apart E W d o cs -> (by_dominance E W d o cs v <-> last_dominant cs).
Proof. exact dominance_exactly. Qed.
Print Assumptions C82_exactly.

(** A field of the struct itself is hidden by one of the same name in an embedded struct that follows it. *)
Theorem C82_refuted : forall E W, exists fs cs c x v, promoted 0 fs cs /\ dominant cs (bs "ID") c /\ gives E W opt0 [] c x /\
  import E W opt0 [] (GStruct fs) = Ok (v, None) /\ ~ member v (bs "ID") x /\ exists y, member v (bs "ID") y.
Proof. exact shadowed. Qed.
Print Assumptions C82_refuted.

(** Two embedded structs with one name: there is no dominant field, and there is a member. *)
Theorem C82_ambiguous_refuted : forall E W, exists fs cs x v, promoted 0 fs cs /\ (forall c, ~ dominant cs (bs "ID") c) /\
  import E W opt0 [] (GStruct fs) = Ok (v, None) /\ member v (bs "ID") x.
Proof. exact ambiguous. Qed.
Print Assumptions C82_ambiguous_refuted.

(** struct { Base; ID int }: the hypotheses of C82_exactly. *)
Example C82_instance : forall E W, promoted 0 own_last [cid 1 2; cid 0 1] /\
  Forall (fun c => exists x, gives E W opt0 [] c x) [cid 1 2; cid 0 1] /\
  told_apart E W opt0 [] [cid 1 2; cid 0 1] /\ last_dominant [cid 1 2; cid 0 1] /\
  exists v, import E W opt0 [] (GStruct own_last) = Ok (v, None).
Proof. exact own_last_fits. Qed.
(** The two orders of declaration, as texts. *)
Example C82_texts :
  (let* (v, e) := import env0 world1 opt0 [] (GStruct own_last) in marshal env0 world1 opt0 [] v) = Ok (bs "{""ID"":1}") /\
  (let* (v, e) := import env0 world1 opt0 [] (GStruct own_first) in marshal env0 world1 opt0 [] v) = Ok (bs "{""ID"":2}") /\
  (let* (v, e) := import env0 world1 opt0 [] (GStruct twice) in marshal env0 world1 opt0 [] v) = Ok (bs "{""ID"":3}").
Proof. repeat split. Qed.
