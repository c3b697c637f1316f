(** KeyPath.String (C52). *)
From Verif Require Import Base Float64 Value Opt Marshal Defaults KeyText SpecJson SpecText SpecLax SpecKeyText KeyTextProof GoValue Import
  ExampleWorld.

(** C52 is false: as long as SetDefaultMarshalOptions has not been called, the text of
    a path through an object cannot be had. *)
Theorem C52_refuted : exists p, Forall (fun k => Forall is_byte (k_s k)) p /\ key_path_string (tables_after []) p = Panic.
Proof. exists [string_key (bs "a"); int_key 0]. split; [repeat constructor; unfold is_byte; cbn; lia|reflexivity]. Qed.
Print Assumptions C52_refuted.

(** Exactly when: after any calls that touch the default options. *)
Theorem C52_panics_iff : forall cs p, Forall (fun k => Forall is_byte (k_s k)) p ->
  (key_path_string (tables_after cs) p = Panic <-> ~ default_is_set cs /\ exists k, In k p /\ k_s k <> []).
Proof. exact key_path_panics. Qed.
Print Assumptions C52_panics_iff.

(** C52 otherwise: the text shows the keys in order. *)
Theorem C52_text_partial : forall cs p, Forall (fun k => Forall is_byte (k_s k)) p ->
  (default_is_set cs \/ Forall (fun k => k_s k = []) p) ->
  exists t, key_path_string (tables_after cs) p = Ok (91 :: t ++ [93]) /\ keys_text p t.
Proof. exact key_path_text. Qed.
Print Assumptions C52_text_partial.

(** Paths of well-formed keys with the same text are the same, whatever the default
    options were when the texts were made. *)
Theorem C52_distinct_partial : forall cs cs' p p' t,
  Forall (fun k => well_formed (k_s k) /\ Forall is_byte (k_s k)) p ->
  Forall (fun k => well_formed (k_s k) /\ Forall is_byte (k_s k)) p' ->
  key_path_string (tables_after cs) p = Ok t -> key_path_string (tables_after cs') p' = Ok t -> Forall2 same_key p p'.
Proof. exact key_path_distinct. Qed.
Print Assumptions C52_distinct_partial.

(** A single key tells what it is: a member by its name, an element by its index, as
    long as the name is not empty; the member with the empty name is taken for index 0. *)
Theorem C52_key : forall s i,
  (s <> [] -> key_is_string (string_key s) = true /\ key_is_int (string_key s) = false /\
              key_string (string_key s) = s /\ key_int (string_key s) = 0) /\
  (key_is_string (int_key i) = false /\ key_is_int (int_key i) = true /\
   key_int (int_key i) = i /\ decimal (key_string (int_key i)) i) /\
  string_key [] = int_key 0.
Proof. exact key_methods. Qed.
Print Assumptions C52_key.

Example C52_instance :
  let p := [string_key (bs "a b"); int_key 12; string_key (bs """/"); int_key (-3)] in
  let cs := [CallReset; CallSetDefault [OEscapeSlash false]; CallMarshal [] VNull] in
  default_is_set cs /\
  key_path_string (tables_after cs) p = Ok (bs "[""a b"" 12 ""\""/"" -3]") /\
  key_path_string (tables_after [CallSetDefault []]) p = Ok (bs "[""a b"" 12 ""\""\/"" -3]") /\
  key_path_string (tables_after (cs ++ [CallReset])) p = Panic /\
  key_path_string (tables_after []) [int_key 1; int_key 2] = Ok (bs "[1 2]").
Proof.
  split; [|vm_compute; repeat split].
  exists [CallReset], [OEscapeSlash false], [CallMarshal [] VNull]. split; [reflexivity|]. repeat constructor. eauto.
Qed.

(** The member with the empty name is shown as index 0. *)
Example C52_empty_key : key_path_string (tables_after []) [string_key []] = Ok (bs "[0]") /\
  key_path_string (tables_after []) [int_key 0] = Ok (bs "[0]").
Proof. split; reflexivity. Qed.
