(** Export (C56), and Import followed by Export (C57). *)
From Verif Require Import Base Float64 Value Scan Unmarshal Opt Marshal GoValue Import SpecJson SpecValue SpecLax SpecText SpecOpts SpecFloatText SpecSpell SpecExport
  Export ExportProof ExportImport ExportExact ExportExamples ExampleWorld.

(** *** C56 *)

(** Export into an interface{}: succeeds exactly if no string holds U+000B, the
    text of every number is a literal of JSON that does not overflow a float64,
    and nothing is nested deeper than 10000 levels; and then the data shows the
    value. *)
Theorem C56_any_exactly : forall (E : Env) (W : World) (d : opt) (v : V),
  o_omit_null (combine_options d []) = false -> opt_ws (combine_options d []) ->
  json_typed v -> all_text (Forall is_byte) num_bytes v ->
  (exportable v -> exists g, export_any E W d v (Some g)) /\
  (~ exportable v -> export_any E W d v None) /\
  (forall g, export_any E W d v (Some g) -> exportable v /\ exported v g).
Proof. exact export_exactly. Qed.
Print Assumptions C56_any_exactly.

(** Export into a *V: the same without the condition on overflow, for numbers
    that the parser accepts; the result is the same JSON value exactly if
    repairing does not identify two names of one object. *)
Theorem C56_value_exactly : forall (E : Env) (W : World) (d : opt) (v dst : V),
  o_omit_null (combine_options d []) = false -> opt_ws (combine_options d []) ->
  json_typed v -> all_text (Forall is_byte) (fun _ src => lax_num src) v -> dst <> VNil ->
  (all_text (fun s => ~ In 11 s) (fun _ src => rfc_lit src) v /\ levels v <= 10000 ->
   exists w, export_v E W d v dst (Some w)) /\
  (~ (all_text (fun s => ~ In 11 s) (fun _ src => rfc_lit src) v /\ levels v <= 10000) -> export_v E W d v dst None) /\
  (forall w, export_v E W d v dst (Some w) ->
     (all_text (fun s => ~ In 11 s) (fun _ src => rfc_lit src) v /\ levels v <= 10000) /\
     (same_json (fun _ src n' => lax_value src n') false v w <-> all_objs names_distinct v)).
Proof. exact export_v_exactly. Qed.
Print Assumptions C56_value_exactly.

(** Import of the exported data: the same value, with the numbers rounded to
    float64. *)
Theorem C56_import : forall (E : Env) (W : World) (d : opt) opts v g,
  (forall f fmt bits, fmt_float E f fmt (-1) bits <> []) ->
  o_omit_null (combine_options d []) = false -> opt_ws (combine_options d []) ->
  json_typed v -> all_text (Forall is_byte) num_bytes v -> all_objs names_distinct v ->
  export_any E W d v (Some g) -> exists v', import E W d opts g = Ok (v', None) /\ rounded E v v'.
Proof. exact export_import. Qed.
Print Assumptions C56_import.

(** Values that Marshal refuses, a value that does not exist and (under the default
    policy) a number without text, cannot be exported, and nothing is stored. *)
Theorem C56_failures : forall (E : Env) (W : World) (d : opt) v,
  o_nan (combine_options d []) = 0 -> o_inf (combine_options d []) = 0 ->
  v = VNotExist \/ (exists n, v = VNum n []) ->
  (forall r, export_any E W d v r <-> r = None) /\ (forall dst r, export_v E W d v dst r <-> r = None).
Proof. exact export_refused. Qed.
Print Assumptions C56_failures.

(** NewFloat64 of NaN. *)
Example C56_failures_instance : forall r, export_any env0 world1 opt0 (new_float64 env0 S754_nan) r <-> r = None.
Proof. exact (proj1 (export_refused env0 world1 opt0 _ eq_refl eq_refl (or_intror (ex_intro _ _ eq_refl)))). Qed.

(** C56 is false: the value of a JSON text cannot be exported. *)
Theorem C56_refuted : exists b j v, json_doc b j /\ forall E W, unmarshal E b = Ok (v, None) /\ json_typed v /\
  export_any E W opt0 v None /\ (forall g, ~ export_any E W opt0 v (Some g)) /\ export_v E W opt0 v VNotExist None.
Proof. exact export_vt. Qed.
Print Assumptions C56_refuted.

(** {"b":[1.50,null],"a":"x"} *)
Example C56_instance : forall E W, exportable ex_value /\ json_typed ex_value /\ all_text (Forall is_byte) num_bytes ex_value /\ all_objs names_distinct ex_value /\
  exists g, export_any E W opt0 ex_value (Some g) /\ same_data ex_data g.
Proof. exact (fun E W => conj ex_exportable (conj ex_typed (conj ex_bytes (conj ex_names (export_example E W))))). Qed.

(** *** C57 *)

(** Data made of nil, bool, float64, string, []interface{} and
    map[string]interface{} comes back.  Missing: strings with U+000B. *)
Theorem C57_back_partial : forall (E : Env), format_contract E -> forall (W : World) (d : opt) opts g,
  (forall f fmt bits, fmt_float E f fmt (-1) bits <> []) ->
  o_omit_null (combine_options d []) = false -> opt_ws (combine_options d []) ->
  plain_data g -> go_levels g <= 10000 ->
  exists v, import E W d opts g = Ok (v, None) /\ (exists g', export_any E W d v (Some g')) /\
    forall g', export_any E W d v (Some g') -> same_data g g'.
Proof. exact import_export. Qed.
Print Assumptions C57_back_partial.

(** Whether data made of these types, of any depth and with any strings, can be
    exported again, and whether it then comes back unchanged. *)
Theorem C57_exactly : forall (E : Env), format_contract E -> forall (W : World) (d : opt) opts g,
  (forall f fmt bits, fmt_float E f fmt (-1) bits <> []) ->
  o_omit_null (combine_options d []) = false -> opt_ws (combine_options d []) ->
  any_shape plain_float (Forall is_byte) g ->
  exists v, import E W d opts g = Ok (v, None) /\
    ((exists g', export_any E W d v (Some g')) <-> any_shape plain_float (fun s => ~ In 11 s) g /\ go_levels g <= 10000) /\
    (forall g', export_any E W d v (Some g') -> same_data g g' <-> any_shape plain_float well_formed g).
Proof. exact import_export_exactly. Qed.
Print Assumptions C57_exactly.

Theorem C57_refuted : forall E W, exists v, import E W opt0 [] (GStr [11]) = Ok (v, None) /\ well_formed [11] /\ forall g, ~ export_any E W opt0 v (Some g).
Proof. exact import_export_vt. Qed.
Print Assumptions C57_refuted.

Example C57_instance : plain_data ex_data /\ go_levels ex_data <= 10000.
Proof. exact ex_plain. Qed.
(** The hypotheses about FormatFloat can be met together. *)
Example C57_contract : format_contract env_full /\ forall f fmt bits, fmt_float env_full f fmt (-1) bits <> [].
Proof. exact full_contract. Qed.
(** A slice with the one string of byte 255 is exported, and comes back changed. *)
Example C57_invalid : any_shape plain_float (Forall is_byte) (slice_of [GStr [255]]) /\
  any_shape plain_float (fun s => ~ In 11 s) (slice_of [GStr [255]]) /\ ~ any_shape plain_float well_formed (slice_of [GStr [255]]).
Proof. exact ex_invalid. Qed.
