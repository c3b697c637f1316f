(** Export (import_export.go:15-22).  encoding/json.Unmarshal is not code of the
    library; what it stores into a variable of type interface{} or into a *V is
    described after its documentation, as a relation. *)
From Verif Require Import Base Float64 Value Unmarshal Opt Marshal GoValue SpecJson SpecExport.

(** json.Unmarshal(b, dst) with dst of type *interface{}, holding nil before.
    [None]: an error (what it leaves in dst then is not modelled). *)
Definition json_unmarshal_any (b : bytes) (r : option gov) : Prop :=
  match r with
  | Some g => exists j, std_text b j /\ all_lits finite_lit j /\ any_data j g
  | None => ~ exists j, std_text b j /\ all_lits finite_lit j
  end.

(** json.Unmarshal(b, dst) with dst a *V: the text is checked, then
    dst.UnmarshalJSON is called (/repo/marshaler_unmarshaler.go:22-29) with the
    text without the white space around it.  Marshal writes none there, so this
    step is left out. *)
Definition json_unmarshal_v (E : Env) (b : bytes) (dst : V) (r : option V) : Prop :=
  match r with
  | Some v => (exists j, std_text b j) /\ unmarshal_json E dst b = (v, Ok tt)
  | None => (~ exists j, std_text b j) \/ exists v e, unmarshal_json E dst b = (v, Err e)
  end.

(** /repo/import_export.go:15-22 Export, for these two kinds of destination. *)
Definition export_any (E : Env) (W : World) (default : opt) (v : V) (r : option gov) : Prop :=
  match marshal E W default [] v with
  | Ok b => json_unmarshal_any b r
  | Err _ => r = None
  | _ => False
  end.

Definition export_v (E : Env) (W : World) (default : opt) (v dst : V) (r : option V) : Prop :=
  match marshal E W default [] v with
  | Ok b => json_unmarshal_v E b dst r
  | Err _ => r = None
  | _ => False
  end.
