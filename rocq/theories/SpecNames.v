(** C76: the names of the types, and what == says of errors. *)
From Verif Require Import Base Float64 Value SpecJson.

(** The names that RFC 8259, section 1, gives to the types of values. *)
Definition rfc_name (t : vtype) : option bytes :=
  match t with
  | TString => Some (bs "string") | TNumber => Some (bs "number") | TObject => Some (bs "object") | TArray => Some (bs "array")
  | TBoolean => Some (bs "boolean") | TNull => Some (bs "null")
  | TNotExist | TUnknown => None
  end.
