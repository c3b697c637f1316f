(** C76: error constants and type names. *)
From Verif Require Import Base Float64 Value Scan Unmarshal Access Names SpecNames NamesProof ExampleWorld.

(** No two error constants are the same error. *)
Theorem C76_errors : forall e f t, error_text e = Some t -> error_text f = Some t -> e = f.
Proof. exact error_texts. Qed.
Print Assumptions C76_errors.

(** ValueType.String gives every JSON type the name of RFC 8259, and no two types one name. *)
Theorem C76_types : forall t, exists s, type_string (type_number t) = Ok s /\ (forall u, rfc_name t = Some u -> s = u).
Proof. exact type_names. Qed.
Print Assumptions C76_types.

Theorem C76_distinct : forall t u s, type_string (type_number t) = Ok s -> type_string (type_number u) = Ok s -> t = u.
Proof. exact type_names_distinct. Qed.
Print Assumptions C76_distinct.

(** It never panics: all other integers print as NotExist does. *)
Theorem C76_total : forall z, exists s, type_string z = Ok s /\
  ((forall t, z <> type_number t) -> type_string (type_number TNotExist) = Ok s).
Proof. exact type_string_total. Qed.
Print Assumptions C76_total.

Example C76_instance :
  (forall e, error_text e = None <-> e = EOther) /\
  error_text ErrNotValidNullValue = Some (bs "not a valid null value") /\
  type_string (-3) = Ok (bs "illegal") /\ type_string 4 = Ok (bs "array") /\ type_string 8 = Ok (bs "illegal").
Proof. split; [exact error_named|]. repeat split. Qed.
(** The texts as errors.go and jsonvalue.go have them. *)
Example C76_texts : map error_text
    [ErrNilParameter; ErrValueUninitialized; ErrRawBytesUnrecognized; ErrNotValidNumberValue; ErrNotValidBoolValue; ErrNotValidNullValue;
     ErrOutOfRange; ErrNotFound; ErrTypeNotMatch; ErrParseNumberFromString; ErrNotArrayValue; ErrNotObjectValue; ErrIllegalString;
     ErrUnsupportedFloat; ErrUnsupportedFloatInOpt; ErrMultipleParam; ErrParameterError]
  = map (fun s => Some (bs s))
    ["nil parameter"; "jsonvalue instance is not initialized"; "unrecognized raw text"; "not a valid number value"; "not a valid bool value";
     "not a valid null value"; "out of range"; "target not found"; "not match given type"; "failed to parse number from string";
     "not an array typed value"; "not an object typed value"; "illegal string"; "unsupported float value"; "unsupported float value in option";
     "if first param is a slice or array, no further param are allowed"; "parameter error"]%string /\
  map type_string [0; 1; 2; 3; 4; 5; 6; 7] =
    map (fun s => Ok (bs s)) ["illegal"; "string"; "number"; "object"; "array"; "boolean"; "null"; "unknown"]%string.
Proof. split; reflexivity. Qed.
