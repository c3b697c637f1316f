(** The texts of errors.go and of ValueType.String. *)
From Verif Require Import Base Float64 Value.

(** /repo/errors.go:5-101 the constants and Error.Error.  Error is a string type: two
    errors are the same (==, errors.Is) if their texts are. *)
Definition error_text (e : err) : option bytes :=
  match e with
  | ErrNilParameter => Some (bs "nil parameter")
  | ErrValueUninitialized => Some (bs "jsonvalue instance is not initialized")
  | ErrRawBytesUnrecognized => Some (bs "unrecognized raw text")
  | ErrNotValidNumberValue => Some (bs "not a valid number value")
  | ErrNotValidBoolValue => Some (bs "not a valid bool value")
  | ErrNotValidNullValue => Some (bs "not a valid null value")
  | ErrOutOfRange => Some (bs "out of range")
  | ErrNotFound => Some (bs "target not found")
  | ErrTypeNotMatch => Some (bs "not match given type")
  | ErrParseNumberFromString => Some (bs "failed to parse number from string")
  | ErrNotArrayValue => Some (bs "not an array typed value")
  | ErrNotObjectValue => Some (bs "not an object typed value")
  | ErrIllegalString => Some (bs "illegal string")
  | ErrUnsupportedFloat => Some (bs "unsupported float value")
  | ErrUnsupportedFloatInOpt => Some (bs "unsupported float value in option")
  | ErrMultipleParam => Some (bs "if first param is a slice or array, no further param are allowed")
  | ErrParameterError => Some (bs "parameter error")
  | EOther => None
  end.

(** /repo/jsonvalue.go:54-71 the constants of type ValueType, an int *)
Definition type_number (t : vtype) : Z :=
  match t with
  | TNotExist => 0 | TString => 1 | TNumber => 2 | TObject => 3 | TArray => 4 | TBoolean => 5 | TNull => 6 | TUnknown => 7
  end.

(** /repo/jsonvalue.go:73-82 typeStr *)
Definition type_str : list bytes :=
  [bs "illegal"; bs "string"; bs "number"; bs "object"; bs "array"; bs "boolean"; bs "null"; bs "unknown"].

(** /repo/jsonvalue.go:85-92 ValueType.String; an index outside of the table would panic *)
Definition type_string (t : Z) : res bytes :=
  let t := if type_number TUnknown <? t then type_number TNotExist
           else if t <? 0 then type_number TNotExist else t in
  if t <? 0 then Panic
  else match nth_error type_str (Z.to_nat t) with Some s => Ok s | None => Panic end.
