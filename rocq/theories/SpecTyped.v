(** Specification of the typed variants: a Go value is read back by the getter of
    the same type. *)
From Verif Require Import Base Float64 Value Opt Marshal Access Path Edit Base64 SpecText Typed.

(** The values of the Go type. *)
Definition of_type (E : Env) (a : typed_arg) : Prop :=
  match a with
  | ABytes b => Forall is_byte b
  | AInt i | AInt64 i => - two63 <= i < two63
  | AInt32 i => - two31 <= i < two31
  | AUint u | AUint64 u => 0 <= u < two64
  | AUint32 u => 0 <= u < two32
  | AFloat32 f => to_f32 E f = f
  | _ => True
  end.

(** The getter of this type, called with the path, returns this value and no
    error. *)
Definition reads_back (E : Env) (W : World) (v : V) (a : typed_arg) (path : list param) : Prop :=
  match path with
  | [] => False
  | p :: o =>
    match a with
    | AString s => get_string E W false v p o = Ok (s, None)
    | ABytes b => get_bytes E W false v p o = Ok (b, None)
    | ABool b => get_bool E W false v p o = Ok (b, None)
    | AInt i => get_int E W false v p o = Ok (i, None)
    | AInt64 i => get_int64 E W false v p o = Ok (i, None)
    | AInt32 i => get_int32 E W false v p o = Ok (i, None)
    | AUint u => get_uint E W false v p o = Ok (u, None)
    | AUint64 u => get_uint64 E W false v p o = Ok (u, None)
    | AUint32 u => get_uint32 E W false v p o = Ok (u, None)
    | AFloat64 f => get_float64 E W false v p o = Ok (f, None)
    | AFloat32 f => get_float32 E W false v p o = Ok (f, None)
    | ANull => get_null E W false v p o = Ok (tt, None)
    | AObject => exists i lo, get_object E W false v p o = Ok (VObj i [] lo, None)
    | AArray => get_array E W false v p o = Ok (VArr [], None)
    end
  end.
