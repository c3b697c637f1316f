(** The typed variants SetXxx, InsertXxx, AppendXxx and their Must forms, which
    wrap a constructor: set.go, set_must.go, insert_append_delete.go,
    insert_append_delete_must.go, new.go. *)
From Verif Require Import Base Float64 Value Scan Opt Marshal Access Path Edit Base64.

(** A Go value together with the variant it is passed to. *)
Inductive typed_arg :=
| AString (s : bytes) | ABytes (b : bytes) | ABool (b : bool)
| AInt (i : Z) | AInt64 (i : Z) | AInt32 (i : Z)
| AUint (u : Z) | AUint64 (u : Z) | AUint32 (u : Z)
| AFloat64 (f : spec_float) | AFloat32 (f : spec_float)
| ANull | AObject | AArray.

(** /repo/new.go:75-98 NewInt, NewUint, NewInt32, NewUint32: conversions to 64
    bits, which keep the value. *)
Definition new_int (i : Z) : V := new_int64 i.
Definition new_uint (u : Z) : V := new_uint64 u.
Definition new_int32 (i : Z) : V := new_int64 i.
Definition new_uint32 (u : Z) : V := new_uint64 u.

(** /repo/new.go:223-228 NewFloat32f; the argument is the float32 as a float64.
    The text is made with bit size 64. *)
Definition new_float32f (E : Env) (f : spec_float) (format prec_ : Z) : V :=
  new_float64f_ E f (if valid_format format then format else 103) prec_ 64.

(** The constructor that the variant calls: /repo/set.go:71-165,
    /repo/insert_append_delete.go:92-178 and 332-425 (there is no InsertBytes). *)
Definition new_typed (E : Env) (a : typed_arg) : V :=
  match a with
  | AString s => VStr s
  | ABytes b => new_bytes b
  | ABool b => new_bool b
  | AInt i => new_int i
  | AInt64 i => new_int64 i
  | AInt32 i => new_int32 i
  | AUint u => new_uint u
  | AUint64 u => new_uint64 u
  | AUint32 u => new_uint32 u
  | AFloat64 f => new_float64 E f
  | AFloat32 f => new_float32 E f
  | ANull => new_null
  | AObject => new_object
  | AArray => new_array
  end.

(** SetXxx(x).At(...), InsertXxx(x).Before/After(...), AppendXxx(x).InThe...(...) *)
Definition set_typed E v a p o : V * res V := set_at E v (arg_v (new_typed E a)) p o.
Definition insert_typed E W (after : bool) v a p o : V * res V :=
  (if after then insert_after else insert_before) E W v (arg_v (new_typed E a)) p o.
Definition append_typed E W (front : bool) v a ps : V * res V :=
  append_at E W front v (arg_v (new_typed E a)) ps.

(** MustSetXxx (/repo/set_must.go:38-132), MustInsertXxx and MustAppendXxx
    (/repo/insert_append_delete_must.go:61-231) *)
Definition must_set_typed E v a p o := must_set_at E v (arg_v (new_typed E a)) p o.
Definition must_insert_typed E W (after : bool) v a p o :=
  (if after then must_insert_after else must_insert_before) E W v (arg_v (new_typed E a)) p o.
Definition must_append_typed E W (front : bool) v a ps :=
  (if front then must_append_beginning else must_append_end) E W v (arg_v (new_typed E a)) ps.
