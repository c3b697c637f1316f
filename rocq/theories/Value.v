(** The value type [V] of jsonvalue.go and the constructors of new.go. *)
From Verif Require Import Base Float64.

(** /repo/jsonvalue.go:113-119 [num] *)
Record num := Num {
  n_neg : bool;          (* negative *)
  n_flt : bool;          (* floated *)
  n_i64 : Z;
  n_u64 : Z;
  n_f64 : spec_float;
}.

(** /repo/jsonvalue.go:54-71 [ValueType] *)
Inductive vtype := TNotExist | TString | TNumber | TObject | TArray | TBoolean | TNull | TUnknown.

(** /repo/jsonvalue.go:102-133 [V], [childWithProperty] and [children].
    A sum instead of one struct with all fields: the fields that the code reads
    are exactly those kept for each valueType (valueStr for strings, num and
    srcByte for numbers, children for containers, valueBool for booleans).
    [VObj incr kvs lower]: incrID, the map [object] (key -> (id, v)) as an
    association list, and lowerCaseKeys ([None] = nil map).  [VNil] is the nil
    pointer *V, which can sit where a *V is expected.  Sharing of children
    between values is not represented here (see Heap.v). *)
Inductive V :=
| VNotExist
| VStr (s : bytes)
| VNum (n : num) (src : bytes)
| VObj (incr : Z) (kvs : list (bytes * (Z * V))) (lower : option (list (bytes * list bytes)))
| VArr (l : list V)
| VBool (b : bool)
| VNull
| VUnknown
| VNil.

Definition kv := (bytes * (Z * V))%type.

(** valueType of a non-nil value; /repo/jsonvalue.go:95-97 *)
Definition vtype_of (v : V) : vtype :=
  match v with
  | VNotExist => TNotExist
  | VStr _ => TString
  | VNum _ _ => TNumber
  | VObj _ _ _ => TObject
  | VArr _ => TArray
  | VBool _ => TBoolean
  | VNull => TNull
  | VUnknown => TUnknown
  | VNil => TNotExist
  end.

(** /repo/new.go:26-30 *)
Definition new_string (s : bytes) : V := VStr s.

(** /repo/new.go:43-54 NewInt64; [i] is an int64 *)
Definition new_int64 (i : Z) : V :=
  VNum {| n_neg := i <? 0; n_flt := false; n_i64 := i; n_u64 := wrap_u64 i; n_f64 := f_of_Z i |}
       (format_int i).

(** /repo/new.go:59-70 NewUint64; [u] is a uint64 *)
Definition new_uint64 (u : Z) : V :=
  VNum {| n_neg := false; n_flt := false; n_i64 := wrap_i64 u; n_u64 := u; n_f64 := f_of_Z u |}
       (format_int u).

(** /repo/new.go:103-115 *)
Definition new_bool (b : bool) : V := VBool b.
Definition new_null : V := VNull.

(** /repo/new.go:173-175, 232-248 NewArray, new, newObject, newArray (without key
    values) *)
Definition new_object : V := VObj 0 [] None.
Definition new_array : V := VArr [].

(** Comparison of |f| with a positive decimal constant, for NewFloat64. *)
Definition f_abs (f : spec_float) : spec_float := SFabs f.
Definition f_1em6 : spec_float := f_of_dec false 1 (-6).
Definition f_1e21 : spec_float := f_of_dec false 1 21.

(** /repo/new.go:250-264 newFloat64f.  [num.floated] is left false by the code. *)
Definition new_float64f_ (E : Env) (f : spec_float) (format prec_ bitsz : Z) : V :=
  VNum {| n_neg := f_ltb0 f; n_flt := false; n_i64 := f_to_i64 E f; n_u64 := f_to_u64 E f; n_f64 := f |}
       (if is_valid_float f then fmt_float E f format prec_ bitsz else []).

(** /repo/new.go:181-189 NewFloat64: format 'f' (102) or 'e' (101) *)
Definition new_float64 (E : Env) (f : spec_float) : V :=
  let a := f_abs f in
  let format := if SFltb a f_1em6 || SFleb f_1e21 a then 101 else 102 in
  new_float64f_ E f format (-1) 64.

(** /repo/new.go:266-273 validateFloat64Format *)
Definition valid_format (c : Z) : bool :=
  (c =? 102) || (c =? 69) || (c =? 101) || (c =? 71) || (c =? 103).

(** /repo/new.go:196-201 NewFloat64f *)
Definition new_float64f (E : Env) (f : spec_float) (format prec_ : Z) : V :=
  new_float64f_ E f (if valid_format format then format else 103) prec_ 64.

(** /repo/new.go:207-216 NewFloat32; the argument is the float32 as a float64 *)
Definition new_float32 (E : Env) (f : spec_float) : V :=
  let a := f_abs f in
  let format := if SFltb a f_1em6 || SFleb f_1e21 a then 101 else 102 in
  new_float64f_ E f format (-1) 32.

(** Set of strings with insertion, for the inner maps of lowerCaseKeys. *)
Definition sadd (k : bytes) (l : list bytes) : list bytes :=
  if existsb (beqb k) l then l else l ++ [k].
Definition sdel (k : bytes) (l : list bytes) : list bytes :=
  filter (fun x => negb (beqb k x)) l.

(** /repo/jsonvalue.go:165-176 addCaselessKey, on the lowerCaseKeys field *)
Definition add_caseless_key (E : Env) (k : bytes) (lower : option (list (bytes * list bytes)))
  : option (list (bytes * list bytes)) :=
  match lower with
  | None => None
  | Some m =>
    let lk := to_lower E k in
    let keys := match alookup lk m with Some ks => ks | None => [] end in
    Some (aset lk (sadd k keys) m)
  end.

(** /repo/jsonvalue.go:178-193 delCaselessKey *)
Definition del_caseless_key (E : Env) (k : bytes) (lower : option (list (bytes * list bytes)))
  : option (list (bytes * list bytes)) :=
  match lower with
  | None => None
  | Some m =>
    let lk := to_lower E k in
    match alookup lk m with
    | None => Some m
    | Some ks =>
      let ks' := sdel k ks in
      match ks' with
      | [] => Some (aremove lk m)
      | _ => Some (aset lk ks' m)
      end
    end
  end.

(** /repo/set.go:167-174 setToObjectChildren.  incrID is a uint32 and wraps.
    The caller guarantees that [v] is an object; on another value the Go code
    would panic (assignment to a nil map). *)
Definition set_to_object (E : Env) (v : V) (key : bytes) (child : V) : res V :=
  match v with
  | VObj incr kvs lower =>
    let incr' := wrap_u32 (incr + 1) in
    Ok (VObj incr' (aset key (incr', child) kvs) (add_caseless_key E key lower))
  | _ => Panic
  end.
