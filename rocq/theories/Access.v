(** Reading a single value: type predicates, numeric accessors, Bool, String
    and Len (jsonvalue.go, get.go). *)
From Verif Require Import Base Utf8 Float64 Value Scan Opt Marshal.

(** *** bytes.TrimSpace *)

(** The UTF-8 encodings of the runes for which unicode.IsSpace holds: tab, line
    feed, vertical tab, form feed, carriage return, space, U+0085, U+00A0,
    U+1680, U+2000..U+200A, U+2028, U+2029, U+202F, U+205F, U+3000. *)
Definition space_encs : list bytes :=
  [[9]; [10]; [11]; [12]; [13]; [32]; [194; 133]; [194; 160]; [225; 154; 128];
   [226; 128; 128]; [226; 128; 129]; [226; 128; 130]; [226; 128; 131]; [226; 128; 132];
   [226; 128; 133]; [226; 128; 134]; [226; 128; 135]; [226; 128; 136]; [226; 128; 137];
   [226; 128; 138]; [226; 128; 168]; [226; 128; 169]; [226; 128; 175]; [226; 129; 159];
   [227; 128; 128]].

Fixpoint strip_prefix (p s : bytes) : option bytes :=
  match p, s with
  | [], _ => Some s
  | x :: p', y :: s' => if x =? y then strip_prefix p' s' else None
  | _ :: _, [] => None
  end.

Fixpoint strip_first (encs : list bytes) (s : bytes) : option bytes :=
  match encs with
  | [] => None
  | e :: r => match strip_prefix e s with Some s' => Some s' | None => strip_first r s end
  end.

(** Go standard library: bytes.TrimSpace removes leading and trailing white
    space runes.  A rune is at the start (end) of the text exactly when its
    encoding is a prefix (suffix) of the bytes. *)
Fixpoint trim_left (fuel : nat) (encs : list bytes) (s : bytes) : bytes :=
  match fuel with
  | O => s
  | S f => match strip_first encs s with Some s' => trim_left f encs s' | None => s end
  end.
Definition trim_space (s : bytes) : bytes :=
  let l := trim_left (List.length s) space_encs s in
  rev (trim_left (List.length l) (map (@rev Z) space_encs) (rev l)).

(** *** Numbers spelled by strings *)

(** /repo/unmarshal.go:354-374 newFromNumber and parseNumber on the trimmed
    text, as called in /repo/get.go:509-510 and 526-527. *)
Definition number_of_text (E : Env) (s : bytes) : res V :=
  let b := trim_space s in
  let* (v, _, reach) := parse_number E b 0 in
  if reach then Ok v else Err EOther.

(** /repo/get.go:502-515 getNumberFromNotNumberValue.  A nil *V panics at
    v.valueType. *)
Definition number_from_not_number (E : Env) (v : V) : res V :=
  match v with
  | VNil => Panic
  | VStr [] => Ok (new_int64 0)
  | VStr s =>
    match number_of_text E s with
    | Err _ => Ok (new_int64 0)
    | r => r
    end
  | _ => Ok (new_int64 0)
  end.

(** The [num] record that /repo/jsonvalue.go:402-477 Int, Uint, ..., Float32
    read.  The recursive call of the accessor happens on a number. *)
Definition num_of (E : Env) (v : V) : res num :=
  match v with
  | VNum n _ => Ok n
  | _ =>
    let* r := number_from_not_number E v in
    match r with VNum n _ => Ok n | _ => Panic (* not reachable *) end
  end.

(** /repo/jsonvalue.go:402-477; int and uint are 64 bits wide *)
Definition api_int (E : Env) (v : V) : res Z := let* n := num_of E v in Ok (n_i64 n).
Definition api_uint (E : Env) (v : V) : res Z := let* n := num_of E v in Ok (n_u64 n).
Definition api_int64 (E : Env) (v : V) : res Z := let* n := num_of E v in Ok (n_i64 n).
Definition api_uint64 (E : Env) (v : V) : res Z := let* n := num_of E v in Ok (n_u64 n).
Definition api_int32 (E : Env) (v : V) : res Z := let* n := num_of E v in Ok (wrap_i32 (n_i64 n)).
Definition api_uint32 (E : Env) (v : V) : res Z := let* n := num_of E v in Ok (wrap_u32 (n_u64 n)).
Definition api_float64 (E : Env) (v : V) : res spec_float := let* n := num_of E v in Ok (n_f64 n).
Definition api_float32 (E : Env) (v : V) : res spec_float := let* n := num_of E v in Ok (to_f32 E (n_f64 n)).

(** f != 0 for float64: true for NaN *)
Definition f_nonzero (f : spec_float) : bool := negb (SFeqb f (S754_zero false)).

(** /repo/get.go:517-533 getNumberAndErrorFromValue: value and error *)
Definition number_and_error (E : Env) (v : V) : res (V * option err) :=
  match v with
  | VNil => Panic
  | VNum _ _ => Ok (v, None)
  | VStr s =>
    match number_of_text E s with
    | Ok r => Ok (r, Some ErrTypeNotMatch)
    | Err _ => Ok (new_int64 0, Some ErrParseNumberFromString)
    | Panic => Panic
    | Fuel => Fuel
    end
  | _ => Ok (new_int64 0, Some ErrTypeNotMatch)
  end.

(** /repo/get.go:535-552 getBoolAndErrorFromValue *)
Definition bool_and_error (v : V) : res (bool * option err) :=
  match v with
  | VNil => Panic
  | VBool b => Ok (b, None)
  | VNum n _ => Ok (f_nonzero (n_f64 n), Some ErrTypeNotMatch)
  | VStr s => Ok (beqb s (bs "true"), Some ErrTypeNotMatch)
  | _ => Ok (false, Some ErrTypeNotMatch)
  end.

(** /repo/jsonvalue.go:391-397 Bool *)
Definition api_bool (v : V) : res bool :=
  let* (b, _) := bool_and_error v in Ok b.

(** *** Type predicates, /repo/jsonvalue.go:95-97, 287-385; a nil *V panics *)
Definition on_value {A} (f : V -> A) (v : V) : res A :=
  match v with VNil => Panic | _ => Ok (f v) end.

Definition vtype_eqb (a b : vtype) : bool :=
  match a, b with
  | TNotExist, TNotExist | TString, TString | TNumber, TNumber | TObject, TObject
  | TArray, TArray | TBoolean, TBoolean | TNull, TNull | TUnknown, TUnknown => true
  | _, _ => false
  end.

Definition value_type (v : V) : res vtype := on_value vtype_of v.
Definition api_is_object (v : V) : res bool := on_value (fun v => vtype_eqb (vtype_of v) TObject) v.
Definition api_is_array (v : V) : res bool := on_value (fun v => vtype_eqb (vtype_of v) TArray) v.
Definition api_is_string (v : V) : res bool := on_value (fun v => vtype_eqb (vtype_of v) TString) v.
Definition api_is_number (v : V) : res bool := on_value (fun v => vtype_eqb (vtype_of v) TNumber) v.
Definition api_is_boolean (v : V) : res bool := on_value (fun v => vtype_eqb (vtype_of v) TBoolean) v.
Definition api_is_null (v : V) : res bool := on_value (fun v => vtype_eqb (vtype_of v) TNull) v.

Definition on_number (f : num -> bool) (v : V) : res bool :=
  on_value (fun v => match v with VNum n _ => f n | _ => false end) v.
Definition api_is_float (v : V) : res bool := on_number n_flt v.
Definition api_is_integer (v : V) : res bool := on_number (fun n => negb (n_flt n)) v.
Definition api_is_negative (v : V) : res bool := on_number n_neg v.
Definition api_is_positive (v : V) : res bool := on_number (fun n => negb (n_neg n)) v.
Definition greater_than_int64_max (v : V) : res bool :=
  on_number (fun n => if n_neg n then false else 9223372036854775807 <? n_u64 n) v.

(** /repo/get.go:13-22 Len *)
Definition api_len (v : V) : res nat :=
  on_value (fun v => match v with
                     | VArr l => List.length l
                     | VObj _ kvs _ => List.length kvs
                     | _ => 0%nat
                     end) v.

(** *** String *)

Fixpoint join_with (sep : bytes) (l : list bytes) : bytes :=
  match l with
  | [] => []
  | [x] => x
  | x :: r => x ++ sep ++ join_with sep r
  end.

(** /repo/jsonvalue.go:536-598 String, packObjChildren, packArrChildren.  [path]
    only names the object for the iteration oracle. *)
Fixpoint api_string (E : Env) (W : World) (path : list key) (v : V) {struct v} : bytes :=
  match v with
  | VNil => bs "nil"
  | VNull => bs "null"
  | VNum n src =>
    match src with
    | _ :: _ => src
    | [] => fmt_float E (n_f64 n) 103 (-1) 64
    end
  | VStr s => s
  | VBool b => if b then bs "true" else bs "false"
  | VObj _ kvs _ =>
    let parts :=
      map (fun e : bytes * (Z * V) =>
             let '(k, (_, x)) := e in k ++ bs ": " ++ api_string E W (path ++ [string_key k]) x) kvs in
    bs "{" ++ join_with (bs ", ") (go_range W path parts) ++ bs "}"
  | VArr l =>
    bs "[" ++ join_with (bs ", ")
      ((fix go (i : Z) (l : list V) : list bytes :=
          match l with
          | [] => []
          | x :: r => api_string E W (path ++ [int_key i]) x :: go (i + 1) r
          end) 0 l) ++ bs "]"
  | VNotExist | VUnknown => []
  end.
