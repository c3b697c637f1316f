(** NewObject with key values (new.go), and beta.Contains of Go data. *)
From Verif Require Import Base Float64 Value Opt Marshal Path Edit GoValue Import Contain.

(** An element of M, by reflect.Kind: Int covers Int to Int64, Uint covers Uint to
    Uint64 (Uintptr is [ElseVal]), Float covers Float32, widened, and Float64. *)
Inductive mval :=
| NilVal
| BoolVal (b : bool)
| IntVal (z : Z)
| UintVal (z : Z)
| FloatVal (f : spec_float)
| StrVal (s : bytes)
| ElseVal.

(** /repo/new.go:139-171 parseNewObjectKV: the child that is set, if any.  The Must
    setters are Set on the constructed value (/repo/set.go). *)
Definition mval_child (E : Env) (x : mval) : option V :=
  match x with
  | NilVal => Some new_null
  | BoolVal b => Some (new_bool b)
  | IntVal z => Some (new_int64 z)
  | UintVal z => Some (new_uint64 z)
  | FloatVal f => Some (new_float64 E f)
  | StrVal s => Some (new_string s)
  | ElseVal => None
  end.

(** The entries in the order in which range delivers them. *)
Fixpoint parse_new_object_kv (E : Env) (v : V) (m : list (bytes * mval)) : res V :=
  match m with
  | [] => Ok v
  | (k, x) :: r =>
    let* v' := match mval_child E x with
               | Some c => must_op (set_at E v (arg_v c) (PStr k) [])
               | None => Ok v
               end in
    parse_new_object_kv E v' r
  end.

(** /repo/new.go:116-134 NewObject; an element of the argument list is a map or nil *)
Definition new_object_m (E : Env) (args : list (option (list (bytes * mval)))) : res V :=
  match args with
  | Some m :: _ => parse_new_object_kv E new_object m
  | _ => Ok new_object
  end.

(** /repo/beta/contain.go:12-46 Contains with any Go value *)
Definition contains_any (E : Env) (W : World) (d : opt) (v : V) (g : gov) (in_path : list param) : res bool :=
  match v with
  | VNil => Ok false
  | _ =>
    match g with
    | GVal sub => contains E W v sub in_path
    | _ =>
      let* (sub, e) := import E W d [] g in
      match e with
      | Some _ => Ok false
      | None => contains E W v sub in_path
      end
    end
  end.
