(** Specification of NewObject. *)
From Verif Require Import Base Float64 Value GoValue SpecJson SpecValue SpecImport NewObject.

(** The JSON of an element, for the kinds that NewObject supports. *)
Definition mval_tree (x : mval) : option tree :=
  match x with
  | NilVal => Some TNull
  | BoolVal b => Some (TBool b)
  | IntVal z | UintVal z => Some (TInt z)
  | FloatVal f => Some (TFloat64 f)
  | StrVal s => Some (TStr s)
  | ElseVal => None
  end.
Fixpoint supported (m : list (bytes * mval)) : list (bytes * tree) :=
  match m with
  | [] => []
  | (k, x) :: r => match mval_tree x with Some t => (k, t) :: supported r | None => supported r end
  end.

(** The range of the Go types; floats are finite. *)
Definition mval_ok (x : mval) : Prop :=
  match x with
  | IntVal z => - two63 <= z < two63
  | UintVal z => 0 <= z < two64
  | FloatVal f => finite64 f
  | _ => True
  end.
