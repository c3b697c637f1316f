(** Specification of series of calls on one document. *)
From Verif Require Import Base Float64 Value Scan Unmarshal Opt Marshal Access Path Edit Iter SpecNil.

Inductive act :=
| AGet (caseless : bool) (p : param) (o : list param)
| AInto (caseless : bool) (p : param) (o : list param)  (* go on with the value found *)
| AMustGet (caseless : bool) (p : param) (o : list param)
| ASet (x : arg) (p : param) (o : list param)
| ABefore (x : arg) (p : param) (o : list param)
| AAfter (x : arg) (p : param) (o : list param)
| AAppend (front : bool) (x : arg) (ps : list param)
| ADelete (caseless : bool) (p : param) (o : list param)
| ASort (less : option (V -> V -> bool))
| ALoad (b : bytes)
| AMarshal (opts : list option_)
| AMustMarshal (opts : list option_)
| ALen
| AType.

(** What was put in. *)
Definition given (a : act) : list V :=
  match a with
  | ASet x _ _ | ABefore x _ _ | AAfter x _ _ | AAppend _ x _ => [fst x]
  | _ => []
  end.

Definition outcome {A} (r : res A) : res unit :=
  match r with Ok _ => Ok tt | Err e => Err e | Panic => Panic | Fuel => Fuel end.
Definition both_of {A} (r : V * res A) : V * res unit := (fst r, outcome (snd r)).

(** The document after the call, and how the call ended. *)
Definition perform (E : Env) (W : World) (d : opt) (v : V) (a : act) : V * res unit :=
  match a with
  | AGet cl p o => both_of (get E W cl v p o)
  | AInto cl p o => match get E W cl v p o with (_, Ok c) => (c, Ok tt) | (v', r) => (v', outcome r) end
  | AMustGet cl p o => both_of (must_get E W cl v p o)
  | ASet x p o => both_of (set_at E v x p o)
  | ABefore x p o => both_of (insert_before E W v x p o)
  | AAfter x p o => both_of (insert_after E W v x p o)
  | AAppend front x ps => both_of (append_at E W front v x ps)
  | ADelete cl p o => both_of (delete_at E W cl v p o)
  | ASort less => match sort_array W v less with Ok v' => (v', Ok tt) | r => (v, outcome r) end
  | ALoad b => both_of (unmarshal_json E v b)
  | AMarshal opts => (v, outcome (marshal E W d opts v))
  | AMustMarshal opts => (v, outcome (must_marshal E W d opts v))
  | ALen => (v, outcome (api_len v))
  | AType => (v, outcome (value_type v))
  end.
(** A series of calls; the order of maps and the default options may be others at
    every call. *)
Fixpoint series (E : Env) (v : V) (l : list (World * opt * act)) : V * list (res unit) :=
  match l with
  | [] => (v, [])
  | (W, d, a) :: r =>
    let '(v', x) := perform E W d v a in
    let '(v'', xs) := series E v' r in (v'', x :: xs)
  end.
