(** Basic vocabulary of the model: byte strings, Go errors as values, run-time
    panics as values, fixed-width integer wrapping.  Nothing here models a
    particular Go function except where cited. *)
From Coq Require Export List ZArith Bool Ascii String Lia.
From Coq Require Export SpecFloat.
Export ListNotations.
Open Scope Z_scope.
Open Scope list_scope.

(** A byte is a [Z]; a Go [string] or [[]byte] is a list of bytes. *)
Notation byte := Z (only parsing).
Notation bytes := (list Z) (only parsing).

Definition is_byte (b : Z) : Prop := 0 <= b < 256.
Definition is_byteb (b : Z) : bool := (0 <=? b) && (b <? 256).

(** String literals as byte strings (used in examples and for constants). *)
Fixpoint bs (s : string) : bytes :=
  match s with
  | EmptyString => []
  | String c r => Z.of_N (N_of_ascii c) :: bs r
  end.

(** The sentinel errors of /repo/errors.go:11-99 that occur in the model.
    [EOther] stands for any error that wraps none of them
    (errors.New / fmt.Errorf without %w). *)
Inductive err :=
| ErrNilParameter | ErrValueUninitialized | ErrRawBytesUnrecognized
| ErrNotValidNumberValue | ErrNotValidBoolValue | ErrNotValidNullValue
| ErrOutOfRange | ErrNotFound | ErrTypeNotMatch | ErrParseNumberFromString
| ErrNotArrayValue | ErrNotObjectValue | ErrIllegalString
| ErrUnsupportedFloat | ErrUnsupportedFloatInOpt
| ErrMultipleParam | ErrParameterError
| EOther.

(** Outcome of a Go function that returns [(A, error)]: [Panic] is a Go
    run-time panic, [Fuel] means that the fuel of the model ran out (never a
    Go behaviour; theorems exclude it). *)
Inductive res (A : Type) :=
| Ok (a : A)
| Err (e : err)
| Panic
| Fuel.
Arguments Ok {A} _.
Arguments Err {A} _.
Arguments Panic {A}.
Arguments Fuel {A}.

Definition rbind {A B} (m : res A) (k : A -> res B) : res B :=
  match m with
  | Ok a => k a
  | Err e => Err e
  | Panic => Panic
  | Fuel => Fuel
  end.

Notation "'let*' x := m 'in' k" := (rbind m (fun x => k))
  (at level 200, x pattern, m at level 100, k at level 200, right associativity).

(** Slice indexing [b[i]]: out of range panics. *)
Definition bget (b : bytes) (i : nat) : res Z :=
  match nth_error b i with
  | Some c => Ok c
  | None => Panic
  end.

(** List update, used for [b[i] = c]. *)
Fixpoint upd {A} (l : list A) (i : nat) (x : A) : list A :=
  match l, i with
  | [], _ => []
  | _ :: t, O => x :: t
  | h :: t, S j => h :: upd t j x
  end.

(** [b[i] = c]: out of range panics. *)
Definition bset (b : bytes) (i : nat) (c : Z) : res bytes :=
  if (i <? List.length b)%nat then Ok (upd b i c) else Panic.

(** Slice expression [b[i:j]]: panics unless i <= j <= len(b) (the capacity
    of the buffers of the parser equals their length). *)
Definition bslice (b : bytes) (i j : nat) : res bytes :=
  if ((i <=? j) && (j <=? List.length b))%nat
  then Ok (firstn (j - i) (skipn i b)) else Panic.

(** Byte string equality. *)
Fixpoint beqb (a b : bytes) : bool :=
  match a, b with
  | [], [] => true
  | x :: a', y :: b' => (x =? y) && beqb a' b'
  | _, _ => false
  end.

(** Lexicographic byte order (Go's [<] on strings). *)
Fixpoint bltb (a b : bytes) : bool :=
  match a, b with
  | _, [] => false
  | [], _ :: _ => true
  | x :: a', y :: b' => (x <? y) || ((x =? y) && bltb a' b')
  end.

(** Fixed width integers: wrapping to int64, uint64, int32, uint32. *)
Definition two64 : Z := 18446744073709551616.
Definition two63 : Z := 9223372036854775808.
Definition two32 : Z := 4294967296.
Definition two31 : Z := 2147483648.
Definition wrap_u64 (z : Z) : Z := z mod two64.
Definition wrap_i64 (z : Z) : Z := (z + two63) mod two64 - two63.
Definition wrap_u32 (z : Z) : Z := z mod two32.
Definition wrap_i32 (z : Z) : Z := (z + two31) mod two32 - two31.

Arguments wrap_u64 : simpl never.
Arguments wrap_i64 : simpl never.
Arguments wrap_u32 : simpl never.
Arguments wrap_i32 : simpl never.

(** Association lists: the finite maps of the model. *)
Fixpoint alookup {A} (k : bytes) (l : list (bytes * A)) : option A :=
  match l with
  | [] => None
  | (k', a) :: r => if beqb k k' then Some a else alookup k r
  end.

Fixpoint aremove {A} (k : bytes) (l : list (bytes * A)) : list (bytes * A) :=
  match l with
  | [] => []
  | (k', a) :: r => if beqb k k' then aremove k r else (k', a) :: aremove k r
  end.

(** [m[k] = a]: replaces the binding in place, or adds one at the end. *)
Fixpoint aset {A} (k : bytes) (a : A) (l : list (bytes * A)) : list (bytes * A) :=
  match l with
  | [] => [(k, a)]
  | (k', a') :: r => if beqb k k' then (k', a) :: r else (k', a') :: aset k a r
  end.

Definition akeys {A} (l : list (bytes * A)) : list bytes := map fst l.
