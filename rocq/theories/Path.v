(** Parameters of Get / At / Insert / Append / Delete, reading along a path, and
    the typed getters (conv.go, get.go, set.go). *)
From Verif Require Import Base Utf8 Float64 Value Scan Opt Marshal Access.

(** A Go value passed where a parameter of type [any] is expected: a signed
    integer kind, an unsigned integer kind (uintptr excepted), a string kind, a
    slice or array kind, nil, anything else. *)
Inductive param :=
| PInt (i : Z)
| PUint (u : Z)
| PStr (s : bytes)
| PSlice (l : list param)
| PNil
| POther.

(** /repo/conv.go:136-149 anyToInt; int has 64 bits, the conversion int(uint64) wraps *)
Definition any_to_int (p : param) : res Z :=
  match p with
  | PInt i => Ok i
  | PUint u => Ok (wrap_i64 u)
  | PNil => Err ErrParameterError
  | _ => Err EOther
  end.

(** /repo/conv.go:151-161 anyToString *)
Definition any_to_string (p : param) : res bytes :=
  match p with
  | PStr s => Ok s
  | _ => Err ErrParameterError
  end.

(** /repo/conv.go:163-184 isSliceAndExtractDividedParams and its use at the
    start of get, At, Before, After, delete (/repo/get.go:43-48, /repo/set.go:180-185,
    /repo/insert_append_delete.go:184-189, 233-238, 566-571): slices are opened until
    the first parameter is not a slice.  [None]: further parameters follow a slice. *)
Fixpoint peel (p : param) (others : list param) {struct p} : option (param * list param) :=
  match p with
  | PSlice l =>
    match others with
    | [] => match l with
            | [] => Some (PNil, [])
            | p1 :: p2 => peel p1 p2
            end
    | _ :: _ => None
    end
  | _ => Some (p, others)
  end.

(** Fuel for the recursion over parameters. *)
Fixpoint psize (p : param) : nat :=
  match p with
  | PSlice l => S (S ((fix go (l : list param) : nat :=
                         match l with [] => 0%nat | x :: r => (psize x + go r)%nat end) l))
  | _ => 1%nat
  end.
Fixpoint psum (l : list param) : nat :=
  match l with [] => 0%nat | x :: r => (psize x + psum r)%nat end.

(** Where a child sits in its parent: an element of an array or the entry of an
    object.  In Go it is reached through a pointer; here by its place, so that
    a change of the child can be put back into the parent. *)
Inductive hop := HIdx (n : nat) | HKey (k : bytes).

Definition child_at (v : V) (h : hop) : option V :=
  match v, h with
  | VArr l, HIdx n => nth_error l n
  | VObj _ kvs _, HKey k => match alookup k kvs with Some (_, x) => Some x | None => None end
  | _, _ => None
  end.

Fixpoint set_nth {A} (n : nat) (a : A) (l : list A) : list A :=
  match l, n with
  | [], _ => []
  | _ :: r, O => a :: r
  | x :: r, S n' => x :: set_nth n' a r
  end.

Definition put_child (v : V) (h : hop) (c : V) : V :=
  match v, h with
  | VArr l, HIdx n => VArr (set_nth n c l)
  | VObj i kvs lo, HKey k =>
    match alookup k kvs with
    | Some (id, _) => VObj i (aset k (id, c) kvs) lo
    | None => v
    end
  | _, _ => v
  end.

Fixpoint sub_at (v : V) (hs : list hop) : option V :=
  match hs with
  | [] => Some v
  | h :: r => match child_at v h with Some c => sub_at c r | None => None end
  end.

Fixpoint put_at (v : V) (hs : list hop) (c : V) : V :=
  match hs with
  | [] => c
  | h :: r => match child_at v h with Some x => put_child v h (put_at x r c) | None => v end
  end.

(** /repo/set.go:372-391 posAtIndexForRead, used by /repo/set.go:393-399
    childAtIndex; [None] for -1 *)
Definition pos_read (le : nat) (pos : Z) : option nat :=
  let n := Z.of_nat le in
  if n =? 0 then None
  else if pos <? 0 then
    let p := pos + n in
    if p <? 0 then None else Some (Z.to_nat p)
  else if n <=? pos then None
  else Some (Z.to_nat pos).

(** /repo/get.go:60-68 initCaselessStorage.  The map that results does not depend
    on the order in which the keys are visited.  Here and below [A] is what stands
    for a child: a value, or a pointer in Heap.v. *)
Definition init_caseless {A} (E : Env) (kvs : list (bytes * (Z * A))) (lower : option (list (bytes * list bytes)))
  : option (list (bytes * list bytes)) :=
  match lower with
  | Some _ => lower
  | None => fold_left (fun lo k => add_caseless_key E k lo) (akeys kvs) (Some [])
  end.

(** The keys of the map [lowerCaseKeys] for the lower-cased key, in the order in
    which a range loop visits them. *)
Definition caseless_keys (E : Env) (W : World) (key : bytes) (lower : option (list (bytes * list bytes)))
  : list bytes :=
  match lower with
  | None => []
  | Some m => match alookup (to_lower E key) m with
              | None => []
              | Some ks => go_range W [string_key key] ks
              end
  end.

Fixpoint first_existing {A} (kvs : list (bytes * (Z * A))) (ks : list bytes) : option bytes :=
  match ks with
  | [] => None
  | k :: r => match alookup k kvs with Some _ => Some k | None => first_existing kvs r end
  end.

(** /repo/get.go:70-96 getFromObjectChildren: the key under which the child is
    found and the lowerCaseKeys field afterwards. *)
Definition find_key {A} (E : Env) (W : World) (caseless : bool) (key : bytes)
    (kvs : list (bytes * (Z * A))) (lower : option (list (bytes * list bytes)))
  : option (list (bytes * list bytes)) * option bytes :=
  match alookup key kvs with
  | Some _ => (lower, Some key)
  | None =>
    if caseless then
      let lower' := init_caseless E kvs lower in
      (lower', first_existing kvs (caseless_keys E W key lower'))
    else (lower, None)
  end.

(** /repo/get.go:98-133 getInCurrentValue, getInCurrentArray, getInCurrentObject:
    the value after the call (the caseless index may have been built) and
    the place of the child.  A nil *V panics. *)
Definition find_child (E : Env) (W : World) (caseless : bool) (v : V) (p : param) : V * res hop :=
  match v with
  | VArr l =>
    (v, let* pos := any_to_int p in
        match pos_read (List.length l) pos with
        | Some n => Ok (HIdx n)
        | None => Err ErrOutOfRange
        end)
  | VObj i kvs lo =>
    match any_to_string p with
    | Ok key =>
      let '(lo', r) := find_key E W caseless key kvs lo in
      (VObj i kvs lo', match r with Some k => Ok (HKey k) | None => Err ErrNotFound end)
    | Err e => (v, Err e)
    | Panic => (v, Panic)
    | Fuel => (v, Fuel)
    end
  | VNil => (v, Panic)
  | _ => (v, Err EOther)
  end.

(** /repo/get.go:42-58 get: the document afterwards and the place of the value
    found. *)
Fixpoint locate_f (E : Env) (W : World) (fuel : nat) (caseless : bool)
    (v : V) (first : param) (others : list param) : V * res (list hop) :=
  match fuel with
  | O => (v, Fuel)
  | S f =>
    match peel first others with
    | None => (v, Err ErrMultipleParam)
    | Some (p, r) =>
      let '(v', h) := find_child E W caseless v p in
      match h with
      | Ok h =>
        match r with
        | [] => (v', Ok [h])
        | q :: r' =>
          match child_at v' h with
          | None => (v', Panic) (* not reachable *)
          | Some c =>
            let '(c', t) := locate_f E W f caseless c q r' in
            (put_child v' h c', let* t := t in Ok (h :: t))
          end
        end
      | Err e => (v', Err e)
      | Panic => (v', Panic)
      | Fuel => (v', Fuel)
      end
    end
  end.

Definition locate (E : Env) (W : World) (caseless : bool) (v : V) (first : param) (others : list param)
  : V * res (list hop) :=
  locate_f E W (S (psum (first :: others))) caseless v first others.

(** /repo/get.go:28-30 Get, /repo/get.go:427-429 for the caseless form: the document
    afterwards and the value found. *)
Definition get (E : Env) (W : World) (caseless : bool) (v : V) (first : param) (others : list param)
  : V * res V :=
  let '(v', r) := locate E W caseless v first others in
  (v', let* hs := r in
       match sub_at v' hs with
       | Some c => Ok c
       | None => Panic (* not reachable *)
       end).

(** /repo/get.go:411-421 Caseless: on a value that is no container the
    operations are the ordinary ones; a nil *V panics. *)
Definition caseless_get (E : Env) (W : World) (v : V) (first : param) (others : list param) : V * res V :=
  match v with
  | VArr _ | VObj _ _ _ => get E W true v first others
  | VNil => (v, Panic)
  | _ => get E W false v first others
  end.

(** /repo/get.go:37-40 MustGet, /repo/get.go:431-434 for the caseless form *)
Definition must_get (E : Env) (W : World) (caseless : bool) (v : V) (first : param) (others : list param)
  : V * res V :=
  let '(v', r) := get E W caseless v first others in
  (v', match r with Err _ => Ok VNotExist | _ => r end).

(** *** Typed getters, /repo/get.go:138-373, and /repo/get.go:436-490 for the
    caseless forms ([cl] = true), which make the same calls.  They return a value together with
    an error; [zero] is the value returned when the path leads nowhere. *)
Definition typed {A} (zero : A) (conv : V -> res (A * option err)) (r : res V) : res (A * option err) :=
  match r with
  | Ok c => conv c
  | Err e => Ok (zero, Some e)
  | Panic => Panic
  | Fuel => Fuel
  end.

(** [ret, err = getNumberAndErrorFromValue(ret); return ret.Xxx(), err] *)
Definition num_conv {A} (E : Env) (x : V -> res A) (c : V) : res (A * option err) :=
  let* (n, e) := number_and_error E c in
  let* a := x n in
  Ok (a, e).

Definition get_int E W cl v f o : res (Z * option err) :=
  typed 0 (num_conv E (api_int E)) (snd (get E W cl v f o)).
Definition get_uint E W cl v f o : res (Z * option err) :=
  typed 0 (num_conv E (api_uint E)) (snd (get E W cl v f o)).
Definition get_int64 E W cl v f o : res (Z * option err) :=
  typed 0 (num_conv E (api_int64 E)) (snd (get E W cl v f o)).
Definition get_uint64 E W cl v f o : res (Z * option err) :=
  typed 0 (num_conv E (api_uint64 E)) (snd (get E W cl v f o)).
Definition get_int32 E W cl v f o : res (Z * option err) :=
  typed 0 (num_conv E (api_int32 E)) (snd (get E W cl v f o)).
Definition get_uint32 E W cl v f o : res (Z * option err) :=
  typed 0 (num_conv E (api_uint32 E)) (snd (get E W cl v f o)).
Definition get_float64 E W cl v f o : res (spec_float * option err) :=
  typed (S754_zero false) (num_conv E (api_float64 E)) (snd (get E W cl v f o)).
Definition get_float32 E W cl v f o : res (spec_float * option err) :=
  typed (S754_zero false) (num_conv E (api_float32 E)) (snd (get E W cl v f o)).
Definition get_bool E W cl v f o : res (bool * option err) :=
  typed false bool_and_error (snd (get E W cl v f o)).
Definition get_string E W cl v f o : res (bytes * option err) :=
  typed [] (fun c => match c with
                     | VStr s => Ok (s, None)
                     | VNil => Panic
                     | _ => Ok ([], Some ErrTypeNotMatch)
                     end) (snd (get E W cl v f o)).
Definition get_null E W cl v f o : res (unit * option err) :=
  typed tt (fun c => match c with
                     | VNull => Ok (tt, None)
                     | VNil => Panic
                     | _ => Ok (tt, Some ErrTypeNotMatch)
                     end) (snd (get E W cl v f o)).
Definition get_object E W cl v f o : res (V * option err) :=
  typed VNotExist (fun c => match c with
                            | VObj _ _ _ => Ok (c, None)
                            | VNil => Panic
                            | _ => Ok (VNotExist, Some ErrTypeNotMatch)
                            end) (snd (get E W cl v f o)).
Definition get_array E W cl v f o : res (V * option err) :=
  typed VNotExist (fun c => match c with
                            | VArr _ => Ok (c, None)
                            | VNil => Panic
                            | _ => Ok (VNotExist, Some ErrTypeNotMatch)
                            end) (snd (get E W cl v f o)).
