(** Iteration whose callback edits the value that is iterated over: iteration.go with
    the slice and map operations of set.go and insert_append_delete.go.

    Iter.v has callbacks that leave the value alone.  Here the callback answers with
    calls that are made on the value before the loop goes on.  The children of an array
    lie in a Go slice: a backing array, of which the slice shows the first [len] cells.
    Range works on the slice as it was when the loop began, the calls work on
    the field children.arr, and both may have the same backing array. *)
From Verif Require Import Base Utf8 Float64 Value Scan Opt Marshal Access Path Edit Iter.

(** *** Slices *)

(** The backing arrays of *V that have been allocated, each with all its cells; a
    cell that was never written is nil. *)
Definition mem := list (list V).

(** All slices of children begin at cell 0 of their array: no code reslices from the
    left.  The capacity is the number of cells of the array. *)
Record slice := Slice { sl_arr : nat; sl_len : nat }.

Definition cells (m : mem) (s : slice) : list V := nth (sl_arr s) m [].
(** What the slice shows. *)
Definition view (m : mem) (s : slice) : list V := firstn (sl_len s) (cells m s).
(** Replaces the cells of the array of a slice. *)
Definition with_cells (m : mem) (s : slice) (c : list V) : mem := set_nth (sl_arr s) c m.

(** [append(s, x)]; [g n] is the number of unused cells in the array that the runtime
    allocates for a slice of [n] elements that is full. *)
Definition sl_append (g : nat -> nat) (ms : mem * slice) (x : V) : mem * slice :=
  let '(m, s) := ms in
  if (sl_len s <? List.length (cells m s))%nat
  then (with_cells m s (set_nth (sl_len s) x (cells m s)), Slice (sl_arr s) (S (sl_len s)))
  else (m ++ [view m s ++ x :: repeat VNil (g (sl_len s))], Slice (List.length m) (S (sl_len s))).

(** [copy(s[dst:], s[src:])] for a slice of length [len] with cells [c]: the cells are
    moved as if through a buffer. *)
Definition move (len dst src : nat) (c : list V) : list V :=
  let k := Nat.min (len - dst) (len - src) in
  firstn dst c ++ firstn k (skipn src c) ++ skipn (dst + k) c.

(** /repo/set.go:401-412 setAtIndex, /repo/set.go:314-320 posAtIndexForSet; [None] is an
    error, and nothing is changed. *)
Definition m_set_at_index (g : nat -> nat) (ms : mem * slice) (x : V) (pos : Z) : mem * slice :=
  let '(m, s) := ms in
  if pos =? Z.of_nat (sl_len s) then sl_append g ms x
  else match pos_read (sl_len s) pos with
       | Some n => (with_cells m s (set_nth n x (cells m s)), s)
       | None => ms
       end.

(** /repo/insert_append_delete.go:282-286 insertToArr *)
Definition m_insert_to_arr (g : nat -> nat) (ms : mem * slice) (pos : nat) (x : V) : mem * slice :=
  let '(m, s) := sl_append g ms VNil in
  (with_cells m s (set_nth pos x (move (sl_len s) (S pos) pos (cells m s))), s).

(** /repo/insert_append_delete.go:627-632 deleteInArr *)
Definition m_delete_in_arr (ms : mem * slice) (pos : nat) : mem * slice :=
  let '(m, s) := ms in
  (with_cells m s (move (sl_len s) pos (S pos) (set_nth pos VNil (cells m s))), Slice (sl_arr s) (sl_len s - 1)).

(** /repo/sort.go:24-66 SortArray: Len, Less and Swap work on the field children.arr, that
    is, on the cells that it shows. *)
Definition m_sort (W : World) (less : V -> V -> bool) (ms : mem * slice) : mem * slice :=
  let '(m, s) := ms in
  (with_cells m s (go_sort W less (view m s) ++ skipn (sl_len s) (cells m s)), s).

(** *** Calls on the array *)

(** What a callback does to the array: v.Set(x).At(pos), v.Insert(x).Before(pos),
    v.Insert(x).After(pos), v.Append(x).InTheBeginning(), v.Append(x).InTheEnd(),
    v.Delete(pos), for a *V x; v.SortArray(less), where the world tells what sort.Sort
    does with elements that are alike and with functions that are no order. *)
Inductive acall :=
| ASet (x : V) (pos : Z)
| ABefore (x : V) (pos : Z)
| AAfter (x : V) (pos : Z)
| ABegin (x : V)
| AEnd (x : V)
| ADelete (pos : Z)
| ASort (W : World) (less : V -> V -> bool).

(** The array after the call; the error is left to the callback.
    /repo/set.go:176-241 At, atLastParam; /repo/insert_append_delete.go:196-214 and
    245-267 (Before, After), 430-518 InTheBeginning, InTheEnd, 613-625
    deleteInCurrentArray.  Set refuses a nil or NotExist value.  After with the last
    position, and InTheBeginning of an empty array, append (/repo/unmarshal.go:168-173
    appendToArr: an array that has none gets one of 32 cells). *)
Definition a_exec (g : nat -> nat) (ms : mem * slice) (a : acall) : mem * slice :=
  let n := sl_len (snd ms) in
  match a with
  | ASet x pos => if uninitialized x then ms else m_set_at_index g ms x pos
  | ABefore x pos => match pos_insert_before n pos with Some k => m_insert_to_arr g ms k x | None => ms end
  | AAfter x pos =>
    match pos_insert_after n pos with
    | Some k => if pos =? -1 then sl_append g ms x else m_insert_to_arr g ms k x
    | None => ms
    end
  | ABegin x => if (n =? 0)%nat then sl_append g ms x else m_insert_to_arr g ms 0 x
  | AEnd x => sl_append g ms x
  | ADelete pos => match pos_read n pos with Some k => m_delete_in_arr ms k | None => ms end
  | ASort W less => m_sort W less ms
  end.
Definition a_execs (g : nat -> nat) (ms : mem * slice) (l : list acall) : mem * slice := fold_left (a_exec g) l ms.

(** A callback: its state, what the array shows when it is called, the position and the
    child to its state then, the calls it makes on the array, and whether to go on. *)
Definition acallback (S : Type) := S -> list V -> Z -> V -> S * list acall * bool.

(** One call of the callback: what the array showed then, the position, the child. *)
Definition arecord := (list V * Z * V)%type.

(** /repo/iteration.go:121-125 (RangeArray), with [arr] the array of the slice that the
    range expression gave and [todo] the elements of it that are left.  The cell is
    read when its turn comes. *)
Fixpoint range_cells {S} (g : nat -> nat) (cb : acallback S) (arr todo i : nat) (st : S) (ms : mem * slice)
  : list arecord * (mem * slice) :=
  match todo with
  | O => ([], ms)
  | Datatypes.S todo' =>
    let x := nth i (nth arr (fst ms) []) VNil in
    let now := view (fst ms) (snd ms) in
    let '(st', calls, go) := cb st now (Z.of_nat i) x in
    let ms' := a_execs g ms calls in
    if go then
      let '(t, r) := range_cells g cb arr todo' (Datatypes.S i) st' ms' in
      ((now, Z.of_nat i, x) :: t, r)
    else ([(now, Z.of_nat i, x)], ms')
  end.

(** v.RangeArray(callback) with a callback that makes calls on v *)
Definition range_array_live {S} g (cb : acallback S) (st : S) (ms : mem * slice) : list arecord * (mem * slice) :=
  range_cells g cb (sl_arr (snd ms)) (sl_len (snd ms)) 0 st ms.

(** [for i, child := range v.ForRangeArr() { ... }] with calls on v in the body;
    /repo/iteration.go:146-149 ForRangeArr copies the elements into an array of its own. *)
Definition for_range_arr_live {S} g (cb : acallback S) (st : S) (ms : mem * slice) : list arecord * (mem * slice) :=
  let '(m, s) := ms in
  range_cells g cb (List.length m) (sl_len s) 0 st (m ++ [view m s], s).

(** *** Calls on the object *)

(** v.Set(x).At(key) and v.Delete(key) *)
Inductive ocall :=
| OSet (key : bytes) (x : V)
| ODelete (key : bytes).

Definition o_exec (E : Env) (W : World) (v : V) (a : ocall) : V :=
  match a with
  | OSet k x => fst (set_at E v (arg_v x) (PStr k) [])
  | ODelete k => fst (delete_at E W false v (PStr k) [])
  end.

Definition ocallback (S : Type) := S -> V -> bytes -> V -> S * list ocall * bool.
Definition orecord := (V * bytes * V)%type.

Definition key_of (e : bytes) : bytes -> bool := fun k => negb (beqb e k).

(** Go's rule for ranging over a map that changes (Go specification, "For statements
    with range clause").  [must]: the entries that were there at the beginning, have not
    been reached and have not been removed.  [may]: the entries made since.  An entry
    that is removed before it is reached is not produced; one that is made may be
    produced or skipped.  Assigning to a key that is there does not make an entry. *)
Definition track (v : V) (mm : list bytes * list bytes) (a : ocall) (v' : V) : list bytes * list bytes :=
  let '(must, may) := mm in
  match a with
  | OSet k _ => match alookup k (object_of v), alookup k (object_of v') with
                | None, Some _ => (must, k :: may)
                | _, _ => mm
                end
  | ODelete k => (filter (key_of k) must, filter (key_of k) may)
  end.
Fixpoint o_execs (E : Env) (W : World) (v : V) (mm : list bytes * list bytes) (l : list ocall)
  : V * (list bytes * list bytes) :=
  match l with
  | [] => (v, mm)
  | a :: r => let v' := o_exec E W v a in o_execs E W v' (track v mm a v') r
  end.

(** /repo/iteration.go:32-37 (RangeObjects): [range_map … mm st v t v' all], from the
    object [v] the loop may call the callback as recorded in [t] and leave [v']; [all]
    tells whether it ran to its end. *)
Inductive range_map {S} (E : Env) (W : World) (cb : ocallback S)
  : list bytes * list bytes -> S -> V -> list orecord -> V -> bool -> Prop :=
| RM_end may st v : range_map E W cb ([], may) st v [] v true
| RM_stop must may st v k id x st' calls v' mm' :
    In k must \/ In k may -> alookup k (object_of v) = Some (id, x) ->
    cb st v k x = (st', calls, false) ->
    o_execs E W v (filter (key_of k) must, filter (key_of k) may) calls = (v', mm') ->
    range_map E W cb (must, may) st v [(v, k, x)] v' false
| RM_go must may st v k id x st' calls v1 mm1 t v' all :
    In k must \/ In k may -> alookup k (object_of v) = Some (id, x) ->
    cb st v k x = (st', calls, true) ->
    o_execs E W v (filter (key_of k) must, filter (key_of k) may) calls = (v1, mm1) ->
    range_map E W cb mm1 st' v1 t v' all ->
    range_map E W cb (must, may) st v ((v, k, x) :: t) v' all.

(** v.RangeObjects(callback) with a callback that makes calls on v *)
Definition range_objects_live {S} E W (cb : ocallback S) (st : S) (v : V) : list orecord -> V -> bool -> Prop :=
  range_map E W cb (akeys (object_of v), []) st v.

(** /repo/iteration.go:59-75: the loop over the entries gathered beforehand, of
    RangeObjectsBySetSequence; the same for [range v.ForRangeObj()] and the order
    of that map. *)
Fixpoint range_entries {S} (E : Env) (W : World) (cb : ocallback S) (es : list (bytes * V)) (st : S) (v : V)
  : list orecord * V :=
  match es with
  | [] => ([], v)
  | (k, x) :: r =>
    let '(st', calls, go) := cb st v k x in
    let v' := fold_left (o_exec E W) calls v in
    if go then let '(t, w) := range_entries E W cb r st' v' in ((v, k, x) :: t, w)
    else ([(v, k, x)], v')
  end.
Definition range_by_set_live {S} E W (path : list key) (cb : ocallback S) (st : S) (v : V) : list orecord * V :=
  range_entries E W cb
    (entries (go_sort W (fun a b : kv => fst (snd a) <=? fst (snd b)) (go_range W path (object_of v)))) st v.
