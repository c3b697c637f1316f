(** Iteration (iteration.go) and SortArray (sort.go). *)
From Verif Require Import Base Float64 Value Opt Marshal Access.

(** A callback: what it has gathered so far, and the entry it is called with, to
    what it has gathered then and whether to go on.  It does not change the
    value that is iterated over. *)
Definition callback (S A : Type) := S -> A -> S * bool.

(** [for _, x := range l { if ok := callback(x); !ok { break } }] *)
Fixpoint range_list {S A} (cb : callback S A) (l : list A) (s : S) : S :=
  match l with
  | [] => s
  | x :: r => let '(s', go) := cb s x in if go then range_list cb r s' else s'
  end.

(** The entries of a map as the callback sees them. *)
Definition entries (kvs : list kv) : list (bytes * V) := map (fun e : kv => (fst e, snd (snd e))) kvs.

(** The children of a value, as the fields children.object and children.arr; a
    value of another type has none. *)
Definition object_of (v : V) : list kv := match v with VObj _ kvs _ => kvs | _ => [] end.
Definition array_of (v : V) : list V := match v with VArr l => l | _ => [] end.

(** /repo/iteration.go:24-38 RangeObjects; [None] is a nil callback.  [path]
    names the object for the iteration oracle. *)
Definition range_objects {S} (W : World) (path : list key) (v : V) (cb : option (callback S (bytes * V))) (s : S) : res S :=
  let* o := api_is_object v in
  if negb o then Ok s
  else match cb with
       | None => Ok s
       | Some f => Ok (range_list f (go_range W path (entries (object_of v))) s)
       end.

(** /repo/iteration.go:45-76 RangeObjectsBySetSequence: the entries, gathered in
    the order of iteration, are sorted by [id <= id]. *)
Definition range_objects_by_set {S} (W : World) (path : list key) (v : V) (cb : option (callback S (bytes * V))) (s : S) : res S :=
  let* o := api_is_object v in
  if negb o then Ok s
  else match cb with
       | None => Ok s
       | Some f =>
         let kvs := go_sort W (fun a b : kv => fst (snd a) <=? fst (snd b)) (go_range W path (object_of v)) in
         Ok (range_list f (entries kvs) s)
       end.

(** /repo/iteration.go:79-92 IterObjects: what the channel delivers until it is
    closed.  The channel has room for all entries. *)
Definition iter_objects (W : World) (path : list key) (v : V) : res (list (bytes * V)) :=
  on_value (fun v => go_range W path (entries (object_of v))) v.

(** /repo/iteration.go:97-103 ForRangeObj: the map that is built. *)
Definition for_range_obj (W : World) (path : list key) (v : V) : res (list (bytes * V)) :=
  on_value (fun v => fold_left (fun m e => aset (fst e) (snd e) m) (go_range W path (entries (object_of v))) []) v.

(** The elements with their positions. *)
Fixpoint indexed {A} (i : Z) (l : list A) : list (Z * A) :=
  match l with [] => [] | x :: r => (i, x) :: indexed (i + 1) r end.

(** /repo/iteration.go:112-125 RangeArray *)
Definition range_array {S} (v : V) (cb : option (callback S (Z * V))) (s : S) : res S :=
  let* a := api_is_array v in
  if negb a then Ok s
  else match cb with
       | None => Ok s
       | Some f => Ok (range_list f (indexed 0 (array_of v)) s)
       end.

(** /repo/iteration.go:128-141 IterArray: what the channel delivers *)
Definition iter_array (v : V) : res (list (Z * V)) := on_value (fun v => indexed 0 (array_of v)) v.

(** /repo/iteration.go:146-149 ForRangeArr *)
Definition for_range_arr (v : V) : res (list V) := on_value array_of v.

(** /repo/sort.go:24-66 SortArray with the methods Len, Less, Swap: the value
    afterwards.  [None] is a nil function; the function does not change the
    values and answers the same when asked again. *)
Definition sort_array (W : World) (v : V) (less : option (V -> V -> bool)) : res V :=
  match less with
  | None => Ok v
  | Some f =>
    let* a := api_is_array v in
    if negb a then Ok v else Ok (VArr (go_sort W f (array_of v)))
  end.
