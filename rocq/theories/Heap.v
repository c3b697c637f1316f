(** Values as they lie in memory: a *V is an address, and a container holds the
    addresses of its children (jsonvalue.go, get.go, set.go,
    insert_append_delete.go, import_export.go).

    Value.v, Path.v and Edit.v read a document as a tree.  Here the same
    functions work on addresses, so two containers may hold the same child and
    a container may even be reachable from itself. *)
From Verif Require Import Base Utf8 Float64 Value Scan Unmarshal Opt Marshal Access Path Edit.

(** A *V: [None] is nil. *)
Definition ptr := option nat.

(** /repo/jsonvalue.go:102-133: one V struct.  The same sum as [V] in Value.v,
    with addresses for children. *)
Inductive cell :=
| CNotExist
| CStr (s : bytes)
| CNum (n : num) (src : bytes)
| CObj (incr : Z) (kvs : list (bytes * (Z * ptr))) (lower : option (list (bytes * list bytes)))
| CArr (l : list ptr)
| CBool (b : bool)
| CNull
| CUnknown.

(** The memory: the struct at address n is the n-th of the list.  Nothing is ever
    freed, an address that is in use is never given out again. *)
Definition heap := list cell.

Definition deref (h : heap) (p : ptr) : option cell :=
  match p with Some a => nth_error h a | None => None end.
Definition store (h : heap) (p : ptr) (c : cell) : heap :=
  match p with Some a => set_nth a c h | None => h end.
Definition alloc (h : heap) (c : cell) : heap * ptr := (h ++ [c], Some (List.length h)).

(** *** Reading *)

(** /repo/get.go:98-133 getInCurrentValue, getInCurrentArray, getInCurrentObject.
    The caseless index of the object may be built. *)
Definition h_find (E : Env) (W : World) (caseless : bool) (h : heap) (v : ptr) (p : param) : heap * res ptr :=
  match deref h v with
  | Some (CArr l) =>
    (h, let* pos := any_to_int p in
        match pos_read (List.length l) pos with
        | Some n => Ok (nth n l None)
        | None => Err ErrOutOfRange
        end)
  | Some (CObj i kvs lo) =>
    match any_to_string p with
    | Ok key =>
      let '(lo', r) := find_key E W caseless key kvs lo in
      (store h v (CObj i kvs lo'),
       match r with
       | Some k => match alookup k kvs with Some (_, q) => Ok q | None => Err ErrNotFound end
       | None => Err ErrNotFound
       end)
    | Err e => (h, Err e) | Panic => (h, Panic) | Fuel => (h, Fuel)
    end
  | Some _ => (h, Err EOther)
  | None => (h, Panic)
  end.

(** /repo/get.go:42-58 get *)
Fixpoint h_get_f (E : Env) (W : World) (fuel : nat) (caseless : bool) (h : heap) (v : ptr)
    (first : param) (others : list param) : heap * res ptr :=
  match fuel with
  | O => (h, Fuel)
  | S f =>
    match peel first others with
    | None => (h, Err ErrMultipleParam)
    | Some (p, r) =>
      let '(h', c) := h_find E W caseless h v p in
      match c with
      | Ok c =>
        match r with
        | [] => (h', Ok c)
        | q :: r' => h_get_f E W f caseless h' c q r'
        end
      | e => (h', e)
      end
    end
  end.

(** /repo/get.go:28-30 Get, and 427-429 for the caseless form *)
Definition h_get (E : Env) (W : World) (caseless : bool) (h : heap) (v : ptr) (first : param) (others : list param)
  : heap * res ptr :=
  h_get_f E W (S (psum (first :: others))) caseless h v first others.

(** /repo/get.go:358-371 GetArray *)
Definition h_get_array (E : Env) (W : World) (h : heap) (v : ptr) (first : param) (others : list param)
  : heap * res ptr :=
  let '(h', r) := h_get E W false h v first others in
  (h', match r with
       | Ok c => match deref h' c with
                 | Some (CArr _) => Ok c
                 | Some _ => Err ErrTypeNotMatch
                 | None => Panic
                 end
       | e => e
       end).

(** *** Set *)

(** [nil == v || v.valueType == NotExist] *)
Definition h_uninitialized (h : heap) (v : ptr) : bool :=
  match deref h v with None | Some CNotExist => true | _ => false end.

(** /repo/set.go:167-174 setToObjectChildren.  [None]: not an object, where the Go
    code panics. *)
Definition h_set_to_object (E : Env) (h : heap) (v : ptr) (key : bytes) (child : ptr) : option heap :=
  match deref h v with
  | Some (CObj incr kvs lower) =>
    let incr' := wrap_u32 (incr + 1) in
    Some (store h v (CObj incr' (aset key (incr', child) kvs) (add_caseless_key E key lower)))
  | _ => None
  end.

(** /repo/insert_append_delete.go:282-286 insertToArr and /repo/unmarshal.go:168-173
    appendToArr, which is insertion at the end; [pos] gives the position.
    [None]: not an array, which the callers exclude. *)
Definition h_insert_to_arr (h : heap) (v : ptr) (pos : list ptr -> nat) (c : ptr) : option heap :=
  match deref h v with
  | Some (CArr l) => Some (store h v (CArr (insert_to_arr l (pos l) c)))
  | _ => None
  end.

(** /repo/set.go:214-241 atLastParam *)
Definition h_at_last_param (E : Env) (h : heap) (v c : ptr) (p : param) : heap * res ptr :=
  match deref h v with
  | Some (CObj _ _ _) =>
    match any_to_string p with
    | Ok k => match h_set_to_object E h v k c with
              | Some h' => (h', Ok c)
              | None => (h, Panic)
              end
    | Err e => (h, Err e) | Panic => (h, Panic) | Fuel => (h, Fuel)
    end
  | Some (CArr l) =>
    match any_to_int p with
    | Ok pos => match set_at_index l c pos with
                | Ok l' => (store h v (CArr l'), Ok c)
                | Err e => (h, Err e) | Panic => (h, Panic) | Fuel => (h, Fuel)
                end
    | Err e => (h, Err e) | Panic => (h, Panic) | Fuel => (h, Fuel)
    end
  | _ => (h, Err EOther)
  end.

(** /repo/set.go:251-261 and 287-297: the container made for a missing child *)
Definition h_new_container (h : heap) (next : param) : heap * res ptr :=
  match any_to_string next with
  | Ok _ => let '(h', c) := alloc h (CObj 0 [] None) in (h', Ok c)
  | _ => match any_to_int next with
         | Ok i => if i =? 0 then let '(h', c) := alloc h (CArr []) in (h', Ok c)
                   else (h, Err ErrOutOfRange)
         | _ => (h, Err EOther)
         end
  end.

(** /repo/set.go:176-212 At, 243-275 atObject, 277-312 atArray *)
Fixpoint h_set_f (E : Env) (fuel : nat) (h : heap) (v c : ptr) (first : param) (others : list param)
  : heap * res ptr :=
  match fuel with
  | O => (h, Fuel)
  | S f =>
    match peel first others with
    | None => (h, Err ErrMultipleParam)
    | Some (p, r) =>
      if h_uninitialized h v then (h, Err ErrValueUninitialized)
      else if h_uninitialized h c then (h, Err ErrValueUninitialized)
      else
      match r with
      | [] => h_at_last_param E h v c p
      | q :: r' =>
        match deref h v with
        | Some (CObj i kvs lo) =>
          match any_to_string p with
          | Ok k =>
            match alookup k kvs with
            | Some (_, child) => h_set_f E f h child c q r'
            | None =>
              let '(h1, n) := h_new_container h q in
              match n with
              | Ok child =>
                let '(h2, res) := h_set_f E f h1 child c q r' in
                match res with
                | Ok _ => match h_set_to_object E h2 v k child with
                          | Some h3 => (h3, Ok c)
                          | None => (h2, Panic)
                          end
                | e => (h2, e)
                end
              | e => (h1, e)
              end
            end
          | Err e => (h, Err e) | Panic => (h, Panic) | Fuel => (h, Fuel)
          end
        | Some (CArr l) =>
          match any_to_int p with
          | Ok pos =>
            match pos_read (List.length l) pos with
            | Some n => h_set_f E f h (nth n l None) c q r'
            | None =>
              let '(h1, n) := h_new_container h q in
              match n with
              | Ok child =>
                let '(h2, res) := h_set_f E f h1 child c q r' in
                match res with
                | Ok _ => match h_insert_to_arr h2 v (@List.length ptr) child with
                          | Some h3 => (h3, Ok c)
                          | None => (h2, Panic)
                          end
                | e => (h2, e)
                end
              | e => (h1, e)
              end
            end
          | Err e => (h, Err e) | Panic => (h, Panic) | Fuel => (h, Fuel)
          end
        | _ => (h, Err EOther)
        end
      end
    end
  end.

(** v.Set(c).At(first, others...) where c is a *V *)
Definition h_set (E : Env) (h : heap) (v c : ptr) (first : param) (others : list param) : heap * res ptr :=
  h_set_f E (S (psum (first :: others))) h v c first others.

(** *** Insert *)

(** The last iteration, /repo/insert_append_delete.go:196-214 and 245-267 *)
Definition h_insert_last (after : bool) (h : heap) (v c : ptr) (p : param) : heap * res ptr :=
  match deref h v with
  | Some (CArr l) =>
    match any_to_int p with
    | Ok pos =>
      match (if after then pos_insert_after (List.length l) pos
             else pos_insert_before (List.length l) pos) with
      | Some n => (store h v (CArr (insert_to_arr l n c)), Ok c)
      | None => (h, Err ErrOutOfRange)
      end
    | Err e => (h, Err e) | Panic => (h, Panic) | Fuel => (h, Fuel)
    end
  | _ => (h, Err ErrNotArrayValue)
  end.

(** /repo/insert_append_delete.go:180-227 Before ([after] = false) and 229-280 After *)
Fixpoint h_insert_f (E : Env) (W : World) (fuel : nat) (after : bool) (h : heap) (v c : ptr)
    (first : param) (others : list param) : heap * res ptr :=
  match fuel with
  | O => (h, Fuel)
  | S f =>
    match peel first others with
    | None => (h, Err ErrMultipleParam)
    | Some (p, r) =>
      match deref h v with
      | None => (h, if after then Err ErrValueUninitialized else Panic)
      | Some CNotExist => (h, Err ErrValueUninitialized)
      | Some _ =>
        match r with
        | [] => h_insert_last after h v c p
        | _ :: _ =>
          let '(h', t) := h_get_array E W h v p (removelast r) in
          match t with
          | Ok child => h_insert_f E W f after h' child c (last r PNil) []
          | e => (h', e)
          end
        end
      end
    end
  end.

(** v.Insert(c).Before(first, others...) and .After(first, others...) *)
Definition h_insert (E : Env) (W : World) (after : bool) (h : heap) (v c : ptr)
    (first : param) (others : list param) : heap * res ptr :=
  h_insert_f E W (S (psum (first :: others))) after h v c first others.

(** *** Append *)

(** /repo/insert_append_delete.go:430-475 InTheBeginning ([front] = true) and
    480-518 InTheEnd.  A missing array is made, put in its place by SetArray, and
    then filled. *)
Definition h_append (E : Env) (W : World) (front : bool) (h : heap) (v c : ptr) (params : list param)
  : heap * res ptr :=
  let pos := if front then (fun _ : list ptr => 0%nat) else @List.length ptr in
  let add (h : heap) (a : ptr) : heap * res ptr :=
    match h_insert_to_arr h a pos c with
    | Some h' => (h', Ok c)
    | None => (h, Panic)
    end in
  match deref h v with
  | None => (h, if front then Err ErrValueUninitialized else Panic)
  | Some CNotExist => (h, Err ErrValueUninitialized)
  | Some cv =>
    match joint_params params with
    | None => (h, Err ErrMultipleParam)
    | Some [] =>
      match cv with
      | CArr _ => add h v
      | _ => (h, Err ErrNotArrayValue)
      end
    | Some (p :: r) =>
      let '(h', t) := h_get_array E W h v p r in
      match t with
      | Ok a => add h' a
      | Err ErrNotFound =>
        let '(h1, a) := alloc h' (CArr []) in
        let '(h2, res) := h_set E h1 v a p r in
        match res with
        | Ok a' => add h2 a'
        | e => (h2, e)
        end
      | e => (h', e)
      end
    end
  end.

(** *** Delete *)

(** /repo/insert_append_delete.go:589-625 deleteInCurrentValue and the two
    functions below it, with 524-555 delFromObjectChildren *)
Definition h_delete_here (E : Env) (W : World) (caseless : bool) (h : heap) (v : ptr) (p : param)
  : heap * res unit :=
  match deref h v with
  | Some (CObj i kvs lo) =>
    match any_to_string p with
    | Ok k =>
      let '(lo', r) := find_key E W caseless k kvs lo in
      match r with
      | Some k' => (store h v (CObj i (aremove k' kvs) (del_caseless_key E k' lo')), Ok tt)
      | None => (store h v (CObj i kvs lo'), Err ErrNotFound)
      end
    | Err e => (h, Err e) | Panic => (h, Panic) | Fuel => (h, Fuel)
    end
  | Some (CArr l) =>
    match any_to_int p with
    | Ok pos =>
      match pos_read (List.length l) pos with
      | Some n => (store h v (CArr (delete_in_arr l n)), Ok tt)
      | None => (h, Err ErrOutOfRange)
      end
    | Err e => (h, Err e) | Panic => (h, Panic) | Fuel => (h, Fuel)
    end
  | Some _ => (h, Err EOther)
  | None => (h, Panic)
  end.

(** /repo/insert_append_delete.go:565-587 delete *)
Fixpoint h_delete_f (E : Env) (W : World) (fuel : nat) (caseless : bool) (h : heap) (v : ptr)
    (first : param) (others : list param) : heap * res unit :=
  match fuel with
  | O => (h, Fuel)
  | S f =>
    match peel first others with
    | None => (h, Err ErrMultipleParam)
    | Some (p, []) => h_delete_here E W caseless h v p
    | Some (p, r) =>
      let '(h', t) := h_get E W caseless h v p (removelast r) in
      match t with
      | Ok child => h_delete_f E W f caseless h' child (last r PNil) []
      | Err e => (h', Err e) | Panic => (h', Panic) | Fuel => (h', Fuel)
      end
    end
  end.

(** /repo/insert_append_delete.go:561-563 Delete and /repo/get.go:492-494 (caseless) *)
Definition h_delete (E : Env) (W : World) (caseless : bool) (h : heap) (v : ptr)
    (first : param) (others : list param) : heap * res unit :=
  h_delete_f E W (S (psum (first :: others))) caseless h v first others.

(** *** deepCopy *)

(** A function that may change the memory, applied along a list. *)
Fixpoint map_heap {A B} (f : heap -> A -> heap * res B) (h : heap) (l : list A) : heap * res (list B) :=
  match l with
  | [] => (h, Ok [])
  | a :: r =>
    let '(h1, b) := f h a in
    match b with
    | Ok b => let '(h2, bs) := map_heap f h1 r in
              (h2, let* bs := bs in Ok (b :: bs))
    | Err e => (h1, Err e) | Panic => (h1, Panic) | Fuel => (h1, Fuel)
    end
  end.

(** /repo/jsonvalue.go:496-525 V.deepCopy and 135-163 children.deepCopy.  The new
    struct of a container is made after the children here, before them in Go,
    and Go visits the members of an object in the order of the map; both decide
    only which addresses the copies get.  The bytes of a string and the slice
    srcByte of a number are shared by the two structs in Go; nothing writes into
    them.  [Fuel]: a container lies inside itself, and Go's stack overflows. *)
Fixpoint h_copy_f (fuel : nat) (h : heap) (v : ptr) : heap * res ptr :=
  match fuel with
  | O => (h, Fuel)
  | S f =>
    let make (h : heap) (c : cell) : heap * res ptr := let '(h', p) := alloc h c in (h', Ok p) in
    match deref h v with
    | None | Some CNotExist | Some CUnknown => make h CNotExist
    | Some (CStr s) => make h (CStr s)
    | Some (CNum n src) => make h (CNum n src)
    | Some (CBool b) => make h (CBool b)
    | Some CNull => make h CNull
    | Some (CArr l) =>
      let '(h1, r) := map_heap (h_copy_f f) h l in
      match r with
      | Ok l' => make h1 (CArr l')
      | Err e => (h1, Err e) | Panic => (h1, Panic) | Fuel => (h1, Fuel)
      end
    | Some (CObj i kvs _) =>
      let '(h1, r) := map_heap (fun h e => let '(k, (id, c)) := e in
                                           let '(h', c') := h_copy_f f h c in
                                           (h', let* c' := c' in Ok (k, (id, c')))) h kvs in
      match r with
      | Ok kvs' => make h1 (CObj i kvs' None)
      | Err e => (h1, Err e) | Panic => (h1, Panic) | Fuel => (h1, Fuel)
      end
    end
  end.

(** Import of a *V, /repo/import_export.go:71, 196-199.  A chain of
    different addresses is never longer than the memory. *)
Definition h_import (h : heap) (v : ptr) : heap * res ptr :=
  match v with
  | None => (h, Ok None)
  | Some _ => h_copy_f (S (S (List.length h))) h v
  end.

(** *** New values *)

(** A whole new document: what Unmarshal, Import of Go data and the New functions
    make.  All structs are new. *)
Fixpoint h_build (h : heap) (v : V) : heap * ptr :=
  match v with
  | VNil => (h, None)
  | VNotExist => alloc h CNotExist
  | VStr s => alloc h (CStr s)
  | VNum n src => alloc h (CNum n src)
  | VBool b => alloc h (CBool b)
  | VNull => alloc h CNull
  | VUnknown => alloc h CUnknown
  | VArr l =>
    let '(h1, ps) := (fix go (h : heap) (l : list V) : heap * list ptr :=
                        match l with
                        | [] => (h, [])
                        | x :: r => let '(h1, p) := h_build h x in
                                    let '(h2, ps) := go h1 r in (h2, p :: ps)
                        end) h l in
    alloc h1 (CArr ps)
  | VObj i kvs lo =>
    let '(h1, ps) := (fix go (h : heap) (l : list (bytes * (Z * V))) : heap * list (bytes * (Z * ptr)) :=
                        match l with
                        | [] => (h, [])
                        | (k, (id, x)) :: r => let '(h1, p) := h_build h x in
                                               let '(h2, ps) := go h1 r in (h2, (k, (id, p)) :: ps)
                        end) h kvs in
    alloc h1 (CObj i ps lo)
  end.

(** *** SortArray *)

(** /repo/sort.go:27-66 SortArray.  [less] gets two elements and reads them in the
    memory as it is before the call: it neither changes anything nor looks at the
    array while it is being sorted. *)
Definition h_sort (W : World) (h : heap) (v : ptr) (less : option (heap -> ptr -> ptr -> bool)) : heap * res ptr :=
  match less with
  | None => (h, Ok None)
  | Some f =>
    match deref h v with
    | None => (h, Panic)
    | Some (CArr l) => (store h v (CArr (go_sort W (f h) l)), Ok None)
    | Some _ => (h, Ok None)
    end
  end.

(** *** UnmarshalJSON *)

(** /repo/marshaler_unmarshaler.go:22-29 UnmarshalJSON and 37-44 UnmarshalBinary: the
    struct of the new document is copied into the receiver.  The struct it was copied
    from stays in the memory, where nothing points to it. *)
Definition h_load (E : Env) (h : heap) (v : ptr) (b : bytes) : heap * res ptr :=
  match unmarshal E b with
  | Ok (w, None) =>
    let '(h1, r) := h_build h w in
    match deref h1 v, deref h1 r with
    | Some _, Some c => (store h1 v c, Ok None)
    | _, _ => (h1, Panic)
    end
  | Ok (_, Some e) => (h, Err e)
  | Err e => (h, Err e) | Panic => (h, Panic) | Fuel => (h, Fuel)
  end.

(** *** One call *)

Inductive call :=
| KNew (v : V)
| KGet (caseless : bool) (v : ptr) (first : param) (others : list param)
| KSet (v c : ptr) (first : param) (others : list param)
| KInsert (after : bool) (v c : ptr) (first : param) (others : list param)
| KAppend (front : bool) (v c : ptr) (params : list param)
| KDelete (caseless : bool) (v : ptr) (first : param) (others : list param)
| KImport (v : ptr)
| KSort (v : ptr) (less : option (heap -> ptr -> ptr -> bool))
| KLoad (v : ptr) (b : bytes).

(** The memory after the call and the *V the caller got; Delete, SortArray and
    UnmarshalJSON give none, and the fresh &V{} that goes with an error is left out. *)
Definition perform (E : Env) (W : World) (h : heap) (k : call) : heap * res ptr :=
  match k with
  | KNew v => let '(h', p) := h_build h v in (h', Ok p)
  | KGet caseless v first others => h_get E W caseless h v first others
  | KSet v c first others => h_set E h v c first others
  | KInsert after v c first others => h_insert E W after h v c first others
  | KAppend front v c params => h_append E W front h v c params
  | KDelete caseless v first others =>
    let '(h', r) := h_delete E W caseless h v first others in (h', let* _ := r in Ok None)
  | KImport v => h_import h v
  | KSort v less => h_sort W h v less
  | KLoad v b => h_load E h v b
  end.
