(** Changing a document: Set, Insert, Append, Delete and their Must forms
    (set.go, set_must.go, insert_append_delete.go, insert_append_delete_must.go).

    Go changes the document in place and returns a value and an error.  Here
    every operation returns the document after the call, also when the call
    fails, together with the result.  The document is a tree; sharing of
    values between documents is the subject of Heap.v. *)
From Verif Require Import Base Utf8 Float64 Value Scan Opt Marshal Access Path.

(** The argument of Set / Insert / Append after /repo/set.go:53-59,
    /repo/insert_append_delete.go:70-87, /repo/insert_append_delete.go:311-327 (the
    same lines three times): the *V and the error of Import. *)
Definition arg := (V * option err)%type.
Definition arg_v (x : V) : arg := (x, None).

Definition is_nil (v : V) : bool := match v with VNil => true | _ => false end.
Definition not_exist (v : V) : bool := match v with VNotExist => true | _ => false end.
Definition uninitialized (v : V) : bool := is_nil v || not_exist v.

(** *** Set *)

(** /repo/set.go:314-320 posAtIndexForSet and 401-412 setAtIndex *)
Definition set_at_index {A} (l : list A) (c : A) (pos : Z) : res (list A) :=
  if pos =? Z.of_nat (List.length l) then Ok (l ++ [c])
  else match pos_read (List.length l) pos with
       | Some n => Ok (set_nth n c l)
       | None => Err ErrOutOfRange
       end.

(** /repo/set.go:214-241 atLastParam *)
Definition at_last_param (E : Env) (v c : V) (p : param) : V * res V :=
  match v with
  | VObj _ _ _ =>
    match any_to_string p with
    | Ok k => match set_to_object E v k c with
              | Ok v' => (v', Ok c)
              | Err e => (v, Err e) | Panic => (v, Panic) | Fuel => (v, Fuel)
              end
    | Err e => (v, Err e) | Panic => (v, Panic) | Fuel => (v, Fuel)
    end
  | VArr l =>
    match any_to_int p with
    | Ok pos => match set_at_index l c pos with
                | Ok l' => (VArr l', Ok c)
                | Err e => (v, Err e) | Panic => (v, Panic) | Fuel => (v, Fuel)
                end
    | Err e => (v, Err e) | Panic => (v, Panic) | Fuel => (v, Fuel)
    end
  | _ => (v, Err EOther)
  end.

(** /repo/set.go:251-261 and 287-297: the container made for a missing child *)
Definition new_container (next : param) : res V :=
  match any_to_string next with
  | Ok _ => Ok new_object
  | _ => match any_to_int next with
         | Ok i => if i =? 0 then Ok new_array else Err ErrOutOfRange
         | _ => Err EOther
         end
  end.

(** /repo/set.go:176-212 At, 243-275 atObject, 277-312 atArray *)
Fixpoint set_f (E : Env) (fuel : nat) (v c : V) (first : param) (others : list param) : V * res V :=
  match fuel with
  | O => (v, Fuel)
  | S f =>
    match peel first others with
    | None => (v, Err ErrMultipleParam)
    | Some (p, r) =>
      if uninitialized v then (v, Err ErrValueUninitialized)
      else if uninitialized c then (v, Err ErrValueUninitialized)
      else
      match r with
      | [] => at_last_param E v c p
      | q :: r' =>
        match v with
        | VObj i kvs lo =>
          match any_to_string p with
          | Ok k =>
            match alookup k kvs with
            | Some (id, child) =>
              let '(child', res) := set_f E f child c q r' in
              (VObj i (aset k (id, child') kvs) lo, res)
            | None =>
              match new_container q with
              | Ok child =>
                let '(child', res) := set_f E f child c q r' in
                match res with
                | Ok _ => match set_to_object E v k child' with
                          | Ok v' => (v', Ok c)
                          | Err e => (v, Err e) | Panic => (v, Panic) | Fuel => (v, Fuel)
                          end
                | e => (v, e)
                end
              | Err e => (v, Err e) | Panic => (v, Panic) | Fuel => (v, Fuel)
              end
            end
          | Err e => (v, Err e) | Panic => (v, Panic) | Fuel => (v, Fuel)
          end
        | VArr l =>
          match any_to_int p with
          | Ok pos =>
            match pos_read (List.length l) pos with
            | Some n =>
              let '(child', res) := set_f E f (nth n l VNil) c q r' in
              (VArr (set_nth n child' l), res)
            | None =>
              match new_container q with
              | Ok child =>
                let '(child', res) := set_f E f child c q r' in
                match res with
                | Ok _ => (VArr (l ++ [child']), Ok c)
                | e => (v, e)
                end
              | Err e => (v, Err e) | Panic => (v, Panic) | Fuel => (v, Fuel)
              end
            end
          | Err e => (v, Err e) | Panic => (v, Panic) | Fuel => (v, Fuel)
          end
        | _ => (v, Err EOther)
        end
      end
    end
  end.

(** v.Set(x).At(first, others...) *)
Definition set_at (E : Env) (v : V) (x : arg) (first : param) (others : list param) : V * res V :=
  match snd x with
  | Some e => (v, Err e)
  | None => set_f E (S (psum (first :: others))) v (fst x) first others
  end.

(** *** Insert *)

(** /repo/set.go:322-345 posAtIndexForInsertBefore; [None] for -1 *)
Definition pos_insert_before (le : nat) (pos : Z) : option nat :=
  let n := Z.of_nat le in
  if n =? 0 then None
  else if pos =? 0 then Some 0%nat
  else if pos <? 0 then
    let p := pos + n in
    if p <? 0 then None else Some (Z.to_nat p)
  else if n <=? pos then None
  else Some (Z.to_nat pos).

(** /repo/set.go:347-370 posAtIndexForInsertAfter.  The flag appendToEnd is not
    kept: with it the code appends, which is insertion at position le. *)
Definition pos_insert_after (le : nat) (pos : Z) : option nat :=
  let n := Z.of_nat le in
  if n =? 0 then None
  else if pos =? -1 then Some le
  else if pos <? 0 then
    let p := pos + n in
    if p <? 0 then None else Some (Z.to_nat (p + 1))
  else if n <=? pos then None
  else Some (Z.to_nat (pos + 1)).

(** /repo/insert_append_delete.go:282-286 insertToArr *)
Definition insert_to_arr {A} (l : list A) (pos : nat) (c : A) : list A :=
  firstn pos l ++ c :: skipn pos l.

(** The last iteration, /repo/insert_append_delete.go:196-214 and 245-267 *)
Definition insert_last (after : bool) (v c : V) (p : param) : V * res V :=
  match v with
  | VArr l =>
    match any_to_int p with
    | Ok pos =>
      match (if after then pos_insert_after (List.length l) pos
             else pos_insert_before (List.length l) pos) with
      | Some n => (VArr (insert_to_arr l n c), Ok c)
      | None => (v, Err ErrOutOfRange)
      end
    | Err e => (v, Err e) | Panic => (v, Panic) | Fuel => (v, Fuel)
    end
  | _ => (v, Err ErrNotArrayValue)
  end.

(** /repo/insert_append_delete.go:180-227 Before ([after] = false) and 229-280
    After.  Only After tests v for nil; Before panics on it. *)
Fixpoint insert_f (E : Env) (W : World) (fuel : nat) (after : bool) (v c : V)
    (first : param) (others : list param) : V * res V :=
  match fuel with
  | O => (v, Fuel)
  | S f =>
    match peel first others with
    | None => (v, Err ErrMultipleParam)
    | Some (p, r) =>
      if is_nil v then (v, if after then Err ErrValueUninitialized else Panic)
      else if not_exist v then (v, Err ErrValueUninitialized)
      else
      match r with
      | [] => insert_last after v c p
      | _ :: _ =>
        (* v.GetArray(firstParam, otherParams[:paramCount-1]...) *)
        let '(v', t) := locate E W false v p (removelast r) in
        match t with
        | Ok hs =>
          match sub_at v' hs with
          | Some (VArr l) =>
            let '(child', res) := insert_f E W f after (VArr l) c (last r PNil) [] in
            (put_at v' hs child', res)
          | Some VNil => (v', Panic)
          | Some _ => (v', Err ErrTypeNotMatch)
          | None => (v', Panic) (* not reachable *)
          end
        | Err e => (v', Err e) | Panic => (v', Panic) | Fuel => (v', Fuel)
        end
      end
    end
  end.

(** v.Insert(x).Before(first, others...) and .After(first, others...) *)
Definition insert_before (E : Env) (W : World) (v : V) (x : arg) (first : param) (others : list param)
  : V * res V :=
  match snd x with
  | Some e => (v, Err e)
  | None => insert_f E W (S (psum (first :: others))) false v (fst x) first others
  end.
Definition insert_after (E : Env) (W : World) (v : V) (x : arg) (first : param) (others : list param)
  : V * res V :=
  match snd x with
  | Some e => (v, Err e)
  | None => insert_f E W (S (psum (first :: others))) true v (fst x) first others
  end.

(** *** Append *)

(** /repo/conv.go:186-201 isSliceAndExtractJointParams, applied until the first
    parameter is not a slice; [None]: parameters follow a slice. *)
Fixpoint open_slice (p : param) : option (list param) :=
  match p with
  | PSlice l =>
    match l with
    | [] => Some []
    | [q] => open_slice q
    | PSlice _ :: _ :: _ => None
    | _ => Some l
    end
  | _ => Some [p]
  end.
Definition joint_params (ps : list param) : option (list param) :=
  match ps with
  | [] => Some []
  | [p] => open_slice p
  | PSlice _ :: _ => None
  | _ => Some ps
  end.

(** /repo/insert_append_delete.go:430-475 InTheBeginning ([front] = true) and
    /repo/insert_append_delete.go:480-518 InTheEnd: neither looks at the error of Import (the field err).
    A missing array is first set and then filled; here it is set already
    filled, which is the same because nothing else refers to it. *)
Definition append_at (E : Env) (W : World) (front : bool) (v : V) (x : arg) (params : list param)
  : V * res V :=
  let c := fst x in
  let add l := if front then c :: l else l ++ [c] in
  if is_nil v then (v, if front then Err ErrValueUninitialized else Panic)
  else if not_exist v then (v, Err ErrValueUninitialized)
  else
    match joint_params params with
    | None => (v, Err ErrMultipleParam)
    | Some [] =>
      match v with
      | VArr l => (VArr (add l), Ok c)
      | _ => (v, Err ErrNotArrayValue)
      end
    | Some (p :: r) =>
      let '(v', t) := locate E W false v p r in
      match t with
      | Ok hs =>
        match sub_at v' hs with
        | Some (VArr l) => (put_at v' hs (VArr (add l)), Ok c)
        | Some VNil => (v', Panic)
        | Some _ => (v', Err ErrTypeNotMatch)
        | None => (v', Panic) (* not reachable *)
        end
      | Err ErrNotFound =>
        let '(v'', res) := set_at E v' (arg_v (VArr [c])) p r in
        match res with
        | Ok _ => (v'', Ok c)
        | e => (v'', e)
        end
      | Err e => (v', Err e) | Panic => (v', Panic) | Fuel => (v', Fuel)
      end
    end.
Definition append_beginning E W := append_at E W true.
Definition append_end E W := append_at E W false.

(** *** Delete *)

(** /repo/insert_append_delete.go:524-555 delFromObjectChildren on the fields of
    an object *)
Definition del_from_object (E : Env) (W : World) (caseless : bool) (key : bytes)
    (i : Z) (kvs : list kv) (lo : option (list (bytes * list bytes))) : V * bool :=
  match alookup key kvs with
  | Some _ => (VObj i (aremove key kvs) (del_caseless_key E key lo), true)
  | None =>
    if caseless then
      let lo' := init_caseless E kvs lo in
      match first_existing kvs (caseless_keys E W key lo') with
      | Some k => (VObj i (aremove k kvs) (del_caseless_key E k lo'), true)
      | None => (VObj i kvs lo', false)
      end
    else (VObj i kvs lo, false)
  end.

(** /repo/insert_append_delete.go:627-632 deleteInArr *)
Definition delete_in_arr {A} (l : list A) (n : nat) : list A :=
  firstn n l ++ skipn (S n) l.

(** /repo/insert_append_delete.go:589-625 deleteInCurrentValue and the two
    functions below it *)
Definition delete_here (E : Env) (W : World) (caseless : bool) (v : V) (p : param) : V * res unit :=
  match v with
  | VObj i kvs lo =>
    match any_to_string p with
    | Ok k =>
      let '(v', found) := del_from_object E W caseless k i kvs lo in
      (v', if found then Ok tt else Err ErrNotFound)
    | Err e => (v, Err e) | Panic => (v, Panic) | Fuel => (v, Fuel)
    end
  | VArr l =>
    match any_to_int p with
    | Ok pos =>
      match pos_read (List.length l) pos with
      | Some n => (VArr (delete_in_arr l n), Ok tt)
      | None => (v, Err ErrOutOfRange)
      end
    | Err e => (v, Err e) | Panic => (v, Panic) | Fuel => (v, Fuel)
    end
  | VNil => (v, Panic)
  | _ => (v, Err EOther)
  end.

(** /repo/insert_append_delete.go:565-587 delete *)
Fixpoint delete_f (E : Env) (W : World) (fuel : nat) (caseless : bool) (v : V)
    (first : param) (others : list param) : V * res unit :=
  match fuel with
  | O => (v, Fuel)
  | S f =>
    match peel first others with
    | None => (v, Err ErrMultipleParam)
    | Some (p, []) => delete_here E W caseless v p
    | Some (p, r) =>
      let '(v', t) := locate E W caseless v p (removelast r) in
      match t with
      | Ok hs =>
        match sub_at v' hs with
        | Some child =>
          let '(child', res) := delete_f E W f caseless child (last r PNil) [] in
          (put_at v' hs child', res)
        | None => (v', Panic) (* not reachable *)
        end
      | Err e => (v', Err e) | Panic => (v', Panic) | Fuel => (v', Fuel)
      end
    end
  end.

(** /repo/insert_append_delete.go:561-563 Delete and /repo/get.go:492-498 (caseless
    Delete and MustDelete) *)
Definition delete_at (E : Env) (W : World) (caseless : bool) (v : V) (first : param) (others : list param)
  : V * res unit :=
  delete_f E W (S (psum (first :: others))) caseless v first others.
Definition caseless_delete (E : Env) (W : World) (v : V) (first : param) (others : list param)
  : V * res unit :=
  match v with
  | VArr _ | VObj _ _ _ => delete_at E W true v first others
  | VNil => (v, Panic)
  | _ => delete_at E W false v first others
  end.

(** *** Must forms: the result is dropped, a panic is not.
    /repo/set_must.go:28-33, 134-136, 146-165,
    /repo/insert_append_delete_must.go:53-58, 125-131, 232-245 *)
Definition must {A} (r : V * res A) : V * res unit :=
  (fst r, match snd r with
          | Ok _ | Err _ => Ok tt
          | Panic => Panic
          | Fuel => Fuel
          end).
Definition must_set_at E v x first others := must (set_at E v x first others).
Definition must_insert_before E W v x first others := must (insert_before E W v x first others).
Definition must_insert_after E W v x first others := must (insert_after E W v x first others).
Definition must_append_beginning E W v x params := must (append_beginning E W v x params).
Definition must_append_end E W v x params := must (append_end E W v x params).
Definition must_delete E W caseless v first others := must (delete_at E W caseless v first others).
(** /repo/set_must.go:146-165 v.At(first, others...).Set(x) *)
Definition at_set E v first others x := must_set_at E v x first others.
