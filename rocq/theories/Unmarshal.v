(** Parsing of whole documents: unmarshal.go:14-349 and the entry points of
    jsonvalue.go:202-280. *)
From Verif Require Import Base Float64 Value Scan.

(** Parser state: the buffer (mutated in place), the number of values taken
    from the pool ([poolImpl.actual], /repo/jsonvalue_internal.go:76-108), and a
    ghost log of the slices of the buffer that were handed out as keys, strings
    and number sources: (start, end, content when handed out).  The log does
    not influence the computation. *)
Record pst := PSt {
  p_buf : bytes;
  p_act : nat;
  p_log : list (nat * nat * bytes);
}.

(** Outcome of a parser function: like [res], with the state. *)
Inductive pres (A : Type) :=
| POk (a : A) (s : pst)
| PErr (e : err) (s : pst)
| PPanic
| PFuel.
Arguments POk {A} _ _.
Arguments PErr {A} _ _.
Arguments PPanic {A}.
Arguments PFuel {A}.

Definition lift {A B} (m : res A) (s : pst) (k : A -> pres B) : pres B :=
  match m with
  | Ok a => k a
  | Err e => PErr e s
  | Panic => PPanic
  | Fuel => PFuel
  end.

Definition pbind {A B} (m : pres A) (k : A -> pst -> pres B) : pres B :=
  match m with
  | POk a s => k a s
  | PErr e s => PErr e s
  | PPanic => PPanic
  | PFuel => PFuel
  end.

(** poolImpl.get, /repo/jsonvalue_internal.go:99-108: only the counter. *)
Definition pool_get (s : pst) : pst := PSt (p_buf s) (S (p_act s)) (p_log s).
Definition set_buf (s : pst) (b : bytes) : pst := PSt b (p_act s) (p_log s).
Definition log_slice (s : pst) (i j : nat) (c : bytes) : pst :=
  PSt (p_buf s) (p_act s) ((i, j, c) :: p_log s).

(** A string section: run parseStrFromBytesForwardWithQuote at [off], then take
    the slice it[off+1 : off+1+len] (e.g. /repo/unmarshal.go:128-132). *)
Definition p_string (s : pst) (off : nat) : pres (bytes * nat * nat) :=
  lift (parse_str (p_buf s) off) (set_buf s (left_by_str (p_buf s) off)) (fun '(b', len, sect_end) =>
    let s1 := set_buf s b' in
    lift (bslice b' (S off) (S off + len)) s1 (fun str =>
      POk (str, (S off + len)%nat, sect_end) (log_slice s1 (S off) (S off + len) str))).

(** A number section; srcByte is it[off:end]. *)
Definition p_number (E : Env) (s : pst) (off : nat) : pres (V * nat) :=
  lift (parse_number E (p_buf s) off) s (fun '(v, end_, _) =>
    match v with
    | VNum _ src => POk (v, end_) (log_slice (pool_get s) off end_ src)
    | _ => PPanic (* not reachable: parse_number returns a number *)
    end).

Definition is_num_start (c : Z) : bool := is_digit c || (c =? 45).

(** Scalars shared by the three dispatch switches
    (/repo/unmarshal.go:29-61, 118-158, 266-340): numbers and the literals. *)
Definition p_scalar (E : Env) (s : pst) (c : Z) (off : nat) : option (pres (V * nat)) :=
  if is_num_start c then Some (p_number E s off)
  else if c =? 116 then
    Some (lift (parse_true (p_buf s) off) s (fun e => POk (VBool true, e) s))
  else if c =? 102 then
    Some (lift (parse_false (p_buf s) off) s (fun e => POk (VBool false, e) s))
  else if c =? 110 then
    Some (lift (parse_null (p_buf s) off) s (fun e => POk (VNull, e) s))
  else None.

(** keyNotFoundErr, /repo/unmarshal.go:185-197: [true] = error *)
Definition key_missing (key_end : nat) (colon : bool) : bool :=
  (key_end =? 0)%nat || negb colon.

Section Loops.
Variable E : Env.

(** /repo/unmarshal.go:86-165 (array loop, [acc] = children.arr) and
    /repo/unmarshal.go:209-348 (object loop; [obj] the object under
    construction, [ks], [ke] = keyStart, keyEnd, [colon] = colonFound).  A
    nested container is a call of the other loop after [offset++] and
    newArray/newObject (lines 81-82, 177-178).  One unit of fuel per loop
    iteration. *)
Fixpoint arr_loop (fuel : nat) (s : pst) (off right : nat) (acc : list V)
  : pres (V * nat) :=
  match fuel with
  | O => PFuel
  | S f =>
    if (off <? right)%nat then
      lift (skip_blanks (p_buf s) off right) s (fun '(off, reach) =>
      if reach : bool then PErr ErrNotArrayValue s
      else lift (bget (p_buf s) off) s (fun c =>
        if c =? 93 then POk (VArr acc, S off) s
        else if c =? 44 then arr_loop f s (S off) right acc
        else if c =? 123 then
          pbind (obj_loop f (pool_get s) (S off) right new_object 0 0 false)
            (fun '(v, e) s' => arr_loop f s' e right (acc ++ [v]))
        else if c =? 91 then
          pbind (arr_loop f (pool_get s) (S off) right [])
            (fun '(v, e) s' => arr_loop f s' e right (acc ++ [v]))
        else if c =? 34 then
          pbind (p_string s off)
            (fun '(str, _, e) s' => arr_loop f s' e right (acc ++ [VStr str]))
        else match p_scalar E s c off with
             | Some r => pbind r (fun '(v, e) s' => arr_loop f s' e right (acc ++ [v]))
             | None => PErr ErrRawBytesUnrecognized s
             end))
    else PErr ErrNotArrayValue s
  end
with obj_loop (fuel : nat) (s : pst) (off right : nat)
       (obj : V) (ks ke : nat) (colon : bool) : pres (V * nat) :=
  match fuel with
  | O => PFuel
  | S f =>
    if (off <? right)%nat then
      lift (skip_blanks (p_buf s) off right) s (fun '(off, reach) =>
      if reach : bool then PErr ErrNotObjectValue s
      else lift (bget (p_buf s) off) s (fun c =>
        (* setToObjectChildren(obj, it[keyStart:keyEnd], v); keyEnd, colonFound = 0, false *)
        let store (v : V) (e : nat) (s' : pst) : pres (V * nat) :=
          lift (bslice (p_buf s') ks ke) s' (fun key =>
          lift (set_to_object E obj key v) s' (fun obj' =>
          obj_loop f s' e right obj' ks 0 false)) in
        if c =? 125 then
          if (0 <? ke)%nat then PErr ErrNotObjectValue s
          else POk (obj, S off) s
        else if c =? 44 then
          if (0 <? ke)%nat then PErr ErrNotObjectValue s
          else obj_loop f s (S off) right obj ks ke colon
        else if c =? 58 then
          if colon then PErr ErrNotObjectValue s
          else if key_missing ke true then PErr ErrNotObjectValue s
          else obj_loop f s (S off) right obj ks ke true
        else if c =? 123 then
          if key_missing ke colon then PErr ErrNotObjectValue s
          else pbind (obj_loop f (pool_get s) (S off) right new_object 0 0 false)
                 (fun '(v, e) s' => store v e s')
        else if c =? 91 then
          if key_missing ke colon then PErr ErrNotObjectValue s
          else pbind (arr_loop f (pool_get s) (S off) right [])
                 (fun '(v, e) s' => store v e s')
        else if c =? 34 then
          if (0 <? ke)%nat then
            if negb colon then PErr ErrNotObjectValue s
            else pbind (p_string s off) (fun '(str, _, e) s' => store (VStr str) e s')
          else
            pbind (p_string s off)
              (fun '(_, ke', e) s' => obj_loop f s' e right obj (S off) ke' colon)
        else
          let sc := p_scalar E s c off in
          match sc with
          | Some r =>
            if key_missing ke colon then PErr ErrNotObjectValue s
            else pbind r (fun '(v, e) s' => store v e s')
          | None => PErr ErrRawBytesUnrecognized s
          end))
    else PErr ErrNotObjectValue s
  end.

(** /repo/unmarshal.go:14-76 unmarshalWithIter.  Fuel: one more than the length
    of the buffer.  On error the Go function also returns &V{}. *)
Definition unmarshal_iter (s : pst) (offset : nat) : pres V :=
  let len := List.length (p_buf s) in
  let fuel := S len in
  lift (skip_blanks (p_buf s) offset len) s (fun '(off, reach) =>
  if reach : bool then PErr ErrRawBytesUnrecognized s
  else lift (bget (p_buf s) off) s (fun c =>
    let r : pres (V * nat) :=
      if c =? 123 then obj_loop fuel (pool_get s) (S off) len new_object 0 0 false
      else if c =? 91 then arr_loop fuel (pool_get s) (S off) len []
      else if c =? 34 then
        pbind (p_string s off) (fun '(str, _, e) s' => POk (VStr str, e) s')
      else match p_scalar E s c off with
           | Some r => r
           | None => PErr ErrRawBytesUnrecognized s
           end in
    pbind r (fun '(v, e) s' =>
      lift (skip_blanks (p_buf s') e len) s' (fun '(_, reach') =>
      if reach' : bool then POk v s' else PErr ErrRawBytesUnrecognized s')))).

End Loops.

Definition pst0 (b : bytes) : pst := PSt b 0 [].

(** Parser run on a private buffer holding [b]. *)
Definition run_unmarshal (E : Env) (b : bytes) : pres V := unmarshal_iter E (pst0 b) 0.

(** What a caller of (V, error) sees: the pointer returned and the error. *)
Definition ret := (V * option err)%type.

Definition pres_ret (p : pres V) : res ret :=
  match p with
  | POk v _ => Ok (v, None)
  | PErr e _ => Ok (VNotExist, Some e)
  | PPanic => Panic
  | PFuel => Fuel
  end.

(** /repo/jsonvalue.go:238-251 Unmarshal: nil on empty input. *)
Definition unmarshal (E : Env) (b : bytes) : res ret :=
  match b with
  | [] => Ok (VNil, Some ErrNilParameter)
  | _ => pres_ret (run_unmarshal E b)
  end.

(** /repo/jsonvalue.go:271-280 UnmarshalNoCopy: &V{} on empty input. *)
Definition unmarshal_nocopy (E : Env) (b : bytes) : res ret :=
  match b with
  | [] => Ok (VNotExist, Some ErrNilParameter)
  | _ => pres_ret (run_unmarshal E b)
  end.

(** /repo/jsonvalue.go:210-221 UnmarshalString *)
Definition unmarshal_string (E : Env) (s : bytes) : res ret := unmarshal_nocopy E s.

(** /repo/jsonvalue.go:202-205, 230-233, 260-263 the Must variants *)
Definition must_unmarshal (E : Env) (b : bytes) : res V :=
  let* r := unmarshal E b in Ok (fst r).
Definition must_unmarshal_string (E : Env) (b : bytes) : res V :=
  let* r := unmarshal_string E b in Ok (fst r).

(** /repo/marshaler_unmarshaler.go:22-29, 37-44 UnmarshalJSON and UnmarshalBinary: the
    receiver afterwards and the result.  A nil pointer cannot be written through. *)
Definition unmarshal_json (E : Env) (v : V) (b : bytes) : V * res unit :=
  match unmarshal E b with
  | Ok (w, None) => match v, w with VNil, _ | _, VNil => (v, Panic) | _, _ => (w, Ok tt) end
  | Ok (_, Some e) => (v, Err e)
  | Err e => (v, Err e) | Panic => (v, Panic) | Fuel => (v, Fuel)
  end.
