(** The parser of Unmarshal.v with a stack: [d] more calls of
    unmarshalArrayWithIterUnknownEnd and unmarshalObjectWithIterUnknownEnd may be made inside
    the present one.  Go's stack is limited (1 GB by default on 64-bit systems) and running out
    of it is a fatal error, which cannot be recovered from; here it is [PPanic] (C01 says that
    the parser has no panic of its own).  The other functions of the parser do not call
    themselves. *)
From Verif Require Import Base Float64 Value Scan Unmarshal.

Definition deeper {A} (d : nat) (call : nat -> pres A) : pres A :=
  match d with O => PPanic | S d' => call d' end.

Section Loops.
Variable E : Env.

(** /repo/unmarshal.go:80-172 and 176-352, as [arr_loop] and [obj_loop] in Unmarshal.v; the
    nested calls are at lines 103, 111 (array) and 246, 258 (object). *)
Fixpoint arr_loop_d (fuel d : nat) (s : pst) (off right : nat) (acc : list V)
  : pres (V * nat) :=
  match fuel with
  | O => PFuel
  | S f =>
    if (off <? right)%nat then
      lift (skip_blanks (p_buf s) off right) s (fun '(off, reach) =>
      if reach : bool then PErr ErrNotArrayValue s
      else lift (bget (p_buf s) off) s (fun c =>
        if c =? 93 then POk (VArr acc, S off) s
        else if c =? 44 then arr_loop_d f d s (S off) right acc
        else if c =? 123 then
          pbind (deeper d (fun d' => obj_loop_d f d' (pool_get s) (S off) right new_object 0 0 false))
            (fun '(v, e) s' => arr_loop_d f d s' e right (acc ++ [v]))
        else if c =? 91 then
          pbind (deeper d (fun d' => arr_loop_d f d' (pool_get s) (S off) right []))
            (fun '(v, e) s' => arr_loop_d f d s' e right (acc ++ [v]))
        else if c =? 34 then
          pbind (p_string s off)
            (fun '(str, _, e) s' => arr_loop_d f d s' e right (acc ++ [VStr str]))
        else match p_scalar E s c off with
             | Some r => pbind r (fun '(v, e) s' => arr_loop_d f d s' e right (acc ++ [v]))
             | None => PErr ErrRawBytesUnrecognized s
             end))
    else PErr ErrNotArrayValue s
  end
with obj_loop_d (fuel d : nat) (s : pst) (off right : nat)
       (obj : V) (ks ke : nat) (colon : bool) : pres (V * nat) :=
  match fuel with
  | O => PFuel
  | S f =>
    if (off <? right)%nat then
      lift (skip_blanks (p_buf s) off right) s (fun '(off, reach) =>
      if reach : bool then PErr ErrNotObjectValue s
      else lift (bget (p_buf s) off) s (fun c =>
        (* setToObjectChildren(obj, it[keyStart:keyEnd], v); keyEnd, colonFound = 0, false *)
        let store (v : V) (e : nat) (s' : pst) : pres (V * nat) :=
          lift (bslice (p_buf s') ks ke) s' (fun key =>
          lift (set_to_object E obj key v) s' (fun obj' =>
          obj_loop_d f d s' e right obj' ks 0 false)) in
        if c =? 125 then
          if (0 <? ke)%nat then PErr ErrNotObjectValue s
          else POk (obj, S off) s
        else if c =? 44 then
          if (0 <? ke)%nat then PErr ErrNotObjectValue s
          else obj_loop_d f d s (S off) right obj ks ke colon
        else if c =? 58 then
          if colon then PErr ErrNotObjectValue s
          else if key_missing ke true then PErr ErrNotObjectValue s
          else obj_loop_d f d s (S off) right obj ks ke true
        else if c =? 123 then
          if key_missing ke colon then PErr ErrNotObjectValue s
          else pbind (deeper d (fun d' => obj_loop_d f d' (pool_get s) (S off) right new_object 0 0 false))
                 (fun '(v, e) s' => store v e s')
        else if c =? 91 then
          if key_missing ke colon then PErr ErrNotObjectValue s
          else pbind (deeper d (fun d' => arr_loop_d f d' (pool_get s) (S off) right []))
                 (fun '(v, e) s' => store v e s')
        else if c =? 34 then
          if (0 <? ke)%nat then
            if negb colon then PErr ErrNotObjectValue s
            else pbind (p_string s off) (fun '(str, _, e) s' => store (VStr str) e s')
          else
            pbind (p_string s off)
              (fun '(_, ke', e) s' => obj_loop_d f d s' e right obj (S off) ke' colon)
        else
          let sc := p_scalar E s c off in
          match sc with
          | Some r =>
            if key_missing ke colon then PErr ErrNotObjectValue s
            else pbind r (fun '(v, e) s' => store v e s')
          | None => PErr ErrRawBytesUnrecognized s
          end))
    else PErr ErrNotObjectValue s
  end.

(** /repo/unmarshal.go:14-76 unmarshalWithIter; the calls are at lines 24 and 27. *)
Definition unmarshal_iter_d (d : nat) (s : pst) (offset : nat) : pres V :=
  let len := List.length (p_buf s) in
  let fuel := S len in
  lift (skip_blanks (p_buf s) offset len) s (fun '(off, reach) =>
  if reach : bool then PErr ErrRawBytesUnrecognized s
  else lift (bget (p_buf s) off) s (fun c =>
    let r : pres (V * nat) :=
      if c =? 123 then deeper d (fun d' => obj_loop_d fuel d' (pool_get s) (S off) len new_object 0 0 false)
      else if c =? 91 then deeper d (fun d' => arr_loop_d fuel d' (pool_get s) (S off) len [])
      else if c =? 34 then
        pbind (p_string s off) (fun '(str, _, e) s' => POk (VStr str, e) s')
      else match p_scalar E s c off with
           | Some r => r
           | None => PErr ErrRawBytesUnrecognized s
           end in
    pbind r (fun '(v, e) s' =>
      lift (skip_blanks (p_buf s') e len) s' (fun '(_, reach') =>
      if reach' : bool then POk v s' else PErr ErrRawBytesUnrecognized s')))).

End Loops.

(** /repo/jsonvalue.go:238-251 Unmarshal *)
Definition unmarshal_d (E : Env) (d : nat) (b : bytes) : res ret :=
  match b with
  | [] => Ok (VNil, Some ErrNilParameter)
  | _ => pres_ret (unmarshal_iter_d E d (pst0 b) 0)
  end.
