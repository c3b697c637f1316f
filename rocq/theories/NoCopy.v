(** UnmarshalNoCopy: where the texts of the document lie in the caller's buffer
    (jsonvalue.go:271-280, unmarshal.go:14-349, 833-885).  Keys and strings are made with
    unsafe.BtoS and number texts are slices, so they are windows onto the buffer.

    The loops are those of Unmarshal.v; instead of the bytes they keep the windows. *)
From Verif Require Import Base Float64 Value Scan Unmarshal.

(** A window: it[i:j]. *)
Definition window := (nat * nat)%type.
Definition cut (buf : bytes) (w : window) : bytes := firstn (snd w - fst w) (skipn (fst w) buf).

(** A document whose texts are windows. *)
Inductive loc :=
| LStr (w : window)
| LNum (n : num) (w : window)
| LObj (incr : Z) (kvs : list (window * (Z * loc)))
| LArr (l : list loc)
| LBool (b : bool)
| LNull.

(** The document as it reads while the buffer holds [buf]. *)
Fixpoint view (buf : bytes) (l : loc) : V :=
  match l with
  | LStr w => VStr (cut buf w)
  | LNum n w => VNum n (cut buf w)
  | LObj i kvs => VObj i (map (fun e => (cut buf (fst e), (fst (snd e), view buf (snd (snd e))))) kvs) None
  | LArr l => VArr (map (view buf) l)
  | LBool b => VBool b
  | LNull => VNull
  end.

(** /repo/set.go:167-174 setToObjectChildren on a new object: the keys are compared by
    what they hold; an assignment to a key that is there keeps the new string (the
    runtime overwrites the key). *)
Fixpoint put (buf : bytes) (k : window) (x : Z * loc) (l : list (window * (Z * loc))) : list (window * (Z * loc)) :=
  match l with
  | [] => [(k, x)]
  | (k', x') :: r => if beqb (cut buf k) (cut buf k') then (k, x) :: r else (k', x') :: put buf k x r
  end.

(** A number, or a literal, read from [off] to [e]. *)
Definition scalar_at (v : V) (off e : nat) : loc :=
  match v with VNum n _ => LNum n (off, e) | VBool b => LBool b | _ => LNull end.

Section Loops.
Variable E : Env.

(** /repo/unmarshal.go:86-165 and 209-348 *)
Fixpoint l_arr (fuel : nat) (s : pst) (off right : nat) (acc : list loc) : pres (loc * nat) :=
  match fuel with
  | O => PFuel
  | S f =>
    if (off <? right)%nat then
      lift (skip_blanks (p_buf s) off right) s (fun '(off, reach) =>
      if reach : bool then PErr ErrNotArrayValue s
      else lift (bget (p_buf s) off) s (fun c =>
        if c =? 93 then POk (LArr acc, S off) s
        else if c =? 44 then l_arr f s (S off) right acc
        else if c =? 123 then
          pbind (l_obj f (pool_get s) (S off) right 0 [] 0 0 false)
            (fun '(v, e) s' => l_arr f s' e right (acc ++ [v]))
        else if c =? 91 then
          pbind (l_arr f (pool_get s) (S off) right [])
            (fun '(v, e) s' => l_arr f s' e right (acc ++ [v]))
        else if c =? 34 then
          pbind (p_string s off)
            (fun '(_, j, e) s' => l_arr f s' e right (acc ++ [LStr (S off, j)]))
        else match p_scalar E s c off with
             | Some r => pbind r (fun '(v, e) s' => l_arr f s' e right (acc ++ [scalar_at v off e]))
             | None => PErr ErrRawBytesUnrecognized s
             end))
    else PErr ErrNotArrayValue s
  end
with l_obj (fuel : nat) (s : pst) (off right : nat)
       (incr : Z) (kvs : list (window * (Z * loc))) (ks ke : nat) (colon : bool) : pres (loc * nat) :=
  match fuel with
  | O => PFuel
  | S f =>
    if (off <? right)%nat then
      lift (skip_blanks (p_buf s) off right) s (fun '(off, reach) =>
      if reach : bool then PErr ErrNotObjectValue s
      else lift (bget (p_buf s) off) s (fun c =>
        let store (v : loc) (e : nat) (s' : pst) : pres (loc * nat) :=
          lift (bslice (p_buf s') ks ke) s' (fun _ =>
          l_obj f s' e right (wrap_u32 (incr + 1)) (put (p_buf s') (ks, ke) (wrap_u32 (incr + 1), v) kvs) ks 0 false) in
        if c =? 125 then
          if (0 <? ke)%nat then PErr ErrNotObjectValue s
          else POk (LObj incr kvs, S off) s
        else if c =? 44 then
          if (0 <? ke)%nat then PErr ErrNotObjectValue s
          else l_obj f s (S off) right incr kvs ks ke colon
        else if c =? 58 then
          if colon then PErr ErrNotObjectValue s
          else if key_missing ke true then PErr ErrNotObjectValue s
          else l_obj f s (S off) right incr kvs ks ke true
        else if c =? 123 then
          if key_missing ke colon then PErr ErrNotObjectValue s
          else pbind (l_obj f (pool_get s) (S off) right 0 [] 0 0 false)
                 (fun '(v, e) s' => store v e s')
        else if c =? 91 then
          if key_missing ke colon then PErr ErrNotObjectValue s
          else pbind (l_arr f (pool_get s) (S off) right [])
                 (fun '(v, e) s' => store v e s')
        else if c =? 34 then
          if (0 <? ke)%nat then
            if negb colon then PErr ErrNotObjectValue s
            else pbind (p_string s off) (fun '(_, j, e) s' => store (LStr (S off, j)) e s')
          else
            pbind (p_string s off)
              (fun '(_, ke', e) s' => l_obj f s' e right incr kvs (S off) ke' colon)
        else
          let sc := p_scalar E s c off in
          match sc with
          | Some r =>
            if key_missing ke colon then PErr ErrNotObjectValue s
            else pbind r (fun '(v, e) s' => store (scalar_at v off e) e s')
          | None => PErr ErrRawBytesUnrecognized s
          end))
    else PErr ErrNotObjectValue s
  end.

(** /repo/unmarshal.go:14-76 *)
Definition l_unmarshal_iter (s : pst) (offset : nat) : pres loc :=
  let len := List.length (p_buf s) in
  let fuel := S len in
  lift (skip_blanks (p_buf s) offset len) s (fun '(off, reach) =>
  if reach : bool then PErr ErrRawBytesUnrecognized s
  else lift (bget (p_buf s) off) s (fun c =>
    let r : pres (loc * nat) :=
      if c =? 123 then l_obj fuel (pool_get s) (S off) len 0 [] 0 0 false
      else if c =? 91 then l_arr fuel (pool_get s) (S off) len []
      else if c =? 34 then
        pbind (p_string s off) (fun '(_, j, e) s' => POk (LStr (S off, j), e) s')
      else match p_scalar E s c off with
           | Some r => pbind r (fun '(v, e) s' => POk (scalar_at v off e, e) s')
           | None => PErr ErrRawBytesUnrecognized s
           end in
    pbind r (fun '(v, e) s' =>
      lift (skip_blanks (p_buf s') e len) s' (fun '(_, reach') =>
      if reach' : bool then POk v s' else PErr ErrRawBytesUnrecognized s')))).
End Loops.

(** /repo/jsonvalue.go:271-280: the document and what the buffer holds afterwards. *)
Definition unmarshal_no_copy (E : Env) (b : bytes) : res (loc * bytes) :=
  match b with
  | [] => Err ErrNilParameter
  | _ =>
    match l_unmarshal_iter E (pst0 b) 0 with
    | POk l s => Ok (l, p_buf s)
    | PErr e _ => Err e
    | PPanic => Panic
    | PFuel => Fuel
    end
  end.

(** What the buffer holds after the call, whether it fails or not. *)
Definition no_copy_left (E : Env) (b : bytes) : bytes :=
  match b with
  | [] => b
  | _ =>
    match l_unmarshal_iter E (pst0 b) 0 with
    | POk _ s => p_buf s
    | PErr _ s => p_buf s
    | _ => b
    end
  end.

(** All windows of a document. *)
Fixpoint windows (l : loc) : list window :=
  match l with
  | LStr w | LNum _ w => [w]
  | LObj _ kvs => flat_map (fun e => fst e :: windows (snd (snd e))) kvs
  | LArr l => flat_map windows l
  | LBool _ | LNull => []
  end.
