(** A parser over immutable input that consumes a list of bytes and copies what
    it keeps.  It has the same accept/reject decisions as the parser of
    unmarshal.go but performs no writes, has no offsets and no buffer; property
    C03 states that the in-place parser of the library computes the same
    results. It is also the intermediate step for the other parser properties. *)
From Verif Require Import Base Float64 Value Scan Unmarshal.

Definition is_blank (c : Z) : bool :=
  (c =? 32) || (c =? 13) || (c =? 10) || (c =? 9) || (c =? 8).

Fixpoint q_skip (r : bytes) : bytes :=
  match r with
  | c :: t => if is_blank c then q_skip t else r
  | [] => []
  end.

(** UTF-8 bytes written for a code point, as assignASCIICodedRune does. *)
Definition q_rune (r : Z) : bytes :=
  if r <=? 127 then [r]
  else if r <=? 2047 then [Z.shiftr (Z.land r 1984) 6 + 192; Z.land r 63 + 128]
  else if r <=? 65535 then
    [Z.shiftr (Z.land r 61440) 12 + 224; Z.shiftr (Z.land r 4032) 6 + 128; Z.land r 63 + 128]
  else
    [Z.shiftr (Z.land r 1835008) 18 + 240; Z.shiftr (Z.land r 258048) 12 + 128;
     Z.shiftr (Z.land r 4032) 6 + 128; Z.land r 63 + 128].

Definition q_hex4 (a b c d : Z) : res Z :=
  let* h3 := chr_to_hex a in
  let* h2 := chr_to_hex b in
  let* h1 := chr_to_hex c in
  let* h0 := chr_to_hex d in
  Ok (h3 * 4096 + h2 * 256 + h1 * 16 + h0).

(** One unicode escape; the input starts after "\u".  Result: bytes, rest. *)
Definition q_unicode (r : bytes) : res (bytes * bytes) :=
  match r with
  | a :: b :: c :: d :: x :: t =>
    let t1 := x :: t in
    let* u := q_hex4 a b c d in
    if (u <=? 55295) || (57344 <=? u) then Ok (q_rune u, t1)
    else
      match t1 with
      | c6 :: c7 :: e :: f :: g :: h :: y :: t2 =>
        if negb ((c6 =? 92) && (c7 =? 117)) then Err EOther
        else
          let* ex := q_hex4 e f g h in
          if ex <? 56320 then Err ErrIllegalString
          else if 1023 <? ex - 56320 then Err ErrIllegalString
          else Ok (q_rune (Z.shiftl (u - 55296) 10 + (ex - 56320) + 65536), y :: t2)
      | _ => Err EOther
      end
  | _ => Err EOther
  end.

(** One escape; the input starts after the backslash. *)
Definition q_escape (r : bytes) : res (bytes * bytes) :=
  match r with
  | [] => Err EOther
  | c :: t =>
    if (c =? 34) || (c =? 39) || (c =? 47) || (c =? 92) then Ok ([c], t)
    else if c =? 98 then Ok ([8], t)
    else if c =? 102 then Ok ([12], t)
    else if c =? 114 then Ok ([13], t)
    else if c =? 110 then Ok ([10], t)
    else if c =? 116 then Ok ([9], t)
    else if c =? 117 then q_unicode t
    else Err EOther
  end.

(** [k] raw bytes. *)
Definition q_take (k : nat) (r : bytes) : res (bytes * bytes) :=
  if (List.length r <? k)%nat then Err ErrIllegalString
  else Ok (firstn k r, skipn k r).

(** One character of a string that is not the closing quote; [c :: t] is the
    input. *)
Definition q_char (c : Z) (t : bytes) : res (bytes * bytes) :=
  if c =? 92 then q_escape t
  else if c <=? 127 then Ok ([c], t)
  else if rune_bytes2 c then q_take 2 (c :: t)
  else if rune_bytes3 c then q_take 3 (c :: t)
  else if rune_bytes4 c then q_take 4 (c :: t)
  else Err ErrIllegalString.

(** A string after its opening quote: content and the rest after the closing
    quote. *)
Fixpoint q_str (fuel : nat) (r : bytes) : res (bytes * bytes) :=
  match fuel with
  | O => Fuel
  | S f =>
    match r with
    | [] => Err EOther
    | c :: t =>
      if c =? 34 then Ok ([], t)
      else
        let* (w, r1) := q_char c t in
        let* (s, r2) := q_str f r1 in
        Ok (w ++ s, r2)
    end
  end.

(** The number state machine over a list: final state and the bytes consumed
    (in order), and the rest.  [pos] is the number of bytes already consumed. *)
Fixpoint q_num_loop (r : bytes) (pos : nat) (s : nst) : res (nst * bytes * bytes) :=
  match r with
  | [] => Ok (s, [], [])
  | c :: t =>
    let* o := num_step s c (pos =? 0)%nat (pos =? 1)%nat in
    match o with
    | None => Ok (s, [], r)
    | Some s' =>
      let* (sf, src, rest) := q_num_loop t (S pos) s' in
      Ok (sf, c :: src, rest)
    end
  end.

Definition q_float (E : Env) (src : bytes) : res V :=
  match parse_float src with
  | None => Err EOther
  | Some f =>
    Ok (VNum {| n_neg := f_ltb0 f; n_flt := true;
                n_i64 := f_to_i64 E f; n_u64 := f_to_u64 E f; n_f64 := f |} src)
  end.

Definition q_pos (src : bytes) (integer : Z) : res V :=
  let le := List.length src in
  if (20 <? le)%nat then Err EOther
  else if (le =? 20)%nat && (integer <? 10000000000000000000) then Err EOther
  else Ok (VNum {| n_neg := false; n_flt := false;
                   n_i64 := wrap_i64 integer; n_u64 := integer; n_f64 := f_of_Z integer |} src).

Definition q_neg (src : bytes) (integer : Z) : res V :=
  let le := List.length src in
  if (20 <? le)%nat then Err EOther
  else if (le =? 20)%nat && (two63 <? integer) then Err EOther
  else
    let i64 := if integer =? two63 then - two63 else wrap_i64 (- wrap_i64 integer) in
    Ok (VNum {| n_neg := true; n_flt := false;
                n_i64 := i64; n_u64 := wrap_u64 i64; n_f64 := f_opp (f_of_Z integer) |} src).

(** Value of a completed number text. *)
Definition q_num_value (E : Env) (s : nst) (src : bytes) : res V :=
  match src with
  | [] => Panic
  | c0 :: _ =>
    if s_flt s then
      if s_dot s && negb (s_iad s) then Err EOther else q_float E src
    else if (0 <? s_int s) && (c0 =? 48) then Err EOther
    else if (List.length src =? 1)%nat && negb ((48 <=? c0) && (c0 <=? 57)) then Err EOther
    else if s_neg s then q_neg src (s_int s) else q_pos src (s_int s)
  end.

Definition q_number (E : Env) (r : bytes) : res (V * bytes) :=
  let* (s, src, rest) := q_num_loop r 0 nst0 in
  let* v := q_num_value E s src in
  Ok (v, rest).

Fixpoint q_prefix (lit r : bytes) : option bytes :=
  match lit, r with
  | [], _ => Some r
  | c :: l, x :: t => if x =? c then q_prefix l t else None
  | _ :: _, [] => None
  end.

Definition q_lit (lit : bytes) (v : V) (eshort ewrong : err) (r : bytes) : res (V * bytes) :=
  if (List.length r <? List.length lit)%nat then Err eshort
  else match q_prefix lit r with
       | Some t => Ok (v, t)
       | None => Err ewrong
       end.

Definition q_scalar (E : Env) (c : Z) (r : bytes) : option (res (V * bytes)) :=
  if is_num_start c then Some (q_number E r)
  else if c =? 116 then Some (q_lit (bs "true") (VBool true) ErrNotValidBoolValue ErrNotValidBoolValue r)
  else if c =? 102 then Some (q_lit (bs "false") (VBool false) ErrNotValidBoolValue ErrNotValidBoolValue r)
  else if c =? 110 then Some (q_lit (bs "null") VNull ErrNotValidNullValue ErrNotValidBoolValue r)
  else None.

(** The input of [q_arr]/[q_obj] is what follows the opening bracket (and the
    entries already read); [key] is the pending key. *)
Section Pure.
Variable E : Env.

Fixpoint q_arr (fuel : nat) (r : bytes) (acc : list V) : res (V * bytes) :=
  match fuel with
  | O => Fuel
  | S f =>
    match q_skip r with
    | [] => Err ErrNotArrayValue
    | c :: t =>
      if c =? 93 then Ok (VArr acc, t)
      else if c =? 44 then q_arr f t acc
      else if c =? 123 then
        let* (v, r') := q_obj f t new_object None false in q_arr f r' (acc ++ [v])
      else if c =? 91 then
        let* (v, r') := q_arr f t [] in q_arr f r' (acc ++ [v])
      else if c =? 34 then
        let* (s, r') := q_str (S (List.length t)) t in q_arr f r' (acc ++ [VStr s])
      else match q_scalar E c (c :: t) with
           | Some m => let* (v, r') := m in q_arr f r' (acc ++ [v])
           | None => Err ErrRawBytesUnrecognized
           end
    end
  end
with q_obj (fuel : nat) (r : bytes) (obj : V) (key : option bytes) (colon : bool)
  : res (V * bytes) :=
  match fuel with
  | O => Fuel
  | S f =>
    match q_skip r with
    | [] => Err ErrNotObjectValue
    | c :: t =>
      let store (v : V) (r' : bytes) : res (V * bytes) :=
        match key with
        | None => Panic
        | Some k =>
          let* obj' := set_to_object E obj k v in
          q_obj f r' obj' None false
        end in
      let missing := match key with None => true | Some _ => negb colon end in
      let haskey := match key with None => false | Some _ => true end in
      if c =? 125 then
        if haskey then Err ErrNotObjectValue else Ok (obj, t)
      else if c =? 44 then
        if haskey then Err ErrNotObjectValue else q_obj f t obj key colon
      else if c =? 58 then
        if colon then Err ErrNotObjectValue
        else if negb haskey then Err ErrNotObjectValue
        else q_obj f t obj key true
      else if c =? 123 then
        if missing then Err ErrNotObjectValue
        else let* (v, r') := q_obj f t new_object None false in store v r'
      else if c =? 91 then
        if missing then Err ErrNotObjectValue
        else let* (v, r') := q_arr f t [] in store v r'
      else if c =? 34 then
        if haskey then
          if negb colon then Err ErrNotObjectValue
          else let* (s, r') := q_str (S (List.length t)) t in store (VStr s) r'
        else
          let* (s, r') := q_str (S (List.length t)) t in q_obj f r' obj (Some s) colon
      else match q_scalar E c (c :: t) with
           | Some m =>
             if missing then Err ErrNotObjectValue
             else let* (v, r') := m in store v r'
           | None => Err ErrRawBytesUnrecognized
           end
    end
  end.

(** A value (input starts at its first byte). *)
Definition q_value (fuel : nat) (c : Z) (t : bytes) : res (V * bytes) :=
  if c =? 123 then q_obj fuel t new_object None false
  else if c =? 91 then q_arr fuel t []
  else if c =? 34 then let* (s, r') := q_str (S (List.length t)) t in Ok (VStr s, r')
  else match q_scalar E c (c :: t) with
       | Some m => m
       | None => Err ErrRawBytesUnrecognized
       end.

Definition q_unmarshal (r : bytes) : res V :=
  match q_skip r with
  | [] => Err ErrRawBytesUnrecognized
  | c :: t =>
    let* (v, r') := q_value (S (List.length r)) c t in
    match q_skip r' with
    | [] => Ok v
    | _ :: _ => Err ErrRawBytesUnrecognized
    end
  end.
End Pure.
