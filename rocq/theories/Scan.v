(** The scanner of unmarshal.go: the methods of [iter], a byte slice that is
    read and, for strings, rewritten in place.  Offsets are [nat]. *)
From Verif Require Import Base Float64 Value.

(** Bytes of ASCII characters used below. *)
Definition cQuote := 34.  Definition cBackslash := 92.

(** /repo/unmarshal.go:652-671 skipBlanks; [end_] is endPos[0] or len(it).
    [n] is the number of iterations left: end_ - offset. *)
Fixpoint skip_blanks_aux (n : nat) (b : bytes) (off end_ : nat) : res (nat * bool) :=
  match n with
  | O => Ok (end_, true)
  | S n' =>
    let* c := bget b off in
    if (c =? 32) || (c =? 13) || (c =? 10) || (c =? 9) || (c =? 8)
    then skip_blanks_aux n' b (S off) end_
    else Ok (off, false)
  end.
Definition skip_blanks (b : bytes) (off end_ : nat) : res (nat * bool) :=
  skip_blanks_aux (end_ - off) b off end_.

(** Literal check used by parseTrue, parseFalse, parseNull:
    it[offset+j] == lit[j] for all j. *)
Fixpoint match_lit (b : bytes) (off : nat) (lit : bytes) : res bool :=
  match lit with
  | [] => Ok true
  | c :: r =>
    let* x := bget b off in
    if x =? c then match_lit b (S off) r else Ok false
  end.

Definition parse_lit (lit : bytes) (eshort ewrong : err) (b : bytes) (off : nat) : res nat :=
  if (List.length b - off <? List.length lit)%nat then Err eshort
  else
    let* ok := match_lit b off lit in
    if ok then Ok (off + List.length lit)%nat else Err ewrong.

(** /repo/unmarshal.go:605-618 *)
Definition parse_true := parse_lit (bs "true") ErrNotValidBoolValue ErrNotValidBoolValue.
(** /repo/unmarshal.go:620-634 *)
Definition parse_false := parse_lit (bs "false") ErrNotValidBoolValue ErrNotValidBoolValue.
(** /repo/unmarshal.go:636-649 *)
Definition parse_null := parse_lit (bs "null") ErrNotValidNullValue ErrNotValidBoolValue.

(** /repo/unmarshal.go:593-603 *)
Definition rune_bytes2 (c : Z) : bool := Z.land c 224 =? 192.
Definition rune_bytes3 (c : Z) : bool := Z.land c 240 =? 224.
Definition rune_bytes4 (c : Z) : bool := Z.land c 248 =? 240.

(** /repo/unmarshal.go:535-547 chrToHex; the caller checks the error after all
    four digits, here the first bad digit is the error. *)
Definition chr_to_hex (c : Z) : res Z :=
  if (48 <=? c) && (c <=? 57) then Ok (c - 48)
  else if (65 <=? c) && (c <=? 70) then Ok (c - 65 + 10)
  else if (97 <=? c) && (c <=? 102) then Ok (c - 97 + 10)
  else Err EOther.

(** Four hexadecimal digits at [i]; /repo/unmarshal.go:477-485 and 504-512.
    The shifts of distinct nibbles added together are written arithmetically. *)
Definition hex4 (b : bytes) (i : nat) : res Z :=
  let* c3 := bget b i in
  let* c2 := bget b (i + 1) in
  let* c1 := bget b (i + 2) in
  let* c0 := bget b (i + 3) in
  let* h3 := chr_to_hex c3 in
  let* h2 := chr_to_hex c2 in
  let* h1 := chr_to_hex c1 in
  let* h0 := chr_to_hex c0 in
  Ok (h3 * 4096 + h2 * 256 + h1 * 16 + h0).

(** /repo/unmarshal.go:562-591 assignASCIICodedRune: writes the UTF-8 form of
    [r] at [dst], last byte first, and returns the number of bytes. *)
Definition assign_rune (b : bytes) (dst : nat) (r : Z) : res (bytes * nat) :=
  if r <=? 127 then
    let* b1 := bset b dst r in Ok (b1, 1%nat)
  else if r <=? 2047 then
    let* b1 := bset b (dst + 1) (Z.land r 63 + 128) in
    let* b2 := bset b1 dst (Z.shiftr (Z.land r 1984) 6 + 192) in
    Ok (b2, 2%nat)
  else if r <=? 65535 then
    let* b1 := bset b (dst + 2) (Z.land r 63 + 128) in
    let* b2 := bset b1 (dst + 1) (Z.shiftr (Z.land r 4032) 6 + 128) in
    let* b3 := bset b2 dst (Z.shiftr (Z.land r 61440) 12 + 224) in
    Ok (b3, 3%nat)
  else
    let* b1 := bset b (dst + 3) (Z.land r 63 + 128) in
    let* b2 := bset b1 (dst + 2) (Z.shiftr (Z.land r 4032) 6 + 128) in
    let* b3 := bset b2 (dst + 1) (Z.shiftr (Z.land r 258048) 12 + 128) in
    let* b4 := bset b3 dst (Z.shiftr (Z.land r 1835008) 18 + 240) in
    Ok (b4, 4%nat).

(** /repo/unmarshal.go:472-533 handleEscapeUnicodeStartWithEnd, called with
    end = len(it)-1.  Result: new buffer, new i, new sectEnd.  [len(it)-1-i <= 5]
    is written [len(it) - i <= 6] so that the natural-number subtraction is
    exact. *)
Definition handle_escape_unicode (b : bytes) (i se : nat) : res (bytes * nat * nat) :=
  if (List.length b - i <=? 6)%nat then Err EOther
  else
    let* r := hex4 b (i + 2) in
    if (r <=? 55295) || (57344 <=? r) then
      let* (b', le) := assign_rune b se r in
      Ok (b', (i + 6)%nat, (se + le)%nat)
    else if (List.length b - i <=? 12)%nat then Err EOther
    else
      let* c6 := bget b (i + 6) in
      let* c7 := bget b (i + 7) in
      if negb ((c6 =? 92) && (c7 =? 117)) then Err EOther
      else
        let* ex := hex4 b (i + 8) in
        if ex <? 56320 then Err ErrIllegalString
        else if 1023 <? ex - 56320 then Err ErrIllegalString
        else
          let r' := Z.shiftl (r - 55296) 10 + (ex - 56320) + 65536 in
          let* (b', le) := assign_rune b se r' in
          Ok (b', (i + 12)%nat, (se + le)%nat).

(** /repo/unmarshal.go:433-470 handleEscapeStart; it[i] is the backslash.
    [len(it)-1-i < 1] is written [len(it) - i < 2]. *)
Definition handle_escape (b : bytes) (i se : nat) : res (bytes * nat * nat) :=
  if (List.length b - i <? 2)%nat then Err EOther
  else
    let* c := bget b (i + 1) in
    let put (x : Z) : res (bytes * nat * nat) :=
      let* b' := bset b se x in Ok (b', (i + 2)%nat, S se) in
    if (c =? 34) || (c =? 39) || (c =? 47) || (c =? 92) then put c
    else if c =? 98 then put 8
    else if c =? 102 then put 12
    else if c =? 114 then put 13
    else if c =? 110 then put 10
    else if c =? 116 then put 9
    else if c =? 117 then handle_escape_unicode b i se
    else Err EOther.

(** /repo/unmarshal.go:549-560 memcpy: Go's [copy] between overlapping
    ranges copies as if through a temporary. *)
Fixpoint bwrite (b : bytes) (dst : nat) (src : bytes) : bytes :=
  match src with
  | [] => b
  | x :: r => bwrite (upd b dst x) (S dst) r
  end.
Definition memcpy (b : bytes) (dst src len : nat) : res bytes :=
  if (dst =? src)%nat then Ok b
  else
    let* _ := bslice b dst (dst + len) in
    let* s := bslice b src (src + len) in
    Ok (bwrite b dst s).

(** /repo/unmarshal.go:386-397 the closure [shift] *)
Definition shift (b : bytes) (i se le : nat) : res (bytes * nat * nat) :=
  if (List.length b - i <? le)%nat then Err ErrIllegalString
  else
    let* b' := memcpy b se i le in
    Ok (b', (i + le)%nat, (se + le)%nat).

(** /repo/unmarshal.go:400-430 the loop of parseStrFromBytesForwardWithQuote.
    [off] is the offset after the opening quote, [i] the read position, [se]
    the write position (sectEnd).  Result: buffer, length without quotes, end. *)
Fixpoint parse_str_loop (fuel : nat) (b : bytes) (off i se : nat) : res (bytes * nat * nat) :=
  match fuel with
  | O => Fuel
  | S f =>
    if (i <? List.length b)%nat then
      let* c := bget b i in
      if c =? 34 then Ok (b, (se - off)%nat, S i)
      else
        let* (b', i', se') :=
          if c =? 92 then handle_escape b i se
          else if c <=? 127 then
            let* b1 := bset b se c in Ok (b1, S i, S se)
          else if rune_bytes2 c then shift b i se 2
          else if rune_bytes3 c then shift b i se 3
          else if rune_bytes4 c then shift b i se 4
          else Err ErrIllegalString in
        parse_str_loop f b' off i' se'
    else Err EOther
  end.
(** /repo/unmarshal.go:400-430, the buffer as the loop leaves it when it fails.  A step that fails (lines
    405, 416, 418, 420, 422) has written nothing: every check of handleEscapeStart, of
    handleEscapeUnicodeStartWithEnd and of [shift] comes before the first write of that step. *)
Fixpoint str_left (fuel : nat) (b : bytes) (i se : nat) : bytes :=
  match fuel with
  | O => b
  | S f =>
    if (i <? List.length b)%nat then
      match
        (let* c := bget b i in
         if c =? 34 then Err EOther
         else if c =? 92 then handle_escape b i se
         else if c <=? 127 then
           let* b1 := bset b se c in Ok (b1, S i, S se)
         else if rune_bytes2 c then shift b i se 2
         else if rune_bytes3 c then shift b i se 3
         else if rune_bytes4 c then shift b i se 4
         else Err ErrIllegalString)
      with
      | Ok (b', i', se') => str_left f b' i' se'
      | _ => b
      end
    else b
  end.
Definition left_by_str (b : bytes) (offset : nat) : bytes :=
  str_left (S (List.length b)) b (S offset) (S offset).

(** /repo/unmarshal.go:381-431 *)
Definition parse_str (b : bytes) (offset : nat) : res (bytes * nat * nat) :=
  parse_str_loop (S (List.length b)) b (S offset) (S offset) (S offset).

(** ** Numbers *)

(** Local variables of /repo/unmarshal.go:681-688 *)
Record nst := {
  s_neg : bool; s_flt : bool; s_exp : bool; s_dot : bool; s_iad : bool; s_int : Z;
}.
Definition nst0 : nst :=
  {| s_neg := false; s_flt := false; s_exp := false; s_dot := false; s_iad := false; s_int := 0 |}.

(** One iteration of the loop body, /repo/unmarshal.go:693-759.
    [inl e] : error, [inr None] : edge found, [inr (Some s)] : continue.
    [first]: idx == offset, [second]: idx == offset+1.  integer is a uint64. *)
Definition num_step (s : nst) (c : Z) (first second : bool) : res (option nst) :=
  if c =? 48 then
    let mul (iad : bool) :=
      Ok (Some {| s_neg := s_neg s; s_flt := s_flt s; s_exp := s_exp s; s_dot := s_dot s;
                  s_iad := iad; s_int := wrap_u64 (s_int s * 10) |}) in
    if first then mul (s_iad s)
    else if s_exp s then mul (s_iad s)
    else if s_dot s then mul true
    else if s_neg s then
      if (s_int s =? 0) && negb second then Err EOther else mul (s_iad s)
    else if s_int s =? 0 then Err EOther
    else mul (s_iad s)
  else if (49 <=? c) && (c <=? 57) then
    if negb (s_flt s) then
      Ok (Some {| s_neg := s_neg s; s_flt := s_flt s; s_exp := s_exp s; s_dot := s_dot s;
                  s_iad := s_iad s; s_int := wrap_u64 (s_int s * 10 + c - 48) |})
    else if negb (s_exp s) then
      Ok (Some {| s_neg := s_neg s; s_flt := s_flt s; s_exp := s_exp s; s_dot := s_dot s;
                  s_iad := true; s_int := s_int s |})
    else Ok (Some s)
  else if (c =? 101) || (c =? 69) then
    if s_exp s then Err EOther
    else Ok (Some {| s_neg := s_neg s; s_flt := true; s_exp := true; s_dot := s_dot s;
                     s_iad := s_iad s; s_int := s_int s |})
  else if c =? 43 then
    if negb (s_exp s) then Err EOther else Ok (Some s)
  else if c =? 45 then
    if negb (s_flt s) then
      if negb first then Err EOther
      else Ok (Some {| s_neg := true; s_flt := s_flt s; s_exp := s_exp s; s_dot := s_dot s;
                       s_iad := s_iad s; s_int := s_int s |})
    else Ok (Some s)
  else if c =? 46 then
    if first || s_flt s || s_exp s || s_dot s then Err EOther
    else Ok (Some {| s_neg := s_neg s; s_flt := true; s_exp := s_exp s; s_dot := true;
                     s_iad := s_iad s; s_int := s_int s |})
  else Ok None.

(** The loop /repo/unmarshal.go:692-764: final state and idx (after the
    correction for the edge). [n] = len(it) - idx iterations remain. *)
Fixpoint num_loop (n : nat) (b : bytes) (offset idx : nat) (s : nst) : res (nst * nat) :=
  match n with
  | O => Ok (s, idx)
  | S n' =>
    let* c := bget b idx in
    let* r := num_step s c (idx =? offset)%nat (idx =? S offset)%nat in
    match r with
    | None => Ok (s, idx)
    | Some s' => num_loop n' b offset (S idx) s'
    end
  end.

(** /repo/unmarshal.go:832-848 parseFloatResult *)
Definition parse_float_result (E : Env) (b : bytes) (start end_ : nat) : res V :=
  let* src := bslice b start end_ in
  match parse_float src with
  | None => Err EOther
  | Some f =>
    Ok (VNum {| n_neg := f_ltb0 f; n_flt := true;
                n_i64 := f_to_i64 E f; n_u64 := f_to_u64 E f; n_f64 := f |} src)
  end.

(** /repo/unmarshal.go:850-871; uintMaxDigits = 10^19, len(uintMaxStr) = 20 *)
Definition parse_pos_result (b : bytes) (start end_ : nat) (integer : Z) : res V :=
  let le := (end_ - start)%nat in
  if (20 <? le)%nat then Err EOther
  else if (le =? 20)%nat && (integer <? 10000000000000000000) then Err EOther
  else
    let* src := bslice b start end_ in
    Ok (VNum {| n_neg := false; n_flt := false;
                n_i64 := wrap_i64 integer; n_u64 := integer; n_f64 := f_of_Z integer |} src).

(** /repo/unmarshal.go:873-900; len(intMinStr) = 20, intMinAbs = 2^63 *)
Definition parse_neg_result (b : bytes) (start end_ : nat) (integer : Z) : res V :=
  let le := (end_ - start)%nat in
  if (20 <? le)%nat then Err EOther
  else if (le =? 20)%nat && (two63 <? integer) then Err EOther
  else
    let* src := bslice b start end_ in
    let i64 := if integer =? two63 then - two63 else wrap_i64 (- wrap_i64 integer) in
    Ok (VNum {| n_neg := true; n_flt := false;
                n_i64 := i64; n_u64 := wrap_u64 i64; n_f64 := f_opp (f_of_Z integer) |} src).

(** /repo/unmarshal.go:677-796 parseNumber: value, end, reachEnd.  The text of an error
    (/repo/unmarshal.go:798-822 numErrorf) is not modelled. *)
Definition parse_number (E : Env) (b : bytes) (offset : nat) : res (V * nat * bool) :=
  let* (s, idx) := num_loop (List.length b - offset) b offset offset nst0 in
  let reach := (List.length b - idx =? 0)%nat in
  if s_flt s then
    if s_dot s && negb (s_iad s) then Err EOther
    else
      let* v := parse_float_result E b offset idx in
      Ok (v, idx, reach)
  else
    let* c0 := bget b offset in
    if (0 <? s_int s) && (c0 =? 48) then Err EOther
    else if (idx - offset =? 1)%nat && negb ((48 <=? c0) && (c0 <=? 57)) then Err EOther
    else
      let* v := if s_neg s then parse_neg_result b offset idx (s_int s)
                else parse_pos_result b offset idx (s_int s) in
      Ok (v, idx, reach).
