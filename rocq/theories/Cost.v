(** The parser of Scan.v and Unmarshal.v with a count of its work: bytes of the text that are
    read, written or moved, bytes given to strconv.ParseFloat, and bytes of the keys given to
    the map of an object.  Each function is the one of the same name without [_c], cited there;
    the first part of its result is the result of that function (C77_same).  Not counted:
    allocation, the pool, the texts of errors. *)
From Verif Require Import Base Float64 Value Scan Unmarshal.

(** A result and the work done for it. *)
Definition work (A : Type) : Type := (A * nat)%type.

Definition free {A} (x : A) : work A := (x, 0%nat).
Definition costs {A} (n : nat) (x : A) : work A := (x, n).

Definition wbind {A B} (m : work (res A)) (k : A -> work (res B)) : work (res B) :=
  let '(r, n) := m in
  match r with
  | Ok a => let '(r', n') := k a in (r', (n + n')%nat)
  | Err e => (Err e, n)
  | Panic => (Panic, n)
  | Fuel => (Fuel, n)
  end.

Definition wlift {A B} (m : work (res A)) (s : pst) (k : A -> work (pres B)) : work (pres B) :=
  let '(r, n) := m in
  match r with
  | Ok a => let '(r', n') := k a in (r', (n + n')%nat)
  | Err e => (PErr e s, n)
  | Panic => (PPanic, n)
  | Fuel => (PFuel, n)
  end.

Definition wpbind {A B} (m : work (pres A)) (k : A -> pst -> work (pres B)) : work (pres B) :=
  let '(r, n) := m in
  match r with
  | POk a s => let '(r', n') := k a s in (r', (n + n')%nat)
  | PErr e s => (PErr e s, n)
  | PPanic => (PPanic, n)
  | PFuel => (PFuel, n)
  end.

(** One byte read, one byte written. *)
Definition bget_c (b : bytes) (i : nat) : work (res Z) := costs 1 (bget b i).
Definition bset_c (b : bytes) (i : nat) (x : Z) : work (res bytes) := costs 1 (bset b i x).

(** /repo/unmarshal.go:652-671 *)
Fixpoint skip_blanks_aux_c (n : nat) (b : bytes) (off end_ : nat) : work (res (nat * bool)) :=
  match n with
  | O => free (Ok (end_, true))
  | S n' =>
    wbind (bget_c b off) (fun c =>
    if (c =? 32) || (c =? 13) || (c =? 10) || (c =? 9) || (c =? 8)
    then skip_blanks_aux_c n' b (S off) end_
    else free (Ok (off, false)))
  end.
Definition skip_blanks_c (b : bytes) (off end_ : nat) : work (res (nat * bool)) :=
  skip_blanks_aux_c (end_ - off) b off end_.

(** /repo/unmarshal.go:605-649: at most as many bytes are read as the literal has. *)
Definition parse_lit_c (lit : bytes) (eshort ewrong : err) (b : bytes) (off : nat) : work (res nat) :=
  costs (List.length lit) (parse_lit lit eshort ewrong b off).

(** /repo/unmarshal.go:477-480, 504-507: four bytes. *)
Definition hex4_c (b : bytes) (i : nat) : work (res Z) := costs 4 (hex4 b i).

(** /repo/unmarshal.go:562-591: as many bytes as are written, at most 4. *)
Definition assign_rune_c (b : bytes) (dst : nat) (r : Z) : work (res (bytes * nat)) :=
  costs (if r <=? 127 then 1%nat else if r <=? 2047 then 2%nat else if r <=? 65535 then 3%nat else 4%nat) (assign_rune b dst r).

(** /repo/unmarshal.go:472-533 *)
Definition handle_escape_unicode_c (b : bytes) (i se : nat) : work (res (bytes * nat * nat)) :=
  if (List.length b - i <=? 6)%nat then free (Err EOther)
  else
    wbind (hex4_c b (i + 2)) (fun r =>
    if (r <=? 55295) || (57344 <=? r) then
      wbind (assign_rune_c b se r) (fun '(b', le) =>
      free (Ok (b', (i + 6)%nat, (se + le)%nat)))
    else if (List.length b - i <=? 12)%nat then free (Err EOther)
    else
      wbind (bget_c b (i + 6)) (fun c6 =>
      wbind (bget_c b (i + 7)) (fun c7 =>
      if negb ((c6 =? 92) && (c7 =? 117)) then free (Err EOther)
      else
        wbind (hex4_c b (i + 8)) (fun ex =>
        if ex <? 56320 then free (Err ErrIllegalString)
        else if 1023 <? ex - 56320 then free (Err ErrIllegalString)
        else
          let r' := Z.shiftl (r - 55296) 10 + (ex - 56320) + 65536 in
          wbind (assign_rune_c b se r') (fun '(b', le) =>
          free (Ok (b', (i + 12)%nat, (se + le)%nat))))))).

(** /repo/unmarshal.go:433-470 *)
Definition handle_escape_c (b : bytes) (i se : nat) : work (res (bytes * nat * nat)) :=
  if (List.length b - i <? 2)%nat then free (Err EOther)
  else
    wbind (bget_c b (i + 1)) (fun c =>
    let put (x : Z) : work (res (bytes * nat * nat)) :=
      wbind (bset_c b se x) (fun b' => free (Ok (b', (i + 2)%nat, S se))) in
    if (c =? 34) || (c =? 39) || (c =? 47) || (c =? 92) then put c
    else if c =? 98 then put 8
    else if c =? 102 then put 12
    else if c =? 114 then put 13
    else if c =? 110 then put 10
    else if c =? 116 then put 9
    else if c =? 117 then handle_escape_unicode_c b i se
    else free (Err EOther)).

(** /repo/unmarshal.go:386-397: the bytes moved. *)
Definition shift_c (b : bytes) (i se le : nat) : work (res (bytes * nat * nat)) :=
  if (List.length b - i <? le)%nat then free (Err ErrIllegalString)
  else
    wbind (costs le (memcpy b se i le)) (fun b' =>
    free (Ok (b', (i + le)%nat, (se + le)%nat))).

(** /repo/unmarshal.go:400-430; a plain character is read twice (line 414). *)
Fixpoint parse_str_loop_c (fuel : nat) (b : bytes) (off i se : nat) : work (res (bytes * nat * nat)) :=
  match fuel with
  | O => free Fuel
  | S f =>
    if (i <? List.length b)%nat then
      wbind (bget_c b i) (fun c =>
      if c =? 34 then free (Ok (b, (se - off)%nat, S i))
      else
        wbind (
          if c =? 92 then handle_escape_c b i se
          else if c <=? 127 then
            wbind (costs 2 (bset b se c)) (fun b1 => free (Ok (b1, S i, S se)))
          else if rune_bytes2 c then shift_c b i se 2
          else if rune_bytes3 c then shift_c b i se 3
          else if rune_bytes4 c then shift_c b i se 4
          else free (Err ErrIllegalString)) (fun '(b', i', se') =>
        parse_str_loop_c f b' off i' se'))
    else free (Err EOther)
  end.
Definition parse_str_c (b : bytes) (offset : nat) : work (res (bytes * nat * nat)) :=
  parse_str_loop_c (S (List.length b)) b (S offset) (S offset) (S offset).

(** /repo/unmarshal.go:692-764 *)
Fixpoint num_loop_c (n : nat) (b : bytes) (offset idx : nat) (s : nst) : work (res (nst * nat)) :=
  match n with
  | O => free (Ok (s, idx))
  | S n' =>
    wbind (bget_c b idx) (fun c =>
    wbind (free (num_step s c (idx =? offset)%nat (idx =? S offset)%nat)) (fun r =>
    match r with
    | None => free (Ok (s, idx))
    | Some s' => num_loop_c n' b offset (S idx) s'
    end))
  end.

(** /repo/unmarshal.go:677-796; strconv.ParseFloat is counted as one pass over its argument
    (line 833), the first byte of an integer is read twice more (lines 773, 778). *)
Definition parse_number_c (E : Env) (b : bytes) (offset : nat) : work (res (V * nat * bool)) :=
  wbind (num_loop_c (List.length b - offset) b offset offset nst0) (fun '(s, idx) =>
  let reach := (List.length b - idx =? 0)%nat in
  if s_flt s then
    if s_dot s && negb (s_iad s) then free (Err EOther)
    else
      wbind (costs (idx - offset)%nat (parse_float_result E b offset idx)) (fun v =>
      free (Ok (v, idx, reach)))
  else
    wbind (costs 2 (bget b offset)) (fun c0 =>
    if (0 <? s_int s) && (c0 =? 48) then free (Err EOther)
    else if (idx - offset =? 1)%nat && negb ((48 <=? c0) && (c0 <=? 57)) then free (Err EOther)
    else
      wbind (free (if s_neg s then parse_neg_result b offset idx (s_int s)
                   else parse_pos_result b offset idx (s_int s))) (fun v =>
      free (Ok (v, idx, reach))))).

Definition p_string_c (s : pst) (off : nat) : work (pres (bytes * nat * nat)) :=
  wlift (parse_str_c (p_buf s) off) (set_buf s (left_by_str (p_buf s) off)) (fun '(b', len, sect_end) =>
    let s1 := set_buf s b' in
    wlift (free (bslice b' (S off) (S off + len))) s1 (fun str =>
      free (POk (str, (S off + len)%nat, sect_end) (log_slice s1 (S off) (S off + len) str)))).

Definition p_number_c (E : Env) (s : pst) (off : nat) : work (pres (V * nat)) :=
  wlift (parse_number_c E (p_buf s) off) s (fun '(v, end_, _) =>
    match v with
    | VNum _ src => free (POk (v, end_) (log_slice (pool_get s) off end_ src))
    | _ => free PPanic
    end).

Definition p_scalar_c (E : Env) (s : pst) (c : Z) (off : nat) : option (work (pres (V * nat))) :=
  if is_num_start c then Some (p_number_c E s off)
  else if c =? 116 then
    Some (wlift (parse_lit_c (bs "true") ErrNotValidBoolValue ErrNotValidBoolValue (p_buf s) off) s
            (fun e => free (POk (VBool true, e) s)))
  else if c =? 102 then
    Some (wlift (parse_lit_c (bs "false") ErrNotValidBoolValue ErrNotValidBoolValue (p_buf s) off) s
            (fun e => free (POk (VBool false, e) s)))
  else if c =? 110 then
    Some (wlift (parse_lit_c (bs "null") ErrNotValidNullValue ErrNotValidBoolValue (p_buf s) off) s
            (fun e => free (POk (VNull, e) s)))
  else None.

Section Loops.
Variable E : Env.

(** /repo/unmarshal.go:80-172, 176-352; the key is given to the map by
    setToObjectChildren (lines 250-338). *)
Fixpoint arr_loop_c (fuel : nat) (s : pst) (off right : nat) (acc : list V)
  : work (pres (V * nat)) :=
  match fuel with
  | O => free PFuel
  | S f =>
    if (off <? right)%nat then
      wlift (skip_blanks_c (p_buf s) off right) s (fun '(off, reach) =>
      if reach : bool then free (PErr ErrNotArrayValue s)
      else wlift (bget_c (p_buf s) off) s (fun c =>
        if c =? 93 then free (POk (VArr acc, S off) s)
        else if c =? 44 then arr_loop_c f s (S off) right acc
        else if c =? 123 then
          wpbind (obj_loop_c f (pool_get s) (S off) right new_object 0 0 false)
            (fun '(v, e) s' => arr_loop_c f s' e right (acc ++ [v]))
        else if c =? 91 then
          wpbind (arr_loop_c f (pool_get s) (S off) right [])
            (fun '(v, e) s' => arr_loop_c f s' e right (acc ++ [v]))
        else if c =? 34 then
          wpbind (p_string_c s off)
            (fun '(str, _, e) s' => arr_loop_c f s' e right (acc ++ [VStr str]))
        else match p_scalar_c E s c off with
             | Some r => wpbind r (fun '(v, e) s' => arr_loop_c f s' e right (acc ++ [v]))
             | None => free (PErr ErrRawBytesUnrecognized s)
             end))
    else free (PErr ErrNotArrayValue s)
  end
with obj_loop_c (fuel : nat) (s : pst) (off right : nat)
       (obj : V) (ks ke : nat) (colon : bool) : work (pres (V * nat)) :=
  match fuel with
  | O => free PFuel
  | S f =>
    if (off <? right)%nat then
      wlift (skip_blanks_c (p_buf s) off right) s (fun '(off, reach) =>
      if reach : bool then free (PErr ErrNotObjectValue s)
      else wlift (bget_c (p_buf s) off) s (fun c =>
        let store (v : V) (e : nat) (s' : pst) : work (pres (V * nat)) :=
          wlift (costs (ke - ks) (bslice (p_buf s') ks ke)) s' (fun key =>
          wlift (free (set_to_object E obj key v)) s' (fun obj' =>
          obj_loop_c f s' e right obj' ks 0 false)) in
        if c =? 125 then
          if (0 <? ke)%nat then free (PErr ErrNotObjectValue s)
          else free (POk (obj, S off) s)
        else if c =? 44 then
          if (0 <? ke)%nat then free (PErr ErrNotObjectValue s)
          else obj_loop_c f s (S off) right obj ks ke colon
        else if c =? 58 then
          if colon then free (PErr ErrNotObjectValue s)
          else if key_missing ke true then free (PErr ErrNotObjectValue s)
          else obj_loop_c f s (S off) right obj ks ke true
        else if c =? 123 then
          if key_missing ke colon then free (PErr ErrNotObjectValue s)
          else wpbind (obj_loop_c f (pool_get s) (S off) right new_object 0 0 false)
                 (fun '(v, e) s' => store v e s')
        else if c =? 91 then
          if key_missing ke colon then free (PErr ErrNotObjectValue s)
          else wpbind (arr_loop_c f (pool_get s) (S off) right [])
                 (fun '(v, e) s' => store v e s')
        else if c =? 34 then
          if (0 <? ke)%nat then
            if negb colon then free (PErr ErrNotObjectValue s)
            else wpbind (p_string_c s off) (fun '(str, _, e) s' => store (VStr str) e s')
          else
            wpbind (p_string_c s off)
              (fun '(_, ke', e) s' => obj_loop_c f s' e right obj (S off) ke' colon)
        else
          match p_scalar_c E s c off with
          | Some r =>
            if key_missing ke colon then free (PErr ErrNotObjectValue s)
            else wpbind r (fun '(v, e) s' => store v e s')
          | None => free (PErr ErrRawBytesUnrecognized s)
          end))
    else free (PErr ErrNotObjectValue s)
  end.

(** /repo/unmarshal.go:14-76 *)
Definition unmarshal_iter_c (s : pst) (offset : nat) : work (pres V) :=
  let len := List.length (p_buf s) in
  let fuel := S len in
  wlift (skip_blanks_c (p_buf s) offset len) s (fun '(off, reach) =>
  if reach : bool then free (PErr ErrRawBytesUnrecognized s)
  else wlift (bget_c (p_buf s) off) s (fun c =>
    let r : work (pres (V * nat)) :=
      if c =? 123 then obj_loop_c fuel (pool_get s) (S off) len new_object 0 0 false
      else if c =? 91 then arr_loop_c fuel (pool_get s) (S off) len []
      else if c =? 34 then
        wpbind (p_string_c s off) (fun '(str, _, e) s' => free (POk (VStr str, e) s'))
      else match p_scalar_c E s c off with
           | Some r => r
           | None => free (PErr ErrRawBytesUnrecognized s)
           end in
    wpbind r (fun '(v, e) s' =>
      wlift (skip_blanks_c (p_buf s') e len) s' (fun '(_, reach') =>
      if reach' : bool then free (POk v s') else free (PErr ErrRawBytesUnrecognized s'))))).

End Loops.

(** /repo/jsonvalue.go:238-251 Unmarshal, which copies the text (line 245), and
    /repo/jsonvalue.go:271-280 UnmarshalNoCopy. *)
Definition unmarshal_nocopy_c (E : Env) (b : bytes) : work (res ret) :=
  match b with
  | [] => free (Ok (VNotExist, Some ErrNilParameter))
  | _ => let '(r, n) := unmarshal_iter_c E (pst0 b) 0 in (pres_ret r, n)
  end.
Definition unmarshal_c (E : Env) (b : bytes) : work (res ret) :=
  match b with
  | [] => free (Ok (VNil, Some ErrNilParameter))
  | _ => let '(r, n) := unmarshal_iter_c E (pst0 b) 0 in (pres_ret r, (List.length b + n)%nat)
  end.
