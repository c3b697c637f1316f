(** Specification of JSON texts, after RFC 8259, as relations between bytes and
    abstract syntax.  Nothing here depends on the model of the Go code; only
    byte strings ([Base]) and the binary64 numbers ([Float64.f_of_dec], the
    correct rounding of a decimal, see SpecRound.v) are used. *)
From Verif Require Import Base Float64.

(** Abstract JSON.  A number keeps its literal text.  The members of an object
    are kept in text order, including repeated names. *)
Inductive jv :=
| JNull
| JBool (b : bool)
| JNum (lit : bytes)
| JStr (s : bytes)
| JArr (l : list jv)
| JObj (l : list (bytes * jv)).

(** RFC 8259, section 2: insignificant white space. *)
Definition is_ws (c : Z) : Prop := c = 32 \/ c = 9 \/ c = 10 \/ c = 13.
Definition ws (w : bytes) : Prop := Forall is_ws w.

(** *** Numbers, section 6 *)

Definition digit (c : Z) : Prop := 48 <= c <= 57.
Definition digits (d : bytes) : Prop := d <> [] /\ Forall digit d.
(** Value of a digit string. *)
Definition digits_val (d : bytes) : Z := fold_left (fun a c => a * 10 + (c - 48)) d 0.

Inductive int_part : bytes -> Prop :=
| IP_zero : int_part [48]
| IP_pos c d : 49 <= c <= 57 -> Forall digit d -> int_part (c :: d).

(** Text of the fraction and its digits. *)
Inductive frac_part : bytes -> bytes -> Prop :=
| FP_none : frac_part [] []
| FP_some d : digits d -> frac_part (46 :: d) d.

(** Text of the exponent and its value. *)
Inductive exp_part : bytes -> Z -> Prop :=
| EP_none : exp_part [] 0
| EP_plain c d : c = 101 \/ c = 69 -> digits d -> exp_part (c :: d) (digits_val d)
| EP_plus c d : c = 101 \/ c = 69 -> digits d -> exp_part (c :: 43 :: d) (digits_val d)
| EP_minus c d : c = 101 \/ c = 69 -> digits d -> exp_part (c :: 45 :: d) (- digits_val d).

(** A literal, decomposed: sign, integer digits, fraction digits, exponent
    value, and whether it is an integer literal (neither fraction nor
    exponent). *)
Inductive num_lit : bytes -> bool -> bytes -> bytes -> Z -> bool -> Prop :=
| NumLit (neg : bool) ip fr fd ex e :
    int_part ip -> frac_part fr fd -> exp_part ex e ->
    num_lit ((if neg then [45] else []) ++ ip ++ fr ++ ex) neg ip fd e
            (match fr ++ ex with [] => true | _ => false end).

(** *** Strings, section 7 *)

(** Unicode scalar values. *)
Definition scalar (cp : Z) : Prop := 0 <= cp < 55296 \/ 57344 <= cp <= 1114111.

(** UTF-8 (RFC 3629) encoding of a code point. *)
Definition utf8 (cp : Z) : bytes :=
  if cp <? 128 then [cp]
  else if cp <? 2048 then [192 + cp / 64; 128 + cp mod 64]
  else if cp <? 65536 then [224 + cp / 4096; 128 + (cp / 64) mod 64; 128 + cp mod 64]
  else [240 + cp / 262144; 128 + (cp / 4096) mod 64; 128 + (cp / 64) mod 64; 128 + cp mod 64].

(** Two-character escapes: the letter and the character denoted. *)
Inductive simple_esc : Z -> Z -> Prop :=
| SE_quote : simple_esc 34 34
| SE_backslash : simple_esc 92 92
| SE_slash : simple_esc 47 47
| SE_b : simple_esc 98 8
| SE_f : simple_esc 102 12
| SE_n : simple_esc 110 10
| SE_r : simple_esc 114 13
| SE_t : simple_esc 116 9.

(** A hexadecimal digit, either case, and its value. *)
Inductive hexd : Z -> Z -> Prop :=
| HD_dec c : 48 <= c <= 57 -> hexd c (c - 48)
| HD_low c : 97 <= c <= 102 -> hexd c (c - 87)
| HD_up c : 65 <= c <= 70 -> hexd c (c - 55).

Inductive hex4d : bytes -> Z -> Prop :=
| Hex4 a b c d va vb vc vd :
    hexd a va -> hexd b vb -> hexd c vc -> hexd d vd ->
    hex4d [a; b; c; d] (va * 4096 + vb * 256 + vc * 16 + vd).

(** The text between the quotes and the UTF-8 string it denotes.  Escapes of
    single surrogates are not covered (they denote no Unicode text). *)
Inductive str_body : bytes -> bytes -> Prop :=
| SB_nil : str_body [] []
| SB_raw cp t s :
    scalar cp -> 32 <= cp -> cp <> 34 -> cp <> 92 ->
    str_body t s -> str_body (utf8 cp ++ t) (utf8 cp ++ s)
| SB_esc c d t s :
    simple_esc c d -> str_body t s -> str_body (92 :: c :: t) (d :: s)
| SB_unicode h cp t s :
    hex4d h cp -> scalar cp -> str_body t s ->
    str_body (92 :: 117 :: h ++ t) (utf8 cp ++ s)
| SB_pair h1 h2 hi lo t s :
    hex4d h1 hi -> 55296 <= hi < 56320 -> hex4d h2 lo -> 56320 <= lo < 57344 ->
    str_body t s ->
    str_body (92 :: 117 :: h1 ++ 92 :: 117 :: h2 ++ t)
             (utf8 (65536 + (hi - 55296) * 1024 + (lo - 56320)) ++ s).

(** *** Values, sections 3, 4, 5 *)

Inductive jval : bytes -> jv -> Prop :=
| JT_null : jval (bs "null") JNull
| JT_true : jval (bs "true") (JBool true)
| JT_false : jval (bs "false") (JBool false)
| JT_num lit neg ip fd e i : num_lit lit neg ip fd e i -> jval lit (JNum lit)
| JT_str t s : str_body t s -> jval (34 :: t ++ [34]) (JStr s)
| JT_arr0 w : ws w -> jval (91 :: w ++ [93]) (JArr [])
| JT_arr t l : jelems t l -> jval (91 :: t ++ [93]) (JArr l)
| JT_obj0 w : ws w -> jval (123 :: w ++ [125]) (JObj [])
| JT_obj t l : jmembers t l -> jval (123 :: t ++ [125]) (JObj l)
with jelems : bytes -> list jv -> Prop :=
| JE_one w1 t w2 j : ws w1 -> jval t j -> ws w2 -> jelems (w1 ++ t ++ w2) [j]
| JE_cons w1 t w2 j te l :
    ws w1 -> jval t j -> ws w2 -> jelems te l ->
    jelems (w1 ++ t ++ w2 ++ 44 :: te) (j :: l)
with jmembers : bytes -> list (bytes * jv) -> Prop :=
| JM_one w1 tk k w2 w3 t w4 j :
    ws w1 -> str_body tk k -> ws w2 -> ws w3 -> jval t j -> ws w4 ->
    jmembers (w1 ++ 34 :: tk ++ 34 :: w2 ++ 58 :: w3 ++ t ++ w4) [(k, j)]
| JM_cons w1 tk k w2 w3 t w4 j tm l :
    ws w1 -> str_body tk k -> ws w2 -> ws w3 -> jval t j -> ws w4 -> jmembers tm l ->
    jmembers (w1 ++ 34 :: tk ++ 34 :: w2 ++ 58 :: w3 ++ t ++ w4 ++ 44 :: tm) ((k, j) :: l).

Scheme jval_mut := Minimality for jval Sort Prop
with jelems_mut := Minimality for jelems Sort Prop
with jmembers_mut := Minimality for jmembers Sort Prop.
Combined Scheme json_mutind from jval_mut, jelems_mut, jmembers_mut.

(** JSON-text = ws value ws *)
Definition json_doc (b : bytes) (j : jv) : Prop :=
  exists w1 t w2, b = w1 ++ t ++ w2 /\ ws w1 /\ jval t j /\ ws w2.

(** All number literals of a tree satisfy [P]. *)
Fixpoint all_lits (P : bytes -> Prop) (j : jv) : Prop :=
  match j with
  | JNum lit => P lit
  | JArr l => (fix go (l : list jv) : Prop :=
                 match l with [] => True | x :: r => all_lits P x /\ go r end) l
  | JObj l => (fix go (l : list (bytes * jv)) : Prop :=
                 match l with [] => True | (_, x) :: r => all_lits P x /\ go r end) l
  | _ => True
  end.

(** binary64 nearest to a decomposed literal: [digits * 10^(e - |fraction|)]. *)
Definition lit_f64 (neg : bool) (ip fd : bytes) (e : Z) : spec_float :=
  f_of_dec neg (digits_val (ip ++ fd)) (e - Z.of_nat (List.length fd)).

Definition finite64 (f : spec_float) : Prop :=
  match f with S754_infinity _ | S754_nan => False | _ => True end.

(** The promise of property C02 about numbers: an integer literal fits int64 or
    uint64, any other literal is finite in binary64. *)
Definition lit_fits (lit : bytes) : Prop :=
  forall neg ip fd e i, num_lit lit neg ip fd e i ->
    if i then (if neg then digits_val ip <= 9223372036854775808
               else digits_val ip < 18446744073709551616)
    else finite64 (lit_f64 neg ip fd e).

(** The promise under which the library keeps C02: in addition, no proper
    prefix of the integer digits followed by a [0] is a positive multiple of
    2^64, and the exponent has an absolute value below 100000.  Both only
    concern literals that are not integers. *)
Definition no_wrap (ip : bytes) : Prop :=
  forall p q, ip = p ++ 48 :: q -> p <> [] -> digits_val p mod two64 <> 0.

Definition lit_ok (lit : bytes) : Prop :=
  forall neg ip fd e i, num_lit lit neg ip fd e i ->
    if i then (if neg then digits_val ip <= two63 else digits_val ip < two64)
    else finite64 (lit_f64 neg ip fd e) /\ Z.abs e <= 99999 /\ no_wrap ip.
