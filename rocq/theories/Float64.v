(** binary64 numbers and their conversions.  A Go float64 is modelled by
    [SpecFloat.spec_float] of Coq's standard library with precision 53 and
    maximal exponent 1024. *)
From Verif Require Import Base.

Definition prec : Z := 53.
Definition emax : Z := 1024.

Definition f_zero : spec_float := S754_zero false.

(** math.IsNaN / math.IsInf (Go library), used at /repo/marshal.go:102-107,205-213. *)
Definition is_nan (f : spec_float) : bool :=
  match f with S754_nan => true | _ => false end.
Definition is_infp (f : spec_float) : bool :=
  match f with S754_infinity false => true | _ => false end.
Definition is_infn (f : spec_float) : bool :=
  match f with S754_infinity true => true | _ => false end.
(** /repo/marshal.go:205-213 isValidFloat *)
Definition is_valid_float (f : spec_float) : bool :=
  match f with S754_nan | S754_infinity _ => false | _ => true end.

(** [f < 0] *)
Definition f_ltb0 (f : spec_float) : bool := SFltb f f_zero.

(** [-f] *)
Definition f_opp (f : spec_float) : spec_float := SFopp f.

(** float64(n) for an integer n (int64 or uint64): correct rounding. *)
Definition f_of_Z (n : Z) : spec_float := binary_normalize prec emax n 0 false.

(** Truncation towards zero of a finite float. *)
Definition f_trunc (f : spec_float) : option Z :=
  match f with
  | S754_zero _ => Some 0
  | S754_finite s m e =>
    let a := if 0 <=? e then Z.pos m * 2 ^ e else Z.pos m / 2 ^ (- e) in
    Some (if s then - a else a)
  | _ => None
  end.

(** Decimal to binary64: [sign * m * 10^e] correctly rounded to nearest even,
    infinity on overflow.  This is the documented contract of
    strconv.ParseFloat; the Go library computes it with several algorithms
    that are not modelled. *)
Definition f_of_dec (neg : bool) (m e : Z) : spec_float :=
  match m with
  | Z.pos p =>
    if 0 <=? e
    then binary_normalize prec emax ((if neg then Z.neg p else Z.pos p) * 10 ^ e) 0 neg
    else SFdiv prec emax (S754_finite neg p 0) (S754_finite false (Z.to_pos (10 ^ (- e))) 0)
  | _ => S754_zero neg
  end.

Definition is_digit (b : Z) : bool := (48 <=? b) && (b <=? 57).

(** Reading of decimal digits: accumulated value, count of digits, rest. *)
Fixpoint read_digits (s : bytes) (acc : Z) (cnt : nat) : Z * nat * bytes :=
  match s with
  | c :: r => if is_digit c then read_digits r (acc * 10 + (c - 48)) (S cnt) else (acc, cnt, s)
  | [] => (acc, cnt, s)
  end.

(** Exponent digits: Go's readFloat (strconv/atof.go) stops accumulating once
    the exponent reaches 10000. *)
Fixpoint read_exp (s : bytes) (acc : Z) (cnt : nat) : Z * nat * bytes :=
  match s with
  | c :: r => if is_digit c
              then read_exp r (if acc <? 10000 then acc * 10 + (c - 48) else acc) (S cnt)
              else (acc, cnt, s)
  | [] => (acc, cnt, s)
  end.

(** strconv.ParseFloat(s, 64) restricted to the alphabet [0-9eE+-.] (the only
    bytes the scanner of unmarshal.go lets through, so hexadecimal floats,
    "inf", "nan" and underscores cannot occur).  [None] is a syntax error or a
    range error.  Syntax after readFloat of strconv/atof.go: optional sign,
    digits with at most one dot and at least one digit, optional exponent with
    at least one digit, nothing after it. *)
Definition parse_float (s : bytes) : option spec_float :=
  let '(neg, s1) :=
    match s with
    | 43 :: r => (false, r)
    | 45 :: r => (true, r)
    | _ => (false, s)
    end in
  let '(ip, ni, s2) := read_digits s1 0 0 in
  let '(m, nf, s3) :=
    match s2 with
    | 46 :: r => let '(m, nf, s3) := read_digits r ip 0 in (m, nf, s3)
    | _ => (ip, 0%nat, s2)
    end in
  if (ni + nf =? 0)%nat then None
  else
    let fin (e : Z) :=
      let f := f_of_dec neg m (e - Z.of_nat nf) in
      match f with
      | S754_infinity _ => None
      | _ => Some f
      end in
    match s3 with
    | [] => fin 0
    | c :: r =>
      if (c =? 101) || (c =? 69) then
        let '(esign, r1) :=
          match r with
          | 43 :: r' => (1, r')
          | 45 :: r' => (-1, r')
          | _ => (1, r)
          end in
        let '(e, ne, r2) := read_exp r1 0 0 in
        if (ne =? 0)%nat then None
        else match r2 with
             | [] => fin (esign * e)
             | _ => None
             end
      else None
    end.

(** strconv.FormatInt(n, 10) / strconv.FormatUint(n, 10). *)
Fixpoint dec_digits_aux (fuel : nat) (n : Z) (acc : bytes) : bytes :=
  match fuel with
  | O => acc
  | S f =>
    let acc' := (48 + n mod 10) :: acc in
    if n / 10 =? 0 then acc' else dec_digits_aux f (n / 10) acc'
  end.
(** Fuel: a number has at most as many decimal as binary digits. *)
Definition dec_digits (n : Z) : bytes := dec_digits_aux (S (Z.to_nat (Z.log2 n))) n [].
Definition format_int (n : Z) : bytes :=
  if n <? 0 then 45 :: dec_digits (- n) else dec_digits n.

(** Behaviour of Go and of its library that is left open; every theorem that
    depends on it is stated for all environments. *)
Record Env := {
  (** int64(f), uint64(f) for f out of range or NaN: implementation-defined. *)
  oor_i64 : spec_float -> Z;
  oor_u64 : spec_float -> Z;
  (** strings.ToLower *)
  to_lower : bytes -> bytes;
  (** strconv.FormatFloat(f, fmt, prec, bitSize) *)
  fmt_float : spec_float -> Z -> Z -> Z -> bytes;
  (** encoding/json.Marshal of a float64 (used at /repo/marshal.go:123,153,183) *)
  json_float : spec_float -> bytes;
  (** float32(f) as a float64 *)
  to_f32 : spec_float -> spec_float;
}.

Definition in_i64 (z : Z) : bool := (- two63 <=? z) && (z <? two63).
Definition in_u64 (z : Z) : bool := (0 <=? z) && (z <? two64).

(** int64(f) and uint64(f): truncation when the result is representable,
    otherwise whatever the platform does (wrapped into range). *)
Definition f_to_i64 (E : Env) (f : spec_float) : Z :=
  match f_trunc f with
  | Some z => if in_i64 z then z else wrap_i64 (oor_i64 E f)
  | None => wrap_i64 (oor_i64 E f)
  end.
Definition f_to_u64 (E : Env) (f : spec_float) : Z :=
  match f_trunc f with
  | Some z => if in_u64 z then z else wrap_u64 (oor_u64 E f)
  | None => wrap_u64 (oor_u64 E f)
  end.
