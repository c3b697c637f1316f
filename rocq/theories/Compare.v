(** Comparison of values (compare.go) and the part of the decimal package that
    it uses. *)
From Verif Require Import Base Float64 Value Opt Marshal.

(** *** github.com/shopspring/decimal v1.4.0 (not part of the repository)

    A Decimal is [value * 10^exp] with a big integer and an int32. *)
Definition dec := (Z * Z)%type.

(** strconv.ParseInt(s, 10, 64) for at most 18 bytes and big.Int.SetString(s, 10)
    for more: an optional sign and at least one digit. *)
Definition read_int (s : bytes) : option Z :=
  let '(neg, d) := match s with 43 :: r => (false, r) | 45 :: r => (true, r) | _ => (false, s) end in
  match read_digits d 0 0 with
  | (v, S _, []) => Some (if neg then - v else v)
  | _ => None
  end.

Definition in_i32 (z : Z) : bool := (- two31 <=? z) && (z <? two31).

(** Cuts at the first byte for which [p] holds. *)
Fixpoint cut_at (p : Z -> bool) (s : bytes) : bytes * option bytes :=
  match s with
  | [] => ([], None)
  | c :: r => if p c then ([], Some r) else let '(a, b) := cut_at p r in (c :: a, b)
  end.

(** decimal.NewFromString; [None] for an error.  The exponent is read by
    strconv.ParseInt(s, 10, 32). *)
Definition dec_of_string (s : bytes) : option dec :=
  let '(body, ex) := cut_at (fun c => (c =? 101) || (c =? 69)) s in
  match (match ex with
         | None => Some 0
         | Some t => match read_int t with
                     | Some e => if in_i32 e then Some e else None
                     | None => None
                     end
         end) with
  | None => None
  | Some e =>
    let '(ip, fr) := cut_at (fun c => c =? 46) body in
    let f := match fr with None => [] | Some f => f end in
    if existsb (fun c => c =? 46) f then None
    else match read_int (ip ++ f) with
         | None => None
         | Some m =>
           let e' := e - Z.of_nat (List.length f) in
           if in_i32 e' then Some (m, e') else None
         end
  end.

(** Decimal.Cmp: both are rescaled to the smaller exponent.  The size of the
    numbers is not bounded. *)
Definition dec_cmp (a b : dec) : comparison :=
  let '(m1, e1) := a in let '(m2, e2) := b in
  let s := Z.min e1 e2 in
  Z.compare (m1 * 10 ^ (e1 - s)) (m2 * 10 ^ (e2 - s)).

(** The Decimal of a number value; compare.go drops the error, and Decimal{} is
    zero. *)
Definition dec_of (src : bytes) : dec :=
  match dec_of_string src with Some d => d | None => (0, 0) end.

(** *** /repo/compare.go *)

(** /repo/compare.go:48-55 greaterThan: result and ok.  A nil *V panics; the
    right one is only looked at if the left one is a number. *)
Definition greater_than_ok (l r : V) : res (bool * bool) :=
  match l with
  | VNil => Panic
  | VNum _ s =>
    match r with
    | VNil => Panic
    | VNum _ t => Ok (match dec_cmp (dec_of s) (dec_of t) with Gt => true | _ => false end, true)
    | _ => Ok (false, false)
    end
  | _ => Ok (false, false)
  end.

(** /repo/compare.go:57-67 greaterOrEqualThan *)
Definition greater_or_equal_ok (l r : V) : res (bool * bool) :=
  match l with
  | VNil => Panic
  | VNum _ s =>
    match r with
    | VNil => Panic
    | VNum _ t =>
      if beqb s t then Ok (true, true)
      else Ok (match dec_cmp (dec_of s) (dec_of t) with Gt | Eq => true | Lt => false end, true)
    | _ => Ok (false, false)
    end
  | _ => Ok (false, false)
  end.

(** /repo/compare.go:12-46 *)
Definition greater_than (v a : V) : res bool := let* (r, _) := greater_than_ok v a in Ok r.
Definition greater_or_equal (v a : V) : res bool := let* (r, _) := greater_or_equal_ok v a in Ok r.
Definition less_than (v a : V) : res bool :=
  let* (r, ok) := greater_or_equal_ok v a in Ok (if ok then negb r else false).
Definition less_or_equal (v a : V) : res bool :=
  let* (r, ok) := greater_than_ok v a in Ok (if ok then negb r else false).

(** /repo/compare.go:97-105 numberEqual *)
Definition number_equal (s t : bytes) : bool :=
  if beqb s t then true
  else match dec_cmp (dec_of s) (dec_of t) with Eq => true | _ => false end.

(** /repo/compare.go:72-136 Equal, objectEqual, arrayEqual.  [path] only names
    the object for the iteration oracle. *)
Fixpoint equal (W : World) (path : list key) (v a : V) {struct v} : bool :=
  match v, a with
  | VStr s, VStr t => beqb s t
  | VNum _ s, VNum _ t => number_equal s t
  | VBool b, VBool c => Bool.eqb b c
  | VNull, VNull => true
  | VObj _ kvs _, VObj _ kvs' _ =>
    if negb (List.length kvs =? List.length kvs')%nat then false
    else
      forallb (fun e : bytes * (V -> bool) =>
                 match alookup (fst e) kvs' with
                 | Some (_, y) => snd e y
                 | None => false
                 end)
        (go_range W path
           (map (fun e : bytes * (Z * V) =>
                   let '(k, (_, x)) := e in (k, fun y => equal W (path ++ [string_key k]) x y)) kvs))
  | VArr l, VArr l' =>
    if negb (List.length l =? List.length l')%nat then false
    else
      (fix go (i : Z) (l l' : list V) : bool :=
         match l, l' with
         | x :: r, y :: r' => if equal W (path ++ [int_key i]) x y then go (i + 1) r r' else false
         | _, _ => true
         end) 0 l l'
  | _, _ => false
  end.
