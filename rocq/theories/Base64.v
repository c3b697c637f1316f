(** Binary data in strings: encoding/base64 (Go standard library, StdEncoding),
    NewBytes, Bytes, GetBytes. *)
From Verif Require Import Base Float64 Value Opt Marshal Access Path Edit.

(** *** encoding/base64, not part of the repository *)

(** The alphabet A-Z a-z 0-9 + / *)
Definition b64_char (d : Z) : Z :=
  if d <? 26 then d + 65
  else if d <? 52 then d - 26 + 97
  else if d <? 62 then d - 52 + 48
  else if d =? 62 then 43 else 47.

(** decodeMap; [None] for 0xFF *)
Definition b64_val (c : Z) : option Z :=
  if (65 <=? c) && (c <=? 90) then Some (c - 65)
  else if (97 <=? c) && (c <=? 122) then Some (c - 97 + 26)
  else if (48 <=? c) && (c <=? 57) then Some (c - 48 + 52)
  else if c =? 43 then Some 62
  else if c =? 47 then Some 63
  else None.

(** EncodeToString: four characters for three bytes, padded with "=". *)
Definition b64_nth (v i : Z) : Z := b64_char (Z.land (Z.shiftr v (18 - 6 * i)) 63).
Fixpoint b64_encode (s : bytes) : bytes :=
  match s with
  | a :: b :: c :: r =>
    let v := Z.lor (Z.lor (Z.shiftl a 16) (Z.shiftl b 8)) c in
    b64_nth v 0 :: b64_nth v 1 :: b64_nth v 2 :: b64_nth v 3 :: b64_encode r
  | [a; b] =>
    let v := Z.lor (Z.shiftl a 16) (Z.shiftl b 8) in
    [b64_nth v 0; b64_nth v 1; b64_nth v 2; 61]
  | [a] =>
    let v := Z.shiftl a 16 in
    [b64_nth v 0; b64_nth v 1; 61; 61]
  | [] => []
  end.

Definition is_break (c : Z) : bool := (c =? 10) || (c =? 13).
Fixpoint skip_breaks (s : bytes) : bytes :=
  match s with
  | c :: r => if is_break c then skip_breaks r else s
  | [] => []
  end.

(** The bytes of a quantum of four digits, of which the first [n - 1] are kept. *)
Definition quantum (d0 d1 d2 d3 : Z) : bytes :=
  let v := Z.lor (Z.lor (Z.lor (Z.shiftl d0 18) (Z.shiftl d1 12)) (Z.shiftl d2 6)) d3 in
  [Z.land (Z.shiftr v 16) 255; Z.land (Z.shiftr v 8) 255; Z.land v 255].

(** DecodeString, that is decodeQuantum in a loop; the fast paths for four and
    eight characters give the same.  [ds] are the digits read of the present
    quantum (dbuf).  Line breaks are skipped, bits that remain in front of a
    padding are dropped (not Strict).  [None] for CorruptInputError. *)
Fixpoint b64_decode_from (ds : list Z) (s : bytes) : option bytes :=
  match s with
  | [] => match ds with [] => Some [] | _ => None end
  | c :: r =>
    match b64_val c with
    | Some d =>
      match ds with
      | [d0; d1; d2] =>
        match b64_decode_from [] r with
        | Some t => Some (quantum d0 d1 d2 d ++ t)
        | None => None
        end
      | _ => b64_decode_from (ds ++ [d]) r
      end
    | None =>
      if is_break c then b64_decode_from ds r
      else if negb (c =? 61) then None
      else match ds with
           | [d0; d1] =>
             match skip_breaks r with
             | 61 :: r' => match skip_breaks r' with
                           | [] => Some (firstn 1 (quantum d0 d1 0 0))
                           | _ => None
                           end
             | _ => None
             end
           | [d0; d1; d2] =>
             match skip_breaks r with
             | [] => Some (firstn 2 (quantum d0 d1 d2 0))
             | _ => None
             end
           | _ => None
           end
    end
  end.
Definition b64_decode (s : bytes) : option bytes := b64_decode_from [] s.

(** *** The repository *)

(** /repo/new.go:35-38 NewBytes *)
Definition new_bytes (b : bytes) : V := VStr (b64_encode b).

(** /repo/jsonvalue.go:485-494 Bytes *)
Definition api_bytes (v : V) : res bytes :=
  match v with
  | VNil => Panic
  | VStr s => Ok (match b64_decode s with Some b => b | None => [] end)
  | _ => Ok []
  end.

(** /repo/get.go:138-155 GetBytes and getBytes: the error of DecodeString is
    passed on. *)
Definition get_bytes (E : Env) (W : World) (cl : bool) (v : V) (f : param) (o : list param) : res (bytes * option err) :=
  typed [] (fun c => match c with
                     | VStr s => match b64_decode s with
                                 | Some b => Ok (b, None)
                                 | None => Ok ([], Some EOther)
                                 end
                     | VNil => Panic
                     | _ => Ok ([], Some ErrTypeNotMatch)
                     end) (snd (get E W cl v f o)).

(** /repo/set.go:75-85 SetBytes(b).At(...): the string is converted like one
    given to NewBytes. *)
Definition set_bytes (E : Env) (v : V) (b : bytes) (f : param) (o : list param) : V * res V :=
  set_at E v (arg_v (new_bytes b)) f o.
