(** Go's decoding of strings into code points ([for _, chr := range s]), which
    conv.go uses in escapeStringToBuff.  This is language semantics (Go
    specification, "For statements with range clause"), modelled concretely:
    an ill-formed sequence yields U+FFFD and consumes one byte. *)
From Verif Require Import Base.

Definition runeError : Z := 65533.

Definition is_cont (b : Z) : bool := (128 <=? b) && (b <=? 191).

(** Decode the first code point of a non-empty byte string: the code point and
    the number of bytes consumed (utf8.DecodeRuneInString of the Go library:
    shortest forms only, no surrogates, at most U+10FFFF). *)
Definition decode_rune (s : bytes) : Z * nat :=
  match s with
  | [] => (runeError, 0%nat)
  | b0 :: r =>
    if b0 <? 128 then (b0, 1%nat)
    else if (194 <=? b0) && (b0 <=? 223) then
      match r with
      | b1 :: _ => if is_cont b1 then ((b0 - 192) * 64 + (b1 - 128), 2%nat) else (runeError, 1%nat)
      | _ => (runeError, 1%nat)
      end
    else if (224 <=? b0) && (b0 <=? 239) then
      match r with
      | b1 :: b2 :: _ =>
        let lo := if b0 =? 224 then 160 else 128 in
        let hi := if b0 =? 237 then 159 else 191 in
        if (lo <=? b1) && (b1 <=? hi) && is_cont b2
        then ((b0 - 224) * 4096 + (b1 - 128) * 64 + (b2 - 128), 3%nat)
        else (runeError, 1%nat)
      | _ => (runeError, 1%nat)
      end
    else if (240 <=? b0) && (b0 <=? 244) then
      match r with
      | b1 :: b2 :: b3 :: _ =>
        let lo := if b0 =? 240 then 144 else 128 in
        let hi := if b0 =? 244 then 143 else 191 in
        if (lo <=? b1) && (b1 <=? hi) && is_cont b2 && is_cont b3
        then ((b0 - 240) * 262144 + (b1 - 128) * 4096 + (b2 - 128) * 64 + (b3 - 128), 4%nat)
        else (runeError, 1%nat)
      | _ => (runeError, 1%nat)
      end
    else (runeError, 1%nat)
  end.

(** All code points of a string, in order, with how many bytes are skipped for
    each; [skip] counts bytes that belong to the code point already emitted, so
    that the recursion is structural. *)
Fixpoint runes_aux (skip : nat) (s : bytes) : list Z :=
  match s with
  | [] => []
  | _ :: r =>
    match skip with
    | S k => runes_aux k r
    | O => let (c, n) := decode_rune s in c :: runes_aux (pred n) r
    end
  end.

Definition runes (s : bytes) : list Z := runes_aux 0 s.

(** string(r) for a rune (Go specification, "Conversions to and from a string
    type"): UTF-8, U+FFFD for surrogates and out-of-range values. *)
Definition encode_rune (r : Z) : bytes :=
  if (0 <=? r) && (r <=? 127) then [r]
  else if (0 <=? r) && (r <=? 2047) then [192 + r / 64; 128 + r mod 64]
  else if (r <? 0) || (1114111 <? r) || ((55296 <=? r) && (r <=? 57343)) then [239; 191; 189]
  else if r <=? 65535 then [224 + r / 4096; 128 + (r / 64) mod 64; 128 + r mod 64]
  else [240 + r / 262144; 128 + (r / 4096) mod 64; 128 + (r / 64) mod 64; 128 + r mod 64].
