(** Specification of standard base64 (RFC 4648, section 4). *)
From Verif Require Import Base.

(** The digit that a character of the alphabet stands for. *)
Definition b64_digit (c d : Z) : Prop :=
  (65 <= c <= 90 /\ d = c - 65) \/ (97 <= c <= 122 /\ d = c - 97 + 26) \/ (48 <= c <= 57 /\ d = c - 48 + 52) \/
  (c = 43 /\ d = 62) \/ (c = 47 /\ d = 63).

(** [b64_text P t s]: the text [t] encodes the bytes [s].  Four digits are three
    bytes; at the end two digits are one byte and three digits two bytes, with
    padding.  The bits that remain then satisfy [P]. *)
Inductive b64_text (P : Z -> Prop) : bytes -> bytes -> Prop :=
| B64_nil : b64_text P [] []
| B64_group c0 c1 c2 c3 d0 d1 d2 d3 x y z t s :
    b64_digit c0 d0 -> b64_digit c1 d1 -> b64_digit c2 d2 -> b64_digit c3 d3 ->
    0 <= x <= 255 -> 0 <= y <= 255 -> 0 <= z <= 255 ->
    ((d0 * 64 + d1) * 64 + d2) * 64 + d3 = (x * 256 + y) * 256 + z -> b64_text P t s ->
    b64_text P (c0 :: c1 :: c2 :: c3 :: t) (x :: y :: z :: s)
| B64_one c0 c1 d0 d1 x r :
    b64_digit c0 d0 -> b64_digit c1 d1 -> 0 <= x <= 255 -> 0 <= r < 16 -> P r ->
    d0 * 64 + d1 = x * 16 + r ->
    b64_text P [c0; c1; 61; 61] [x]
| B64_two c0 c1 c2 d0 d1 d2 x y r :
    b64_digit c0 d0 -> b64_digit c1 d1 -> b64_digit c2 d2 -> 0 <= x <= 255 -> 0 <= y <= 255 -> 0 <= r < 4 -> P r ->
    (d0 * 64 + d1) * 64 + d2 = (x * 256 + y) * 4 + r ->
    b64_text P [c0; c1; c2; 61] [x; y].

(** A text without its line feeds and carriage returns. *)
Definition unbroken (s : bytes) : bytes := filter (fun c => negb ((c =? 10) || (c =? 13))) s.
