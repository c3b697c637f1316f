(** Binary data in strings (C29). *)
From Verif Require Import Base Float64 Value Scan Unmarshal Opt Marshal Access Path Edit Base64 SpecText SpecOpts SpecPath SpecBase64
  Base64Proof ExampleWorld.

(** The text of NewBytes is the one text that encodes the bytes with no bit set
    behind them. *)
Theorem C29_text : forall b, Forall is_byte b ->
  exists t, new_bytes b = VStr t /\ forall t', t' = t <-> b64_text (fun r => r = 0) t' b.
Proof. exact new_bytes_text. Qed.
Print Assumptions C29_text.

Theorem C29_round_trip : forall (E : Env) (W : World) o b, opt_ws o -> Forall is_byte b ->
  api_bytes (new_bytes b) = Ok b /\
  exists t v, marshal_opt E W o (new_bytes b) = Ok t /\ unmarshal E t = Ok (v, None) /\ v = new_bytes b /\ api_bytes v = Ok b.
Proof. exact bytes_round_trip. Qed.
Print Assumptions C29_round_trip.

Theorem C29_set_get : forall (E : Env) (W : World) v b p ps v' x, Forall is_byte b -> maps_ok v -> Forall plain (p :: ps) ->
  in_bounds v (p :: ps) -> set_bytes E v b p ps = (v', Ok x) -> get_bytes E W false v' p ps = Ok (b, None).
Proof. exact set_get_bytes. Qed.
Print Assumptions C29_set_get.

(** GetBytes accepts more than the canonical texts: line breaks anywhere, and
    bits that are set behind the last byte ... *)
Theorem C29_refuted : exists t1 t2 b, t1 <> t2 /\ (forall b', ~ b64_text (fun _ => True) t1 b') /\ (forall b', ~ b64_text (fun r => r = 0) t2 b') /\
  forall E W, get_bytes E W false (VArr [VStr t1; VStr t2]) (PInt 0) [] = Ok (b, None) /\
              get_bytes E W false (VArr [VStr t1; VStr t2]) (PInt 1) [] = Ok (b, None).
Proof. exact bytes_lenient. Qed.
Print Assumptions C29_refuted.

(** ... and nothing else: with the line breaks removed the string is base64, and
    the result is what it encodes. *)
Theorem C29_get_bytes_partial : forall (E : Env) (W : World) cl v p o,
  (forall s, snd (get E W cl v p o) = Ok (VStr s) ->
    (forall b, get_bytes E W cl v p o = Ok (b, None) <-> b64_text (fun _ => True) (unbroken s) b) /\
    ((forall b, ~ b64_text (fun _ => True) (unbroken s) b) -> exists e, get_bytes E W cl v p o = Ok ([], Some e))) /\
  (forall c, snd (get E W cl v p o) = Ok c -> (forall s, c <> VStr s) -> c <> VNil -> get_bytes E W cl v p o = Ok ([], Some ErrTypeNotMatch)) /\
  (forall e, snd (get E W cl v p o) = Err e -> get_bytes E W cl v p o = Ok ([], Some e)).
Proof. exact get_bytes_contract. Qed.
Print Assumptions C29_get_bytes_partial.

(** Bytes: the same, with no bytes instead of an error. *)
Theorem C29_bytes : forall v,
  (forall s b, v = VStr s -> b64_text (fun _ => True) (unbroken s) b -> api_bytes v = Ok b) /\
  (forall s, v = VStr s -> (forall b, ~ b64_text (fun _ => True) (unbroken s) b) -> api_bytes v = Ok []) /\
  ((forall s, v <> VStr s) -> v <> VNil -> api_bytes v = Ok []).
Proof. exact bytes_contract. Qed.
Print Assumptions C29_bytes.

Example C29_instance :
  new_bytes [0; 255; 16; 131] = VStr (bs "AP8Qgw==") /\ api_bytes (VStr (bs "AP8Qgw==")) = Ok [0; 255; 16; 131] /\
  new_bytes (bs "ab") = VStr (bs "YWI=") /\ api_bytes (VStr (bs "YWI")) = Ok [] /\
  set_bytes env0 (VObj 0 [] None) [1] (PStr (bs "k")) [] = (VObj 1 [(bs "k", (1, VStr (bs "AQ==")))] None, Ok (VStr (bs "AQ=="))) /\
  get_bytes env0 world1 false (VArr [VStr (bs "A===")]) (PInt 0) [] = Ok ([], Some EOther).
Proof. repeat split; vm_compute; reflexivity. Qed.
