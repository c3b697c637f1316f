(** C72: which error Unmarshal gives. *)
From Verif Require Import Base Float64 Value Unmarshal SpecJson SpecLax SpecParseErrors ParseErrorsProof ExampleWorld.

(** The class of the error, for every text, is the one that the grammar names at the first
    place where the text fails. *)
Theorem C72_exactly : forall (E : Env) (b : bytes) (e : err), Forall is_byte b ->
  (unmarshal E b = Ok (failed b, Some e) <-> doc_fails b e).
Proof. exact fails_exactly. Qed.
Print Assumptions C72_exactly.

(** It depends on the text alone. *)
Theorem C72_same : forall (E E' : Env) (b : bytes) (v : V) (e : err), Forall is_byte b ->
  unmarshal E b = Ok (v, Some e) -> unmarshal E' b = Ok (v, Some e).
Proof. exact same_error. Qed.
Print Assumptions C72_same.

(** No other class is given. *)
Theorem C72_only : forall (E : Env) (b : bytes) (v : V) (e : err), Forall is_byte b ->
  unmarshal E b = Ok (v, Some e) ->
  e = ErrNilParameter \/ e = ErrRawBytesUnrecognized \/ e = ErrNotValidBoolValue \/ e = ErrNotValidNullValue \/
  e = ErrNotArrayValue \/ e = ErrNotObjectValue \/ e = ErrIllegalString \/ e = EOther.
Proof. exact only_these. Qed.
Print Assumptions C72_only.

(** ErrNilParameter: the text is empty. *)
Theorem C72_nothing : forall (E : Env) (b : bytes) (v : V), Forall is_byte b ->
  (unmarshal E b = Ok (v, Some ErrNilParameter) <-> b = [] /\ v = VNil).
Proof. exact nothing_read. Qed.
Print Assumptions C72_nothing.

(** ErrRawBytesUnrecognized, unless the text is blank: nothing that could follow would help. *)
Theorem C72_stray : forall (E : Env) (b s : bytes) (v : V), Forall is_byte (b ++ s) -> ~ lblanks b ->
  unmarshal E b = Ok (v, Some ErrRawBytesUnrecognized) ->
  unmarshal E (b ++ s) = Ok (v, Some ErrRawBytesUnrecognized).
Proof. exact stray_stays. Qed.
Print Assumptions C72_stray.

(** What begins like a number and is none. *)
Theorem C72_number : forall (E : Env) (c : Z) (r : bytes), Forall is_byte (c :: r) -> number_start c ->
  (forall lit t, c :: r = lit ++ t -> lax_num lit -> ~ number_over t) ->
  unmarshal E (c :: r) = Ok (VNotExist, Some EOther).
Proof. exact no_number_error. Qed.
Print Assumptions C72_number.

(** errors.go: ErrNotValidNumberValue shows that a value starting with a digit or a minus sign
    is not eventually a number.  It is never given: the error in this case wraps nothing. *)
Theorem C72_number_refuted : exists c r, number_start c /\
  (forall lit t, c :: r = lit ++ t -> lax_num lit -> ~ number_over t) /\
  (forall E, unmarshal E (c :: r) = Ok (VNotExist, Some EOther)) /\
  (forall E b v, Forall is_byte b -> unmarshal E b <> Ok (v, Some ErrNotValidNumberValue)).
Proof. exact number_refuted. Qed.
Print Assumptions C72_number_refuted.

(** errors.go: ErrNotValidNullValue shows that a value starting with the letter n is not
    eventually null.  With four or more bytes the error is the one for booleans. *)
Theorem C72_null_refuted : exists r, (forall t, 110 :: r <> bs "null" ++ t) /\
  (forall E, unmarshal E (110 :: r) = Ok (VNotExist, Some ErrNotValidBoolValue)).
Proof. exact null_refuted. Qed.
Print Assumptions C72_null_refuted.

(** errors.go: ErrIllegalString shows that it is not a legal JSON string.  A string without
    its closing quote, and one with a wrong escape, give an error that wraps nothing. *)
Theorem C72_string_refuted : exists t u,
  (forall E, unmarshal E (34 :: t) = Ok (VNotExist, Some EOther)) /\
  (forall E, unmarshal E (34 :: u ++ [34]) = Ok (VNotExist, Some EOther)).
Proof. exact string_refuted. Qed.
Print Assumptions C72_string_refuted.

Example C72_table :
  map (fun b => match unmarshal env0 b with Ok (_, Some e) => Some e | _ => None end)
    [bs ""; bs "  "; bs "x"; bs "{} {}"; bs "[1,2"; bs "[1:2]"; bs "{"; bs "{1}"; bs "{""a"" 1}"; bs "{""a"":,}"; bs "{""a""::1}";
     bs "{""a"":]}"; bs "{x}"; bs "[tru]"; bs "nul"; bs "nulx"; bs "-"; bs "1.e"; bs """abc"; bs """\q"""; 34 :: 255 :: 34 :: nil; [34; 226; 130];
     bs """\ud800\u0041"" "; bs """\ud800x"""; bs "[{""k"":[1,{""l"":tr"]
  = [Some ErrNilParameter; Some ErrRawBytesUnrecognized; Some ErrRawBytesUnrecognized; Some ErrRawBytesUnrecognized;
     Some ErrNotArrayValue; Some ErrRawBytesUnrecognized; Some ErrNotObjectValue; Some ErrNotObjectValue; Some ErrNotObjectValue;
     Some ErrNotObjectValue; Some ErrNotObjectValue; Some ErrRawBytesUnrecognized; Some ErrRawBytesUnrecognized;
     Some ErrNotValidBoolValue; Some ErrNotValidNullValue; Some ErrNotValidBoolValue; Some EOther; Some EOther; Some EOther; Some EOther;
     Some ErrIllegalString; Some ErrIllegalString; Some ErrIllegalString; Some EOther; Some ErrNotValidBoolValue].
Proof. vm_compute. reflexivity. Qed.

(** A failure far inside, by the relations. *)
Example C72_inside : doc_fails (bs "[{""k"":[1,tr") ErrNotValidBoolValue.
Proof. apply (C72_exactly env0 (bs "[{""k"":[1,tr")); [repeat constructor; vm_compute; congruence|]. vm_compute. reflexivity. Qed.
