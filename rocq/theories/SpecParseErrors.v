(** C72: which error Unmarshal gives.  Read from left to right, a rejected text has a first
    place where it can no longer be a document; the class of the error says what stood there.
    The relations below say it by the grammar of SpecLax.v: [X_fails r e] for a remaining text
    [r] that should have continued an X and did not. *)
From Verif Require Import Base Float64 Value SpecJson SpecLax.

(** An escape in a string. *)
Inductive escape : bytes -> Prop :=
| ES_simple c : (exists d, simple_esc c d) \/ c = 39 -> escape [92; c]
| ES_unicode h cp : hex4d h cp -> scalar cp -> escape (92 :: 117 :: h)
| ES_pair h1 h2 hi lo :
    hex4d h1 hi -> 55296 <= hi < 57344 -> hex4d h2 lo -> 56320 <= lo < 57344 ->
    escape (92 :: 117 :: h1 ++ 92 :: 117 :: h2).

(** A surrogate whose other half is no low surrogate, and something behind. *)
Inductive bad_pair : bytes -> Prop :=
| BP h1 h2 hi u c r :
    hex4d h1 hi -> 55296 <= hi < 57344 -> hex4d h2 u -> ~ (56320 <= u < 57344) ->
    bad_pair (92 :: 117 :: h1 ++ 92 :: 117 :: h2 ++ c :: r).

(** How many bytes the sequence with this lead byte has. *)
Inductive lead_len : Z -> nat -> Prop :=
| LL_two c : 192 <= c <= 223 -> lead_len c 2
| LL_three c : 224 <= c <= 239 -> lead_len c 3
| LL_four c : 240 <= c <= 247 -> lead_len c 4.

(** The next character of a string. *)
Inductive char_fails : bytes -> err -> Prop :=
| CF_end : char_fails [] EOther
| CF_escape r :
    (forall x c t, 92 :: r = x ++ c :: t -> ~ escape x) -> ~ bad_pair (92 :: r) ->
    char_fails (92 :: r) EOther
| CF_pair r : bad_pair r -> char_fails r ErrIllegalString
| CF_lead c r : 128 <= c <= 191 \/ 248 <= c <= 255 -> char_fails (c :: r) ErrIllegalString
| CF_short c r n : lead_len c n -> (List.length (c :: r) < n)%nat -> char_fails (c :: r) ErrIllegalString.

(** A string, after its opening quote. *)
Inductive str_fails : bytes -> err -> Prop :=
| SF t s r e : lstr t s -> char_fails r e -> str_fails (t ++ r) e.

Definition number_start (c : Z) : Prop := c = 45 \/ digit c.
Definition value_start (c : Z) : Prop :=
  number_start c \/ c = 110 \/ c = 116 \/ c = 102 \/ c = 34 \/ c = 91 \/ c = 123.
Definition number_over (r : bytes) : Prop := match r with [] => True | c :: _ => ~ number_byte c end.
(** A byte that begins nothing. *)
Definition stray (c : Z) : Prop :=
  ~ is_lblank c /\ ~ value_start c /\ c <> 44 /\ c <> 58 /\ c <> 93 /\ c <> 125.

(** In an array a colon or a closing brace is as stray as a letter; in an object a closing
    bracket is. *)
Inductive val_fails : bytes -> err -> Prop :=
| VF_true r : (forall t, 116 :: r <> bs "true" ++ t) -> val_fails (116 :: r) ErrNotValidBoolValue
| VF_false r : (forall t, 102 :: r <> bs "false" ++ t) -> val_fails (102 :: r) ErrNotValidBoolValue
| VF_null_short r : (List.length (110%Z :: r) < 4)%nat -> val_fails (110 :: r) ErrNotValidNullValue
| VF_null r :
    (4 <= List.length (110%Z :: r))%nat -> (forall t, 110 :: r <> bs "null" ++ t) ->
    val_fails (110 :: r) ErrNotValidBoolValue
| VF_num c r :
    number_start c -> (forall lit t, c :: r = lit ++ t -> lax_num lit -> ~ number_over t) ->
    val_fails (c :: r) EOther
| VF_str r e : str_fails r e -> val_fails (34 :: r) e
| VF_arr r e : arr_fails r e -> val_fails (91 :: r) e
| VF_obj r e : obj_fails r e -> val_fails (123 :: r) e
(** The rest of an array. *)
with arr_fails : bytes -> err -> Prop :=
| AF_end w : lblanks w -> arr_fails w ErrNotArrayValue
| AF_stray w c r : lblanks w -> stray c \/ c = 58 \/ c = 125 -> arr_fails (w ++ c :: r) ErrRawBytesUnrecognized
| AF_value w r e : lblanks w -> val_fails r e -> arr_fails (w ++ r) e
| AF_comma w r e : lblanks w -> arr_fails r e -> arr_fails (w ++ 44 :: r) e
| AF_later w t j r e :
    lblanks w -> lval t j -> after_num j r -> arr_fails r e -> arr_fails (w ++ t ++ r) e
(** The rest of an object, where a name may come. *)
with obj_fails : bytes -> err -> Prop :=
| OF_end w : lblanks w -> obj_fails w ErrNotObjectValue
| OF_stray w c r : lblanks w -> stray c \/ c = 93 -> obj_fails (w ++ c :: r) ErrRawBytesUnrecognized
| OF_no_name w c r : lblanks w -> c = 58 \/ value_start c /\ c <> 34 -> obj_fails (w ++ c :: r) ErrNotObjectValue
| OF_name w r e : lblanks w -> str_fails r e -> obj_fails (w ++ 34 :: r) e
| OF_comma w r e : lblanks w -> obj_fails r e -> obj_fails (w ++ 44 :: r) e
| OF_later w t k r e :
    lblanks w -> lstr t k -> colon_fails r e -> obj_fails (w ++ 34 :: t ++ 34 :: r) e
(** After a name, where the colon must come. *)
with colon_fails : bytes -> err -> Prop :=
| NF_end w : lblanks w -> colon_fails w ErrNotObjectValue
| NF_stray w c r : lblanks w -> stray c \/ c = 93 -> colon_fails (w ++ c :: r) ErrRawBytesUnrecognized
| NF_no_colon w c r :
    lblanks w -> c = 44 \/ c = 125 \/ value_start c -> colon_fails (w ++ c :: r) ErrNotObjectValue
| NF_later w r e : lblanks w -> member_fails r e -> colon_fails (w ++ 58 :: r) e
(** After the colon, where the value must come. *)
with member_fails : bytes -> err -> Prop :=
| MF_end w : lblanks w -> member_fails w ErrNotObjectValue
| MF_stray w c r : lblanks w -> stray c \/ c = 93 -> member_fails (w ++ c :: r) ErrRawBytesUnrecognized
| MF_no_value w c r :
    lblanks w -> c = 44 \/ c = 58 \/ c = 125 -> member_fails (w ++ c :: r) ErrNotObjectValue
| MF_value w r e : lblanks w -> val_fails r e -> member_fails (w ++ r) e
| MF_later w t j r e :
    lblanks w -> lval t j -> after_num j r -> obj_fails r e -> member_fails (w ++ t ++ r) e.

Scheme val_fails_mut := Minimality for val_fails Sort Prop
with arr_fails_mut := Minimality for arr_fails Sort Prop
with obj_fails_mut := Minimality for obj_fails Sort Prop
with colon_fails_mut := Minimality for colon_fails Sort Prop
with member_fails_mut := Minimality for member_fails Sort Prop.
Combined Scheme fails_mutind from val_fails_mut, arr_fails_mut, obj_fails_mut, colon_fails_mut, member_fails_mut.

(** A document. *)
Inductive doc_fails : bytes -> err -> Prop :=
| DF_nothing : doc_fails [] ErrNilParameter
| DF_blank w : w <> [] -> lblanks w -> doc_fails w ErrRawBytesUnrecognized
| DF_start w c r : lblanks w -> ~ is_lblank c -> ~ value_start c -> doc_fails (w ++ c :: r) ErrRawBytesUnrecognized
| DF_value w r e : lblanks w -> val_fails r e -> doc_fails (w ++ r) e
| DF_more w t j w2 c r :
    lblanks w -> lval t j -> lblanks w2 -> ~ is_lblank c -> after_num j (w2 ++ c :: r) ->
    doc_fails (w ++ t ++ w2 ++ c :: r) ErrRawBytesUnrecognized.

(** What Unmarshal returns beside an error. *)
Definition failed (b : bytes) : V := match b with [] => VNil | _ => VNotExist end.
