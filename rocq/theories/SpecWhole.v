(** What the integer getters return for numbers (C79): the whole part. *)
From Verif Require Import Base Float64 Value Access SpecJson.

(** [z] is the whole part of the finite float [f]: [f] without its fraction. *)
Definition whole (f : spec_float) (z : Z) : Prop :=
  match f with
  | S754_zero _ => z = 0
  | S754_finite s m e =>
    (if s then z <= 0 else 0 <= z) /\
    Z.abs z * 2 ^ Z.max 0 (- e) <= Z.pos m * 2 ^ Z.max 0 e < (Z.abs z + 1) * 2 ^ Z.max 0 (- e)
  | _ => False
  end.

(** The integer that a literal without fraction and exponent writes. *)
Definition writes_int (lit : bytes) (z : Z) : Prop :=
  (digits lit /\ z = digits_val lit) \/ (exists ip, lit = 45 :: ip /\ digits ip /\ z = - digits_val ip).

(** Every getter whose type holds [z] returns [z]. *)
Definition getters_give (E : Env) (v : V) (z : Z) : Prop :=
  (- 2 ^ 63 <= z < 2 ^ 63 -> api_int E v = Ok z /\ api_int64 E v = Ok z) /\
  (- 2 ^ 31 <= z < 2 ^ 31 -> api_int32 E v = Ok z) /\
  (0 <= z < 2 ^ 64 -> api_uint E v = Ok z /\ api_uint64 E v = Ok z) /\
  (0 <= z < 2 ^ 32 -> api_uint32 E v = Ok z).

(** Every getter returns a number of its type, the 32-bit ones the last 32 bits
    of the 64-bit ones. *)
Definition getters_typed (E : Env) (v : V) : Prop :=
  exists i u i' u', api_int E v = Ok i /\ api_int64 E v = Ok i /\ - 2 ^ 63 <= i < 2 ^ 63 /\
    api_uint E v = Ok u /\ api_uint64 E v = Ok u /\ 0 <= u < 2 ^ 64 /\
    api_int32 E v = Ok i' /\ - 2 ^ 31 <= i' < 2 ^ 31 /\ i' mod 2 ^ 32 = i mod 2 ^ 32 /\
    api_uint32 E v = Ok u' /\ 0 <= u' < 2 ^ 32 /\ u' = u mod 2 ^ 32.
