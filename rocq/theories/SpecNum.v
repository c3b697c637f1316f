(** Specification of comparison: the rational number that a literal denotes, and
    when two values are the same JSON. *)
From Coq Require Import QArith_base Qpower.
From Verif Require Import Base Float64 Value SpecJson.
Open Scope Z_scope.

(** Decimal literals, somewhat more general than RFC 8259: leading zeros, and no
    digits before the dot.  Sign, digits before and after the dot, exponent. *)
Inductive decimal_text : bytes -> bool -> bytes -> bytes -> Z -> Prop :=
| DecimalText (neg : bool) ip fr fd ex e :
    Forall digit ip -> frac_part fr fd -> exp_part ex e -> ip ++ fd <> [] ->
    decimal_text ((if neg then [45] else []) ++ ip ++ fr ++ ex) neg ip fd e.

(** Its value. *)
Definition decimal_value (neg : bool) (ip fd : bytes) (e : Z) : Q :=
  (inject_Z (if neg then - digits_val (ip ++ fd) else digits_val (ip ++ fd)) *
   (10 # 1) ^ (e - Z.of_nat (List.length fd)))%Q.

(** [denotes_number lit q]: the literal has the value [q]. *)
Definition denotes_number (lit : bytes) (q : Q) : Prop :=
  exists neg ip fd e, decimal_text lit neg ip fd e /\ (q == decimal_value neg ip fd e)%Q.

(** The exponent, also after moving the dot to the end of the digits, is that of
    an int32. *)
Definition small_exponent (lit : bytes) : Prop :=
  exists neg ip fd e, decimal_text lit neg ip fd e /\
    -2147483648 <= e - Z.of_nat (List.length fd) /\ -2147483648 <= e <= 2147483647.

(** [same_value NR v w]: the same JSON, where [NR] says which number texts mean
    the same. *)
Section Same.
Variable NR : bytes -> bytes -> Prop.
Inductive same_value : V -> V -> Prop :=
| SV_null : same_value VNull VNull
| SV_bool b : same_value (VBool b) (VBool b)
| SV_str s : same_value (VStr s) (VStr s)
| SV_num n s m t : NR s t -> same_value (VNum n s) (VNum m t)
| SV_arr l l' : Forall2 same_value l l' -> same_value (VArr l) (VArr l')
| SV_obj i kvs lo i' kvs' lo' :
    (forall k, In k (map fst kvs) <-> In k (map fst kvs')) ->
    (forall k id x id' y, In (k, (id, x)) kvs -> In (k, (id', y)) kvs' -> same_value x y) ->
    same_value (VObj i kvs lo) (VObj i' kvs' lo').
End Same.

(** Two literals of the same value. *)
Definition same_number (s t : bytes) : Prop :=
  exists p q, denotes_number s p /\ denotes_number t q /\ (p == q)%Q.

(** The literal denotes a number, with a small exponent. *)
Definition exact_number (s : bytes) : Prop := (exists q, denotes_number s q) /\ small_exponent s.
