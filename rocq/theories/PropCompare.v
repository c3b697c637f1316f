(** Properties of Equal and the comparisons (C25, C26). *)
From Coq Require Import QArith_base Qpower.
From Verif Require Import Base Float64 Value Scan Unmarshal Opt Marshal Compare SpecJson SpecValue SpecText SpecPath SpecNum
  SpecTaken CompareProof CompareClaims CompareExact ExampleWorld.
Open Scope Z_scope.

(** C25: Equal is an equivalence, whatever the orders of iteration. *)
Theorem C25_reflexive : forall (W : World) path v, json_typed v -> equal W path v v = true.
Proof. exact equal_refl. Qed.
Print Assumptions C25_reflexive.

Theorem C25_symmetric : forall (W W' : World) path path' v w, json_typed v -> json_typed w ->
  equal W path v w = equal W' path' w v.
Proof. exact equal_sym. Qed.
Print Assumptions C25_symmetric.

Theorem C25_transitive : forall (W : World) path u v w, json_typed u -> json_typed v -> json_typed w ->
  equal W path u v = true -> equal W path v w = true -> equal W path u w = true.
Proof. exact equal_trans. Qed.
Print Assumptions C25_transitive.

(** It depends neither on the caches of caseless access nor on the order of
    iteration. *)
Theorem C25_no_cache : forall (W W' : World) path path' v v' w w',
  json_typed v -> json_typed v' -> json_typed w -> json_typed w' ->
  forget v = forget v' -> forget w = forget w' -> equal W path v w = equal W' path' v' w'.
Proof. exact equal_no_cache. Qed.
Print Assumptions C25_no_cache.

(** The full statement would be: Equal is true exactly if both sides are the
    same JSON.  That is false for exponents outside int32, which count as the
    number 0. *)
Theorem C25_refuted : exists s t, forall (E : Env) (W : World) path, exists n m,
  unmarshal E s = Ok (VNum n s, None) /\ unmarshal E t = Ok (VNum m t, None) /\
  equal W path (VNum n s) (VNum m t) = true /\
  ~ same_value same_number (VNum n s) (VNum m t).
Proof. exact (ex_intro _ tiny (ex_intro _ (bs "0") tiny_equal)). Qed.
Print Assumptions C25_refuted.

(** It holds if the exponents of all literals are those of an int32. *)
Theorem C25_same_json_partial : forall (W : World) path v w, json_typed v -> json_typed w ->
  all_text (fun _ => True) (fun _ s => exact_number s) v -> all_text (fun _ => True) (fun _ s => exact_number s) w ->
  equal W path v w = true <-> same_value same_number v w.
Proof. exact equal_content. Qed.
Print Assumptions C25_same_json_partial.

(** In general: a literal whose exponent is outside int32 is taken for 0, and
    Equal is true exactly if both sides are the same JSON after that. *)
Theorem C25_exactly : forall (E : Env) (W : World) path a b v w, Forall is_byte a -> Forall is_byte b ->
  unmarshal E a = Ok (v, None) -> unmarshal E b = Ok (w, None) ->
  equal W path v w = true <-> same_value taken_same v w.
Proof. exact parsed_equal. Qed.
Print Assumptions C25_exactly.

(** All numbers of a parsed value denote a number, so that only the exponents
    matter. *)
Theorem C25_parsed : forall (E : Env) b v, Forall is_byte b -> unmarshal E b = Ok (v, None) ->
  json_typed v /\ all_text (fun _ => True) (fun _ s => exists q, denotes_number s q) v.
Proof. exact parsed_denotes. Qed.
Print Assumptions C25_parsed.

Definition doc (b : string) : V := match unmarshal env0 (bs b) with Ok (v, None) => v | _ => VNil end.

Example C25_instance :
  equal world1 [] (doc "{""a"":[1.0,true],""b"":""x""}") (doc "{""b"":""x"",""a"":[10e-1,true]}") = true /\
  equal world2 [] (doc "[9007199254740993]") (doc "[9007199254740992]") = false /\
  equal world2 [] (doc "[0.1,0.30000000000000001]") (doc "[1e-1,0.3]") = false /\
  equal world1 [] (doc "[1,2]") (doc "[2,1]") = false /\
  equal world1 [] (doc "{""a"":1}") (doc "{""A"":1}") = false /\
  equal world1 [] (doc "{""a"":1}") (doc "{""a"":1,""b"":null}") = false.
Proof. repeat split; vm_compute; reflexivity. Qed.

(** The remark "with finite numbers" is needed: the value of NewFloat64(NaN)
    has no text and equals the number 0. *)
Example C25_nan : equal world1 [] (new_float64 env0 S754_nan) (new_int64 0) = true.
Proof. reflexivity. Qed.

(** C26: of any two numbers exactly one of less, equal, greater holds; the other
    two comparisons are the negations. *)
Theorem C26_trichotomy : forall (W : World) path n s m t, exists lt eq gt,
  less_than (VNum n s) (VNum m t) = Ok lt /\ equal W path (VNum n s) (VNum m t) = eq /\
  greater_than (VNum n s) (VNum m t) = Ok gt /\
  ((lt = true /\ eq = false /\ gt = false) \/ (lt = false /\ eq = true /\ gt = false) \/
   (lt = false /\ eq = false /\ gt = true)) /\
  less_or_equal (VNum n s) (VNum m t) = Ok (negb gt) /\ greater_or_equal (VNum n s) (VNum m t) = Ok (negb lt).
Proof. exact (fun _ _ => compare_total). Qed.
Print Assumptions C26_trichotomy.

Theorem C26_transitive : forall a b c,
  less_than a b = Ok true -> less_than b c = Ok true -> less_than a c = Ok true.
Proof. exact less_transitive. Qed.
Print Assumptions C26_transitive.

Theorem C26_others : forall a b, a <> VNil -> b <> VNil ->
  (forall n s, a <> VNum n s) \/ (forall n s, b <> VNum n s) ->
  less_than a b = Ok false /\ greater_than a b = Ok false /\
  less_or_equal a b = Ok false /\ greater_or_equal a b = Ok false.
Proof. exact compare_others. Qed.
Print Assumptions C26_others.

(** That the order is that of the exact values is false for exponents outside
    int32. *)
Theorem C26_refuted : exists s t, forall (E : Env) (W : World) (path : list key), exists n m p q,
  unmarshal E s = Ok (VNum n s, None) /\ unmarshal E t = Ok (VNum m t, None) /\
  denotes_number s p /\ denotes_number t q /\ (q < p)%Q /\
  greater_than (VNum n s) (VNum m t) = Ok false /\ equal W path (VNum n s) (VNum m t) = true.
Proof. exact (ex_intro _ tiny (ex_intro _ (bs "0") tiny_compares)). Qed.
Print Assumptions C26_refuted.

Theorem C26_exact_partial : forall (W : World) (path : list key) n s m t p q,
  denotes_number s p -> small_exponent s -> denotes_number t q -> small_exponent t ->
  (less_than (VNum n s) (VNum m t) = Ok true <-> (p < q)%Q) /\
  (greater_than (VNum n s) (VNum m t) = Ok true <-> (q < p)%Q) /\
  (less_or_equal (VNum n s) (VNum m t) = Ok true <-> (p <= q)%Q) /\
  (greater_or_equal (VNum n s) (VNum m t) = Ok true <-> (q <= p)%Q) /\
  (equal W path (VNum n s) (VNum m t) = true <-> (p == q)%Q).
Proof. exact (fun _ _ => compare_exact). Qed.
Print Assumptions C26_exact_partial.

(** In general the order is that of the values that the literals are taken
    for. *)
Theorem C26_exactly : forall (E : Env) a b n s m t, Forall is_byte a -> Forall is_byte b ->
  unmarshal E a = Ok (VNum n s, None) -> unmarshal E b = Ok (VNum m t, None) ->
  exists p q, taken_as s p /\ taken_as t q /\
  (less_than (VNum n s) (VNum m t) = Ok true <-> (p < q)%Q) /\
  (greater_than (VNum n s) (VNum m t) = Ok true <-> (q < p)%Q) /\
  (less_or_equal (VNum n s) (VNum m t) = Ok true <-> (p <= q)%Q) /\
  (greater_or_equal (VNum n s) (VNum m t) = Ok true <-> (q <= p)%Q).
Proof. exact parsed_compare. Qed.
Print Assumptions C26_exactly.

Example C26_exact_instance : taken_as tiny 0%Q /\ taken_as (bs "-12") (-12 # 1)%Q /\
  (forall n m, less_than (VNum n (bs "-12")) (VNum m tiny) = Ok true) /\ taken_same tiny (bs "0").
Proof. exact taken_example. Qed.

(** Integers compare as integers, int64 and uint64 with each other. *)
Theorem C26_integers : forall a b n s m t (W : World) path,
  (VNum n s = new_int64 a \/ VNum n s = new_uint64 a) -> (VNum m t = new_int64 b \/ VNum m t = new_uint64 b) ->
  less_than (VNum n s) (VNum m t) = Ok (a <? b) /\ greater_than (VNum n s) (VNum m t) = Ok (b <? a) /\
  less_or_equal (VNum n s) (VNum m t) = Ok (a <=? b) /\ greater_or_equal (VNum n s) (VNum m t) = Ok (b <=? a) /\
  equal W path (VNum n s) (VNum m t) = (a =? b).
Proof. exact compare_integers. Qed.
Print Assumptions C26_integers.

Example C26_instance :
  greater_than (doc "9007199254740993") (doc "9007199254740992") = Ok true /\
  less_than (doc "0.1") (doc "0.10000000000000000001") = Ok true /\
  less_than (doc "-1e-3") (doc "-0.0001") = Ok true /\
  less_or_equal (doc "100") (doc "1e2") = Ok true /\ greater_or_equal (doc "1e2") (doc "100.0") = Ok true /\
  less_than (doc "100") (doc "1e2") = Ok false /\
  less_than (new_int64 (-1)) (new_uint64 18446744073709551615) = Ok true /\
  less_than (doc """1""") (doc "2") = Ok false.
Proof. repeat split; vm_compute; reflexivity. Qed.
