(** Property of the formats of NewFloat64f and NewFloat32f (C61). *)
From Verif Require Import Base Float64 Value Access Unmarshal Opt Marshal Typed SpecJson SpecRound SpecFloatText SpecStdFloat SpecFormat
  FormatProof ExampleWorld.

(** C61, NewFloat64f: the format used is the argument if it is one of f, E, e,
    G, g, and g otherwise; NaN and the infinities have no text; Float64 gives
    back the argument. *)
Theorem C61_text : forall (E : Env) f c c' p, uses_format c c' ->
  (forall s M q, float64 f s M q -> text_of (new_float64f E f c p) = Some (fmt_float E f c' p 64)) /\
  (f = S754_nan \/ (exists s, f = S754_infinity s) -> text_of (new_float64f E f c p) = Some []) /\
  api_float64 E (new_float64f E f c p) = Ok f.
Proof. exact float64f_text. Qed.
Print Assumptions C61_text.

(** NewFloat32f should format its argument as a float32, as NewFloat32 does.  It
    does not, and so writes digits that the float32 does not need. *)
Theorem C61_float32_refuted : exists (E : Env) f s M q, float32 f s M q /\
  text_of (new_float32f E f 103 (-1)) <> Some (fmt_float E f 103 (-1) 32).
Proof. exact float32f_differs. Qed.
Print Assumptions C61_float32_refuted.

Theorem C61_float32_exactly : forall (E : Env) f c c' p s M q, uses_format c c' -> float32 f s M q ->
  (text_of (new_float32f E f c p) = Some (fmt_float E f c' p 32) <-> fmt_float E f c' p 64 = fmt_float E f c' p 32).
Proof. exact float32f_iff. Qed.
Print Assumptions C61_float32_exactly.

(** With precision -1 and any format but f, every finite float64 comes back from
    Marshal and Unmarshal, ... *)
Theorem C61_reread : forall (E : Env) (W : World) (o : opt) f c s M q, short_contract E -> float64 f s M q -> c <> 102 ->
  reread E W o (new_float64f E f c (-1)) f.
Proof. exact float64f_reread. Qed.
Print Assumptions C61_reread.

(** ... with format f, the ones that C55 excludes do not. *)
Theorem C61_f_lost : forall (E : Env) (W : World) (o : opt) f s M q, format_contract E -> float64 f s M q -> too_wide s M q ->
  ~ reread E W o (new_float64f E f 102 (-1)) f.
Proof. exact float64f_lost. Qed.
Print Assumptions C61_f_lost.

(** The contracts can be met together. *)
Theorem C61_contracts : short_contract env_short /\ format_contract env_short.
Proof. exact (conj short_env_short format_env_short). Qed.
Print Assumptions C61_contracts.

(** Format x is taken for g; format f is kept. *)
Example C61_instance : uses_format 120 103 /\ uses_format 102 102 /\ uses_format 69 69 /\
  text_of (new_float64f env_short (f_of_dec false 15 (-1)) 120 (-1)) =
    Some (fmt_float env_short (f_of_dec false 15 (-1)) 103 (-1) 64) /\
  (forall p b, fmt_float env_tenth tenth32 103 p b = if b =? 32 then bs "0.1" else bs "0.10000000149011612").
Proof. unfold uses_format, formats. cbn [In]. repeat split; try (vm_compute; reflexivity); intros; lia. Qed.
