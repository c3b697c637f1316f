(** ValueType of parsed documents. *)
From Verif Require Import Base Float64 Value Scan Unmarshal Access SpecJson SpecLax SpecGet RoundTrip.
Local Open Scope Z_scope.

Theorem type_parsed (E : Env) b j : lax_doc b j -> exists v, unmarshal E b = Ok (v, None) /\ value_type v = Ok (type_of_json j).
Proof.
  intros Hl. destruct (unmarshal_lax_tree E b j Hl) as (v & Hu & Ht). exists v. split; [exact Hu|].
  inversion Ht; subst; reflexivity.
Qed.
