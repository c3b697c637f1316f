(** C90: what an edit changes in a text written in the order of setting. *)
From Verif Require Import Base Float64 Value Opt Marshal SpecPieces.

(** Members are written in the order in which they were last set. *)
Definition by_setting (o : opt) : Prop := o_less o = None /\ o_keyseq o = [] /\ o_setseq o = true.

(** The text [post] begins with the end of an object: nothing more is in it. *)
Definition closes (o : opt) (post : bytes) : Prop :=
  exists r, post = 125 :: r \/ post = (if o_indent o then 10 :: o_prefix o else []) ++ 125 :: r.
