(** C88: what an edit changes in the text. *)
From Verif Require Import Base Float64 Value Opt Marshal Path SpecPieces.

(** Members are written in an order of their names. *)
Definition by_name (o : opt) : Prop :=
  o_less o = Some default_string_sequence \/ o_less o = None /\ o_keyseq o <> [].

(** The options for a part that is [n] containers deep. *)
Definition deep (n : nat) (o : opt) : opt := Nat.iter n deeper o.

(** What stands for the child [h] of a container: a member with its name, an
    element without. *)
Definition labelled (o : opt) (h : hop) (t : bytes) : bytes :=
  match h with
  | HKey k => quoted (o_esc o) k ++ (if o_indent o then [58; 32] else [58]) ++ t
  | HIdx _ => t
  end.

(** [mid] is [part] with what separates it from its neighbours: a comma on one
    side, or, where there are none, nothing but line breaks. *)
Definition piece (o : opt) (part mid : bytes) : Prop :=
  let line := if o_indent o then 10 :: o_prefix o ++ o_indent_str o else [] in
  let last := if o_indent o then 10 :: o_prefix o else [] in
  mid = 44 :: line ++ part \/ mid = line ++ part ++ [44] \/ mid = line ++ part ++ last.

(** Under OptOmitNull: next to members that are not written there may be no comma. *)
Definition piece_omit (o : opt) (part mid : bytes) : Prop :=
  let line := if o_indent o then 10 :: o_prefix o ++ o_indent_str o else [] in
  piece o part mid \/ mid = line ++ part.

(** [part] with the commas on both its sides. *)
Definition piece_both (o : opt) (part mid : bytes) : Prop :=
  let line := if o_indent o then 10 :: o_prefix o ++ o_indent_str o else [] in
  exists l r, (l = [] \/ l = [44]) /\ (r = [] \/ r = [44]) /\ mid = l ++ line ++ part ++ r.

(** What becomes of the text where a null that is not written is taken away: nothing, or a comma appears, or, in an
    object that has no other member, a line break goes. *)
Definition null_gone (o : opt) (mid mid' : bytes) : Prop :=
  mid = [] /\ mid' = [] \/ mid = [] /\ mid' = [44] \/ mid = (if o_indent o then 10 :: o_prefix o else []) /\ mid' = [].

(** The child [h] of a container is not written: a null member under OptOmitNull. *)
Definition unwritten (o : opt) (h : hop) (x : V) : Prop := o_omit_null o = true /\ x = VNull /\ exists k, h = HKey k.
