(** Specification of a value without its null members, and of options without
    OmitNull (C60). *)
From Verif Require Import Base Value Opt.

(** The value with every member that is null deleted, at any depth. *)
Fixpoint without_nulls (v : V) : V :=
  match v with
  | VArr l => VArr (map without_nulls l)
  | VObj i kvs lo =>
      VObj i (flat_map (fun e : bytes * (Z * V) =>
                match e with (k, (id, x)) => match x with VNull => [] | _ => [(k, (id, without_nulls x))] end end) kvs) lo
  | _ => v
  end.

(** The same options with OmitNull off. *)
Definition with_nulls (o : opt) : opt :=
  {| o_omit_null := false; o_ignore_omitempty := o_ignore_omitempty o; o_less := o_less o; o_keyseq := o_keyseq o;
     o_setseq := o_setseq o; o_nan := o_nan o; o_nan_str := o_nan_str o; o_nan_float := o_nan_float o;
     o_inf := o_inf o; o_inf_pos := o_inf_pos o; o_inf_neg := o_inf_neg o; o_inf_float := o_inf_float o;
     o_esc := o_esc o; o_indent := o_indent o; o_prefix := o_prefix o; o_indent_str := o_indent_str o |}.

(** An object that is empty, or of which a member is left. *)
Definition some_left (kvs : list (bytes * (Z * V))) : Prop := kvs = [] \/ Exists (fun e => snd (snd e) <> VNull) kvs.

(** What Marshal writes of a value: all of it, or, with OmitNull, what is left without its null members. *)
Definition kept_by (o : opt) (v : V) : V := if o_omit_null o then without_nulls v else v.
