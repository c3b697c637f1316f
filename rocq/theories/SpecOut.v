(** Specification of the bytes of the output. *)
From Verif Require Import Base Float64 Value Opt SpecJson SpecLax.

Definition printable (c : Z) : Prop := 32 <= c <= 126.

(** A byte of the indentation that the options ask for. *)
Definition indentation (o : opt) (c : Z) : Prop :=
  o_indent o = true /\ (c = 10 \/ In c (o_prefix o) \/ In c (o_indent_str o)).

(** The strings that the options provide. *)
Definition opt_strings (o : opt) : list bytes := [o_nan_str o; o_inf_pos o; o_inf_neg o].

(** encoding/json writes a float with the bytes of numbers. *)
Definition plain_env (E : Env) : Prop := forall f, Forall number_byte (json_float E f).

(** Every slash is preceded by a backslash. *)
Definition slashes_escaped (b : bytes) : Prop :=
  forall p q, b = p ++ 47 :: q -> exists p', p = p' ++ [92].

(** The three escaping switches (option.go:542-564), as bits. *)
Definition utf8_on (o : opt) : Prop := Z.testbit (o_esc o) 0 = true.
Definition html_off (o : opt) : Prop := Z.testbit (o_esc o) 1 = true.
Definition slash_off (o : opt) : Prop := Z.testbit (o_esc o) 2 = true.

(** *** Layout (C32) *)

(** A tree of texts: scalars and member names with the text written for them. *)
Inductive rtree :=
| RLeaf (b : bytes)
| RArr (l : list rtree)
| RObj (l : list (bytes * rtree)).

(** [lay]: prefix and indent string, or nothing for compact output. *)
Definition line (lay : option (bytes * bytes)) (depth : nat) : bytes :=
  match lay with
  | None => []
  | Some (p, i) => 10 :: p ++ List.concat (repeat i depth)
  end.
Definition colon (lay : option (bytes * bytes)) : bytes :=
  match lay with None => [58] | Some _ => [58; 32] end.

Fixpoint join (l : list bytes) : bytes :=
  match l with
  | [] => []
  | [x] => x
  | x :: r => x ++ 44 :: join r
  end.

(** Every entry on its own line, at its depth; empty containers on one line. *)
Fixpoint render (lay : option (bytes * bytes)) (depth : nat) (t : rtree) : bytes :=
  match t with
  | RLeaf b => b
  | RArr [] => [91; 93]
  | RArr l => 91 :: join (map (fun x => line lay (S depth) ++ render lay (S depth) x) l) ++ line lay depth ++ [93]
  | RObj [] => [123; 125]
  | RObj l => 123 :: join (map (fun x => line lay (S depth) ++ fst x ++ colon lay ++ render lay (S depth) (snd x)) l)
                  ++ line lay depth ++ [125]
  end.

Definition is_wsb (c : Z) : bool := (c =? 32) || (c =? 9) || (c =? 10) || (c =? 13).

(** Deletes white space outside strings; [q]: inside a string. *)
Fixpoint squeeze (q : bool) (b : bytes) : bytes :=
  match b with
  | [] => []
  | c :: r =>
    if q then
      if c =? 92 then match r with [] => [c] | d :: r' => c :: d :: squeeze true r' end
      else c :: squeeze (negb (c =? 34)) r
    else if is_wsb c then squeeze false r
    else c :: squeeze (c =? 34) r
  end.

(** The options without indentation. *)
Definition no_indent (o : opt) : opt :=
  {| o_omit_null := o_omit_null o; o_ignore_omitempty := o_ignore_omitempty o; o_less := o_less o; o_keyseq := o_keyseq o;
     o_setseq := o_setseq o; o_nan := o_nan o; o_nan_str := o_nan_str o; o_nan_float := o_nan_float o;
     o_inf := o_inf o; o_inf_pos := o_inf_pos o; o_inf_neg := o_inf_neg o; o_inf_float := o_inf_float o;
     o_esc := o_esc o; o_indent := false; o_prefix := o_prefix o; o_indent_str := o_indent_str o |}.

(** *** Key paths (C44) *)

Inductive step := SKey (k : bytes) | SIdx (i : nat).

(** [at_path v p w]: the path [p] leads from [v] to [w]. *)
Inductive at_path : V -> list step -> V -> Prop :=
| AP_here v : at_path v [] v
| AP_key i kvs lo k id x p w : In (k, (id, x)) kvs -> at_path x p w -> at_path (VObj i kvs lo) (SKey k :: p) w
| AP_idx l n x p w : nth_error l n = Some x -> at_path x p w -> at_path (VArr l) (SIdx n :: p) w.

Definition step_key (s : step) : key :=
  match s with SKey k => string_key k | SIdx n => int_key (Z.of_nat n) end.

(** The parent info of a call tells the path [p]. *)
Definition info_of (p : list step) (pi : option pinfo) : Prop :=
  match p with
  | [] => pi = None
  | _ => exists q, pi = Some q /\ pi_path q = map step_key p
  end.

(** A call of a less function for two members of an object inside [v], with
    the path of that object. *)
Definition proper_call (v : V) (pi : option pinfo) (k1 k2 : bytes) (v1 v2 : V) : Prop :=
  exists p i kvs lo id1 id2, at_path v p (VObj i kvs lo) /\ info_of p pi /\
    In (k1, (id1, v1)) kvs /\ In (k2, (id2, v2)) kvs.

Definition with_less (o : opt) (f : less_func) : opt :=
  {| o_omit_null := o_omit_null o; o_ignore_omitempty := o_ignore_omitempty o; o_less := Some f; o_keyseq := [];
     o_setseq := false; o_nan := o_nan o; o_nan_str := o_nan_str o; o_nan_float := o_nan_float o;
     o_inf := o_inf o; o_inf_pos := o_inf_pos o; o_inf_neg := o_inf_neg o; o_inf_float := o_inf_float o;
     o_esc := o_esc o; o_indent := o_indent o; o_prefix := o_prefix o; o_indent_str := o_indent_str o |}.
