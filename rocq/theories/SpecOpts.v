(** Specification of options: which option of a list decides an aspect, which
    default is in force. *)
From Verif Require Import Base Float64 Value Opt SpecJson SpecText Defaults.

(** [x] is what the last option that says something says, and [d] if none
    does. *)
Definition last_said {A} (say : option_ -> option A) (opts : list option_) (d x : A) : Prop :=
  (exists p o q, opts = p ++ o :: q /\ say o = Some x /\ Forall (fun o => say o = None) q) \/
  (Forall (fun o => say o = None) opts /\ x = d).

(** What the options say on each aspect; an Opt struct says something on all. *)
Definition say_omit_null (o : option_) : option bool :=
  match o with OOmitNull b => Some b | OOpt x => Some (o_omit_null x) | _ => None end.
Definition say_ignore_omitempty (o : option_) : option bool :=
  match o with OIgnoreOmitempty => Some true | OOpt x => Some (o_ignore_omitempty x) | _ => None end.
(** One of: less function, key sequence, set sequence. *)
Definition say_order (o : option_) : option (option less_func * list bytes * bool) :=
  match o with
  | OLess (Some f) => Some (Some f, [], false)
  | OKeySeq s => Some (None, s, false)
  | OSetSeq => Some (None, [], true)
  | OOpt x => Some (o_less x, o_keyseq x, o_setseq x)
  | _ => None
  end.
Definition say_nan (o : option_) : option Z :=
  match o with ONaNFloat _ => Some 1 | ONaNNull => Some 2 | ONaNStr _ => Some 3 | OOpt x => Some (o_nan x) | _ => None end.
Definition say_nan_float (o : option_) : option spec_float :=
  match o with ONaNFloat f => Some f | OOpt x => Some (o_nan_float x) | _ => None end.
Definition say_nan_str (o : option_) : option bytes :=
  match o with ONaNStr s => Some s | OOpt x => Some (o_nan_str x) | _ => None end.
Definition say_inf (o : option_) : option Z :=
  match o with OInfFloat _ => Some 1 | OInfNull => Some 2 | OInfStr _ _ => Some 3 | OOpt x => Some (o_inf x) | _ => None end.
Definition say_inf_float (o : option_) : option spec_float :=
  match o with OInfFloat f => Some f | OOpt x => Some (o_inf_float x) | _ => None end.
Definition say_inf_str (o : option_) : option (bytes * bytes) :=
  match o with OInfStr p n => Some (p, n) | OOpt x => Some (o_inf_pos x, o_inf_neg x) | _ => None end.
Definition say_utf8 (o : option_) : option bool :=
  match o with OUTF8 => Some true | OOpt x => Some (Z.testbit (o_esc x) 0) | _ => None end.
Definition say_html_off (o : option_) : option bool :=
  match o with OEscapeHTML on => Some (negb on) | OOpt x => Some (Z.testbit (o_esc x) 1) | _ => None end.
Definition say_slash_off (o : option_) : option bool :=
  match o with OEscapeSlash on => Some (negb on) | OOpt x => Some (Z.testbit (o_esc x) 2) | _ => None end.
Definition say_indent (o : option_) : option (bool * bytes * bytes) :=
  match o with OIndent p i => Some (true, p, i) | OOpt x => Some (o_indent x, o_prefix x, o_indent_str x) | _ => None end.

(** The default options after a history of calls: those of the last
    SetDefaultMarshalOptions, unless a reset came after it. *)
Definition changes_default (c : api_call) : Prop :=
  match c with CallMarshal _ _ => False | _ => True end.
Definition in_force (cs : list api_call) (l : list option_) : Prop :=
  (exists p q, cs = p ++ CallSetDefault l :: q /\ Forall (fun c => ~ changes_default c) q) \/
  (exists p q, cs = p ++ CallReset :: q /\ Forall (fun c => ~ changes_default c) q /\ l = []) \/
  (Forall (fun c => ~ changes_default c) cs /\ l = []).

(** *** NaN and infinity (C31) *)

Definition finite_float (f : spec_float) : Prop :=
  match f with S754_nan | S754_infinity _ => False | _ => True end.

Definition or_else (s d : bytes) : bytes := match s with [] => d | _ => s end.

(** [r] is [s] without the plus signs it starts with. *)
Definition strip_plus (s r : bytes) : Prop :=
  exists k, s = repeat 43 k ++ r /\ forall t, r <> 43 :: t.

(** How the options want a number that has no text (NaN, +Inf, -Inf). *)
Definition policy_json (E : Env) (o : opt) (f : spec_float) (j : jv) : Prop :=
  match f with
  | S754_infinity false =>
    (o_inf o = 1 /\ j = JNum (json_float E (o_inf_float o))) \/
    (o_inf o = 2 /\ j = JNull) \/
    (o_inf o = 3 /\ exists s, fixed (or_else (o_inf_pos o) (bs "+Inf")) s /\ j = JStr s)
  | S754_infinity true =>
    (o_inf o = 1 /\ j = JNum (json_float E (f_opp (o_inf_float o)))) \/
    (o_inf o = 2 /\ j = JNull) \/
    (o_inf o = 3 /\ exists p s, j = JStr s /\ strip_plus (o_inf_pos o) p /\
       fixed (or_else (o_inf_neg o) (match o_inf_pos o with [] => bs "-Inf" | _ => 45 :: p end)) s)
  | _ =>
    (o_nan o = 1 /\ j = JNum (json_float E (o_nan_float o))) \/
    (o_nan o = 2 /\ j = JNull) \/
    (o_nan o = 3 /\ exists s, fixed (or_else (o_nan_str o) (bs "NaN")) s /\ j = JStr s)
  end.
Definition num_policy (E : Env) (o : opt) (n : num) (src : bytes) (j : jv) : Prop :=
  match src with
  | _ :: _ => j = JNum src
  | [] => policy_json E o (n_f64 n) j
  end.

(** Replacement floats, where configured, are finite. *)
Definition policy_set (o : opt) : Prop :=
  (o_nan o = 1 /\ finite_float (o_nan_float o) \/ o_nan o = 2 \/ o_nan o = 3) /\
  (o_inf o = 1 /\ finite_float (o_inf_float o) \/ o_inf o = 2 \/ o_inf o = 3).

(** A number literal of RFC 8259. *)
Definition rfc_lit (lit : bytes) : Prop := exists neg ip fd e i, num_lit lit neg ip fd e i.

(** encoding/json writes a finite float as a number literal. *)
Definition json_env (E : Env) : Prop := forall f, finite_float f -> rfc_lit (json_float E f).

(** The indentation consists of white space. *)
Definition opt_ws (o : opt) : Prop := ws (o_prefix o) /\ ws (o_indent_str o).
