(** Marshalling options: option.go. *)
From Verif Require Import Base Float64 Value.

(** /repo/sort.go:72-84 Key: a string or an integer. *)
Record key := Key { k_s : bytes; k_i : Z }.
Definition int_key (i : Z) : key := Key [] i.
Definition string_key (s : bytes) : key := Key s 0.

(** /repo/sort.go:88-120 String, IsString, Int, IsInt *)
Definition key_is_string (k : key) : bool := match k_s k with [] => false | _ => true end.
Definition key_is_int (k : key) : bool := match k_s k with [] => true | _ => false end.
Definition key_int (k : key) : Z := match k_s k with [] => k_i k | _ => 0 end.
Definition key_string (k : key) : bytes := match k_s k with [] => format_int (k_i k) | s => s end.

(** /repo/sort.go:156-159 ParentInfo *)
Record pinfo := PInfo { pi_parent : V; pi_path : list key }.

(** /repo/sort.go:161-173 newParentInfo.  [append] on the shared KeyPath may
    write into spare capacity; the written cell is beyond the length of every
    KeyPath in use at that time, so the value seen is the list below. *)
Definition new_parent_info (v : V) (p : option pinfo) (k : key) : pinfo :=
  match p with
  | None => PInfo v [k]
  | Some p => PInfo v (pi_path p ++ [k])
  end.

(** /repo/sort.go:178 MarshalLessFunc *)
Definition less_func := option pinfo -> bytes -> bytes -> V -> V -> bool.

(** /repo/option.go:14-126 Opt.  The function tables asciiCharEscapingFunc and
    unicodeEscapingFunc are computed from [o_esc] ([esc_ascii] and
    [esc_unicode] in Marshal.v); keySequence is a cache of a function of
    MarshalKeySequence.  indent.cnt is an argument of the marshal functions. *)
Record opt := {
  o_omit_null : bool;
  o_ignore_omitempty : bool;
  o_less : option less_func;
  o_keyseq : list bytes;
  o_setseq : bool;
  o_nan : Z;  (* FloatNaNHandleType, a uint8 *)
  o_nan_str : bytes;
  o_nan_float : spec_float;
  o_inf : Z;  (* FloatInfHandleType, a uint8 *)
  o_inf_pos : bytes;
  o_inf_neg : bytes;
  o_inf_float : spec_float;
  o_esc : Z;  (* escapingProperties, a uint8 bit mask *)
  o_indent : bool;
  o_prefix : bytes;
  o_indent_str : bytes;
}.

(** /repo/option.go:223-225 emptyOptions: all fields zero *)
Definition opt0 : opt := {|
  o_omit_null := false; o_ignore_omitempty := false; o_less := None; o_keyseq := [];
  o_setseq := false; o_nan := 0; o_nan_str := []; o_nan_float := f_zero;
  o_inf := 0; o_inf_pos := []; o_inf_neg := []; o_inf_float := f_zero;
  o_esc := 0; o_indent := false; o_prefix := []; o_indent_str := [] |}.

(** /repo/option.go:548-564 set, clear, has on escapingProperties *)
Definition esc_set (e mask : Z) : Z := Z.lor e (Z.shiftl 1 mask).
Definition esc_clear (e mask : Z) : Z := Z.ldiff e (Z.shiftl 1 mask).
Definition esc_has (e mask : Z) : bool := e =? esc_set e mask.
Definition escapeUTF8 : Z := 0.
Definition escapeWithoutHTML : Z := 1.
Definition escapeIgnoreSlash : Z := 2.

(** The options of the API; [OOpt] is an Opt struct passed as an option. *)
Inductive option_ :=
| OOpt (o : opt)                          (* /repo/option.go:190-192 *)
| OOmitNull (b : bool)                    (* /repo/option.go:251-261 *)
| OIgnoreOmitempty                        (* /repo/option.go:271-279 *)
| OLess (f : option less_func)            (* /repo/option.go:287-310 OptKeySequenceWithLessFunc *)
| OKeySeq (seq : list bytes)              (* /repo/option.go:317-330 *)
| OSetSeq                                 (* /repo/option.go:341-352 *)
| ONaNFloat (f : spec_float)              (* /repo/option.go:360-371 *)
| ONaNNull                                (* /repo/option.go:378-386 *)
| ONaNStr (s : bytes)                     (* /repo/option.go:393-412 *)
| OInfFloat (f : spec_float)              (* /repo/option.go:420-431 *)
| OInfNull                                (* /repo/option.go:438-446 *)
| OInfStr (p n : bytes)                   (* /repo/option.go:453-476 *)
| OEscapeHTML (on : bool)                 (* /repo/option.go:488-500 *)
| OUTF8                                   (* /repo/option.go:509-517 *)
| OEscapeSlash (on : bool)                (* /repo/option.go:528-540 *)
| OIndent (prefix indent : bytes).        (* /repo/option.go:624-634 *)

(** The mergeTo methods. *)
Definition merge (o : option_) (t : opt) : opt :=
  match o with
  | OOpt o => o
  | OOmitNull b =>
    {| o_omit_null := b; o_ignore_omitempty := o_ignore_omitempty t; o_less := o_less t; o_keyseq := o_keyseq t;
       o_setseq := o_setseq t; o_nan := o_nan t; o_nan_str := o_nan_str t; o_nan_float := o_nan_float t;
       o_inf := o_inf t; o_inf_pos := o_inf_pos t; o_inf_neg := o_inf_neg t; o_inf_float := o_inf_float t;
       o_esc := o_esc t; o_indent := o_indent t; o_prefix := o_prefix t; o_indent_str := o_indent_str t |}
  | OIgnoreOmitempty =>
    {| o_omit_null := o_omit_null t; o_ignore_omitempty := true; o_less := o_less t; o_keyseq := o_keyseq t;
       o_setseq := o_setseq t; o_nan := o_nan t; o_nan_str := o_nan_str t; o_nan_float := o_nan_float t;
       o_inf := o_inf t; o_inf_pos := o_inf_pos t; o_inf_neg := o_inf_neg t; o_inf_float := o_inf_float t;
       o_esc := o_esc t; o_indent := o_indent t; o_prefix := o_prefix t; o_indent_str := o_indent_str t |}
  | OLess None => t
  | OLess (Some f) =>
    {| o_omit_null := o_omit_null t; o_ignore_omitempty := o_ignore_omitempty t; o_less := Some f; o_keyseq := [];
       o_setseq := false; o_nan := o_nan t; o_nan_str := o_nan_str t; o_nan_float := o_nan_float t;
       o_inf := o_inf t; o_inf_pos := o_inf_pos t; o_inf_neg := o_inf_neg t; o_inf_float := o_inf_float t;
       o_esc := o_esc t; o_indent := o_indent t; o_prefix := o_prefix t; o_indent_str := o_indent_str t |}
  | OKeySeq seq =>
    {| o_omit_null := o_omit_null t; o_ignore_omitempty := o_ignore_omitempty t; o_less := None; o_keyseq := seq;
       o_setseq := false; o_nan := o_nan t; o_nan_str := o_nan_str t; o_nan_float := o_nan_float t;
       o_inf := o_inf t; o_inf_pos := o_inf_pos t; o_inf_neg := o_inf_neg t; o_inf_float := o_inf_float t;
       o_esc := o_esc t; o_indent := o_indent t; o_prefix := o_prefix t; o_indent_str := o_indent_str t |}
  | OSetSeq =>
    {| o_omit_null := o_omit_null t; o_ignore_omitempty := o_ignore_omitempty t; o_less := None; o_keyseq := [];
       o_setseq := true; o_nan := o_nan t; o_nan_str := o_nan_str t; o_nan_float := o_nan_float t;
       o_inf := o_inf t; o_inf_pos := o_inf_pos t; o_inf_neg := o_inf_neg t; o_inf_float := o_inf_float t;
       o_esc := o_esc t; o_indent := o_indent t; o_prefix := o_prefix t; o_indent_str := o_indent_str t |}
  | ONaNFloat f =>
    {| o_omit_null := o_omit_null t; o_ignore_omitempty := o_ignore_omitempty t; o_less := o_less t; o_keyseq := o_keyseq t;
       o_setseq := o_setseq t; o_nan := 1; o_nan_str := o_nan_str t; o_nan_float := f;
       o_inf := o_inf t; o_inf_pos := o_inf_pos t; o_inf_neg := o_inf_neg t; o_inf_float := o_inf_float t;
       o_esc := o_esc t; o_indent := o_indent t; o_prefix := o_prefix t; o_indent_str := o_indent_str t |}
  | ONaNNull =>
    {| o_omit_null := o_omit_null t; o_ignore_omitempty := o_ignore_omitempty t; o_less := o_less t; o_keyseq := o_keyseq t;
       o_setseq := o_setseq t; o_nan := 2; o_nan_str := o_nan_str t; o_nan_float := o_nan_float t;
       o_inf := o_inf t; o_inf_pos := o_inf_pos t; o_inf_neg := o_inf_neg t; o_inf_float := o_inf_float t;
       o_esc := o_esc t; o_indent := o_indent t; o_prefix := o_prefix t; o_indent_str := o_indent_str t |}
  | ONaNStr s =>
    {| o_omit_null := o_omit_null t; o_ignore_omitempty := o_ignore_omitempty t; o_less := o_less t; o_keyseq := o_keyseq t;
       o_setseq := o_setseq t; o_nan := 3; o_nan_str := s; o_nan_float := o_nan_float t;
       o_inf := o_inf t; o_inf_pos := o_inf_pos t; o_inf_neg := o_inf_neg t; o_inf_float := o_inf_float t;
       o_esc := o_esc t; o_indent := o_indent t; o_prefix := o_prefix t; o_indent_str := o_indent_str t |}
  | OInfFloat f =>
    {| o_omit_null := o_omit_null t; o_ignore_omitempty := o_ignore_omitempty t; o_less := o_less t; o_keyseq := o_keyseq t;
       o_setseq := o_setseq t; o_nan := o_nan t; o_nan_str := o_nan_str t; o_nan_float := o_nan_float t;
       o_inf := 1; o_inf_pos := o_inf_pos t; o_inf_neg := o_inf_neg t; o_inf_float := f;
       o_esc := o_esc t; o_indent := o_indent t; o_prefix := o_prefix t; o_indent_str := o_indent_str t |}
  | OInfNull =>
    {| o_omit_null := o_omit_null t; o_ignore_omitempty := o_ignore_omitempty t; o_less := o_less t; o_keyseq := o_keyseq t;
       o_setseq := o_setseq t; o_nan := o_nan t; o_nan_str := o_nan_str t; o_nan_float := o_nan_float t;
       o_inf := 2; o_inf_pos := o_inf_pos t; o_inf_neg := o_inf_neg t; o_inf_float := o_inf_float t;
       o_esc := o_esc t; o_indent := o_indent t; o_prefix := o_prefix t; o_indent_str := o_indent_str t |}
  | OInfStr p n =>
    {| o_omit_null := o_omit_null t; o_ignore_omitempty := o_ignore_omitempty t; o_less := o_less t; o_keyseq := o_keyseq t;
       o_setseq := o_setseq t; o_nan := o_nan t; o_nan_str := o_nan_str t; o_nan_float := o_nan_float t;
       o_inf := 3; o_inf_pos := p; o_inf_neg := n; o_inf_float := o_inf_float t;
       o_esc := o_esc t; o_indent := o_indent t; o_prefix := o_prefix t; o_indent_str := o_indent_str t |}
  | OEscapeHTML on =>
    {| o_omit_null := o_omit_null t; o_ignore_omitempty := o_ignore_omitempty t; o_less := o_less t; o_keyseq := o_keyseq t;
       o_setseq := o_setseq t; o_nan := o_nan t; o_nan_str := o_nan_str t; o_nan_float := o_nan_float t;
       o_inf := o_inf t; o_inf_pos := o_inf_pos t; o_inf_neg := o_inf_neg t; o_inf_float := o_inf_float t;
       o_esc := (if on then esc_clear else esc_set) (o_esc t) escapeWithoutHTML;
       o_indent := o_indent t; o_prefix := o_prefix t; o_indent_str := o_indent_str t |}
  | OUTF8 =>
    {| o_omit_null := o_omit_null t; o_ignore_omitempty := o_ignore_omitempty t; o_less := o_less t; o_keyseq := o_keyseq t;
       o_setseq := o_setseq t; o_nan := o_nan t; o_nan_str := o_nan_str t; o_nan_float := o_nan_float t;
       o_inf := o_inf t; o_inf_pos := o_inf_pos t; o_inf_neg := o_inf_neg t; o_inf_float := o_inf_float t;
       o_esc := esc_set (o_esc t) escapeUTF8;
       o_indent := o_indent t; o_prefix := o_prefix t; o_indent_str := o_indent_str t |}
  | OEscapeSlash on =>
    {| o_omit_null := o_omit_null t; o_ignore_omitempty := o_ignore_omitempty t; o_less := o_less t; o_keyseq := o_keyseq t;
       o_setseq := o_setseq t; o_nan := o_nan t; o_nan_str := o_nan_str t; o_nan_float := o_nan_float t;
       o_inf := o_inf t; o_inf_pos := o_inf_pos t; o_inf_neg := o_inf_neg t; o_inf_float := o_inf_float t;
       o_esc := (if on then esc_clear else esc_set) (o_esc t) escapeIgnoreSlash;
       o_indent := o_indent t; o_prefix := o_prefix t; o_indent_str := o_indent_str t |}
  | OIndent p i =>
    {| o_omit_null := o_omit_null t; o_ignore_omitempty := o_ignore_omitempty t; o_less := o_less t; o_keyseq := o_keyseq t;
       o_setseq := o_setseq t; o_nan := o_nan t; o_nan_str := o_nan_str t; o_nan_float := o_nan_float t;
       o_inf := o_inf t; o_inf_pos := o_inf_pos t; o_inf_neg := o_inf_neg t; o_inf_float := o_inf_float t;
       o_esc := o_esc t; o_indent := true; o_prefix := p; o_indent_str := i |}
  end.

(** /repo/option.go:238-243 combineOptionsFrom *)
Definition combine_from (t : opt) (opts : list option_) : opt :=
  fold_left (fun t o => merge o t) opts t.

(** The package-level default (internal.defaultMarshalOption) and the calls
    that touch it; /repo/option.go:210-236. *)
Definition set_default (opts : list option_) : opt := combine_from opt0 opts.
Definition reset_default : opt := opt0.
Definition combine_options (default : opt) (opts : list option_) : opt := combine_from default opts.

(** /repo/sort.go:185-187 DefaultStringSequence *)
Definition default_string_sequence : less_func :=
  fun _ k1 k2 _ _ => negb (bltb k2 k1).
Definition opt_default_string_sequence : option_ := OLess (Some default_string_sequence).
