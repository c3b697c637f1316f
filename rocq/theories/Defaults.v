(** The package level default options over a history of calls: option.go and
    marshal.go. *)
From Verif Require Import Base Float64 Value Opt Marshal.

(** The calls that read or write internal.defaultMarshalOption.
    /repo/option.go:210-221 SetDefaultMarshalOptions, ResetDefaultMarshalOptions;
    /repo/marshal.go:38-53 Marshal (combineOptions, /repo/option.go:227-236,
    copies the default before merging). *)
Inductive api_call :=
| CallSetDefault (opts : list option_)
| CallReset
| CallMarshal (opts : list option_) (v : V).

(** One call: the default afterwards and what the call returned. *)
Definition exec_call (E : Env) (W : World) (d : opt) (c : api_call) : opt * option (res bytes) :=
  match c with
  | CallSetDefault opts => (set_default opts, None)
  | CallReset => (reset_default, None)
  | CallMarshal opts v => (d, Some (marshal E W d opts v))
  end.

Fixpoint exec_calls (E : Env) (W : World) (d : opt) (cs : list api_call) : list (option (res bytes)) :=
  match cs with
  | [] => []
  | c :: r => let (d', x) := exec_call E W d c in x :: exec_calls E W d' r
  end.
