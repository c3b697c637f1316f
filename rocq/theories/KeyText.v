(** KeyPath.String: sort.go, with the function tables of the package defaults. *)
From Verif Require Import Base Utf8 Float64 Value Opt Marshal Defaults.

(** The fields asciiCharEscapingFunc and unicodeEscapingFunc of
    internal.defaultMarshalOption: [Some esc] if parseEscapingFuncs
    (/repo/option.go:567-617) has filled them from the escaping properties [esc],
    [None] if they are nil, as in emptyOptions (/repo/option.go:223-225). *)
Definition tables := option Z.

(** /repo/jsonvalue_internal.go:29 (the initial default), /repo/option.go:210-221
    SetDefaultMarshalOptions and ResetDefaultMarshalOptions; Marshal fills the tables
    of a copy only (/repo/option.go:227-243). *)
Definition tables_step (t : tables) (c : api_call) : tables :=
  match c with
  | CallSetDefault opts => Some (o_esc (set_default opts))
  | CallReset => None
  | CallMarshal _ _ => t
  end.
Definition tables_after (cs : list api_call) : tables := fold_left tables_step cs None.

(** /repo/conv.go:125-134 escapeStringToBuff: calling a nil function panics. *)
Definition escape_with (t : tables) (s : bytes) : res bytes :=
  match t with
  | Some esc => Ok (escape_string esc s)
  | None => match runes s with [] => Ok [] | _ => Panic end
  end.

(** /repo/sort.go:126-151 KeyPath.String.  The deferred function does not stop a
    panic. *)
Fixpoint path_items (t : tables) (first : bool) (p : list key) : res bytes :=
  match p with
  | [] => Ok []
  | k :: r =>
    let* b := if key_is_int k then Ok (format_int (key_int k))
              else (let* e := escape_with t (key_string k) in Ok (34 :: e ++ [34])) in
    let* rest := path_items t false r in
    Ok ((if first then [] else [32]) ++ b ++ rest)
  end.
Definition key_path_string (t : tables) (p : list key) : res bytes :=
  let* b := path_items t true p in Ok (91 :: b ++ [93]).
