(** Import (import_export.go) and deepCopy (jsonvalue.go). *)
From Verif Require Import Base Utf8 Float64 Value Scan Unmarshal Opt Marshal Access Path Edit Iter Base64 GoValue.

(** /repo/jsonvalue.go:135-163 and 496-525 deepCopy: the same tree; nil, NotExist
    and Unknown become &V{}; lowerCaseKeys is left out. *)
Fixpoint deep_copy (v : V) : V :=
  match v with
  | VStr s => VStr s
  | VNum n src => VNum n src
  | VObj i kvs _ => VObj i (map (fun e : kv => let '(k, (id, x)) := e in (k, (id, deep_copy x))) kvs) None
  | VArr l => VArr (map deep_copy l)
  | VBool b => VBool b
  | VNull => VNull
  | VNotExist | VUnknown | VNil => VNotExist
  end.

(** /repo/import_export.go:45-62 ext and shouldOmitEmpty *)
Record ext := Ext {
  x_omit : bool;
  x_str : bool;
  x_priv : bool;
  x_ign : bool;
}.
Definition should_omit (x : ext) : bool := negb (x_ign x) && (x_omit x || x_priv x).

(** Package reflect: how a value was obtained (flagRO).  Through an unexported
    embedded field ([REmbed]) or an unexported field ([RSticky], which passes to
    everything inside) Interface() panics. *)
Inductive ro := RNone | REmbed | RSticky.
Definition ro_inside (r : ro) : ro := match r with RNone => RNone | _ => RSticky end.
Definition ro_field (r : ro) (f : gfield) : ro :=
  match r with
  | RSticky => RSticky
  | _ => if gf_exported f then RNone else if gf_anon f then REmbed else RSticky
  end.
Definition can_interface (r : ro) : bool := match r with RNone => true | _ => false end.

(** strings.Split(s, ",") *)
Fixpoint split_comma (s : bytes) : list bytes :=
  match s with
  | [] => [[]]
  | c :: r =>
    let ps := split_comma r in
    if c =? 44 then [] :: ps
    else match ps with [] => [[c]] | p :: q => (c :: p) :: q end
  end.

(** /repo/import_export.go:558-585 readFieldTag: the options are compared as
    they stand, only the name is trimmed. *)
Definition read_field_tag (f : gfield) (parent : ext) : bytes * ext :=
  match gf_tag f with
  | [] => (gf_name f, Ext false false false (x_ign parent))
  | tg =>
    let parts := split_comma tg in
    let opts := tl parts in
    let name := trim_space (hd [] parts) in
    (match name with [] => gf_name f | _ => name end,
     Ext (existsb (beqb (bs "omitempty")) opts) (existsb (beqb (bs "string")) opts) false (x_ign parent))
  end.

(** /repo/import_export.go:587-598 readAnonymousFieldTag; the name of a field is
    not empty. *)
Definition read_anonymous_tag (f : gfield) (parent : ext) : bytes * ext :=
  let '(name, ex) := read_field_tag f parent in
  let c := hd 0 (gf_name f) in
  (name, Ext (x_omit ex) (x_str ex) (negb ((65 <=? c) && (c <=? 90))) (x_ign ex)).

(** A nil pointer: Kind() == Ptr && IsNil(). *)
Definition is_nil_ptr (g : gov) : bool :=
  match g with GPtr None | GVal VNil | GJson MNilPtr | GText MNilPtr => true | _ => false end.

(** The Must forms drop the error; the document after the call. *)
Definition must_op (x : V * res V) : res V :=
  match snd x with Panic => Panic | Fuel => Fuel | _ => Ok (fst x) end.

(** for i, k := range keys { res.MustSet(children[i]).At(k) } *)
Fixpoint set_all (E : Env) (acc : V) (kcs : list (bytes * V)) : res V :=
  match kcs with
  | [] => Ok acc
  | (k, c) :: r =>
    let* acc' := must_op (set_at E acc (arg_v c) (PStr k) []) in
    set_all E acc' r
  end.

(** strconv.FormatInt and FormatUint on the keys, /repo/import_export.go:382-398 *)
Definition key_string_of (k : gkey) : bytes :=
  match k with KStr s => s | KInt z => format_int z | KUint z => format_int z end.

Section Import.
Variable E : Env.
Variable W : World.
Variable default : opt.  (* the package default options *)

Definition omit_or (ex : ext) (empty : bool) (v : V) : res V :=
  Ok (if empty && should_omit ex then VNil else v).

(** /repo/import_export.go:201-245 parseJSONMarshaler.  An error of the user's
    method is [EOther]. *)
Definition parse_json_marshaler (m : gmethod) (ex : ext) : res V :=
  match m with
  | MNilPtr | MNilIface => Ok VNil
  | MOut r =>
    let* b := r in
    let* (v, e) := unmarshal E b in
    match e with
    | Some e => Err e
    | None =>
      let empty := match v with
                   | VStr s => match s with [] => true | _ => false end
                   | VNum n _ => SFeqb (n_f64 n) f_zero
                   | VArr l => match l with [] => true | _ => false end
                   | VObj _ kvs _ => match kvs with [] => true | _ => false end
                   | VBool b => negb b
                   | _ => true
                   end in
      omit_or ex empty v
    end
  end.

(** /repo/import_export.go:247-264 parseTextMarshaler *)
Definition parse_text_marshaler (m : gmethod) (ex : ext) : res V :=
  match m with
  | MNilPtr => Ok VNil
  | MNilIface => Ok VNull
  | MOut r =>
    let* b := r in
    omit_or ex (match b with [] => true | _ => false end) (VStr b)
  end.

(** MarshalJSON of a *V, /repo/marshaler_unmarshaler.go:17-19 *)
Definition v_method (v : V) : gmethod :=
  match v with VNil => MNilPtr | _ => MOut (marshal E W default [] v) end.

(** v.Interface() in front of a method call *)
Definition interface (r : ro) (x : res V) : res V := if can_interface r then x else Panic.

Definition is_zero_float (f : spec_float) : bool := SFeqb f f_zero.

(** /repo/import_export.go:273-328 *)
Definition parse_bool (b : bool) (ex : ext) : res V :=
  omit_or ex (negb b) (if x_str ex then VStr (if b then bs "true" else bs "false") else new_bool b).
Definition parse_int (z : Z) (ex : ext) : res V :=
  omit_or ex (z =? 0) (if x_str ex then VStr (format_int z) else new_int64 z).
Definition parse_uint (z : Z) (ex : ext) : res V :=
  omit_or ex (z =? 0) (if x_str ex then VStr (format_int z) else new_uint64 z).
Definition parse_float (v : V) (f : spec_float) (ex : ext) : res V :=
  if is_zero_float f && should_omit ex then Ok VNil
  else if x_str ex then let* s := must_marshal E W default [] v in Ok (VStr s)
  else Ok v.

(** Elements of an array or slice, /repo/import_export.go:330-349; [imp] imports
    one element. *)
Fixpoint append_all (acc : V) (l : list (res V)) : res V :=
  match l with
  | [] => Ok acc
  | x :: r =>
    let* c := x in
    let* acc' := must_op (append_end E W acc (arg_v c) []) in
    append_all acc' r
  end.

(** Entries of a map, /repo/import_export.go:364-379 *)
Fixpoint set_entries (acc : V) (l : list (bytes * res V)) : res V :=
  match l with
  | [] => Ok acc
  | (k, x) :: r =>
    let* c := x in
    let* acc' := must_op (set_at E acc (arg_v c) (PStr k) []) in
    set_entries acc' r
  end.

(** /repo/import_export.go:473-506 parseStructFieldValue for a field that is not
    embedded: the keys and children.  [imp] imports the value of the field. *)
Definition parse_field (imp : ro -> ext -> res V) (f : gfield) (r : ro) (parent : ext) : res (list (bytes * V)) :=
  if negb (can_interface (ro_field r f)) then Ok []
  else
    let '(name, ex) := read_field_tag f parent in
    if beqb name (bs "-") then Ok []
    else
      let* c := imp (ro_field r f) ex in
      Ok (if is_nil c then [] else [(name, c)]).

(** /repo/import_export.go:508-556 parseStructAnonymousFieldValue *)
Definition parse_anonymous (imp : ro -> ext -> res V) (nilp : bool) (f : gfield) (r : ro) (parent : ext)
  : res (list (bytes * V)) :=
  let '(name, ex) := read_anonymous_tag f parent in
  if beqb name (bs "-") then Ok []
  else if nilp then Ok (if should_omit ex then [] else [(name, VNull)])
  else
    let* c := imp (ro_field r f) ex in
    match c with
    | VStr _ | VNum _ _ | VBool _ | VNull | VArr _ => Ok (if x_priv ex then [] else [(name, c)])
    | VObj _ _ _ => range_objects_by_set W [] c (Some (fun s e => (s ++ [e], true))) []
    | _ => Ok []
    end.

(** Fields of a struct, /repo/import_export.go:446-463 *)
Fixpoint set_fields (acc : V) (l : list (res (list (bytes * V)))) : res V :=
  match l with
  | [] => Ok acc
  | x :: r =>
    let* kcs := x in
    let* acc' := set_all E acc kcs in
    set_fields acc' r
  end.

(** /repo/import_export.go:64-139 validateValAndReturnParser with
    /repo/import_export.go:142-191 checkAndParseMarshaler and getPointerOfValue (the
    constructors [GJson], [GText], [GVal], [GValue] of GoValue.v say which types have the
    methods), and then the parser function, /repo/import_export.go:194-199, 266-271,
    400-440, 466-471 here and the rest above; [VNil] is the result (nil, nil).  The lists of pending calls are
    consumed from the left, and a failing call ends the loop, so nothing behind
    it matters. *)
Fixpoint import_val (g : gov) (r : ro) (ex : ext) {struct g} : res V :=
  match g with
  | GJson m => interface r (parse_json_marshaler m ex)
  | GText m => interface r (parse_text_marshaler m ex)
  | GVal v => interface r (Ok (match v with VNil => VNil | _ => deep_copy v end))
  | GValue v => interface r (parse_json_marshaler (v_method v) ex)
  | GInvalid => omit_or ex true VNull
  | GBool b => parse_bool b ex
  | GInt z => parse_int z ex
  | GUint z => parse_uint z ex
  | GFloat64 f => parse_float (new_float64 E f) f ex
  | GFloat32 f => parse_float (new_float32 E f) f ex
  | GArray l =>
    append_all new_array
      (map (fun x => import_val x (ro_inside r) (Ext false (x_str ex) (x_priv ex) (x_ign ex))) l)
  | GSlice None => omit_or ex true new_array
  | GSlice (Some []) => omit_or ex true new_array
  | GSlice (Some l) =>
    append_all new_array
      (map (fun x => import_val x (ro_inside r) (Ext false (x_str ex) (x_priv ex) (x_ign ex))) l)
  | GBytes b =>
    let b := match b with Some b => b | None => [] end in
    interface r (omit_or ex (match b with [] => true | _ => false end) (new_bytes b))
  | GStr s => omit_or ex (match s with [] => true | _ => false end) (new_string s)
  | GMap None => omit_or ex true VNull
  | GMap (Some []) => omit_or ex true new_object
  | GMap (Some m) =>
    set_entries new_object
      (map (fun e : gkey * gov => let '(k, x) := e in (key_string_of k, import_val x (ro_inside r) ex)) m)
  | GMapOther => Err EOther
  | GPtr None => omit_or ex true VNull
  | GPtr (Some (GVal v)) => interface r (parse_json_marshaler (v_method v) ex)
  | GPtr (Some x) => import_val x r ex
  | GIface x => import_val x (ro_inside r) ex
  | GStruct fs =>
    set_fields new_object
      (map (fun e : gfield * gov => let '(f, x) := e in
              if gf_anon f then parse_anonymous (import_val x) (is_nil_ptr x) f r ex
              else parse_field (import_val x) f r ex) fs)
  | GOther => Err EOther
  end.

(** /repo/import_export.go:27-40 Import *)
Definition import (opts : list option_) (g : gov) : res (V * option err) :=
  match import_val g RNone (Ext false false false (o_ignore_omitempty (combine_options default opts))) with
  | Ok v => Ok (v, None)
  | Err e => Ok (VNotExist, Some e)
  | Panic => Panic
  | Fuel => Fuel
  end.

(** /repo/new.go:18-21 New *)
Definition new_ (g : gov) : res V := let* (v, _) := import [] g in Ok v.

(** The argument of Set, Insert and Append, /repo/set.go:50-59: nil, a *V as it
    is, or Import. *)
Definition arg_any (g : gov) : res arg :=
  match g with
  | GInvalid => Ok (VNull, None)
  | GVal v => Ok (v, None)
  | _ => import [] g
  end.
End Import.
