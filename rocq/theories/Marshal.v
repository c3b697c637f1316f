(** Marshalling: marshal.go, the escaping functions of conv.go and the object
    orderings of sort.go. *)
From Coq Require Export Permutation.
From Verif Require Import Base Utf8 Float64 Value Opt.

(** *** Escaping *)

(** Upper case hexadecimal digit (fmt %X; /repo/conv.go:64-70 writeChar). *)
Definition hex_up (d : Z) : Z := if d <? 10 then 48 + d else 65 + (d - 10).

(** fmt.Sprintf("\\u%04X", r) for 0 <= r <= 0xFFFF *)
Definition esc_u4 (r : Z) : bytes :=
  [92; 117; hex_up (r / 4096 mod 16); hex_up (r / 256 mod 16); hex_up (r / 16 mod 16); hex_up (r mod 16)].

(** /repo/conv.go:21-37 escapeGreaterUnicodeToBuffByUTF16 *)
Definition esc_utf16 (r : Z) : bytes :=
  if r <=? 65535 then esc_u4 r
  else
    let r := r - 65536 in
    let lo := Z.land r 1023 in
    let hi := Z.shiftr (Z.land r 1047552) 10 in
    esc_u4 (hi + 55296) ++ esc_u4 (lo + 56320).

(** /repo/conv.go:39-54 escapeGreaterUnicodeToBuffByUTF8 *)
Definition esc_utf8 (r : Z) : bytes :=
  if (r =? 8232) || (r =? 8233) then esc_utf16 r else encode_rune r.

(** /repo/conv.go:60-75 escAsciiControlChar *)
Definition esc_control (b : Z) : bytes :=
  [92; 117; 48; 48; hex_up (Z.shiftr b 4); hex_up (Z.land b 15)].

(** /repo/option.go:567-616 parseEscapingFuncs together with the functions
    /repo/conv.go:56-119: what is written for an ASCII byte.  The table is
    filled top to bottom, the last assignment to a cell wins; here the last
    assignments are tested first. *)
Definition esc_ascii (esc : Z) (b : Z) : bytes :=
  if esc_has esc escapeWithoutHTML && ((b =? 60) || (b =? 62) || (b =? 38)) then [b]
  else if esc_has esc escapeIgnoreSlash && (b =? 47) then [b]
  else if b =? 38 then [92; 117; 48; 48; 50; 54]
  else if b =? 62 then [92; 117; 48; 48; 51; 69]
  else if b =? 60 then [92; 117; 48; 48; 51; 67]
  else if b =? 13 then [92; 114]
  else if b =? 10 then [92; 110]
  else if b =? 9 then [92; 116]
  else if b =? 12 then [92; 102]
  else if b =? 8 then [92; 98]
  else if b =? 92 then [92; 92]
  else if b =? 47 then [92; 47]
  else if b =? 34 then [92; 34]
  else if b =? 127 then esc_control b
  else if (14 <=? b) && (b <=? 31) then esc_control b
  else if (0 <=? b) && (b <=? 7) then esc_control b
  else [b].

(** /repo/option.go:600-604 choice of unicodeEscapingFunc *)
Definition esc_unicode (esc : Z) (r : Z) : bytes :=
  if esc_has esc escapeUTF8 then esc_utf8 r else esc_utf16 r.

(** /repo/conv.go:125-134 escapeStringToBuff.  The table has 128 entries; a rune
    is never negative, so the index is in range. *)
Definition esc_rune (esc : Z) (r : Z) : bytes :=
  if r <=? 127 then esc_ascii esc r else esc_unicode esc r.
Definition escape_string (esc : Z) (s : bytes) : bytes :=
  flat_map (esc_rune esc) (runes s).

Definition quoted (esc : Z) (s : bytes) : bytes := 34 :: escape_string esc s ++ [34].

(** *** Numbers *)

(** Outcome of a marshal function: what it appended to the buffer and the error
    it returned. *)
Definition mres := res (bytes * option err).
Definition mok (b : bytes) : mres := Ok (b, None).
Definition merr (e : err) : mres := Ok ([], Some e).

(** /repo/marshal.go:112-140 marshalNaN *)
Definition marshal_nan (E : Env) (o : opt) : mres :=
  if o_nan o =? 1 then
    if negb (is_valid_float (o_nan_float o)) then merr ErrUnsupportedFloatInOpt
    else mok (json_float E (o_nan_float o))
  else if o_nan o =? 2 then mok (bs "null")
  else if o_nan o =? 3 then
    match o_nan_str o with
    | [] => mok (bs """NaN""")
    | s => mok (quoted (o_esc o) s)
    end
  else merr ErrUnsupportedFloat.

(** /repo/marshal.go:142-170 marshalInfP *)
Definition marshal_infp (E : Env) (o : opt) : mres :=
  if o_inf o =? 1 then
    if negb (is_valid_float (o_inf_float o)) then merr ErrUnsupportedFloatInOpt
    else mok (json_float E (o_inf_float o))
  else if o_inf o =? 2 then mok (bs "null")
  else if o_inf o =? 3 then
    match o_inf_pos o with
    | [] => mok (bs """+Inf""")
    | s => mok (quoted (o_esc o) s)
    end
  else merr ErrUnsupportedFloat.

(** strings.TrimLeft(s, "+") *)
Fixpoint trim_plus (s : bytes) : bytes :=
  match s with
  | 43 :: r => trim_plus r
  | _ => s
  end.

(** /repo/marshal.go:172-203 marshalInfN *)
Definition marshal_infn (E : Env) (o : opt) : mres :=
  if o_inf o =? 1 then
    if negb (is_valid_float (o_inf_float o)) then merr ErrUnsupportedFloatInOpt
    else mok (json_float E (f_opp (o_inf_float o)))
  else if o_inf o =? 2 then mok (bs "null")
  else if o_inf o =? 3 then
    match o_inf_neg o, o_inf_pos o with
    | [], [] => mok (bs """-Inf""")
    | [], p => mok (quoted (o_esc o) (45 :: trim_plus p))
    | s, _ => mok (quoted (o_esc o) s)
    end
  else merr ErrUnsupportedFloat.

(** /repo/marshal.go:96-110 marshalNumber *)
Definition marshal_number (E : Env) (o : opt) (n : num) (src : bytes) : mres :=
  match src with
  | _ :: _ => mok src
  | [] =>
    if is_infp (n_f64 n) then marshal_infp E o
    else if is_infn (n_f64 n) then marshal_infn E o
    else marshal_nan E o
  end.

(** *** Order of the members *)

(** What the Go runtime and library leave open.  [w_ord p n]: the order in
    which ranging over a map with n entries visits them (positions in the
    association list), for the object at key path p of the document.
    [w_sort less n]: the arrangement that sort.Sort produces for n elements
    when [less i j] is the answer of Less for the elements initially at i and
    j.  sort.Sort is any algorithm that permutes, and that sorts if Less is a
    strict weak order; it never compares an element with itself. *)
Definition strict_weak (R : nat -> nat -> bool) : Prop :=
  (forall i, R i i = false) /\
  (forall i j k, R i j = true -> R j k = true -> R i k = true) /\
  (forall i j k, R i j = false -> R j i = false -> R j k = false -> R k j = false -> R i k = false).

Record World := {
  w_ord : list key -> nat -> list nat;
  w_ord_perm : forall p n, Permutation (w_ord p n) (seq 0 n);
  w_sort : (nat -> nat -> bool) -> nat -> list nat;
  w_sort_perm : forall less n, Permutation (w_sort less n) (seq 0 n);
  w_sort_sorted : forall less n R,
    strict_weak R ->
    (forall i j, (i < n)%nat -> (j < n)%nat -> i <> j -> less i j = R i j) ->
    ForallOrdPairs (fun i j => R j i = false) (w_sort less n);
}.

(** Rearrangement of a list according to a list of positions. *)
Definition arrange {A} (l : list A) (idx : list nat) : list A :=
  flat_map (fun i => match nth_error l i with Some x => [x] | None => [] end) idx.

(** sort.Sort on a slice.  The algorithm sees the elements only through the
    answers of Less, collected here in a table. *)
Definition go_sort {A} (W : World) (less : A -> A -> bool) (l : list A) : list A :=
  let answers := map (fun x => map (less x) l) l in
  arrange l (w_sort W (fun i j => nth j (nth i answers []) false) (List.length l)).

(** Ranging over the map of the object at key path [p]. *)
Definition go_range {A} (W : World) (p : list key) (l : list A) : list A :=
  arrange l (w_ord W p (List.length l)).

(** /repo/sort.go:258-263 the map built from MarshalKeySequence: the last
    position of each key. *)
Fixpoint seq_index (i : Z) (l : list bytes) (k : bytes) : option Z :=
  match l with
  | [] => None
  | x :: r => match seq_index (i + 1) r k with
              | Some j => Some j
              | None => if beqb k x then Some i else None
              end
  end.

(** /repo/sort.go:303-321 sortStringSliceV.Less (Len and Swap, /repo/sort.go:299-301,
    323-326 and 209-220 for the less function, are the slice operations of [go_sort]),
    on the positions looked up for
    the two keys *)
Definition seq_less (s1 s2 : option Z) (k1 k2 : bytes) : bool :=
  match s1, s2 with
  | Some a, Some b => a <? b
  | Some _, None => true
  | None, Some _ => false
  | None, None => negb (bltb k2 k1)
  end.

(** *** The writer *)

(** /repo/marshal.go:287-292 writeIndent *)
Definition write_indent (o : opt) (cnt : nat) : bytes :=
  o_prefix o ++ List.concat (repeat (o_indent_str o) cnt).

Definition nl_indent (o : opt) (cnt : nat) : bytes :=
  if o_indent o then 10 :: write_indent o cnt else [].

Section Writer.
Variable E : Env.
Variable W : World.
Variable o : opt.

(** One member of an object together with the function that marshals it:
    arguments are the parent info, the key path (for the iteration oracle) and
    indent.cnt. *)
Record entry := Entry {
  e_key : bytes;
  e_id : Z;
  e_val : V;
  e_run : option pinfo -> list key -> nat -> mres;
}.

(** /repo/marshal.go:228-242, with /repo/sort.go:222-236, 257-297: the order of the members, for the object at key
    path [path] whose parent info is [pi]. *)
Definition order_entries (pi : option pinfo) (path : list key) (es : list entry) : list entry :=
  let es := go_range W path es in
  match o_less o with
  | Some f => go_sort W (fun a b => f pi (e_key a) (e_key b) (e_val a) (e_val b)) es
  | None =>
    match o_keyseq o with
    | _ :: _ =>
      go_sort W (fun a b => seq_less (seq_index 0 (o_keyseq o) (e_key a))
                                     (seq_index 0 (o_keyseq o) (e_key b)) (e_key a) (e_key b)) es
    | [] =>
      if o_setseq o then go_sort W (fun a b => seq_less (Some (e_id a)) (Some (e_id b)) (e_key a) (e_key b)) es
      else es
    end
  end.

(** /repo/marshal.go:252-257 and /repo/sort.go:189-200, 238-248: the loops that
    call writeObjectChildren (/repo/marshal.go:259-285) for each member.
    [first] is isFirstOne; child.IsNull() dereferences the child. Only the loop
    of the less function passes a parent info. *)
Fixpoint write_members (pi : option pinfo) (path : list key) (cnt : nat) (first : bool)
                       (es : list entry) : res bytes :=
  match es with
  | [] => Ok []
  | e :: r =>
    match e_val e with
    | VNil => Panic
    | VNull =>
      if o_omit_null o then write_members pi path cnt true r
      else
        let* (b, _) := e_run e (match o_less o with
                                | Some _ => Some (new_parent_info (e_val e) pi (string_key (e_key e)))
                                | None => None end)
                             (path ++ [string_key (e_key e)]) cnt in
        let* rest := write_members pi path cnt false r in
        Ok ((if first then [] else [44]) ++ nl_indent o cnt ++ quoted (o_esc o) (e_key e)
            ++ (if o_indent o then [58; 32] else [58]) ++ b ++ rest)
    | _ =>
      let* (b, _) := e_run e (match o_less o with
                              | Some _ => Some (new_parent_info (e_val e) pi (string_key (e_key e)))
                              | None => None end)
                           (path ++ [string_key (e_key e)]) cnt in
      let* rest := write_members pi path cnt false r in
      Ok ((if first then [] else [44]) ++ nl_indent o cnt ++ quoted (o_esc o) (e_key e)
          ++ (if o_indent o then [58; 32] else [58]) ++ b ++ rest)
    end
  end.

(** /repo/marshal.go:303-316: the callback of marshalArray for each element. *)
Fixpoint write_elems (v : V) (pi : option pinfo) (path : list key) (cnt : nat) (i : Z)
                     (es : list (option pinfo -> list key -> nat -> mres)) : res bytes :=
  match es with
  | [] => Ok []
  | run :: r =>
    let* (b, _) := run (match o_less o with
                        | Some _ => Some (new_parent_info v pi (int_key i))
                        | None => None end)
                       (path ++ [int_key i]) cnt in
    let* rest := write_elems v pi path cnt (i + 1) r in
    Ok ((if 0 <? i then [44] else []) ++ nl_indent o cnt ++ b ++ rest)
  end.

(** /repo/marshal.go:66-84 marshalToBuffer, /repo/marshal.go:86-94, 215-217 strings,
    booleans (/repo/conv.go:10-15) and null, /repo/marshal.go:219-250 marshalObject,
    294-325 marshalArray.  [cnt] is opt.indent.cnt at the call. *)
Fixpoint marshal_to (v : V) : option pinfo -> list key -> nat -> mres :=
  fun pi path cnt =>
  match v with
  | VNil => Panic
  | VNotExist | VUnknown => mok []
  | VStr s => mok (quoted (o_esc o) s)
  | VBool b => mok (if b then bs "true" else bs "false")
  | VNum n src => marshal_number E o n src
  | VNull => mok (bs "null")
  | VObj _ kvs _ =>
    let es := map (fun x => Entry (fst x) (fst (snd x)) (snd (snd x)) (marshal_to (snd (snd x)))) kvs in
    match es with
    | [] => mok [123; 125]
    | _ =>
      let* b := write_members pi path (S cnt) true (order_entries pi path es) in
      mok (123 :: b ++ nl_indent o cnt ++ [125])
    end
  | VArr l =>
    match l with
    | [] => mok [91; 93]
    | _ =>
      let* b := write_elems v pi path (S cnt) 0 (map marshal_to l) in
      mok (91 :: b ++ nl_indent o cnt ++ [93])
    end
  end.

End Writer.

(** /repo/marshal.go:38-53 Marshal with combined options [o]; MarshalString
    (/repo/marshal.go:58-64), MarshalJSON and MarshalBinary
    (/repo/marshaler_unmarshaler.go:17-19, 32-34) return the same bytes.  [default] is the
    package default at the time of the call. *)
Definition marshal_opt (E : Env) (W : World) (o : opt) (v : V) : res bytes :=
  match v with
  | VNil => Panic
  | VNotExist => Err ErrValueUninitialized
  | _ =>
    let* (b, e) := marshal_to E W o v None [] 0 in
    match e with
    | Some e => Err e
    | None => Ok b
    end
  end.
Definition marshal (E : Env) (W : World) (default : opt) (opts : list option_) (v : V) : res bytes :=
  marshal_opt E W (combine_options default opts) v.

(** /repo/marshal.go:16-32 MustMarshal, MustMarshalString *)
Definition must_marshal (E : Env) (W : World) (default : opt) (opts : list option_) (v : V) : res bytes :=
  match marshal E W default opts v with
  | Err _ => Ok []
  | r => r
  end.
