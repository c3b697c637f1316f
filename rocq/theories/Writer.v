(** Marshal as the code has it: one buffer that is appended to, one counter of the depth, one table made from the
    key sequence, all of them shared by the calls for the parts of a document.  (Marshal.v passes the depth as an
    argument, returns the bytes, and looks names up in the key sequence itself.)  The capacity of the buffer is not
    modelled, nor are the single writes of escapeStringToBuff: what it writes is appended at once. *)
From Verif Require Import Base Float64 Value Opt Marshal.

(** /repo/internal/buffer/buffer_impl.go:7-9 the buffer; keySequence and indent.cnt (/repo/option.go:56, 118-123) of
    the Opt that combineOptions (/repo/option.go:232-236) makes for one call of Marshal. *)
Record wst := WSt { t_buf : bytes; t_cnt : Z; t_seq : option (list (bytes * Z)) }.

(** /repo/internal/buffer/buffer_impl.go:11-28 WriteByte, Write, WriteString, WriteRune: append, no error *)
Definition put (b : bytes) (t : wst) : wst := WSt (t_buf t ++ b) (t_cnt t) (t_seq t).
Definition add_cnt (d : Z) (t : wst) : wst := WSt (t_buf t) (t_cnt t + d) (t_seq t).

Fixpoint put_times (n : nat) (b : bytes) (t : wst) : wst := match n with O => t | S m => put_times m b (put b t) end.

Section Writer.
Variable E : Env.
Variable W : World.
Variable o : opt.

(** /repo/marshal.go:287-292 writeIndent, with the line break that its callers write first *)
Definition put_line (t : wst) : wst :=
  if o_indent o then put_times (Z.to_nat (t_cnt t)) (o_indent_str o) (put (o_prefix o) (put [10] t)) else t.

Record wentry := WEntry {
  we_key : bytes;
  we_id : Z;
  we_val : V;
  we_run : option pinfo -> list key -> wst -> res (wst * option err);
}.

(** /repo/sort.go:258-263: the table, made at the first object and kept in the options *)
Fixpoint table (i : Z) (l : list bytes) (m : list (bytes * Z)) : list (bytes * Z) :=
  match l with
  | [] => m
  | x :: r => table (i + 1) r (aset x i m)
  end.
Definition need_table (t : wst) : wst :=
  match t_seq t with
  | Some _ => t
  | None => WSt (t_buf t) (t_cnt t) (Some (table 0 (o_keyseq o) []))
  end.

(** /repo/sort.go:303-321 sortStringSliceV.Less, by a table *)
Definition table_less (m : list (bytes * Z)) (a b : wentry) : bool :=
  match alookup (we_key a) m, alookup (we_key b) m with
  | Some x, Some y => x <? y
  | Some _, None => true
  | None, Some _ => false
  | None, None => negb (bltb (we_key b) (we_key a))
  end.

(** /repo/sort.go:280-283: the table of OptSetSequence, made for each object *)
Definition set_table (es : list wentry) : list (bytes * Z) :=
  fold_left (fun m e => aset (we_key e) (we_id e) m) es [].

(** /repo/marshal.go:228-242, /repo/sort.go:222-297: the order of the members *)
Definition ordered_members (pi : option pinfo) (path : list key) (es : list wentry) (t : wst) : list wentry * wst :=
  let es := go_range W path es in
  match o_less o with
  | Some f => (go_sort W (fun a b => f pi (we_key a) (we_key b) (we_val a) (we_val b)) es, t)
  | None =>
    match o_keyseq o with
    | _ :: _ =>
      let t := need_table t in
      (go_sort W (table_less (match t_seq t with Some m => m | None => [] end)) es, t)
    | [] => if o_setseq o then (go_sort W (table_less (set_table es)) es, t) else (es, t)
    end
  end.

(** /repo/marshal.go:259-285 writeObjectChildren: whether it has written, and the state *)
Definition write_child (pi : option pinfo) (path : list key) (first : bool) (e : wentry) (t : wst) : res (bool * wst) :=
  match we_val e with
  | VNil => Panic
  | v =>
    if (match v with VNull => true | _ => false end) && o_omit_null o then Ok (false, t)
    else
      let t := if first then t else put [44] t in
      let t := put_line t in
      let t := put [34] t in
      let t := put (escape_string (o_esc o) (we_key e)) t in
      let t := put (if o_indent o then [34; 58; 32] else [34; 58]) t in
      let* (t, _) := we_run e pi path t in
      Ok (true, t)
  end.

(** /repo/marshal.go:252-257, /repo/sort.go:189-200, 238-248: the loops over the members *)
Fixpoint write_children (pi : option pinfo) (path : list key) (written : bool) (es : list wentry) (t : wst) : res wst :=
  match es with
  | [] => Ok t
  | e :: r =>
    let* (w, t) := write_child (match o_less o with
                                | Some _ => Some (new_parent_info (we_val e) pi (string_key (we_key e)))
                                | None => None end)
                               (path ++ [string_key (we_key e)]) (negb written) e t in
    write_children pi path w r t
  end.

(** /repo/marshal.go:303-316: the callback of marshalArray, called for each element *)
Fixpoint write_array (v : V) (pi : option pinfo) (path : list key) (i : Z)
                     (es : list (option pinfo -> list key -> wst -> res (wst * option err))) (t : wst) : res wst :=
  match es with
  | [] => Ok t
  | run :: r =>
    let t := if 0 <? i then put [44] t else t in
    let t := put_line t in
    let* (t, _) := run (match o_less o with
                        | Some _ => Some (new_parent_info v pi (int_key i))
                        | None => None end)
                       (path ++ [int_key i]) t in
    write_array v pi path (i + 1) r t
  end.

(** /repo/marshal.go:66-94, 215-250, 294-325 marshalToBuffer and the functions it calls *)
Fixpoint write_value (v : V) : option pinfo -> list key -> wst -> res (wst * option err) :=
  fun pi path t =>
  match v with
  | VNil => Panic
  | VNotExist | VUnknown => Ok (t, None)
  | VStr s =>
    let t := put [34] t in
    let t := put (escape_string (o_esc o) s) t in
    Ok (put [34] t, None)
  | VBool b => Ok (put (if b then bs "true" else bs "false") t, None)
  | VNum n src => let* (b, e) := marshal_number E o n src in Ok (put b t, e)
  | VNull => Ok (put (bs "null") t, None)
  | VObj _ kvs _ =>
    match kvs with
    | [] => Ok (put [123; 125] t, None)
    | _ =>
      let es := map (fun x => WEntry (fst x) (fst (snd x)) (snd (snd x)) (write_value (snd (snd x)))) kvs in
      let t := put [123] (add_cnt 1 t) in
      let (es, t) := ordered_members pi path es t in
      let* t := write_children pi path false es t in
      Ok (put [125] (put_line (add_cnt (-1) t)), None)
    end
  | VArr l =>
    match l with
    | [] => Ok (put [91; 93] t, None)
    | _ =>
      let t := put [91] (add_cnt 1 t) in
      let* t := write_array v pi path 0 (map write_value l) t in
      Ok (put [93] (put_line (add_cnt (-1) t)), None)
    end
  end.

(** /repo/marshal.go:38-53 Marshal with combined options [o], /repo/internal/buffer/buffer.go:14-18 NewBuffer and
    /repo/internal/buffer/buffer_impl.go:30-32 Bytes *)
Definition marshal_w (v : V) : res bytes :=
  match v with
  | VNil => Panic
  | VNotExist => Err ErrValueUninitialized
  | _ =>
    let* (t, e) := write_value v None [] (WSt [] 0 None) in
    match e with
    | Some e => Err e
    | None => Ok (t_buf t)
    end
  end.

End Writer.
