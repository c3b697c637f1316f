(** Scripts of API calls, for transcribing the tests of the repository. *)
From Verif Require Import Base Utf8 Float64 Value Scan Opt Marshal Access Path Edit Unmarshal Compare Iter
  Base64 Contain GoValue Import ExampleWorld.

(** Library functions that the tests depend on: ToLower on ASCII, and the
    formatting of the few floats occurring, as a table. *)
Definition fl (neg : bool) (m e : Z) : spec_float := f_of_dec neg m e.
Definition float_table : list (spec_float * string) := [
  (fl false 15 (-1), "1.5"); (fl false 225 (-2), "2.25"); (fl true 225 (-2), "-2.25");
  (fl false 325 (-2), "3.25"); (fl true 15 (-1), "-1.5"); (fl false 125 (-2), "1.25"); (fl true 125 (-2), "-1.25");
  (fl false 1234123456789 (-9), "1234.123456789"); (fl false 202 (-1), "20.2"); (fl false 1 0, "1");
  (fl false 20 0, "20"); (fl false 12312345 (-5), "123.12345"); (fl true 25 (-2), "-0.25"); (fl false 25 (-2), "0.25");
  (fl false 123125 (-3), "123.125")]%string.
Definition show_float (f : spec_float) : bytes :=
  match f with
  | S754_nan => bs "NaN"
  | S754_infinity n => bs (if n then "-Inf" else "+Inf")
  | _ => match find (fun e => SFeqb (fst e) f) float_table with Some e => bs (snd e) | None => bs "?" end
  end.
Definition E : Env := {|
  oor_i64 := fun _ => 0; oor_u64 := fun _ => 0; to_lower := map (fun c => if (65 <=? c) && (c <=? 90) then c + 32 else c);
  fmt_float := fun f _ _ _ => show_float f; json_float := show_float; to_f32 := fun f => f |}.
Definition W : World := world1.

Definition k (s : string) : param := PStr (bs s).
Definition i (n : Z) : param := PInt n.

(** MustUnmarshalString *)
Definition J (s : string) : V := match must_unmarshal_string E (bs s) with Ok v => v | _ => VUnknown end.
(** UnmarshalString: the error is nil *)
Definition parses (s : string) : bool := match unmarshal_string E (bs s) with Ok (_, None) => true | _ => false end.
(** ... is not nil, and the value is NotExist *)
Definition rejects (s : string) : bool :=
  match unmarshal_string E (bs s) with Ok (VNotExist, Some _) => true | _ => false end.

(** A read of a Go result *)
Definition is_ok {A} (eqb : A -> A -> bool) (r : res (A * option err)) (a : A) : bool :=
  match r with Ok (x, None) => eqb x a | _ => false end.
Definition is_err_with {A} (eqb : A -> A -> bool) (r : res (A * option err)) (a : A) : bool :=
  match r with Ok (x, Some _) => eqb x a | _ => false end.
Definition is_ {A} (eqb : A -> A -> bool) (r : res A) (a : A) : bool :=
  match r with Ok x => eqb x a | _ => false end.
Definition any {A} (_ _ : A) : bool := true.
Definition err_of {A} (r : res (A * option err)) : option err :=
  match r with Ok (_, e) => e | _ => None end.

Definition text (o : list option_) (v : V) (s : string) : bool :=
  match marshal E W opt0 o v with Ok b => beqb b (bs s) | _ => false end.
Definition text_err (o : list option_) (v : V) : bool :=
  match marshal E W opt0 o v with Err _ => true | _ => false end.

(** A step of a script: an edit that has to succeed or to fail, or a check. *)
Inductive step :=
| Good (f : V -> V * bool)
| Bad (f : V -> V * bool)
| Check (f : V -> bool).

(** Number of the first step that goes wrong *)
Fixpoint wrong (n : nat) (v : V) (ss : list step) : option nat :=
  match ss with
  | [] => None
  | Good f :: r => let x := f v in if snd x then wrong (S n) (fst x) r else Some n
  | Bad f :: r => let x := f v in if snd x then Some n else wrong (S n) (fst x) r
  | Check f :: r => if f v then wrong (S n) v r else Some n
  end.
Definition script (v : V) (ss : list step) : Prop := wrong 0 v ss = None.

Definition done {A} (x : V * res A) : V * bool := (fst x, match snd x with Ok _ => true | _ => false end).
Definition on_path {A} (f : param -> list param -> V * res A) (p : list param) (v : V) : V * bool :=
  match p with [] => (v, false) | x :: r => done (f x r) end.
Definition set (x : V) (p : list param) (v : V) := on_path (set_at E v (arg_v x)) p v.
Definition set_any (g : gov) (p : list param) (v : V) :=
  match arg_any E W opt0 g with Ok a => on_path (set_at E v a) p v | _ => (v, false) end.
Definition before (x : V) (p : list param) (v : V) := on_path (insert_before E W v (arg_v x)) p v.
Definition after (x : V) (p : list param) (v : V) := on_path (insert_after E W v (arg_v x)) p v.
Definition after_any (g : gov) (p : list param) (v : V) :=
  match arg_any E W opt0 g with Ok a => on_path (insert_after E W v a) p v | _ => (v, false) end.
Definition before_any (g : gov) (p : list param) (v : V) :=
  match arg_any E W opt0 g with Ok a => on_path (insert_before E W v a) p v | _ => (v, false) end.
Definition front (x : V) (p : list param) (v : V) := done (append_beginning E W v (arg_v x) p).
Definition back (x : V) (p : list param) (v : V) := done (append_end E W v (arg_v x) p).
Definition back_any (g : gov) (p : list param) (v : V) :=
  match arg_any E W opt0 g with Ok a => done (append_end E W v a p) | _ => (v, false) end.
Definition del (p : list param) (v : V) := on_path (delete_at E W false v) p v.
Definition del_caseless (p : list param) (v : V) := on_path (caseless_delete E W v) p v.
(** the text under OptSetSequence *)
Definition reads (s : string) : step := Check (fun v => text [OSetSeq] v s).

Definition getter {A} (f : V -> param -> list param -> res (A * option err)) (p : list param) (v : V)
  : res (A * option err) :=
  match p with [] => Fuel | x :: r => f v x r end.
Definition g_int cl := getter (get_int E W cl).
Definition g_uint cl := getter (get_uint E W cl).
Definition g_int64 cl := getter (get_int64 E W cl).
Definition g_uint64 cl := getter (get_uint64 E W cl).
Definition g_int32 cl := getter (get_int32 E W cl).
Definition g_uint32 cl := getter (get_uint32 E W cl).
Definition g_f64 cl := getter (get_float64 E W cl).
Definition g_f32 cl := getter (get_float32 E W cl).
Definition g_bool cl := getter (get_bool E W cl).
Definition g_str cl := getter (get_string E W cl).
Definition g_null cl := getter (get_null E W cl).
Definition g_obj cl := getter (get_object E W cl).
Definition g_arr cl := getter (get_array E W cl).
Definition g_bytes cl := getter (get_bytes E W cl).

(** Get, and MustGet *)
Definition got (p : list param) (v : V) : V :=
  match p with [] => VUnknown | x :: r => match must_get E W false v x r with (_, Ok c) => c | _ => VUnknown end end.
Definition got_caseless (p : list param) (v : V) : V :=
  match p with [] => VUnknown | x :: r => match must_get E W true v x r with (_, Ok c) => c | _ => VUnknown end end.
Definition finds (p : list param) (v : V) : bool :=
  match p with [] => false | x :: r => match snd (get E W false v x r) with Ok _ => true | _ => false end end.
Definition finds_caseless (p : list param) (v : V) : bool :=
  match p with [] => false | x :: r => match snd (caseless_get E W v x r) with Ok _ => true | _ => false end end.
Definition typ (v : V) (t : vtype) : bool := is_ vtype_eqb (value_type v) t.
Definition str (v : V) (s : string) : bool := beqb (api_string E W [] v) (bs s).
Definition eqv (a b : V) : bool := equal W [] a b.

Definition sint := new_int64.
Definition suint := new_uint64.
Definition sstr (s : string) := new_string (bs s).
Definition sf (neg : bool) (m e : Z) := new_float64 E (fl neg m e).
