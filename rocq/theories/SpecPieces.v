(** C86: Marshal part by part. *)
From Verif Require Import Base Float64 Value Opt Marshal.

(** The world as it is for the part at key path [p]: the order in which the maps there are ranged over. *)
Definition inside (W : World) (p : list key) : World := {|
  w_ord := fun q n => w_ord W (p ++ q) n;
  w_ord_perm := fun q n => w_ord_perm W (p ++ q) n;
  w_sort := w_sort W;
  w_sort_perm := w_sort_perm W;
  w_sort_sorted := w_sort_sorted W |}.

(** What a less function is told about a place in a part, from what it is told of the part ([pi]) and what it
    would be told if the part were a document of its own ([pi']). *)
Definition glue (pi pi' : option pinfo) : option pinfo :=
  match pi', pi with
  | None, _ => pi
  | Some q, None => Some q
  | Some q, Some p => Some (PInfo (pi_parent q) (pi_path p ++ pi_path q))
  end.

(** The options for a part that is [c] containers deep: its lines begin further to the right, the less function
    is told the whole path. *)
Definition part_opt (o : opt) (pi : option pinfo) (c : nat) : opt := {|
  o_omit_null := o_omit_null o; o_ignore_omitempty := o_ignore_omitempty o;
  o_less := match o_less o with Some f => Some (fun pi' => f (glue pi pi')) | None => None end;
  o_keyseq := o_keyseq o; o_setseq := o_setseq o;
  o_nan := o_nan o; o_nan_str := o_nan_str o; o_nan_float := o_nan_float o;
  o_inf := o_inf o; o_inf_pos := o_inf_pos o; o_inf_neg := o_inf_neg o; o_inf_float := o_inf_float o;
  o_esc := o_esc o; o_indent := o_indent o;
  o_prefix := if o_indent o then o_prefix o ++ List.concat (repeat (o_indent_str o) c) else o_prefix o;
  o_indent_str := o_indent_str o |}.

(** With commas between them. *)
Fixpoint commas (l : list bytes) : bytes :=
  match l with
  | [] => []
  | [p] => p
  | p :: r => p ++ 44 :: commas r
  end.

(** The brackets [a] and [z] around parts, each on a line of its own if there is indentation. *)
Definition bracketed (o : opt) (a z : Z) (parts : list bytes) : bytes :=
  match parts with
  | [] => [a; z]
  | _ =>
    let line := if o_indent o then 10 :: o_prefix o ++ o_indent_str o else [] in
    let last := if o_indent o then 10 :: o_prefix o else [] in
    a :: commas (map (app line) parts) ++ last ++ [z]
  end.

(** The text of a part: nothing if Marshal of it alone is an error. *)
Definition text_of (r : res bytes) : bytes := match r with Ok b => b | _ => [] end.
Definition panics (r : res bytes) : bool := match r with Panic => true | _ => false end.

(** Marshal of each element [l] of an array [v], the first of which has index [i]. *)
Fixpoint elements (E : Env) (W : World) (o : opt) (v : V) (i : Z) (l : list V) : list (res bytes) :=
  match l with
  | [] => []
  | x :: r => marshal_opt E (inside W [int_key i]) (part_opt o (Some (PInfo v [int_key i])) 1) x
              :: elements E W o v (i + 1) r
  end.

(** Marshal of a member of an object. *)
Definition member (E : Env) (W : World) (o : opt) (e : bytes * (Z * V)) : res bytes :=
  let '(k, (_, x)) := e in
  marshal_opt E (inside W [string_key k]) (part_opt o (Some (PInfo x [string_key k])) 1) x.
Definition named_part (E : Env) (W : World) (o : opt) (e : bytes * (Z * V)) : bytes :=
  quoted (o_esc o) (fst e) ++ (if o_indent o then [58; 32] else [58]) ++ text_of (member E W o e).

(** OptOmitNull: the members that are left out, and the stretches of members between them. *)
Definition omitted (o : opt) (e : bytes * (Z * V)) : bool :=
  match snd (snd e) with VNull => o_omit_null o | _ => false end.
Fixpoint stretches {A} (out : A -> bool) (l : list A) : list (list A) :=
  match l with
  | [] => [[]]
  | x :: r =>
    if out x then [] :: stretches out r
    else match stretches out r with h :: t => (x :: h) :: t | [] => [[x]] end
  end.

(** The brackets around stretches of parts: commas stand inside the stretches only. *)
Definition bracketed_stretches (o : opt) (a z : Z) (parts : list (list bytes)) : bytes :=
  let line := if o_indent o then 10 :: o_prefix o ++ o_indent_str o else [] in
  let last := if o_indent o then 10 :: o_prefix o else [] in
  a :: flat_map (fun run => commas (map (app line) run)) parts ++ last ++ [z].

(** The options for a part if the less function does not look at the path. *)
Definition deeper (o : opt) : opt := {|
  o_omit_null := o_omit_null o; o_ignore_omitempty := o_ignore_omitempty o;
  o_less := o_less o; o_keyseq := o_keyseq o; o_setseq := o_setseq o;
  o_nan := o_nan o; o_nan_str := o_nan_str o; o_nan_float := o_nan_float o;
  o_inf := o_inf o; o_inf_pos := o_inf_pos o; o_inf_neg := o_inf_neg o; o_inf_float := o_inf_float o;
  o_esc := o_esc o; o_indent := o_indent o;
  o_prefix := if o_indent o then o_prefix o ++ o_indent_str o else o_prefix o;
  o_indent_str := o_indent_str o |}.
Definition blind (o : opt) : Prop :=
  match o_less o with
  | Some f => forall pi pi' k1 k2 v1 v2, f pi k1 k2 v1 v2 = f pi' k1 k2 v1 v2
  | None => True
  end.
