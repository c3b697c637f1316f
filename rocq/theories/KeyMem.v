(** Marshalling with key paths as Go slices: /repo/sort.go:161-173 newParentInfo
    appends to the KeyPath of the parent, so the paths of siblings and cousins
    may share a backing array.  The same functions as in Marshal.v, over a
    memory of backing arrays. *)
From Verif Require Import Base Float64 Value Opt Marshal.

(** A backing array of pointers to keys: its capacity and the cells written so
    far.  The cells point to keys that nobody changes, so they are kept here
    by value. *)
Record arr := Arr { a_cap : nat; a_cells : list key }.
Definition arr0 : arr := Arr 0 [].

(** A slice of such an array.  KeyPaths are never resliced, so all slices
    begin at cell 0 and their capacity is that of the array. *)
Record slice := Slice { s_arr : nat; s_len : nat }.

(** What a slice shows. *)
Definition shows (m : list arr) (s : slice) : list key := firstn (s_len s) (a_cells (nth (s_arr s) m arr0)).

Definition set_arr (m : list arr) (a : nat) (x : arr) : list arr :=
  firstn a m ++ x :: skipn (S a) m.

(** KeyPath{&k} *)
Definition new_slice (m : list arr) (k : key) : list arr * slice :=
  (m ++ [Arr 1 [k]], Slice (List.length m) 1).

(** append(s, &k); [g n] is the capacity of the array that the runtime
    allocates when n cells are full. *)
Definition append_key (g : nat -> nat) (m : list arr) (s : slice) (k : key) : list arr * slice :=
  let a := nth (s_arr s) m arr0 in
  if (s_len s <? a_cap a)%nat
  then (set_arr m (s_arr s) (Arr (a_cap a) (firstn (s_len s) (a_cells a) ++ k :: skipn (S (s_len s)) (a_cells a))),
        Slice (s_arr s) (S (s_len s)))
  else (m ++ [Arr (g (s_len s)) (firstn (s_len s) (a_cells a) ++ [k])], Slice (List.length m) (S (s_len s))).

(** The memory and, for every object with at least two members that was
    sorted by the less function, the KeyPath handed to that function and what
    it showed at that time. *)
Record store := Store { st_mem : list arr; st_told : list (slice * list key) }.

(** /repo/sort.go:156-159 ParentInfo *)
Record sinfo := SInfo { si_parent : V; si_path : slice }.

(** /repo/sort.go:161-173 newParentInfo *)
Definition new_sinfo (g : nat -> nat) (st : store) (v : V) (p : option sinfo) (k : key) : store * sinfo :=
  match p with
  | None => let (m, s) := new_slice (st_mem st) k in (Store m (st_told st), SInfo v s)
  | Some p => let (m, s) := append_key g (st_mem st) (si_path p) k in (Store m (st_told st), SInfo v s)
  end.

(** What the less function finds in the ParentInfo. *)
Definition read_info (st : store) (p : option sinfo) : option pinfo :=
  match p with
  | None => None
  | Some p => Some (PInfo (si_parent p) (shows (st_mem st) (si_path p)))
  end.

Definition tell (n : nat) (p : option sinfo) (st : store) : store :=
  match p with
  | Some p => if (2 <=? n)%nat
              then Store (st_mem st) (st_told st ++ [(si_path p, shows (st_mem st) (si_path p))])
              else st
  | None => st
  end.

Definition smres := res (store * (bytes * option err)).

Section Writer.
Variable g : nat -> nat.
Variable E : Env.
Variable W : World.
Variable o : opt.

Record sentry := SEntry {
  se_key : bytes;
  se_id : Z;
  se_val : V;
  se_run : store -> option sinfo -> list key -> nat -> smres;
}.

(** [Marshal.order_entries] *)
Definition s_order (pi : option pinfo) (path : list key) (es : list sentry) : list sentry :=
  let es := go_range W path es in
  match o_less o with
  | Some f => go_sort W (fun a b => f pi (se_key a) (se_key b) (se_val a) (se_val b)) es
  | None =>
    match o_keyseq o with
    | _ :: _ =>
      go_sort W (fun a b => seq_less (seq_index 0 (o_keyseq o) (se_key a))
                                     (seq_index 0 (o_keyseq o) (se_key b)) (se_key a) (se_key b)) es
    | [] =>
      if o_setseq o then go_sort W (fun a b => seq_less (Some (se_id a)) (Some (se_id b)) (se_key a) (se_key b)) es
      else es
    end
  end.

(** The parent info for a member or an element, if there is a less function. *)
Definition child_info (st : store) (v : V) (pi : option sinfo) (k : key) : store * option sinfo :=
  match o_less o with
  | Some _ => let (st, i) := new_sinfo g st v pi k in (st, Some i)
  | None => (st, None)
  end.

(** [Marshal.write_members].  newParentInfo is called also for a member that
    is omitted (/repo/sort.go:195-199). *)
Fixpoint s_members (st : store) (pi : option sinfo) (path : list key) (cnt : nat) (first : bool)
                   (es : list sentry) : res (store * bytes) :=
  match es with
  | [] => Ok (st, [])
  | e :: r =>
    let (st, ci) := child_info st (se_val e) pi (string_key (se_key e)) in
    match se_val e with
    | VNil => Panic
    | x =>
      if match x with VNull => o_omit_null o | _ => false end then s_members st pi path cnt true r
      else
        let* (st, b) := se_run e st ci (path ++ [string_key (se_key e)]) cnt in
        let* (st, rest) := s_members st pi path cnt false r in
        Ok (st, (if first then [] else [44]) ++ nl_indent o cnt ++ quoted (o_esc o) (se_key e)
                ++ (if o_indent o then [58; 32] else [58]) ++ fst b ++ rest)
    end
  end.

(** [Marshal.write_elems] *)
Fixpoint s_elems (v : V) (st : store) (pi : option sinfo) (path : list key) (cnt : nat) (i : Z)
                 (es : list (store -> option sinfo -> list key -> nat -> smres)) : res (store * bytes) :=
  match es with
  | [] => Ok (st, [])
  | run :: r =>
    let (st, ci) := child_info st v pi (int_key i) in
    let* (st, b) := run st ci (path ++ [int_key i]) cnt in
    let* (st, rest) := s_elems v st pi path cnt (i + 1) r in
    Ok (st, (if 0 <? i then [44] else []) ++ nl_indent o cnt ++ fst b ++ rest)
  end.

(** [Marshal.marshal_to] *)
Fixpoint s_marshal (v : V) : store -> option sinfo -> list key -> nat -> smres :=
  fun st pi path cnt =>
  match v with
  | VObj _ kvs _ =>
    let es := map (fun x => SEntry (fst x) (fst (snd x)) (snd (snd x)) (s_marshal (snd (snd x)))) kvs in
    match es with
    | [] => Ok (st, ([123; 125], None))
    | _ =>
      let* (st, b) := s_members (tell (List.length es) pi st) pi path (S cnt) true (s_order (read_info st pi) path es) in
      Ok (st, (123 :: b ++ nl_indent o cnt ++ [125], None))
    end
  | VArr l =>
    match l with
    | [] => Ok (st, ([91; 93], None))
    | _ =>
      let* (st, b) := s_elems v st pi path (S cnt) 0 (map s_marshal l) in
      Ok (st, (91 :: b ++ nl_indent o cnt ++ [93], None))
    end
  | _ =>
    let* r := marshal_to E W o v None path cnt in
    Ok (st, r)
  end.

End Writer.

(** [Marshal.marshal_opt], with the memory that it leaves behind. *)
Definition s_marshal_opt (g : nat -> nat) (E : Env) (W : World) (o : opt) (v : V) : res (store * bytes) :=
  match v with
  | VNil => Panic
  | VNotExist => Err ErrValueUninitialized
  | _ =>
    let* (st, be) := s_marshal g E W o v (Store [] []) None [] 0 in
    match snd be with
    | Some e => Err e
    | None => Ok (st, fst be)
    end
  end.
