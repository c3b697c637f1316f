(** Goroutines that read one document at the same time: getFromObjectChildren with the
    index for caseless access, which a reader builds (get.go, jsonvalue.go).

    The steps are the accesses to memory that goroutines share, each taken to be
    atomic, in any interleaving.  Go promises less: a program with a data race may do
    anything, and the runtime stops programs in which it sees concurrent
    accesses to a map. *)
From Verif Require Import Base Utf8 Float64 Value Scan Opt Path.

(** What the readers do not change: the members of the objects, as the numbers of the
    children. *)
Definition tree := list (list (bytes * nat)).
Definition members_of (d : tree) (o : nat) : list (bytes * nat) := nth o d [].

(** What they may change of an object: the field lowerCaseKeys, the maps made for
    it (lower-cased name to the number of an inner map), and the inner maps. *)
Record index := Index {
  x_field : option nat;
  x_maps : list (list (bytes * nat));
  x_inner : list (list bytes);
}.
Definition index0 : index := Index None [] [].
Definition store := nat -> index.
Definition set_index (s : store) (o : nat) (x : index) : store := fun o' => if (o' =? o)%nat then x else s o'.

(** A reader: looks up names in objects one after the other; what it looks up next may
    depend on the answers. *)
Inductive prog :=
| Done
| Look (o : nat) (k : bytes) (caseless : bool) (next : option nat -> prog).

(** Where a reader is in getFromObjectChildren (/repo/get.go:70-96), initCaselessStorage
    (/repo/get.go:60-68) and addCaselessKey (/repo/jsonvalue.go:165-176).  [todo]: the keys
    that the loop of get.go:65 has not reached. *)
Inductive pc :=
| AtStart                                      (* get.go:71 *)
| AtCheck                                      (* get.go:61 *)
| AtMake                                       (* get.go:64 *)
| AtLoop (todo : list bytes)                   (* get.go:65 *)
| AtNil (k : bytes) (todo : list bytes)        (* jsonvalue.go:166 *)
| AtLoad (k : bytes) (todo : list bytes)       (* jsonvalue.go:170, the field *)
| AtHave (m : nat) (k : bytes) (todo : list bytes)        (* jsonvalue.go:170, the map *)
| AtMiss (i : nat) (k : bytes) (todo : list bytes)        (* jsonvalue.go:173, the field *)
| AtPut (m i : nat) (k : bytes) (todo : list bytes)       (* jsonvalue.go:173, the map *)
| AtAdd (i : nat) (k : bytes) (todo : list bytes)         (* jsonvalue.go:175 *)
| AtFind                                       (* get.go:83, the field *)
| AtSeek (m : nat)                             (* get.go:83, the map *)
| AtRange (i : nat) (seen : list bytes).       (* get.go:88-93 *)

(** An answer: the object, the name, whether caseless, the child found. *)
Definition answer := (nat * bytes * bool * option nat)%type.
Record thread := Thread { t_prog : prog; t_pc : pc; t_log : list answer }.
Definition starts (p : prog) : thread := Thread p AtStart [].

Definition remove_key (k : bytes) (l : list bytes) : list bytes := filter (fun e => negb (beqb k e)) l.

(** One step; [n] chooses the next key of a range loop over a map.  [None]: the reader
    is done, or points to nothing (does not happen). *)
Definition step (E : Env) (d : tree) (n : nat) (s : store) (t : thread) : option (store * thread) :=
  match t_prog t with
  | Done => None
  | Look o k cl next =>
    let ms := members_of d o in
    let x := s o in
    let at_ p := Thread (t_prog t) p (t_log t) in
    let reply r := Thread (next r) AtStart ((o, k, cl, r) :: t_log t) in
    match t_pc t with
    | AtStart =>
      match alookup k ms with
      | Some c => Some (s, reply (Some c))
      | None => if cl then Some (s, at_ AtCheck) else Some (s, reply None)
      end
    | AtCheck => Some (s, at_ (match x_field x with Some _ => AtFind | None => AtMake end))
    | AtMake =>
      Some (set_index s o (Index (Some (List.length (x_maps x))) (x_maps x ++ [[]]) (x_inner x)), at_ (AtLoop (akeys ms)))
    | AtLoop [] => Some (s, at_ AtFind)
    | AtLoop (e :: r) =>
      let k' := nth (n mod List.length (e :: r)) (e :: r) [] in
      Some (s, at_ (AtNil k' (remove_key k' (e :: r))))
    | AtNil k' todo => Some (s, at_ (match x_field x with Some _ => AtLoad k' todo | None => AtLoop todo end))
    | AtLoad k' todo => match x_field x with Some m => Some (s, at_ (AtHave m k' todo)) | None => None end
    | AtHave m k' todo =>
      match alookup (to_lower E k') (nth m (x_maps x) []) with
      | Some i => Some (s, at_ (AtAdd i k' todo))
      | None =>
        Some (set_index s o (Index (x_field x) (x_maps x) (x_inner x ++ [[]])), at_ (AtMiss (List.length (x_inner x)) k' todo))
      end
    | AtMiss i k' todo => match x_field x with Some m => Some (s, at_ (AtPut m i k' todo)) | None => None end
    | AtPut m i k' todo =>
      Some (set_index s o (Index (x_field x) (set_nth m (aset (to_lower E k') i (nth m (x_maps x) [])) (x_maps x)) (x_inner x)),
            at_ (AtAdd i k' todo))
    | AtAdd i k' todo =>
      Some (set_index s o (Index (x_field x) (x_maps x) (set_nth i (sadd k' (nth i (x_inner x) [])) (x_inner x))), at_ (AtLoop todo))
    | AtFind => match x_field x with Some m => Some (s, at_ (AtSeek m)) | None => None end
    | AtSeek m =>
      match alookup (to_lower E k) (nth m (x_maps x) []) with
      | Some i => Some (s, at_ (AtRange i []))
      | None => Some (s, reply None)
      end
    | AtRange i seen =>
      match filter (fun e => negb (existsb (beqb e) seen)) (nth i (x_inner x) []) with
      | [] => Some (s, reply None)
      | e :: r =>
        let k' := nth (n mod List.length (e :: r)) (e :: r) [] in
        match alookup k' ms with
        | Some c => Some (s, reply (Some c))
        | None => Some (s, at_ (AtRange i (k' :: seen)))
        end
      end
    end
  end.

(** Goroutine number [i] takes a step. *)
Definition turn (E : Env) (d : tree) (st : store * list thread) (c : nat * nat) : option (store * list thread) :=
  match nth_error (snd st) (fst c) with
  | None => None
  | Some t =>
    match step E d (snd c) (fst st) t with
    | Some (s', t') => Some (s', set_nth (fst c) t' (snd st))
    | None => None
    end
  end.

(** Any interleaving: whose turn it is, and the choice. *)
Fixpoint play (E : Env) (d : tree) (sched : list (nat * nat)) (st : store * list thread) : option (store * list thread) :=
  match sched with
  | [] => Some st
  | c :: r => match turn E d st c with Some st' => play E d r st' | None => None end
  end.

(** What the next step touches: the field, a map or an inner map of an object; [true]:
    writes. *)
Inductive place := PField (o : nat) | PMap (o m : nat) | PInner (o i : nat).
Definition touches (t : thread) : option (place * bool) :=
  match t_prog t with
  | Done => None
  | Look o _ _ _ =>
    match t_pc t with
    | AtStart | AtLoop _ => None
    | AtCheck | AtNil _ _ | AtLoad _ _ | AtMiss _ _ _ | AtFind => Some (PField o, false)
    | AtMake => Some (PField o, true)
    | AtHave m _ _ | AtSeek m => Some (PMap o m, false)
    | AtPut m _ _ _ => Some (PMap o m, true)
    | AtAdd i _ _ => Some (PInner o i, true)
    | AtRange i _ => Some (PInner o i, false)
    end
  end.

(** lowerCaseKeys as the rest of the model has it. *)
Definition lower_of (x : index) : option (list (bytes * list bytes)) :=
  match x_field x with
  | None => None
  | Some m => Some (map (fun e => (fst e, nth (snd e) (x_inner x) [])) (nth m (x_maps x) []))
  end.
