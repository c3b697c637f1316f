(** C93: a document that is written to text and read back between calls. *)
From Verif Require Import Base Float64 Value Opt Marshal Unmarshal Path Edit SpecJson SpecValue SpecLax SpecText SpecOpts SpecPath SpecSafe SpecSetSplice SpecTwin.

(** Strings and member names in UTF-8, numbers with a text that Unmarshal takes: what JSON texts and the constructors for
    strings, integers, booleans, null and containers give. *)
Definition clean (v : V) : Prop := json_typed v /\ all_text well_formed (fun _ src => lax_num src) v.

(** Paths of names in UTF-8 and of indices. *)
Definition clean_param (p : param) : Prop := plain p /\ forall k, p = PStr k -> well_formed k.

(** [AInto]: Get, and go on with the value found.  SortArray with functions that do not tell Equal elements apart. *)
Inductive clean_call : act -> Prop :=
| CC_get p o : clean_call (AGet false p o)
| CC_into p o : clean_call (AInto false p o)
| CC_must p o : clean_call (AMustGet false p o)
| CC_set c p o : clean c -> Forall clean_param (p :: o) -> clean_call (ASet (arg_v c) p o)
| CC_before c p o : clean c -> Forall clean_param (p :: o) -> clean_call (ABefore (arg_v c) p o)
| CC_after c p o : clean c -> Forall clean_param (p :: o) -> clean_call (AAfter (arg_v c) p o)
| CC_append front c ps : clean c -> Forall clean_param ps -> clean_call (AAppend front (arg_v c) ps)
| CC_delete p o : Forall clean_param (p :: o) -> clean_call (ADelete false p o)
| CC_sort f : (forall x x' y y', twins x x' -> twins y y' -> f x y = f x' y') -> clean_call (ASort (Some f))
| CC_len : clean_call ALen
| CC_type : clean_call AType.

(** A call, or Marshal with the options [o] and Unmarshal of the text. *)
Inductive action := Call (s : World * opt * act) | Save (W : World) (o : opt).
Definition clean_action (a : action) : Prop :=
  match a with
  | Call s => clean_call (snd s)
  | Save _ o => opt_ws o /\ o_omit_null o = false
  end.

Definition saved (E : Env) (W : World) (o : opt) (v : V) : V :=
  match marshal_opt E W o v with
  | Ok b => match unmarshal E b with Ok (w, None) => w | _ => VNil end
  | _ => VNil
  end.
Fixpoint with_saves (E : Env) (v : V) (l : list action) : V * list (res unit) :=
  match l with
  | [] => (v, [])
  | Call (W, d, a) :: r =>
    let '(v', x) := perform E W d v a in
    let '(w, xs) := with_saves E v' r in (w, x :: xs)
  | Save W o :: r => with_saves E (saved E W o v) r
  end.
Definition calls (l : list action) : list (World * opt * act) :=
  flat_map (fun a => match a with Call s => [s] | Save _ _ => [] end) l.

(** *** With saves in the order of setting *)
(** In every object the numbers that keep the order of setting differ and are at most [n], and it has at most [n] members. *)
Fixpoint numbered (n : Z) (v : V) : Prop :=
  match v with
  | VArr l => (fix go (l : list V) : Prop := match l with [] => True | x :: r => numbered n x /\ go r end) l
  | VObj i kvs _ =>
    NoDup (map (fun e => fst (snd e)) kvs) /\ Forall (fun e => fst (snd e) <= i) kvs /\ 0 <= i <= n /\ Z.of_nat (List.length kvs) <= n /\
    (fix go (l : list (bytes * (Z * V))) : Prop := match l with [] => True | (_, (_, x)) :: r => numbered n x /\ go r end) kvs
  | _ => True
  end.
Definition new_values (a : act) : list V :=
  match a with
  | ASet x _ _ | ABefore x _ _ | AAfter x _ _ | AAppend _ x _ => [fst x]
  | _ => []
  end.
Definition in_turn (n : Z) (a : action) : Prop :=
  match a with
  | Call s => Forall (numbered n) (new_values (snd s))
  | Save _ o => by_setting o
  end.

(** *** With saves under OptOmitNull *)
(** No object has a null member.  Null elements of arrays are written also under OptOmitNull. *)
Definition no_null_members (v : V) : Prop := all_objs (Forall (fun e => snd (snd e) <> VNull)) v.
(** Calls that bring no null member in, and saves with or without OptOmitNull. *)
Definition brings_no_null (a : act) : Prop :=
  Forall no_null_members (new_values a) /\ match a with ASet x _ _ => fst x <> VNull | _ => True end.
Definition null_safe (a : action) : Prop :=
  match a with
  | Call s => clean_call (snd s) /\ brings_no_null (snd s)
  | Save _ o => opt_ws o
  end.
