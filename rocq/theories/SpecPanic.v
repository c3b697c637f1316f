(** Specification of the calls that panic: where a path meets a nil pointer. *)
From Verif Require Import Base Float64 Value Scan Opt Marshal Access Path SpecGet.

(** What Get returns for the path; the value itself for no parameters. *)
Definition got (E : Env) (W : World) (cl : bool) (v : V) (ps : list param) (c : V) : Prop :=
  match ps with
  | [] => v = c
  | p :: r => snd (get E W cl v p r) = Ok c
  end.

(** A part of the path that is not all of it leads to a nil *V. *)
Definition nil_on_way (E : Env) (W : World) (cl : bool) (v : V) (ps : list param) : Prop :=
  exists a q b, ps = a ++ q :: b /\ got E W cl v a VNil.

(** ... or all of it. *)
Definition nil_met (E : Env) (W : World) (cl : bool) (v : V) (ps : list param) : Prop :=
  exists a b, ps = a ++ b /\ got E W cl v a VNil.

(** A string of white space only, the empty one among them; and without it. *)
Definition blank_string (c : V) : Prop := exists s, c = VStr s /\ spaces s.
Definition long_blank (c : V) : Prop := exists s, c = VStr s /\ s <> [] /\ spaces s.

(** The getter panics exactly where Get does and for a nil *V (or a blank string). *)
Definition number_panics {A} (E : Env) (W : World) (f : bool -> V -> param -> list param -> res A) : Prop :=
  forall cl v p o, f cl v p o = Panic <->
    snd (get E W cl v p o) = Panic \/ exists c, snd (get E W cl v p o) = Ok c /\ (c = VNil \/ blank_string c).
Definition other_panics {A} (E : Env) (W : World) (f : bool -> V -> param -> list param -> res A) : Prop :=
  forall cl v p o, f cl v p o = Panic <-> snd (get E W cl v p o) = Panic \/ snd (get E W cl v p o) = Ok VNil.
