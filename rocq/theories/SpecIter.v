(** Specification of iteration. *)
From Verif Require Import Base Float64 Value.

(** [runs cb s calls go s']: the callback was called with [calls] one after the
    other, starting from [s] and ending in [s']; [go] tells whether it always
    asked to continue.  If not, it was its last call that did not. *)
Inductive runs {S A : Type} (cb : S -> A -> S * bool) : S -> list A -> bool -> S -> Prop :=
| runs_none s : runs cb s [] true s
| runs_stop s x s' : cb s x = (s', false) -> runs cb s [x] false s'
| runs_go s x s1 l go s' : cb s x = (s1, true) -> runs cb s1 l go s' -> runs cb s (x :: l) go s'.

(** The callback was called with the entries [es] in this order, all of them or
    up to the one at which it asked to stop. *)
Definition visits {S A} (cb : S -> A -> S * bool) (es : list A) (s s' : S) : Prop :=
  exists calls rest go, es = calls ++ rest /\ runs cb s calls go s' /\ (go = true -> rest = []).

(** The elements of a list with their positions, from 0. *)
Definition positions {A} (l : list A) (es : list (Z * A)) : Prop :=
  List.length es = List.length l /\
  forall n x, nth_error l n = Some x -> nth_error es n = Some (Z.of_nat n, x).

(** The members of an object. *)
Definition members (kvs : list (bytes * (Z * V))) : list (bytes * V) := map (fun e => (fst e, snd (snd e))) kvs.
