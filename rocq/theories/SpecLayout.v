(** Layout with members left out (C32 under OptOmitNull). *)
From Verif Require Import Base SpecOut.

(** A tree of texts.  The members of an object come in runs: [GObj []] is an object without members, and
    otherwise a run ends where a member is left out, [GObj [[]]] being the object whose only member is. *)
Inductive gtree :=
| GLeaf (b : bytes)
| GArr (l : list gtree)
| GObj (runs : list (list (bytes * gtree))).

(** Every entry on its own line, at its depth; containers without entries on one line.  There is a comma
    between the members of a run. *)
Fixpoint grender (lay : option (bytes * bytes)) (depth : nat) (t : gtree) : bytes :=
  match t with
  | GLeaf b => b
  | GArr [] => [91; 93]
  | GArr l => 91 :: join (map (fun x => line lay (S depth) ++ grender lay (S depth) x) l) ++ line lay depth ++ [93]
  | GObj [] => [123; 125]
  | GObj runs => 123 :: List.concat (map (fun r => join (map (fun x => line lay (S depth) ++ fst x ++ colon lay ++ grender lay (S depth) (snd x)) r)) runs)
                     ++ line lay depth ++ [125]
  end.
