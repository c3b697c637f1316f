(** Concrete interleavings of readers. *)
From Verif Require Import Base Utf8 Float64 Value Scan Opt Marshal Access Path Edit ConcRead SpecConcRead ExampleWorld.

(** One object with the members "Ab" and "aB". *)
Definition two : tree := [[(bs "Ab", 1%nat); (bs "aB", 2%nat)]].
Definition look_ab : prog := Look 0 (bs "ab") true (fun _ => Done).
Definition blank : store := fun _ => index0.

(** Reader [i] takes [n] steps, choosing the first key in every loop. *)
Definition run (i n : nat) : list (nat * nat) := repeat (i, 0%nat) n.

(** The first reader has made the map but not filled it; the second one sees that it
    is there, and that it is empty. *)
Definition early : list (nat * nat) := run 0 3 ++ run 1 4.
Definition after_early := play env0 two early (blank, [starts look_ab; starts look_ab]).

(** Both find that there is no map.  The second one makes one and files "Ab"; the first
    one puts an empty map in its place; the second one finds no entry there and makes
    an inner map for "aB"; the first one fills the map; the second one puts its inner map in. *)
Definition lost : list (nat * nat) :=
  run 0 2 ++ run 1 2 ++ run 1 1 ++ run 1 7 ++ run 0 1 ++ run 1 4 ++ run 0 16 ++ run 1 7.
Definition after_lost := play env0 two lost (blank, [starts look_ab; starts look_ab]).
Definition end_of (r : option (store * list thread)) : store * list thread :=
  match r with Some x => x | None => (blank, []) end.
Definition lost_end : store * list thread := Eval vm_compute in end_of after_lost.
Lemma lost_plays : play env0 two lost (blank, [starts look_ab; starts look_ab]) = Some lost_end.
Proof. vm_compute. reflexivity. Qed.

(** The object as a value, with the index that the readers leave. *)
Definition two_value (x : index) : V := VObj 2 [(bs "Ab", (1, VBool true)); (bs "aB", (2, VNull))] (lower_of x).

(** Both are about to put a new map into the field. *)
Definition both_make : list (nat * nat) := run 0 2 ++ run 1 2.

(** A reader alone, in two objects; then two others at the same time. *)
Definition nested : tree := [[(bs "A", 1%nat); (bs "b", 2%nat)]; [(bs "C", 3%nat)]].
Definition warm : prog :=
  Look 0 (bs "a") true (fun r => match r with Some o => Look o (bs "c") true (fun _ => Done) | None => Done end).
Definition warm_run := play env0 nested (run 0 35) (blank, [starts warm]).
Definition later1 : prog := Look 0 (bs "B") true (fun _ => Look 1 (bs "C") true (fun _ => Done)).
Definition later2 : prog := Look 1 (bs "x") true (fun _ => Look 0 (bs "A") false (fun _ => Done)).
Definition warm_end : store * list thread := Eval vm_compute in end_of warm_run.
Definition together : list (nat * nat) := run 1 3 ++ run 0 4 ++ run 1 2 ++ run 0 2.
Definition later_end : store * list thread :=
  Eval vm_compute in end_of (play env0 nested together (fst warm_end, map starts [later1; later2])).
Definition found (t : thread) : list (option nat) := map (fun a : answer => snd a) (t_log t).
Lemma warm_plays : play env0 nested (run 0 35) (blank, [starts warm]) = Some warm_end /\
  map found (snd warm_end) = [[Some 3%nat; Some 1%nat]].
Proof. vm_compute. split; reflexivity. Qed.
Lemma later_plays : play env0 nested together (fst warm_end, map starts [later1; later2]) = Some later_end /\
  map found (snd later_end) = [[Some 3%nat; Some 2%nat]; [Some 1%nat; None]].
Proof. vm_compute. split; reflexivity. Qed.
