(** Goroutines reading one document at the same time (C68). *)
From Verif Require Import Base Utf8 Float64 Value Scan Opt Marshal Access Path Edit ConcRead SpecConcRead ConcReadProof
  ExampleWorld ExampleConcRead.

(** C68 is false: a caseless lookup may miss a member while another reader fills the index. *)
Theorem C68_refuted : exists E d sched ps s' l a, play E d sched (blank, map starts ps) = Some (s', l) /\
  Exists (fun t => In a (t_log t)) l /\ ~ right E d a.
Proof.
  exists env0, two, early, [look_ab; look_ab]. eexists _, _, (0%nat, bs "ab", true, None). split; [reflexivity|]. split.
  - right. left. now left.
  - intros H. apply (H 1%nat). right. split; [reflexivity|]. split; [intros [H'|[H'|[]]]; discriminate H'|]. exists (bs "Ab"). split; [now left|reflexivity].
Qed.
Print Assumptions C68_refuted.

(** The damage may stay: two readers are done, and the index has lost a name.  Once
    Delete has taken away another member, Caseless().Get misses one that is there. *)
Theorem C68_lost_refuted : exists E W sched ps s' l, play E two sched (blank, map starts ps) = Some (s', l) /\
  Forall finished l /\ Forall (fun t => Forall (right E two) (t_log t)) l /\
  ~ built E two s' 0 /\
  let v := fst (delete_at E W false (two_value (s' 0%nat)) (PStr (bs "aB")) []) in
  snd (get E W false v (PStr (bs "Ab")) []) = Ok (VBool true) /\
  snd (caseless_get E W v (PStr (bs "AB")) []) = Err ErrNotFound /\
  snd (caseless_get E W (fst (delete_at E W false (two_value (blank 0%nat)) (PStr (bs "aB")) [])) (PStr (bs "AB")) []) = Ok (VBool true).
Proof.
  exists env0, world1, lost, [look_ab; look_ab], (fst lost_end), (snd lost_end). split; [exact lost_plays|]. split; [repeat constructor|]. split.
  - assert (Hn : ~ In (bs "ab") (map fst (members_of two 0))) by (intros [H|[H|[]]]; discriminate H).
    constructor; [|constructor; [|constructor]]; (constructor; [|constructor]); right; (split; [reflexivity|]); (split; [exact Hn|]).
    + exists (bs "Ab"). split; [now left|reflexivity].
    + exists (bs "aB"). split; [right; now left|reflexivity].
  - split; [|vm_compute; repeat split; reflexivity]. intros (m & Hm & H & _). injection Hm as <-.
    destruct (H (bs "Ab")) as (ks & Hk & Hin); [now left|]. injection Hk as <-. destruct Hin as [Hin|[]]; discriminate Hin.
Qed.
Print Assumptions C68_lost_refuted.

(** Two readers may be about to write the same field. *)
Theorem C68_race_refuted : exists E d sched ps s' l, play E d sched (blank, map starts ps) = Some (s', l) /\ racing l.
Proof.
  exists env0, two, both_make, [look_ab; look_ab]. eexists _, _. split; [reflexivity|].
  exists 0%nat, 1%nat. eexists _, _, (PField 0), true, true. repeat (split; [first [discriminate|reflexivity]|]). now left.
Qed.
Print Assumptions C68_race_refuted.

(** What holds in every interleaving: a child that is found is one that fits, nothing is found
    only if no member has exactly that name, and a case-sensitive lookup is right. *)
Theorem C68_partial : forall E d s ps sched s' l, fresh s -> play E d sched (s, map starts ps) = Some (s', l) ->
  Forall (fun t => Forall (fun a =>
    (forall c, snd a = Some c -> fits E d a c) /\
    (forall o k cl, a = (o, k, cl, None) -> ~ In k (map fst (members_of d o))) /\
    (caseless_answer a = false -> right E d a)) (t_log t)) l.
Proof. exact reading_sound. Qed.
Print Assumptions C68_partial.

(** Readers that look caselessly only into objects whose index is complete get right
    answers, write nothing and do not race. *)
Theorem C68_built : forall E d s ps (C : nat -> Prop) sched s' l, (forall o, C o -> built E d s o) -> Forall (looks_within C) ps ->
  play E d sched (s, map starts ps) = Some (s', l) ->
  s' = s /\ Forall (fun t => Forall (right E d) (t_log t)) l /\ ~ racing l.
Proof. exact reading_built. Qed.
Print Assumptions C68_built.

(** A reader alone gets right answers, and leaves a complete index wherever it has looked
    caselessly for a name that is not there. *)
Theorem C68_alone : forall E d s p sched s' l, fresh s -> play E d sched (s, [starts p]) = Some (s', l) ->
  exists t, l = [t] /\ Forall (right E d) (t_log t) /\
  forall o k r, In (o, k, true, r) (t_log t) -> ~ In k (map fst (members_of d o)) -> built E d s' o.
Proof. exact reading_alone. Qed.
Print Assumptions C68_alone.

(** So it suffices that one reader has done so before the others start. *)
Theorem C68_warmed : forall E d s p sched s1 t ps sched2 s2 l, fresh s -> play E d sched (s, [starts p]) = Some (s1, [t]) ->
  Forall (looks_within (warmed d t)) ps -> play E d sched2 (s1, map starts ps) = Some (s2, l) ->
  Forall (right E d) (t_log t) /\ s2 = s1 /\ Forall (fun u => Forall (right E d) (t_log u)) l /\ ~ racing l.
Proof. exact reading_warmed. Qed.
Print Assumptions C68_warmed.

(** What a step touches: it changes nothing else, and depends on nothing else. *)
Theorem C68_writes : forall E d n s t s' t' p, step E d n s t = Some (s', t') -> ~ same_at s s' p -> touches t = Some (p, true).
Proof. exact step_writes. Qed.
Print Assumptions C68_writes.

Theorem C68_reads : forall E d n s s2 t, as_many s s2 -> (forall p w, touches t = Some (p, w) -> same_at s s2 p) ->
  match step E d n s t, step E d n s2 t with
  | Some (s', t'), Some (s2', t2') => t' = t2' /\ (forall p, touches t = Some (p, true) -> same_at s' s2' p) /\ as_many s' s2'
  | None, None => True
  | _, _ => False
  end.
Proof. exact step_reads. Qed.
Print Assumptions C68_reads.

(** One reader warms two objects; two others then read at the same time. *)
Example C68_instance : exists s1 t l, fresh blank /\ play env0 nested (run 0 35) (blank, [starts warm]) = Some (s1, [t]) /\
  found t = [Some 3%nat; Some 1%nat] /\ Forall (looks_within (warmed nested t)) [later1; later2] /\
  play env0 nested together (s1, map starts [later1; later2]) = Some l /\
  map found (snd l) = [[Some 3%nat; Some 2%nat]; [Some 1%nat; None]].
Proof.
  exists (fst warm_end), (hd (starts Done) (snd warm_end)), later_end. split; [intros o; reflexivity|]. split; [exact (proj1 warm_plays)|]. split; [reflexivity|]. split; [|exact later_plays].
  assert (H0 : warmed nested (hd (starts Done) (snd warm_end)) 0).
  { exists (bs "a"), (Some 1%nat). split; [right; now left|intros [G|[G|[]]]; discriminate G]. }
  assert (H1 : warmed nested (hd (starts Done) (snd warm_end)) 1).
  { exists (bs "c"), (Some 3%nat). split; [now left|intros [G|[]]; discriminate G]. }
  constructor; [|constructor; [|constructor]]; (split; [auto|]); intros r; (split; [intros; first [discriminate|auto]|]); intros r'; exact I.
Qed.
