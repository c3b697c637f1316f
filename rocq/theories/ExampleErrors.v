(** C70 on one document, and where the classes do not say what one would think. *)
From Verif Require Import Base Float64 Value Opt Marshal Path SpecPath Edit SpecErrors ErrorsProof ExampleWorld.

(** An object {a: [null, {b: true}]} *)
Definition er_doc : V :=
  VObj 1 [(bs "a", (0, VArr [VNull; VObj 1 [(bs "b", (0, VBool true))] None]))] None.

Lemma er_instance : forall (E : Env) (W : World),
  let get_err ps := match ps with p :: r => snd (get E W false er_doc p r) | [] => Panic end in
  let set_err ps := match ps with p :: r => snd (set_at E er_doc (arg_v VNull) p r) | [] => Panic end in
  get_err [PStr (bs "z")] = Err ErrNotFound /\ get_err [PStr (bs "a"); PInt 2] = Err ErrOutOfRange /\
  get_err [PInt 0] = Err ErrParameterError /\ get_err [PStr (bs "a"); PStr (bs "b")] = Err EOther /\
  get_err [PStr (bs "a"); PNil] = Err ErrParameterError /\ get_err [PStr (bs "a"); PInt 0; PInt 0] = Err EOther /\
  get_err [PStr (bs "a"); PInt (-1); PStr (bs "c"); PNil] = Err ErrNotFound /\
  set_err [PStr (bs "a"); PInt 3] = Err ErrOutOfRange /\ set_err [PStr (bs "a"); PInt 2] = Ok VNull /\
  set_err [PStr (bs "z"); PInt 0; PInt 1] = Err ErrOutOfRange /\
  set_err [PStr (bs "a"); PInt 9; PStr (bs "n"); PNil; PInt 4] = Err EOther /\
  set_err [PStr (bs "a"); PInt 0; PStr (bs "n")] = Err EOther /\
  snd (insert_before E W er_doc (arg_v VNull) (PStr (bs "a")) []) = Err ErrNotArrayValue /\
  snd (insert_after E W er_doc (arg_v VNull) (PStr (bs "a")) [PInt 0; PInt 0]) = Err ErrTypeNotMatch /\
  snd (append_end E W er_doc (arg_v VNull) [PStr (bs "z"); PInt 2]) = Err ErrOutOfRange /\
  snd (delete_at E W false er_doc (PStr (bs "a")) [PInt (-3)]) = Err ErrOutOfRange.
Proof. intros E W. repeat split. Qed.

Lemma er_kind_refuted : exists l p, no_index p /\ p <> PNil /\
  (forall E W, snd (get E W false (VArr l) p []) = Err EOther) /\
  (forall E c, c <> VNil -> c <> VNotExist -> snd (set_at E (VArr l) (arg_v c) p []) = Err EOther) /\
  (forall E W, snd (get E W false (VArr l) PNil []) = Err ErrParameterError).
Proof.
  exists [], (PStr (bs "0")). split; [reflexivity|]. split; [discriminate|]. split; [reflexivity|].
  split; [|reflexivity]. intros E c H1 H2. destruct c; try reflexivity; congruence.
Qed.

Lemma er_new_refuted : exists v p q, maps_ok v /\
  (forall E c, c <> VNil -> c <> VNotExist -> snd (set_at E v (arg_v c) p [q]) = Err EOther) /\
  (forall E c w, c <> VNil -> c <> VNotExist -> (w = VArr [] \/ w = VObj 0 [] None) -> snd (set_at E w (arg_v c) q []) = Err ErrParameterError).
Proof.
  exists (VObj 0 [] None), (PStr (bs "a")), PNil. split; [cbn; split; [constructor|exact I]|]. split.
  - intros E c H1 H2. destruct c; try reflexivity; congruence.
  - intros E c w H1 H2 [-> | ->]; destruct c; try reflexivity; congruence.
Qed.

Lemma er_target_refuted : exists d k, (forall l, d <> VArr l) /\ forall E W c,
  snd (append_end E W d (arg_v c) []) = Err ErrNotArrayValue /\
  snd (append_end E W (VObj 1 [(k, (0, d))] None) (arg_v c) [PStr k]) = Err ErrTypeNotMatch /\
  snd (insert_before E W d (arg_v c) (PInt 0) []) = Err ErrNotArrayValue /\
  snd (insert_before E W (VObj 1 [(k, (0, d))] None) (arg_v c) (PStr k) [PInt 0]) = Err ErrTypeNotMatch.
Proof. exists (VObj 0 [] None), (bs "k"). split; [discriminate|]. repeat split. Qed.

Lemma er_range_refuted : exists l i, ~ within i l /\ i <> Z.of_nat (List.length l) /\
  (forall E c, c <> VNil -> c <> VNotExist -> set_at E (VArr l) (arg_v c) (PInt i) [] = (VArr l, Err ErrOutOfRange)) /\
  (forall E c k, c <> VNil -> c <> VNotExist -> snd (set_at E (VArr l) (arg_v c) (PInt i) [PStr k]) = Ok c).
Proof.
  exists [], 7. split; [unfold within; cbn; lia|]. split; [discriminate|].
  split; intros E c; [|intros k]; intros H1 H2; (destruct c; try reflexivity; congruence).
Qed.
