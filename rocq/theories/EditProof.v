(** Proofs about Set, Insert, Append and Delete. *)
From Verif Require Import Base Utf8 Float64 Value Scan Opt Marshal ListLemmas ValueLemmas Access Path Edit SpecPath PathProof.

(** ** Fuel *)

Lemma set_f_fuel E c : forall n m v p o,
  (psum (p :: o) < n)%nat -> (psum (p :: o) < m)%nat -> set_f E n v c p o = set_f E m v c p o.
Proof.
  induction n as [|n IH]; intros m v p o Hn Hm; [lia|]. destruct m as [|m]; [lia|].
  cbn [set_f]. destruct (peel p o) as [[q r]|] eqn:Ep; [|reflexivity].
  destruct (peel_spec _ _ _ _ _ (Nat.le_refl _) Ep) as (_ & S).
  destruct (uninitialized v); [reflexivity|]. destruct (uninitialized c); [reflexivity|].
  destruct r as [|q' r']; [reflexivity|].
  assert (IH' : forall w, set_f E n w c q' r' = set_f E m w c q' r').
  { intros w. cbn [psum] in *. pose proof (psize_pos q). apply IH; cbn [psum]; lia. }
  destruct v as [ |s|nn src|i kvs lo|l|b| | | ]; try reflexivity.
  - destruct (any_to_string q) as [k|e| |]; try reflexivity.
    destruct (alookup k kvs) as [[id x]|]; [now rewrite IH'|].
    destruct (new_container q') as [w|e| |]; try reflexivity. now rewrite IH'.
  - destruct (any_to_int q) as [j|e| |]; try reflexivity.
    destruct (pos_read (List.length l) j) as [k|]; [now rewrite IH'|].
    destruct (new_container q') as [w|e| |]; try reflexivity. now rewrite IH'.
Qed.

Definition set_c E v c p o := set_f E (S (psum (p :: o))) v c p o.

Lemma set_c_one E v c p : plain p -> set_c E v c p [] =
  if uninitialized v then (v, Err ErrValueUninitialized)
  else if uninitialized c then (v, Err ErrValueUninitialized) else at_last_param E v c p.
Proof. intros P. unfold set_c. cbn [set_f]. now rewrite (peel_plain _ _ P). Qed.

Lemma set_c_more E v c p q r : plain p -> set_c E v c p (q :: r) =
  if uninitialized v then (v, Err ErrValueUninitialized)
  else if uninitialized c then (v, Err ErrValueUninitialized)
  else match v with
  | VObj i kvs lo =>
    match any_to_string p with
    | Ok k =>
      match alookup k kvs with
      | Some (id, child) =>
        let '(child', res) := set_c E child c q r in
        (VObj i (aset k (id, child') kvs) lo, res)
      | None =>
        match new_container q with
        | Ok child =>
          let '(child', res) := set_c E child c q r in
          match res with
          | Ok _ => match set_to_object E v k child' with
                    | Ok v' => (v', Ok c)
                    | Err e => (v, Err e) | Panic => (v, Panic) | Fuel => (v, Fuel)
                    end
          | e => (v, e)
          end
        | Err e => (v, Err e) | Panic => (v, Panic) | Fuel => (v, Fuel)
        end
      end
    | Err e => (v, Err e) | Panic => (v, Panic) | Fuel => (v, Fuel)
    end
  | VArr l =>
    match any_to_int p with
    | Ok pos =>
      match pos_read (List.length l) pos with
      | Some n =>
        let '(child', res) := set_c E (nth n l VNil) c q r in
        (VArr (set_nth n child' l), res)
      | None =>
        match new_container q with
        | Ok child =>
          let '(child', res) := set_c E child c q r in
          match res with
          | Ok _ => (VArr (l ++ [child']), Ok c)
          | e => (v, e)
          end
        | Err e => (v, Err e) | Panic => (v, Panic) | Fuel => (v, Fuel)
        end
      end
    | Err e => (v, Err e) | Panic => (v, Panic) | Fuel => (v, Fuel)
    end
  | _ => (v, Err EOther)
  end.
Proof.
  intros P. unfold set_c at 1. cbn [set_f]. rewrite (peel_plain _ _ P).
  assert (F : forall w, set_f E (psum (p :: q :: r)) w c q r = set_c E w c q r).
  { intros w. unfold set_c. apply set_f_fuel; [|lia]. cbn [psum]. pose proof (psize_pos p). lia. }
  destruct v as [ |s|nn src|i kvs lo|l|b| | | ]; try reflexivity.
  - cbn [uninitialized]. destruct (uninitialized c); [reflexivity|].
    destruct (any_to_string p) as [k|e| |]; try reflexivity.
    destruct (alookup k kvs) as [[id x]|]; [now rewrite F|].
    destruct (new_container q) as [w|e| |]; try reflexivity. now rewrite F.
  - cbn [uninitialized]. destruct (uninitialized c); [reflexivity|].
    destruct (any_to_int p) as [j|e| |]; try reflexivity.
    destruct (pos_read (List.length l) j) as [k|]; [now rewrite F|].
    destruct (new_container q) as [w|e| |]; try reflexivity. now rewrite F.
Qed.

Lemma set_c_peel E v c p o q r : peel p o = Some (q, r) -> set_c E v c p o = set_c E v c q r.
Proof.
  intros Ep. destruct (peel_spec _ _ _ _ _ (Nat.le_refl _) Ep) as (P & S).
  unfold set_c. rewrite <- (set_f_fuel E c (Datatypes.S (psum (p :: o))) (Datatypes.S (psum (q :: r))) v q r) by lia.
  cbn [set_f]. rewrite Ep, (peel_plain _ _ P). reflexivity.
Qed.
Lemma set_c_multi E v c p o : peel p o = None -> set_c E v c p o = (v, Err ErrMultipleParam).
Proof. intros Ep. unfold set_c. cbn [set_f]. now rewrite Ep. Qed.

(** Set ends normally or with an error, never in a panic. *)

Lemma at_last_ends E v c p : ends (snd (at_last_param E v c p)).
Proof.
  unfold at_last_param, set_at_index.
  destruct v as [ |s|nn src|i kvs lo|l|b| | | ]; try exact I.
  - destruct p; exact I.
  - destruct p; cbn [any_to_int]; try exact I;
      (destruct (Z.eqb _ _); [exact I|]; destruct pos_read; exact I).
Qed.
Lemma new_container_ends q : ends (new_container q).
Proof. unfold new_container. destruct q; cbn; try exact I; destruct (Z.eqb _ _); exact I. Qed.

Lemma set_f_ends E c : forall n v p o, (psum (p :: o) < n)%nat -> ends (snd (set_f E n v c p o)).
Proof.
  induction n as [|n IH]; intros v p o Hn; [lia|].
  cbn [set_f]. destruct (peel p o) as [[q r]|] eqn:Ep; [|exact I].
  destruct (peel_spec _ _ _ _ _ (Nat.le_refl _) Ep) as (_ & S).
  destruct (uninitialized v); [exact I|]. destruct (uninitialized c); [exact I|].
  destruct r as [|q' r']; [apply at_last_ends|].
  assert (IH' : forall w, ends (snd (set_f E n w c q' r'))).
  { intros w. cbn [psum] in *. pose proof (psize_pos q). apply IH; cbn [psum]; lia. }
  destruct v as [ |s|nn src|i kvs lo|l|b| | | ]; try exact I.
  - destruct q as [j|u|k|ps| |]; try exact I. cbn [any_to_string].
    destruct (alookup k kvs) as [[id x]|].
    + specialize (IH' x). destruct (set_f E n x c q' r') as [x' res]. exact IH'.
    + pose proof (new_container_ends q') as N. destruct (new_container q') as [w|e| |]; try exact I; try (now destruct N).
      specialize (IH' w). destruct (set_f E n w c q' r') as [x' [y|e| |]]; try exact I; exact IH'.
  - destruct (any_to_int q) as [j|e| |] eqn:Ej; try exact I; try (destruct q; discriminate).
    destruct (pos_read (List.length l) j) as [k|].
    + specialize (IH' (nth k l VNil)). destruct (set_f E n (nth k l VNil) c q' r') as [x' res]. exact IH'.
    + pose proof (new_container_ends q') as N. destruct (new_container q') as [w|e| |]; try exact I; try (now destruct N).
      specialize (IH' w). destruct (set_f E n w c q' r') as [x' [y|e| |]]; try exact I; exact IH'.
Qed.
Lemma set_at_ends E v x p o : ends (snd (set_at E v x p o)).
Proof. unfold set_at. destruct (snd x); [exact I|]. apply set_f_ends. lia. Qed.

(** ** A failing call leaves the document as it was *)

Lemma failed_ok {A} (a : A) : ~ failed (Ok a).
Proof. intros H. now apply (H a). Qed.

Lemma at_last_failed E v c p : failed (snd (at_last_param E v c p)) -> fst (at_last_param E v c p) = v.
Proof.
  unfold at_last_param, set_at_index.
  destruct v as [ |s|nn src|i kvs lo|l|b| | | ]; try reflexivity.
  - destruct p; try reflexivity. intros H. now apply failed_ok in H.
  - destruct (any_to_int p); try reflexivity. destruct (Z.eqb _ _); [intros H; now apply failed_ok in H|].
    destruct pos_read; [intros H; now apply failed_ok in H|reflexivity].
Qed.

Lemma nth_pos_read (l : list V) j k : pos_read (List.length l) j = Some k -> nth_error l k = Some (nth k l VNil).
Proof.
  intros H. destruct (pos_read_some _ _ _ H) as (a & x & b & -> & <- & _).
  rewrite nth_error_app_here. f_equal. clear H. induction a as [|y a IH]; [reflexivity|exact IH].
Qed.

Lemma set_f_failed E c : forall n v p o, failed (snd (set_f E n v c p o)) -> fst (set_f E n v c p o) = v.
Proof.
  induction n as [|n IH]; intros v p o; [reflexivity|].
  cbn [set_f]. destruct (peel p o) as [[q r]|] eqn:Ep; [|reflexivity].
  destruct (uninitialized v); [reflexivity|]. destruct (uninitialized c); [reflexivity|].
  destruct r as [|q' r']; [apply at_last_failed|].
  destruct v as [ |s|nn src|i kvs lo|l|b| | | ]; try reflexivity.
  - destruct (any_to_string q) as [k|e| |]; try reflexivity.
    destruct (alookup k kvs) as [[id x]|] eqn:El.
    + specialize (IH x q' r'). destruct (set_f E n x c q' r') as [x' res]. cbn [fst snd] in *.
      intros F. rewrite (IH F). now rewrite aset_id.
    + destruct (new_container q') as [w|e| |]; try reflexivity.
      destruct (set_f E n w c q' r') as [x' [y|e| |]]; try reflexivity.
      cbn [set_to_object fst snd]. intros H. now apply failed_ok in H.
  - destruct (any_to_int q) as [j|e| |]; try reflexivity.
    destruct (pos_read (List.length l) j) as [k|] eqn:Ek.
    + specialize (IH (nth k l VNil) q' r'). destruct (set_f E n (nth k l VNil) c q' r') as [x' res]. cbn [fst snd] in *.
      intros F. rewrite (IH F). rewrite set_nth_id; [reflexivity|]. exact (nth_pos_read l j k Ek).
    + destruct (new_container q') as [w|e| |]; try reflexivity.
      destruct (set_f E n w c q' r') as [x' [y|e| |]]; try reflexivity.
      cbn [fst snd]. intros H. now apply failed_ok in H.
Qed.
Lemma set_at_failed E v x p o : failed (snd (set_at E v x p o)) -> fst (set_at E v x p o) = v.
Proof. unfold set_at. destruct (snd x); [reflexivity|]. apply set_f_failed. Qed.

Lemma insert_last_failed af v c p : failed (snd (insert_last af v c p)) -> fst (insert_last af v c p) = v.
Proof.
  unfold insert_last. destruct v as [ |s|nn src|i kvs lo|l|b| | | ]; try reflexivity.
  destruct (any_to_int p); try reflexivity.
  destruct (if af then _ else _); [intros H; now apply failed_ok in H|reflexivity].
Qed.

Lemma insert_f_failed E W af c : forall n v p o, failed (snd (insert_f E W n af v c p o)) -> fst (insert_f E W n af v c p o) = v.
Proof.
  induction n as [|n IH]; intros v p o; [reflexivity|].
  cbn [insert_f]. destruct (peel p o) as [[q r]|]; [|reflexivity].
  destruct (is_nil v); [reflexivity|]. destruct (not_exist v); [reflexivity|].
  destruct r as [|q' r']; [apply insert_last_failed|].
  rewrite locate_pair. destruct (loc E W v q (removelast (q' :: r'))) as [hs|e| |]; try reflexivity.
  destruct (sub_at v hs) as [[ |s|nn src|i kvs lo|l|b| | | ]|] eqn:Es; try reflexivity.
  specialize (IH (VArr l) (last (q' :: r') PNil) []).
  destruct (insert_f E W n af (VArr l) c (last (q' :: r') PNil) []) as [ch res]. cbn [fst snd] in *.
  intros F. rewrite (IH F). now apply put_at_id.
Qed.
Lemma insert_before_failed E W v x p o : failed (snd (insert_before E W v x p o)) -> fst (insert_before E W v x p o) = v.
Proof. unfold insert_before. destruct (snd x); [reflexivity|]. apply insert_f_failed. Qed.
Lemma insert_after_failed E W v x p o : failed (snd (insert_after E W v x p o)) -> fst (insert_after E W v x p o) = v.
Proof. unfold insert_after. destruct (snd x); [reflexivity|]. apply insert_f_failed. Qed.

Lemma append_failed E W fr v x ps : failed (snd (append_at E W fr v x ps)) -> fst (append_at E W fr v x ps) = v.
Proof.
  unfold append_at. destruct (is_nil v); [reflexivity|]. destruct (not_exist v); [reflexivity|].
  destruct (joint_params ps) as [[|p r]|]; [| |reflexivity].
  - destruct v; try reflexivity. intros H. now apply failed_ok in H.
  - rewrite locate_pair. destruct (loc E W v p r) as [hs|e| |]; try reflexivity.
    + destruct (sub_at v hs) as [[ |s|nn src|i kvs lo|l|b| | | ]|] eqn:Es; try reflexivity.
      intros H. now apply failed_ok in H.
    + destruct e; try reflexivity.
      pose proof (set_at_failed E v (arg_v (VArr [fst x])) p r) as F.
      destruct (set_at E v (arg_v (VArr [fst x])) p r) as [v' [y|e| |]]; cbn [fst snd] in *;
        intros H; [now apply failed_ok in H|..]; apply F; intros a; discriminate.
Qed.

Lemma delete_here_failed E W v p : failed (snd (delete_here E W false v p)) -> fst (delete_here E W false v p) = v.
Proof.
  unfold delete_here. destruct v as [ |s|nn src|i kvs lo|l|b| | | ]; try reflexivity.
  - destruct (any_to_string p) as [k|e| |]; try reflexivity. unfold del_from_object.
    destruct (alookup k kvs); [intros H; now apply failed_ok in H|reflexivity].
  - destruct (any_to_int p) as [j|e| |]; try reflexivity.
    destruct (pos_read _ _); [intros H; now apply failed_ok in H|reflexivity].
Qed.
Lemma delete_f_failed E W : forall n v p o, failed (snd (delete_f E W n false v p o)) -> fst (delete_f E W n false v p o) = v.
Proof.
  induction n as [|n IH]; intros v p o; [reflexivity|].
  cbn [delete_f]. destruct (peel p o) as [[q [|q' r']]|]; [apply delete_here_failed| |reflexivity].
  rewrite locate_pair. destruct (loc E W v q (removelast (q' :: r'))) as [hs|e| |]; try reflexivity.
  destruct (sub_at v hs) as [ch|] eqn:Es; [|reflexivity].
  specialize (IH ch (last (q' :: r') PNil) []).
  destruct (delete_f E W n false ch (last (q' :: r') PNil) []) as [ch' res]. cbn [fst snd] in *.
  intros F. rewrite (IH F). now apply put_at_id.
Qed.
Lemma delete_failed E W v p o : failed (snd (delete_at E W false v p o)) -> fst (delete_at E W false v p o) = v.
Proof. apply delete_f_failed. Qed.
