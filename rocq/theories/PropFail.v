(** C03 for a parse that fails, and C84: the caller's bytes after a failed UnmarshalNoCopy. *)
From Verif Require Import Base Float64 Value Scan Unmarshal SpecJson SpecLax SpecParseErrors ExampleWorld NoCopy FailProof.

(** When the parse fails the buffer has kept its length, and every key, string and number text handed out up
    to then still holds the bytes it was handed out with. *)
Theorem C03_failed : forall (E : Env) (b : bytes) (e : err) (s : pst),
  run_unmarshal E b = PErr e s ->
  List.length (p_buf s) = List.length b /\
  forall i j c, In (i, j, c) (p_log s) ->
    (i <= j <= List.length b)%nat /\ firstn (j - i) (skipn i (p_buf s)) = c.
Proof. exact failed_slices. Qed.
Print Assumptions C03_failed.

(** A byte changes only inside a slice handed out, at or behind a backslash of it, or in the string the parse
    stopped in: behind its opening quote, at or behind a backslash, where nothing was handed out. *)
Theorem C84_buffer : forall (E : Env) (b : bytes) (e : err),
  unmarshal_no_copy E b = Err e ->
  exists s, (b <> [] -> run_unmarshal E b = PErr e s /\ p_buf s = no_copy_left E b) /\
  List.length (no_copy_left E b) = List.length b /\
  forall p, nth_error (no_copy_left E b) p <> nth_error b p ->
    (exists i j c q, In (i, j, c) (p_log s) /\ (i <= q <= p)%nat /\ (p < j)%nat /\ nth_error b q = Some 92) \/
    (exists i q, nth_error b i = Some 34 /\ (i < q <= p)%nat /\ nth_error b q = Some 92 /\
       forall i' j' c', In (i', j', c') (p_log s) -> (j' <= i)%nat).
Proof. exact failed_buffer. Qed.
Print Assumptions C84_buffer.

(** What exactly is left: the parse came to some place [i].  In front of it the slices handed out hold their
    texts (C03_failed) and the other bytes are the old ones.  Behind it all bytes are the old ones, unless a
    string begins there and fails (C72): then its good beginning [t] is replaced by the text [u] it stands for
    and the bytes behind [u] are the old ones. *)
Theorem C84_exact : forall (E : Env) (b : bytes) (e : err), Forall is_byte b -> b <> [] ->
  unmarshal_no_copy E b = Err e ->
  exists s i, run_unmarshal E b = PErr e s /\ p_buf s = no_copy_left E b /\
    (forall i' j' c', In (i', j', c') (p_log s) -> (j' <= i)%nat) /\
    (forall p, (p < i)%nat -> nth_error (no_copy_left E b) p <> nth_error b p ->
       exists i' j' c', In (i', j', c') (p_log s) /\ (i' <= p < j')%nat) /\
    (skipn i (no_copy_left E b) = skipn i b \/
     exists t u r, skipn i b = 34 :: t ++ r /\ lstr t u /\ char_fails r e /\
       skipn i (no_copy_left E b) = 34 :: u ++ skipn (List.length u) (t ++ r)).
Proof. exact failed_exact. Qed.
Print Assumptions C84_exact.

(** Without a backslash nothing changes ... *)
Theorem C84_clean : forall (E : Env) (b : bytes) (e : err),
  unmarshal_no_copy E b = Err e -> ~ In 92 b -> no_copy_left E b = b.
Proof. exact failed_clean. Qed.
Print Assumptions C84_clean.

(** ... so the second call fails as the first did. *)
Theorem C84_again_partial : forall (E : Env) (b : bytes) (e : err),
  unmarshal_no_copy E b = Err e -> ~ In 92 b -> unmarshal_no_copy E (no_copy_left E b) = Err e.
Proof. exact failed_again. Qed.
Print Assumptions C84_again_partial.

(** With one it may not: a string that is not closed is rejected, and what the failed call leaves in the buffer
    is a document. *)
Theorem C84_again_refuted : exists b e l buf,
  unmarshal_no_copy env0 b = Err e /\
  unmarshal_no_copy env0 (no_copy_left env0 b) = Ok (l, buf) /\ view buf l = VStr (bs "a").
Proof.
  exists (bs """a\"" "). do 3 eexists. repeat split; vm_compute; reflexivity.
Qed.
Print Assumptions C84_again_refuted.

Example C84_instance :
  unmarshal_no_copy env0 (bs "[""\u0041"",12,""\n\x""]") = Err EOther /\
  no_copy_left env0 (bs "[""\u0041"",12,""\n\x""]") = bs "[""Au0041"",12,""" ++ [10] ++ bs "n\x""]".
Proof. split; vm_compute; reflexivity. Qed.

Example C03_failed_instance : exists e s,
  run_unmarshal env0 (bs "[""\u0041"",12,""\n\x""]") = PErr e s /\
  p_log s = [(10%nat, 12%nat, bs "12"); (2%nat, 3%nat, bs "A")].
Proof. do 2 eexists. split; vm_compute; reflexivity. Qed.
