(** C69: a document from UnmarshalNoCopy is a view of the caller's bytes. *)
From Verif Require Import Base Float64 Value Scan Unmarshal Access Opt Marshal ExampleWorld
  NoCopy SpecNoCopy NoCopyClaims ExampleNoCopy.

(** The document shows what Unmarshal gives, read through windows onto the buffer. *)
Theorem C69_view : forall (E : Env) (b : bytes),
  (exists v l buf, unmarshal_nocopy E b = Ok (v, None) /\ unmarshal E b = Ok (v, None) /\
     unmarshal_no_copy E b = Ok (l, buf) /\ List.length buf = List.length b /\ view buf l = v) \/
  (exists v e, unmarshal_nocopy E b = Ok (v, Some e) /\ unmarshal_no_copy E b = Err e).
Proof. exact no_copy_view. Qed.
Print Assumptions C69_view.

(** The windows lie inside the caller's bytes, and no two share a byte. *)
Theorem C69_windows : forall (E : Env) (b : bytes) (l : loc) (buf : bytes),
  unmarshal_no_copy E b = Ok (l, buf) ->
  Forall (inside 0 (List.length b)) (windows l) /\ ForallOrdPairs apart (windows l).
Proof. exact no_copy_windows. Qed.
Print Assumptions C69_windows.

(** A byte written later shows at its place in the one text whose window holds it, and in
    no other. *)
Theorem C69_write : forall (E : Env) (b : bytes) (l : loc) (buf : bytes) (p : nat) (c : Z),
  unmarshal_no_copy E b = Ok (l, buf) -> (p < List.length b)%nat ->
  (forall k w, nth_error (windows l) k = Some w ->
     (shows w p /\ cut (upd buf p c) w = upd (cut buf w) (p - fst w) c) \/
     (~ shows w p /\ cut (upd buf p c) w = cut buf w)) /\
  (forall k k' w w', nth_error (windows l) k = Some w -> nth_error (windows l) k' = Some w' ->
     shows w p -> shows w' p -> k = k').
Proof. exact no_copy_write. Qed.
Print Assumptions C69_write.

(** The document changes exactly when the byte is in a window and is another byte. *)
Theorem C69_shown : forall (E : Env) (b : bytes) (l : loc) (buf : bytes) (p : nat) (c : Z),
  unmarshal_no_copy E b = Ok (l, buf) -> (p < List.length b)%nat ->
  (view (upd buf p c) l <> view buf l <->
   (exists w, In w (windows l) /\ shows w p) /\ nth_error buf p <> Some c).
Proof. exact no_copy_shown. Qed.
Print Assumptions C69_shown.

(** Whatever the buffer is made to hold: the texts seen through the windows decide ... *)
Theorem C69_same : forall (b b' : bytes) (l : loc),
  view b' l = view b l <-> (forall w, In w (windows l) -> cut b' w = cut b w).
Proof. exact view_same. Qed.
Print Assumptions C69_same.

(** ... and nothing but texts changes: kinds, sizes, order, numeric and truth values stay. *)
Theorem C69_rest : forall (b b' : bytes) (l : loc), same_but_texts (view b l) (view b' l).
Proof. exact view_like. Qed.
Print Assumptions C69_rest.

(** The parser changes a byte only inside a slice it hands out (C03), at or behind a
    backslash of that slice. *)
Theorem C69_buffer : forall (E : Env) (b : bytes) (l : loc) (buf : bytes),
  unmarshal_no_copy E b = Ok (l, buf) ->
  exists s, run_unmarshal E b = POk (view buf l) s /\ p_buf s = buf /\
  forall p, nth_error buf p <> nth_error b p ->
    exists i j c q, In (i, j, c) (p_log s) /\ (i <= q <= p)%nat /\ (p < j)%nat /\ nth_error b q = Some 92.
Proof. exact no_copy_buffer. Qed.
Print Assumptions C69_buffer.

(** A text without a backslash is left as it was. *)
Theorem C69_clean : forall (E : Env) (b : bytes) (l : loc) (buf : bytes),
  unmarshal_no_copy E b = Ok (l, buf) -> ~ In 92 b -> buf = b.
Proof. exact no_copy_clean. Qed.
Print Assumptions C69_clean.

(** A text with one is not: the bytes of a quoted quote are no document any more ... *)
Theorem C69_again_refuted : exists b l buf,
  unmarshal_no_copy env0 b = Ok (l, buf) /\ unmarshal_no_copy env0 buf = Err ErrRawBytesUnrecognized.
Proof. exact (ex_intro _ _ (ex_intro _ _ (ex_intro _ _ nc_again_refuted))). Qed.
Print Assumptions C69_again_refuted.

(** ... and those of an escaped letter are another one. *)
Theorem C69_other_refuted : exists l buf l' buf',
  unmarshal_no_copy env0 (bs "[""\u0041""]") = Ok (l, buf) /\ unmarshal_no_copy env0 buf = Ok (l', buf') /\
  view buf l = VArr [VStr (bs "A")] /\ view buf' l' = VArr [VStr (bs "Au0041")].
Proof. exact nc_other_refuted. Qed.
Print Assumptions C69_other_refuted.

(** A number written over keeps its value, but is marshalled as the new bytes: as another
    number, or as no number at all. *)
Theorem C69_number_refuted : exists b l buf,
  unmarshal_no_copy env0 b = Ok (l, buf) /\
  api_int64 env0 (view buf l) = Ok 1 /\ marshal env0 world1 opt0 [] (view buf l) = Ok (bs "1") /\
  (let v := view (upd buf 0 50) l in
   api_int64 env0 v = Ok 1 /\ marshal env0 world1 opt0 [] v = Ok (bs "2")) /\
  (let v := view (upd buf 0 120) l in
   api_int64 env0 v = Ok 1 /\ marshal env0 world1 opt0 [] v = Ok (bs "x") /\
   unmarshal env0 (bs "x") = Ok (VNotExist, Some ErrRawBytesUnrecognized)).
Proof. exact nc_number_refuted. Qed.
Print Assumptions C69_number_refuted.

(** A key written over can be a name twice. *)
Theorem C69_keys_refuted : exists b l buf p c i kvs x,
  unmarshal_no_copy env0 b = Ok (l, buf) /\
  view (upd buf p c) l = VObj i kvs x /\ akeys kvs = [bs "a"; bs "a"] /\
  marshal env0 world1 opt0 [] (view (upd buf p c) l) = Ok (bs "{""a"":1,""a"":2}").
Proof. exact nc_keys_refuted. Qed.
Print Assumptions C69_keys_refuted.

Example C69_instance :
  unmarshal_no_copy env0 nc_text = Ok (nc_loc, nc_buf) /\
  windows nc_loc = [(2, 4); (7, 8); (10, 13); (23, 24); (26, 28)]%nat /\
  map (cut nc_buf) (windows nc_loc) = [bs "ab"; bs "1"; bs "x""y"; bs "k"; bs "-2"] /\
  nc_buf = bs "{""ab"":[1,""x""yy"",true],""k"":-2}" /\
  cut (upd nc_buf 11 35) (10, 13)%nat = bs "x#y".
Proof. exact nc_instance. Qed.

Example C69_twice : exists l buf,
  unmarshal_no_copy env0 (bs "{""a"":1,""a"":2}") = Ok (l, buf) /\ windows l = [(8, 9); (11, 12)]%nat.
Proof. exact nc_twice. Qed.
