(** C69: concrete texts. *)
From Verif Require Import Base Float64 Value Scan Unmarshal Access Opt Marshal ExampleWorld NoCopy SpecNoCopy.

(** A document with one escape. *)
Definition nc_text := bs "{""ab"":[1,""x\""y"",true],""k"":-2}".
Definition nc_loc : loc := Eval vm_compute in match unmarshal_no_copy env0 nc_text with Ok (l, _) => l | _ => LNull end.
Definition nc_buf : bytes := Eval vm_compute in match unmarshal_no_copy env0 nc_text with Ok (_, b) => b | _ => [] end.

Lemma nc_parsed : unmarshal_no_copy env0 nc_text = Ok (nc_loc, nc_buf).
Proof. vm_compute. reflexivity. Qed.

Lemma nc_instance :
  unmarshal_no_copy env0 nc_text = Ok (nc_loc, nc_buf) /\
  windows nc_loc = [(2, 4); (7, 8); (10, 13); (23, 24); (26, 28)]%nat /\
  map (cut nc_buf) (windows nc_loc) = [bs "ab"; bs "1"; bs "x""y"; bs "k"; bs "-2"] /\
  nc_buf = bs "{""ab"":[1,""x""yy"",true],""k"":-2}" /\
  cut (upd nc_buf 11 35) (10, 13)%nat = bs "x#y".
Proof. vm_compute. repeat split. Qed.

Lemma nc_again_refuted :
  unmarshal_no_copy env0 (bs """\""""") = Ok (LStr (1, 2)%nat, bs """""""""") /\
  unmarshal_no_copy env0 (bs """""""""") = Err ErrRawBytesUnrecognized.
Proof. vm_compute. split; reflexivity. Qed.

Lemma nc_other_refuted :
  exists l buf l' buf',
  unmarshal_no_copy env0 (bs "[""\u0041""]") = Ok (l, buf) /\ unmarshal_no_copy env0 buf = Ok (l', buf') /\
  view buf l = VArr [VStr (bs "A")] /\ view buf' l' = VArr [VStr (bs "Au0041")].
Proof. do 4 eexists. repeat split; vm_compute; reflexivity. Qed.

Lemma nc_number_refuted :
  exists b l buf,
  unmarshal_no_copy env0 b = Ok (l, buf) /\
  api_int64 env0 (view buf l) = Ok 1 /\ marshal env0 world1 opt0 [] (view buf l) = Ok (bs "1") /\
  (let v := view (upd buf 0 50) l in
   api_int64 env0 v = Ok 1 /\ marshal env0 world1 opt0 [] v = Ok (bs "2")) /\
  (let v := view (upd buf 0 120) l in
   api_int64 env0 v = Ok 1 /\ marshal env0 world1 opt0 [] v = Ok (bs "x") /\
   unmarshal env0 (bs "x") = Ok (VNotExist, Some ErrRawBytesUnrecognized)).
Proof. exists (bs "1"). do 2 eexists. repeat split; vm_compute; reflexivity. Qed.

Lemma nc_keys_refuted :
  exists b l buf p c i kvs x,
  unmarshal_no_copy env0 b = Ok (l, buf) /\
  view (upd buf p c) l = VObj i kvs x /\ akeys kvs = [bs "a"; bs "a"] /\
  marshal env0 world1 opt0 [] (view (upd buf p c) l) = Ok (bs "{""a"":1,""a"":2}").
Proof.
  exists (bs "{""a"":1,""b"":2}"). do 2 eexists. exists 8%nat, 97. do 3 eexists.
  repeat split; vm_compute; reflexivity.
Qed.

(** A name read twice: the later key and value are kept. *)
Lemma nc_twice : exists l buf,
  unmarshal_no_copy env0 (bs "{""a"":1,""a"":2}") = Ok (l, buf) /\ windows l = [(8, 9); (11, 12)]%nat.
Proof. do 2 eexists. split; vm_compute; reflexivity. Qed.
