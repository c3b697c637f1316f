(** C31 and C83 with OptOmitNull.  [kept_by o v] is what the options leave of the value: with OptOmitNull the value
    without its null members. *)
From Verif Require Import Base Utf8 Float64 Value Scan Unmarshal Pure Opt Marshal Compare SpecJson SpecValue SpecLax SpecText SpecOrder SpecOpts SpecPath SpecLaws SpecApart SpecOmit SpecOut
  Utf8Proof EscapeProof MarshalProof OmitMoreProof ExampleWorld.

(** C83: two values that have a text in common, under whatever options, show the same but for the members left
    out. *)
Theorem C83_omit_apart : forall (E : Env) (W W' : World) (o o' : opt) v w b,
  opt_ws o -> opt_ws o' -> json_typed v -> json_typed w ->
  all_text (Forall is_byte) (fun _ src => lax_num src) v -> all_text (Forall is_byte) (fun _ src => lax_num src) w ->
  marshal_opt E W o v = Ok b -> marshal_opt E W' o' w = Ok b -> same_shown (kept_by o v) (kept_by o' w).
Proof. exact omit_apart. Qed.
Print Assumptions C83_omit_apart.

(** Parsed JSON: they are the same document, and Equal, but for the members left out. *)
Theorem C83_omit_equal : forall (E : Env) (W W' : World) (o o' : opt) b1 j1 b2 j2 v w b,
  Forall is_byte b1 -> Forall is_byte b2 -> json_doc b1 j1 -> unmarshal E b1 = Ok (v, None) -> json_doc b2 j2 -> unmarshal E b2 = Ok (w, None) ->
  opt_ws o -> opt_ws o' ->
  marshal_opt E W o v = Ok b -> marshal_opt E W' o' w = Ok b ->
  same_doc (kept_by o v) (kept_by o' w) /\ forall X path, equal X path (kept_by o v) (kept_by o' w) = true.
Proof. exact omit_equal. Qed.
Print Assumptions C83_omit_equal.

(** C31 with a policy for NaN and for Inf, and with or without OptOmitNull: the output is JSON, and numbers without
    text are shown as configured; one shown as null is not left out.  Missing, with OptOmitNull: objects with a null
    and two or more other members (there the output may not be JSON at all, C30). *)
Theorem C31_policy_omit_partial : forall (E : Env) (W : World) (o : opt) (v : V),
  json_env E -> policy_set o -> Forall str_ok (opt_strings o) -> opt_ws o -> json_typed v ->
  all_text str_ok (fun n src => rfc_lit src \/ (src = [] /\ ~ finite_float (n_f64 n))) v -> all_objs (omit_guard (o_omit_null o)) v ->
  exists b j, marshal_opt E W o v = Ok b /\ json_doc b j /\ shows (num_policy E o) false any_order (kept_by o v) j.
Proof. exact policy_omit. Qed.
Print Assumptions C31_policy_omit_partial.

Definition read (b : bytes) : V := match unmarshal env0 b with Ok (v, _) => v | _ => VNil end.
Definition leaving : opt := combine_options opt0 [OOmitNull true; OSetSeq; ONaNNull; OInfNull].
(** A text in common, the members left out differ. *)
Example C83_omit : marshal_opt env0 world1 leaving (read (bs "{""a"":[null,1],""n"":null}")) = Ok (bs "{""a"":[null,1]}") /\
  marshal_opt env0 world1 leaving (read (bs "{""m"":null,""a"":[null,1]}")) = Ok (bs "{""a"":[null,1]}") /\
  same_shown (kept_by leaving (read (bs "{""a"":[null,1],""n"":null}"))) (kept_by leaving (read (bs "{""m"":null,""a"":[null,1]}"))).
Proof.
  split; [vm_compute; reflexivity|]. split; [vm_compute; reflexivity|]. vm_compute. eapply SS_obj; [reflexivity|reflexivity|].
  constructor; [|constructor]. split; [exists (fix_utf8 [97]); split; apply fix_fixed; constructor; [unfold is_byte; lia|constructor| |constructor]; unfold is_byte; lia|]. cbn. constructor. repeat constructor.
Qed.
(** A NaN that is written as null stays, a null goes. *)
Example C31_omit : marshal_opt env0 world1 leaving
    (VObj 2 [(bs "a", (1, VNum (Num false false 0 0 S754_nan) [])); (bs "b", (2, VNull))] None) = Ok (bs "{""a"":null}") /\
  policy_set leaving /\ opt_ws leaving.
Proof. split; [vm_compute; reflexivity|]. repeat split; cbn; try lia; constructor. Qed.
