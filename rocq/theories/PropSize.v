(** C74: how long the output of Marshal gets. *)
From Verif Require Import Base Float64 Value Opt Scan Unmarshal Marshal SpecJson SpecSize SizeProof ExampleWorld.

(** Without indentation: less than six times the content. *)
Theorem C74_compact : forall (E : Env) (W : World) (o : opt) (v : V) (b : bytes),
  spelled v -> o_indent o = false -> marshal_opt E W o v = Ok b -> (List.length b < 6 * mass v)%nat.
Proof. exact compact_bound. Qed.
Print Assumptions C74_compact.

(** What Unmarshal returns has no more content than the text has bytes. *)
Theorem C74_parsed : forall (E : Env) (b : bytes) (v : V), Forall is_byte b ->
  unmarshal E b = Ok (v, None) -> spelled v /\ (mass v <= List.length b)%nat.
Proof. exact parsed_mass. Qed.
Print Assumptions C74_parsed.

(** So a text that is read and written again grows by less than a factor of six. *)
Theorem C74_rewrite : forall (E : Env) (W : World) (o : opt) (b : bytes) (v : V) (out : bytes), Forall is_byte b ->
  unmarshal E b = Ok (v, None) -> marshal_opt E W o v = Ok out -> o_indent o = false ->
  (List.length out < 6 * List.length b)%nat.
Proof. exact rewrite_bound. Qed.
Print Assumptions C74_rewrite.

(** No smaller factor will do, with the default options and for documents of RFC 8259. *)
Theorem C74_six : forall (E : Env) (W : World) (n : nat), exists b j v out,
  json_doc b j /\ List.length b = (n + 2)%nat /\ unmarshal E b = Ok (v, None) /\
  marshal_opt E W opt0 v = Ok out /\ List.length out = (6 * n + 2)%nat.
Proof. exact six_met. Qed.
Print Assumptions C74_six.

(** With indentation: one line for each unit of content at most, each indented no deeper than
    the value is nested. *)
Theorem C74_indent : forall (E : Env) (W : World) (o : opt) (v : V) (b : bytes),
  spelled v -> marshal_opt E W o v = Ok b ->
  (List.length b < mass v * (8 + List.length (o_prefix o) + stories v * List.length (o_indent_str o)))%nat.
Proof. exact indent_bound. Qed.
Print Assumptions C74_indent.

Theorem C74_rewrite_indent : forall (E : Env) (W : World) (o : opt) (b : bytes) (v : V) (out : bytes), Forall is_byte b ->
  unmarshal E b = Ok (v, None) -> marshal_opt E W o v = Ok out ->
  (List.length out < List.length b * (8 + List.length (o_prefix o) + List.length b * List.length (o_indent_str o)))%nat.
Proof. exact rewrite_indent_bound. Qed.
Print Assumptions C74_rewrite_indent.

(** The square is real: [2 (n + 1)] bytes give at least [n (n + 1) / 2] indentation strings. *)
Theorem C74_quadratic : forall (E : Env) (W : World) (o : opt) (n : nat), o_indent o = true -> exists b j v out,
  json_doc b j /\ List.length b = (2 * S n)%nat /\ unmarshal E b = Ok (v, None) /\
  marshal_opt E W o v = Ok out /\ (n * (n + 1) * List.length (o_indent_str o) <= 2 * List.length out)%nat.
Proof. exact indent_quadratic. Qed.
Print Assumptions C74_quadratic.

(** "The output is at most a constant factor longer than the input": false with indentation. *)
Theorem C74_linear_refuted : forall (E : Env) (W : World) (o : opt) (c : nat), o_indent o = true -> o_indent_str o <> [] ->
  exists b j v out, json_doc b j /\ unmarshal E b = Ok (v, None) /\ marshal_opt E W o v = Ok out /\
  (c * List.length b < List.length out)%nat.
Proof. exact linear_refuted. Qed.
Print Assumptions C74_linear_refuted.

(** A value with content 24. *)
Definition small : V := VObj 2 [(bs "a", (1, VArr [VStr (bs "<"); VNull])); (bs "bc", (2, VBool true))] None.
Example C74_small : mass small = 24%nat /\ spelled small /\ stories small = 2%nat.
Proof. vm_compute. repeat split. Qed.
Example C74_small_out : match marshal_opt env0 world1 opt0 small with
  | Ok b => (List.length b = 31)%nat | _ => False end.
Proof. vm_compute. reflexivity. Qed.
Example C74_small_lines : match marshal_opt env0 world1 (combine_options opt0 [OIndent [] (bs "  ")]) small with
  | Ok b => (List.length b = 53)%nat | _ => False end.
Proof. vm_compute. reflexivity. Qed.
(** Thirteen bytes that become sixty-eight when read with the default options. *)
Example C74_lt : match unmarshal env0 (bs """<<<<<<<<<<<""") with
  | Ok (v, None) => match marshal_opt env0 world1 opt0 v with Ok b => (List.length b = 68)%nat | _ => False end
  | _ => False end.
Proof. vm_compute. reflexivity. Qed.
