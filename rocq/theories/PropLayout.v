(** C32 with members left out (OptOmitNull). *)
From Verif Require Import Base Float64 Value Opt Marshal SpecJson SpecLax SpecValue SpecText SpecOut SpecOpts SpecLayout LayoutProof ExampleWorld.

(** The indented output and the compact output are two renderings ([grender], SpecLayout.v) of one tree of
    texts, whatever the options. *)
Theorem C32_layout_always : forall (E : Env) (W : World) (o : opt) (v : V) (b : bytes),
  o_indent o = true -> json_typed v -> marshal_opt E W o v = Ok b ->
  exists t, b = grender (Some (o_prefix o, o_indent_str o)) 0 t /\
            marshal_opt E W (no_indent o) v = Ok (grender None 0 t).
Proof. exact indent_glayout. Qed.
Print Assumptions C32_layout_always.

(** Deleting the white space outside strings gives the compact output, whatever the options. *)
Theorem C32_squeeze_always : forall (E : Env) (W : World) (o : opt) (v : V) (b : bytes),
  opt_ws o -> json_typed v -> plain_env E ->
  all_text (Forall is_byte) (fun _ src => Forall number_byte src) v -> Forall (Forall is_byte) (opt_strings o) ->
  marshal_opt E W o v = Ok b -> marshal_opt E W (no_indent o) v = Ok (squeeze false b).
Proof. exact indent_gsqueeze. Qed.
Print Assumptions C32_squeeze_always.

(** An object whose members are all left out is shown as {}, but on two lines. *)
Example C32_omitted_instance : forall E,
  marshal_opt E world1 (combine_options opt0 [OIndent [] (bs "  "); OOmitNull true])
    (VArr [VObj 1 [(bs "a", (1, VNull))] None; VObj 0 [] None]) = Ok (bs "[" ++ [10] ++ bs "  {" ++ [10] ++ bs "  }," ++ [10] ++ bs "  {}" ++ [10] ++ bs "]") /\
  marshal_opt E world1 (combine_options opt0 [OOmitNull true])
    (VArr [VObj 1 [(bs "a", (1, VNull))] None; VObj 0 [] None]) = Ok (bs "[{},{}]").
Proof. intros E. split; vm_compute; reflexivity. Qed.
