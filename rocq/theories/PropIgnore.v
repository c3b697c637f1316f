(** C80: OptIgnoreOmitempty is Import of the same data with the omitempty options
    taken out of the tags. *)
From Verif Require Import Base Float64 Value Opt Marshal GoValue Import SpecImport SpecIgnore IgnoreProof ExampleWorld.

(** With the option, the omitempty options of the tags have no effect. *)
Theorem C80_no_effect : forall (E : Env) (W : World) (d : opt) (t : bytes -> bytes), takes_out t -> forall opts g,
  o_ignore_omitempty (combine_options d opts) = true -> import E W d opts (retag t g) = import E W d opts g.
Proof. exact ignore_tags. Qed.
Print Assumptions C80_no_effect.

(** C80 in full: without the condition [open_embeds].  It fails (below) for
    embedded fields with unexported names that are not structs. *)
Theorem C80_taken_out_partial : forall (E : Env) (W : World) (d : opt) (t : bytes -> bytes), takes_out t -> forall opts opts' g,
  o_ignore_omitempty (combine_options d opts) = true -> o_ignore_omitempty (combine_options d opts') = false ->
  open_embeds g -> import E W d opts g = import E W d opts' (retag t g).
Proof. exact ignore_strip. Qed.
Print Assumptions C80_taken_out_partial.

(** An embedded nil pointer to a struct of an unexported type shows up as a null
    member under OptIgnoreOmitempty, although it has no tag at all (and
    encoding/json never writes it). *)
Theorem C80_refuted : exists g, enc false g (TObj []) /\ enc true g (TObj []) /\
  forall t, takes_out t -> forall E W,
  import E W opt0 [OIgnoreOmitempty] g = Ok (VObj 1 [(bs "inner", (1, VNull))] None, None) /\
  import E W opt0 [] (retag t g) = Ok (VObj 0 [] None, None).
Proof. exact (ex_intro _ closed closed_shown). Qed.
Print Assumptions C80_refuted.

Example C80_instance :
  takes_out strip_tag /\ open_embeds marked /\ strip_tag (bs "b,string,omitempty") = bs "b,string" /\
  import env0 world1 opt0 [] marked = Ok (VObj 1 [(bs "c", (1, VObj 0 [] None))] None, None) /\
  import env0 world1 opt0 [OIgnoreOmitempty] marked = import env0 world1 opt0 [] (retag strip_tag marked) /\
  (let* (v, e) := import env0 world1 opt0 [OIgnoreOmitempty] marked in marshal env0 world1 opt0 [OSetSeq] v) =
    Ok (bs "{""a"":0,""b"":""false"",""c"":{""x"":""""}}").
Proof. exact ignore_example. Qed.
