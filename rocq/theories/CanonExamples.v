(** Concrete values for C60. *)
From Verif Require Import Base Utf8 Float64 Value Scan Unmarshal Opt Marshal ValueLemmas SpecJson SpecLax SpecText SpecOrder SpecOpts SpecCanon
  ExampleWorld EscapeProof OrderProof LaxNum RoundTrip CanonProof.

Definition opt_sorted : opt := combine_options opt0 [OLess (Some default_string_sequence)].
(** {"<247>AAA":1,"<U+10FFFF>":2}: U+10FFFF comes before the byte 247, but behind
    U+FFFD, by which that byte is replaced. *)
Definition doc_moves : bytes := bs "{""" ++ [247; 65; 65; 65] ++ bs """:1,""" ++ [244; 143; 191; 191] ++ bs """:2}".
Lemma moves : exists v b v' b',
  unmarshal env0 doc_moves = Ok (v, None) /\ marshal_opt env0 world1 opt_sorted v = Ok b /\
  unmarshal env0 b = Ok (v', None) /\ marshal_opt env0 world1 opt_sorted v' = Ok b' /\ b <> b'.
Proof.
  destruct (unmarshal env0 doc_moves) as [[v [e|]]| | |] eqn:E1; vm_compute in E1; try discriminate. injection E1 as <-.
  eexists _, _, _, _. split; [reflexivity|]. split; [vm_compute; reflexivity|]. split; [vm_compute; reflexivity|]. split; [vm_compute; reflexivity|].
  discriminate.
Qed.
(** {"<247>AAA":1,"<246>AAA":2}: both names are read back as U+FFFD, A, A, A. *)
Definition doc_merges : bytes := bs "{""" ++ [247; 65; 65; 65] ++ bs """:1,""" ++ [246; 65; 65; 65] ++ bs """:2}".
Definition opt_set : opt := combine_options opt0 [OSetSeq].
Lemma merges : exists v b v' b',
  unmarshal env0 doc_merges = Ok (v, None) /\ marshal_opt env0 world1 opt_set v = Ok b /\
  unmarshal env0 b = Ok (v', None) /\ marshal_opt env0 world1 opt_set v' = Ok b' /\ b <> b'.
Proof.
  destruct (unmarshal env0 doc_merges) as [[v [e|]]| | |] eqn:E1; vm_compute in E1; try discriminate. injection E1 as <-.
  eexists _, _, _, _. split; [reflexivity|]. split; [vm_compute; reflexivity|]. split; [vm_compute; reflexivity|]. split; [vm_compute; reflexivity|].
  discriminate.
Qed.

(** {"b":[1.50,"<247>AAA"],"a":{"d":null,"c":{}}} *)
Definition doc_plain : bytes := bs "{""b"":[1.50,""" ++ [247; 65; 65; 65] ++ bs """],""a"":{""d"":null,""c"":{}}}".
Definition out_plain : bytes := bs "{""a"":{""c"":{},""d"":null},""b"":[1.50,""\uFFFDAAA""]}".
