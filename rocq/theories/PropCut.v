(** C71: a document cut short, or with something behind it, is not taken for a document. *)
From Verif Require Import Base Float64 Value Unmarshal Opt Marshal SpecJson SpecValue SpecLax SpecText SpecOpts SpecCut CutProof.

(** If a text and the same text with more behind it are both accepted, then only blanks were
    added and the value is the same, or both are bare numbers and the digits go on. *)
Theorem C71_prefix : forall (E : Env) (b s : bytes) (v v' : V), Forall is_byte (b ++ s) ->
  unmarshal E b = Ok (v, None) -> unmarshal E (b ++ s) = Ok (v', None) ->
  (lblanks s /\ v' = v) \/
  (exists w lit c m w2 n n', lblanks w /\ lblanks w2 /\ v = VNum n lit /\ v' = VNum n' (lit ++ c :: m) /\
     b = w ++ lit /\ s = c :: m ++ w2).
Proof. exact prefix. Qed.
Print Assumptions C71_prefix.

(** A document that loses more than blanks at its end is rejected. *)
Theorem C71_cut : forall (E : Env) (p s : bytes) (v : V), Forall is_byte (p ++ s) ->
  unmarshal E (p ++ s) = Ok (v, None) -> no_number v -> ~ lblanks s -> rejected E p.
Proof. exact cut_short. Qed.
Print Assumptions C71_cut.

(** What may follow a document: blanks, nothing else. *)
Theorem C71_after : forall (E : Env) (b s : bytes) (v : V), Forall is_byte (b ++ s) ->
  unmarshal E b = Ok (v, None) -> no_number v ->
  (lblanks s -> unmarshal E (b ++ s) = Ok (v, None)) /\ (~ lblanks s -> rejected E (b ++ s)).
Proof. exact after_exactly. Qed.
Print Assumptions C71_after.

(** Blanks around a document change nothing. *)
Theorem C71_blank : forall (E : Env) (b w s : bytes) (v : V), Forall is_byte b -> lblanks w -> lblanks s ->
  unmarshal E b = Ok (v, None) -> unmarshal E (w ++ b ++ s) = Ok (v, None).
Proof. exact blank_added. Qed.
Print Assumptions C71_blank.

(** Two documents in a row are none. *)
Theorem C71_glued : forall (E : Env) (b c : bytes) (v w : V), Forall is_byte b -> Forall is_byte c ->
  unmarshal E b = Ok (v, None) -> unmarshal E c = Ok (w, None) -> no_number v -> rejected E (b ++ c).
Proof. exact glued. Qed.
Print Assumptions C71_glued.

(** A row of documents can be taken apart in one way only, up to blanks. *)
Theorem C71_row : forall (E : Env) (l l' : list bytes) (vs vs' : list V),
  Forall2 (document E) l vs -> Forall2 (document E) l' vs' -> List.concat l = List.concat l' -> vs = vs'.
Proof. exact one_reading. Qed.
Print Assumptions C71_row.

(** What Marshal wrote is accepted, and rejected when cut anywhere. *)
Theorem C71_written : forall (E : Env) (W : World) (o : opt) (v : V) (b p s : bytes),
  opt_ws o -> json_typed v -> all_text (Forall is_byte) (fun _ src => lax_num src) v -> no_number v ->
  marshal_opt E W o v = Ok b -> Forall is_byte b -> b = p ++ s -> s <> [] ->
  (exists v', unmarshal E b = Ok (v', None)) /\ rejected E p.
Proof. exact written_cut. Qed.
Print Assumptions C71_written.

(** None of this is true of bare numbers. *)
Theorem C71_number_refuted : forall E, exists n1 n23 n12 n3 n,
  unmarshal E (bs "1") = Ok (VNum n1 (bs "1"), None) /\ unmarshal E (bs "23") = Ok (VNum n23 (bs "23"), None) /\
  unmarshal E (bs "12") = Ok (VNum n12 (bs "12"), None) /\ unmarshal E (bs "3") = Ok (VNum n3 (bs "3"), None) /\
  unmarshal E (bs "1" ++ bs "23") = Ok (VNum n (bs "123"), None) /\ bs "1" ++ bs "23" = bs "12" ++ bs "3".
Proof. exact row_number_refuted. Qed.
Print Assumptions C71_number_refuted.

Example C71_instance : forall E, exists v, document E (bs "{""a"":[1,""]}""],""b"":{}}") v /\
  (forall p s, bs "{""a"":[1,""]}""],""b"":{}}" = p ++ s -> s <> [] -> rejected E p) /\
  rejected E (bs "{""a"":[1,""]}""],""b"":{}}{""a"":[1,""]}""],""b"":{}}") /\
  rejected E (bs "{""a"":[1,""]}""],""b"":{}}}") /\ unmarshal E (bs "{""a"":[1,""]}""],""b"":{}}  ") = Ok (v, None).
Proof. exact cut_instance. Qed.
