(** Property theorem C99 (errors and their traces).  Statements only; proofs in
    ErrorsProofs.v. *)
From Coq Require Import ZArith.
From Verif Require Import ErrorsSpec FloatsSpec ErrorsProofs PropsLiteral.

(** C99: the trace of an error has a numbered line for it and for each of its causes, in
    order from 1, and as many empty lines after them. *)
Theorem C99_trace : forall e, exists l lines, messages e l /\ error_trace e = text_of_lines lines /\
  length lines = (2 * length l)%nat /\
  (forall k m, nth_error l k = Some m ->
     exists n, int_value n = Some (Z.of_nat (S k)) /\ canonical_int n /\ nth_error lines k = Some (n ++ $". " ++ m)) /\
  (forall k, (length l <= k < 2 * length l)%nat -> nth_error lines k = Some []).
Proof. exact c99_trace. Qed.
Print Assumptions C99_trace.

(** C99: two errors with the same trace have the same messages and causes, provided the
    messages are single lines. *)
Theorem C99_faithful : forall e f l l', messages e l -> messages f l' ->
  Forall (fun s => ~ In 10 s) l -> Forall (fun s => ~ In 10 s) l' -> error_trace e = error_trace f -> l = l'.
Proof. exact c99_faithful. Qed.
Print Assumptions C99_faithful.

(** C99: not so if they are not; a message may contain what looks like the next line. *)
Theorem C99_faithful_refuted : exists e f l l', messages e l /\ messages f l' /\ l <> l' /\
  error_trace e = error_trace f.
Proof.
  exists (DynError $"a" (Some (DynError $"b" None))), (DynError ($"a" ++ [10] ++ $"2. b" ++ [10]) None).
  exists [$"a"; $"b"], [$"a" ++ [10] ++ $"2. b" ++ [10]].
  split; [apply (messages_more (DynError $"a" (Some (DynError $"b" None))) (DynError $"b" None)); [reflexivity|exact (messages_last (DynError $"b" None) eq_refl)]|].
  split; [exact (messages_last (DynError ($"a" ++ [10] ++ $"2. b" ++ [10]) None) eq_refl)|].
  split; [discriminate|vm_compute; reflexivity].
Qed.
Print Assumptions C99_faithful_refuted.

(** C99: the message of an error ends with the message of its source. *)
Theorem C99_source : forall gext printable,
  (forall e s, core_source e = Some s -> ends_with (core_display gext printable e) (dyn_message s)) /\
  (forall e, exists s, dyn_source (iri_error_dyn e) = Some s /\ ends_with (dyn_message (iri_error_dyn e)) (dyn_message s)).
Proof. exact (fun g p => conj (c99_source g p) c99_iri_source). Qed.
Print Assumptions C99_source.

(** C99: an error made around another has it, and its causes, as causes; unless it is one of
    the tokenizer.  No other error has a cause. *)
Theorem C99_causes : forall gext printable e,
  (forall s l, made_around e s -> messages s l -> (forall r t, e <> Tokenizer r t) ->
     messages (core_dyn gext printable e) (core_display gext printable e :: l)) /\
  ((forall s, ~ made_around e s) -> messages (core_dyn gext printable e) [core_display gext printable e]).
Proof. exact c99_causes. Qed.
Print Assumptions C99_causes.

(** C99: the message contains the text the error was made with. *)
Theorem C99_payload : forall gext printable e s, In s (payload e) -> within s (core_display gext printable e).
Proof. exact c99_payload. Qed.
Print Assumptions C99_payload.

(** C99: the message tells the kind of error. *)
Theorem C99_kind : forall gext printable e f, core_display gext printable e = core_display gext printable f -> kind e = kind f.
Proof. exact c99_kind. Qed.
Print Assumptions C99_kind.

(** C99: so do the messages of errors about names; and a list is shown in order, each text in
    quotes and escaped, with a comma between two of them. *)
Theorem C99_names : forall s e, In e [InvalidCharacter s; TooManySeparators s; MissingSeparator s] ->
  within ($"""" ++ s ++ $"""") (name_error_display e).
Proof. exact c99_names. Qed.
Print Assumptions C99_names.
Theorem C99_listed : forall gext printable f g before s t after,
  within ($"""" ++ escape_string gext printable s ++ $""", """ ++ escape_string gext printable t ++ $"""")
    (core_display gext printable (ParserUnexpected f g (before ++ s :: t :: after))).
Proof. exact c99_listed. Qed.
Print Assumptions C99_listed.

(** C99 is false of the errors of the tokenizer: they hold a source, which is not in the
    trace. *)
Theorem C99_tokenizer_refuted : forall gext printable r s,
  messages (core_dyn gext printable (Tokenizer r s)) [core_display gext printable (Tokenizer r s)].
Proof. exact (fun g p r s => messages_last (core_dyn g p (Tokenizer r s)) eq_refl). Qed.
Print Assumptions C99_tokenizer_refuted.

Example C99_example :
  let e := core_dyn ex_gext ex_printable (IriError (IriName (InvalidCharacter $"a b"))) in
  error_trace e = text_of_lines
    [$"1. An error occurred parsing an IRI; source: An error occurred trying to parse a name; error: The parser encountered a character which is not valid according to its grammar; input: ""a b""";
     $"2. An error occurred trying to parse a name; error: The parser encountered a character which is not valid according to its grammar; input: ""a b""";
     $"3. The parser encountered a character which is not valid according to its grammar; input: ""a b""";
     []; []; []] /\
  core_display ex_gext ex_printable (ParserUnexpected $"f" $"x" [$"a"; $"b"]) =
    $"Parser was not expecting `x` in function `f`; expecting [""a"", ""b""]." /\
  payload (ParserUnexpected $"f" $"x" [$"a"; $"b"]) = [$"f"; $"x"].
Proof. vm_compute. repeat split. Qed.
