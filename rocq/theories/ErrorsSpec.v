(** Vocabulary for the statements about errors.  No proofs here. *)
From Verif Require Export Errors.

(** The messages of an error, of its source, of the source of that, and so on to the end. *)
Inductive messages : dyn_error -> list str -> Prop :=
| messages_last e : dyn_source e = None -> messages e [dyn_message e]
| messages_more e s l : dyn_source e = Some s -> messages s l -> messages e (dyn_message e :: l).

(** The lines of a text in which every line is ended by a line feed. *)
Fixpoint text_of_lines (l : list str) : str :=
  match l with [] => [] | x :: r => x ++ 10 :: text_of_lines r end.

(** One text ends with another. *)
Definition ends_with (s t : str) : Prop := exists p, s = p ++ t.
Definition within (t s : str) : Prop := exists p q, s = p ++ t ++ q.

(** What the error was told that a reader of the message will look for. *)
Definition payload (e : core_error) : list str :=
  match e with
  | Tokenizer r s => [r; dyn_message s]
  | ParserExpected f x => [f; x]
  | ParserUnexpected f g _ => [f; g]
  | ParserUnreachable f g => [f; g]
  | InvalidFromStr v n => [v; n]
  | InvalidLiteralTypeCooercion f t => [f; t]
  | HexDecoder v _ => [v]
  | InvalidBlankNodeName n | InvalidQName n => [n]
  | AbsoluteIriExpected u => [u]
  | Unknown m => [m]
  | _ => []
  end.

(** The errors an error is made around, with [From] or by hand. *)
Inductive made_around : core_error -> dyn_error -> Prop :=
| Ma_tokenizer r s : made_around (Tokenizer r s) s
| Ma_borrow s : made_around (BorrowError s) s
| Ma_io s : made_around (IoError s) s
| Ma_iri_name s : made_around (IriError (IriName s)) (iri_error_dyn (IriName s))
| Ma_iri_url s : made_around (IriError (IriUrl s)) (iri_error_dyn (IriUrl s))
| Ma_language s : made_around (LanguageTagError s) s
| Ma_name s : made_around (NameError s) (name_error_dyn s)
| Ma_utf8 s : made_around (Utf8Error s) s
| Ma_base64 s : made_around (Base64Decoder s) s.

(** The kinds of errors. *)
Definition kind (e : core_error) : nat :=
  match e with
  | Tokenizer _ _ => 0 | ParserExpected _ _ => 1 | ParserUnexpected _ _ _ => 2 | ParserUnreachable _ _ => 3
  | InvalidFromStr _ _ => 4 | InvalidLiteralTypeCooercion _ _ => 5 | HexDecoder _ _ => 6 | InvalidBlankNodeName _ => 7
  | EmptyQName => 8 | InvalidQName _ => 9 | ProviderMismatch _ _ => 10 | InvalidMatch => 11 | AbsoluteIriExpected _ => 12
  | InvalidState => 13 | RdfStarNotSupported _ => 14 | FormulaeNotSupported _ => 15 | QueryResultsFormat _ => 16
  | BorrowError _ => 17 | IoError _ => 18 | IriError _ => 19 | LanguageTagError _ => 20 | NameError _ => 21
  | Utf8Error _ => 22 | Base64Decoder _ => 23 | Unknown _ => 24
  end.
