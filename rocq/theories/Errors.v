(** Errors of rdftk_core and rdftk_iri: messages, causes and traces
    (rdftk_core/src/error.rs, rdftk_iri/src/error.rs).  No proofs here. *)
From Verif Require Export Literal PName.

(** [dyn std::error::Error]: what it displays and its [source()]. *)
Inductive dyn_error : Type := DynError (message : str) (source : option dyn_error).
Definition dyn_message (e : dyn_error) : str := match e with DynError m _ => m end.
Definition dyn_source (e : dyn_error) : option dyn_error := match e with DynError _ s => s end.

(** rdftk_iri/src/error.rs:31-51 [Display for NameParseError], derived by [thiserror]; no source. *)
Definition name_error_display (e : name_error) : str :=
  match e with
  | EmptyString => $"An empty string was passed, this is not a valid name"
  | InvalidCharacter s =>
      $"The parser encountered a character which is not valid according to its grammar; input: """ ++ s ++ $""""
  | TooManySeparators s =>
      $"The parser encountered more `':'` separator characters than expected; input: """ ++ s ++ $""""
  | MissingSeparator s =>
      $"The Namespace string is missing a `':'` separator character at the end; input: """ ++ s ++ $""""
  end.
Definition name_error_dyn (e : name_error) : dyn_error := DynError (name_error_display e) None.

(** rdftk_iri/src/error.rs:18-26 [Error]: [#[from]] makes the field the source.  [UrlError]
    is a type of the crate url. *)
Inductive iri_error : Type :=
| IriName (e : name_error)
| IriUrl (e : dyn_error).
Definition iri_error_dyn (e : iri_error) : dyn_error :=
  match e with
  | IriName n => DynError ($"An error occurred trying to parse a name; error: " ++ name_error_display n) (Some (name_error_dyn n))
  | IriUrl u => DynError ($"An error occurred parsing an IRI; error: " ++ dyn_message u) (Some u)
  end.

(** rdftk_core/src/error.rs:19-156 [Error]. *)
Inductive core_error : Type :=
| Tokenizer (representation : str) (source : dyn_error)
| ParserExpected (rule_fn expecting : str)
| ParserUnexpected (rule_fn given : str) (expecting : list str)
| ParserUnreachable (rule_fn given : str)
| InvalidFromStr (value name : str)
| InvalidLiteralTypeCooercion (from_type to_type : str)
| HexDecoder (value : str) (index : N)
| InvalidBlankNodeName (name : str)
| EmptyQName
| InvalidQName (name : str)
| ProviderMismatch (lhs rhs : str)
| InvalidMatch
| AbsoluteIriExpected (uri : str)
| InvalidState
| RdfStarNotSupported (representation : str)
| FormulaeNotSupported (representation : str)
| QueryResultsFormat (representation : str)
| BorrowError (source : dyn_error)
| IoError (source : dyn_error)
| IriError (source : iri_error)
| LanguageTagError (source : dyn_error)
| NameError (source : name_error)
| Utf8Error (source : dyn_error)
| Base64Decoder (source : dyn_error)
| Unknown (message : str).

Section Errors.
Variable gext printable : chr -> bool.
(** [{:?}] of a string and of a [Vec<String>] (std). *)
Definition debug_str (s : str) : str := [34] ++ escape_string gext printable s ++ [34].
Definition debug_list (l : list str) : str := $"[" ++ join $", " (map debug_str l) ++ $"]".

(** rdftk_core/src/error.rs:343-387 [Display for Error]. *)
Definition core_display (e : core_error) : str :=
  match e with
  | Tokenizer r s => $"The tokenizer for " ++ r ++ $" generated an error: " ++ dyn_message s
  | ParserExpected f x => $"Parser was expecting `" ++ x ++ $"` in function `" ++ f ++ $"`."
  | ParserUnexpected f g x =>
      $"Parser was not expecting `" ++ g ++ $"` in function `" ++ f ++ $"`; expecting " ++ debug_list x ++ $"."
  | ParserUnreachable f g => $"Parser should not have reached `" ++ g ++ $"` in function `" ++ f ++ $"`."
  | InvalidFromStr v n => $"The String value `" ++ v ++ $"` is not a valid value for it's type: '" ++ n ++ $"'."
  | InvalidLiteralTypeCooercion f t => $"Not possible to coerce a literal from `" ++ f ++ $"` into `" ++ t ++ $"`."
  | HexDecoder v i => $"Could not decode a hex-encoded string, bad value `" ++ v ++ $"` at index " ++ dec_N i
  | InvalidBlankNodeName n => $"The String value `" ++ n ++ $"` is not a valid Blank Node name."
  | EmptyQName => $"A QName may not have an empty name part."
  | InvalidQName n => $"The String value `" ++ n ++ $"` is not a valid QName."
  | ProviderMismatch l r =>
      $"Values from these different providers cannot be combined (" ++ debug_str l ++ $", " ++ debug_str r ++ $")."
  | InvalidMatch => $"The match combination is not valid."
  | AbsoluteIriExpected u => $"An Absolute IRI was expected at, not '" ++ u ++ $"'."
  | InvalidState => $"Some model element was in an invalid state for the requested operation."
  | RdfStarNotSupported r =>
      $"Statements as objects, from RDF*, are not supported by the " ++ debug_str r ++ $" representation."
  | FormulaeNotSupported r =>
      $"Cited model.formulae, from N3, are not supported by the " ++ debug_str r ++ $" representation."
  | QueryResultsFormat r => $"Could not read or write query results in the " ++ debug_str r ++ $" representation."
  | BorrowError s => $"A cell borrow error occurred; source: " ++ dyn_message s
  | IoError s => $"An I/O error occurred; source: " ++ dyn_message s
  | IriError s => $"An error occurred parsing an IRI; source: " ++ dyn_message (iri_error_dyn s)
  | LanguageTagError s => $"An error occurred parsing a language tag; source: " ++ dyn_message s
  | NameError s => $"An error occurred parsing a name; source: " ++ name_error_display s
  | Utf8Error s => $"An error occurred parsing a UTF-8 string; source: " ++ dyn_message s
  | Base64Decoder s => $"An error occurred parsing a base64 encoded string; source: " ++ dyn_message s
  | Unknown m => $"Unknown error: " ++ m
  end.

(** rdftk_core/src/error.rs:389-403 [source]: not for [Tokenizer]. *)
Definition core_source (e : core_error) : option dyn_error :=
  match e with
  | BorrowError s | IoError s | LanguageTagError s | Utf8Error s | Base64Decoder s => Some s
  | IriError s => Some (iri_error_dyn s)
  | NameError s => Some (name_error_dyn s)
  | _ => None
  end.
Definition core_dyn (e : core_error) : dyn_error := DynError (core_display e) (core_source e).
End Errors.

(** rdftk_core/src/error.rs:465-478 [trace_one].  The counter is an [i32]; a chain of 2^31
    causes, which would overflow it, is not considered. *)
Fixpoint trace_one (e : dyn_error) (count : N) : str :=
  match e with
  | DynError m s =>
      dec_N count ++ $". " ++ m ++ [10]
      ++ match s with Some s' => trace_one s' (count + 1) | None => [] end
      ++ [10]
  end.
(** rdftk_core/src/error.rs:335-337 [error_trace]. *)
Definition error_trace (e : dyn_error) : str := trace_one e 1.
