(** What a reader of Turtle takes a word for, independently of the writer: the productions
    [13], [16]-[21], [128s], [133s], [144s], [22] and [159s] of the Turtle grammar.
    No proofs here. *)
From Verif Require Import Turtle TurtleSpec StrFacts LiteralSpec.
From Verif Require NTriplesSpec NTriplesWriteSpec Url.

(** What a word stands for: an IRI, or a text with the IRI of its data type and a language. *)
Inductive value : Type :=
| VIri (i : str)
| VText (t dt : str) (lang : option str).

Definition xsd_type (s : str) : str := $"http://www.w3.org/2001/XMLSchema#" ++ s.
Definition lang_string : str := $"http://www.w3.org/1999/02/22-rdf-syntax-ns#langString".

(** The characters between the quotes, and the text they stand for. *)
Definition echars : list (chr * chr) :=
  [(116, 9); (98, 8); (110, 10); (114, 13); (102, 12); (34, 34); (39, 39); (92, 92)].
Inductive string_reads : str -> str -> Prop :=
| Sr_nil : string_reads [] []
| Sr_plain c s t : ~ In c [34; 92; 10; 13] -> string_reads s t -> string_reads (c :: s) (c :: t)
| Sr_echar e c s t : In (e, c) echars -> string_reads s t -> string_reads (92 :: e :: s) (c :: t)
| Sr_u4 ds vs s t : Forall2 NTriplesSpec.hex_digit ds vs -> length ds = 4%nat ->
    is_scalar (NTriplesSpec.hex_value vs) = true -> string_reads s t ->
    string_reads (92 :: 117 :: ds ++ s) (NTriplesSpec.hex_value vs :: t)
| Sr_u8 ds vs s t : Forall2 NTriplesSpec.hex_digit ds vs -> length ds = 8%nat ->
    is_scalar (NTriplesSpec.hex_value vs) = true -> string_reads s t ->
    string_reads (92 :: 85 :: ds ++ s) (NTriplesSpec.hex_value vs :: t).

(** Numerals without quotes. *)
Definition digits (s : str) : Prop := Forall (fun c => is_digit c = true) s.
Definition a_sign (s : str) : Prop := s = [] \/ s = $"+" \/ s = $"-".
Definition integer_text (w : str) : Prop :=
  exists sg ds, w = sg ++ ds /\ a_sign sg /\ digits ds /\ ds <> [].
Definition decimal_text (w : str) : Prop :=
  exists sg a b, w = sg ++ a ++ $"." ++ b /\ a_sign sg /\ digits a /\ digits b /\ b <> [].
Definition exponent (w : str) : Prop :=
  exists e sg ds, w = e :: sg ++ ds /\ In e [101; 69] /\ a_sign sg /\ digits ds /\ ds <> [].
Definition double_text (w : str) : Prop :=
  exists sg a b x, w = sg ++ a ++ b ++ x /\ a_sign sg /\ digits a /\ exponent x /\
    ((b = [] /\ a <> []) \/ exists b', b = $"." ++ b' /\ digits b' /\ (a <> [] \/ b' <> [])).
Definition boolean_text (w : str) : Prop := w = $"true" \/ w = $"false".

(** A language tag. *)
Definition tag_ok (t : str) : Prop :=
  exists w ws, t = w ++ flat_map (fun x => $"-" ++ x) ws /\ w <> [] /\ forallb is_alpha w = true /\
    Forall (fun x => x <> [] /\ forallb is_alnum x = true) ws.

(** A prefixed name has a colon, and starts neither like a string nor like a number. *)
Definition name_like (w : str) : Prop :=
  In 58 w /\ ~ In (hd 0 w) [34; 43; 45; 46; 60] /\ is_digit (hd 0 w) = false.

Inductive denotes (base : option Url.url) (expand : str -> option str) : str -> value -> Prop :=
| Dn_iri w i : hd 0 w = 60 \/ name_like w -> word_denotes base expand w i -> denotes base expand w (VIri i)
| Dn_plain b t : string_reads b t -> denotes base expand ([34] ++ b ++ [34]) (VText t (xsd_type $"string") None)
| Dn_lang b t tag : string_reads b t -> tag_ok tag ->
    denotes base expand ([34] ++ b ++ [34] ++ $"@" ++ tag) (VText t lang_string (Some tag))
| Dn_typed b t w i : string_reads b t -> word_denotes base expand w i ->
    denotes base expand ([34] ++ b ++ [34] ++ $"^^" ++ w) (VText t i None)
| Dn_integer w : integer_text w -> denotes base expand w (VText w (xsd_type $"integer") None)
| Dn_decimal w : decimal_text w -> denotes base expand w (VText w (xsd_type $"decimal") None)
| Dn_double w : double_text w -> denotes base expand w (VText w (xsd_type $"double") None)
| Dn_boolean w : boolean_text w -> denotes base expand w (VText w (xsd_type $"boolean") None).

(** What a literal is: its lexical form with the IRI of its data type.  A literal without
    type is a string, or a text in a language. *)
Definition literal_value (l : literal) : value :=
  match lit_data_type l, lit_language l with
  | Some d, _ => VText (lexical_form l) (dt_as_iri d) None
  | None, None => VText (lexical_form l) (xsd_type $"string") None
  | None, Some t => VText (lexical_form l) lang_string (Some t)
  end.

(** The types whose literals are written without quotes, and those written as an IRI. *)
Definition unquoted (d : data_type) : Prop :=
  In d [DtBoolean; DtLong; DtInt; DtShort; DtByte; DtUnsignedLong; DtUnsignedInt; DtUnsignedShort;
        DtUnsignedByte; DtFloat; DtDouble; DtDecimal].
Definition quoted_literal (l : literal) : Prop :=
  match lit_data_type l, lit_language l with
  | Some d, None => d <> DtIri /\ ~ unquoted d
  | None, Some t => tag_ok t
  | None, None => True
  | Some _, Some _ => False
  end.
(** The IRI can be written, and read back as C65 requires. *)
Definition iri_words_ok (c : setting) (base : option Url.url) (i : str) : Prop :=
  t_parse c i = Some i /\ absolute i /\
  match base with Some b => directory b /\ forall r, i = Url.url_ser b ++ r -> segment r | None => True end.
Definition type_words_ok (c : setting) (base : option Url.url) (l : literal) : Prop :=
  match lit_data_type l with Some d => iri_words_ok c base (dt_as_iri d) | None => True end.
(** Characters that [Debug for str] escapes as Turtle does, or not at all. *)
Definition turtle_char (c : setting) (x : chr) : Prop :=
  prints_as_itself (t_gext c) (t_printable c) x \/ In x [9; 10; 13; 34; 92].
