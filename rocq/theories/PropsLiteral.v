(** Property theorems C33-C37 and C54-C56 (literals).  Statements only; proofs in
    LiteralProofs.v and BinaryProofs.v.  [gext] and [printable] are the two Unicode tables of
    [char::escape_debug]; [ascii_tables] says what they contain for printable ASCII. *)
From Coq Require Import ZArith Lia.
From Verif Require Import Str Literal LiteralSpec LiteralProofs BinaryProofs.

Definition ex_gext : chr -> bool := fun _ => false.
Definition ex_printable : chr -> bool := fun c => (32 <=? c) && negb (c =? 127).

Example ascii_tables_example : ascii_tables ex_gext ex_printable.
Proof. intros c Hc. split; [reflexivity|]. unfold ex_printable. apply andb_true_iff. split; [apply N.leb_le|apply negb_true_iff, N.eqb_neq]; lia. Qed.

(** C33: an IRI survives the conversion to a data type and back. *)
Theorem C33_iri_datatype_iri : forall iri, dt_as_iri (dt_from_iri iri) = iri.
Proof. exact dt_from_as_iri. Qed.
Print Assumptions C33_iri_datatype_iri.

(** C33 is false in the other direction: xsd:dateTime comes back as [Other]. *)
Theorem C33_datatype_iri_datatype_refuted :
  exists d, dt_from_iri (dt_as_iri d) <> d /\ dt_eqb (dt_from_iri (dt_as_iri d)) d = false.
Proof. exists DtDateTime. vm_compute. split; [discriminate|reflexivity]. Qed.
Print Assumptions C33_datatype_iri_datatype_refuted.

(** C33, exactly when it holds: not for the seven types that are never recognised, and not
    for an [Other] that names a recognised type. *)
Theorem C33_datatype_iri_datatype : forall d,
  dt_from_iri (dt_as_iri d) = d <->
  ~ In d unrecognised /\ (forall i, d = DtOther i -> ~ In i (map dt_as_iri
    [DtString; DtQName; DtName; DtIri; DtBoolean; DtFloat; DtDouble; DtLong; DtInt; DtShort; DtByte;
     DtUnsignedLong; DtUnsignedInt; DtUnsignedShort; DtUnsignedByte; DtDuration; DtXmlLiteral])).
Proof. exact dt_as_from_iri. Qed.
Print Assumptions C33_datatype_iri_datatype.

(** C33: every data type with a name of its own has the IRI the W3C gave it, and no two of
    them have the same. *)
Theorem C33_w3c_names : forall d, (exists i, d = DtOther i) \/ In (d, dt_as_iri d) w3c_types.
Proof. exact dt_named. Qed.
Print Assumptions C33_w3c_names.
Theorem C33_injective : forall a b, (forall i, a <> DtOther i) -> (forall i, b <> DtOther i) ->
  dt_as_iri a = dt_as_iri b -> a = b.
Proof. exact dt_as_iri_inj. Qed.
Print Assumptions C33_injective.

Example C33_example :
  dt_from_iri $"http://www.w3.org/2001/XMLSchema#int" = DtInt /\
  dt_from_iri $"http://www.w3.org/2001/XMLSchema#date" = DtOther $"http://www.w3.org/2001/XMLSchema#date" /\
  dt_from_iri $"http://e/t" = DtOther $"http://e/t" /\ ~ In DtInt unrecognised.
Proof. split; [vm_compute; reflexivity|]. split; [vm_compute; reflexivity|]. split; [vm_compute; reflexivity|].
  simpl. intuition discriminate. Qed.

(** C34: an integer literal carries the XSD type of its Rust type and the plain decimal
    numeral, and equals exactly that value of that type. *)
Theorem C34_integer : forall gext printable, ascii_tables gext printable -> forall t z,
  lit_data_type (lit_from_int gext printable t z) = Some (int_data_type t) /\
  lit_language (lit_from_int gext printable t z) = None /\
  forall u y, lit_eq_int u (lit_from_int gext printable t z) y = true <-> t = u /\ z = y.
Proof.
  exact (fun g p T t z => conj eq_refl (conj eq_refl (fun u y => int_literal_eq g p T t z u y))).
Qed.
Print Assumptions C34_integer.

(** C34: the data type is the one of XML Schema with the same least and greatest value. *)
Theorem C34_type : forall t, exists nm, dt_as_iri (int_data_type t) = $"http://www.w3.org/2001/XMLSchema#" ++ nm /\
  In (nm, (int_min t, int_max t)) xsd_ranges.
Proof. exact int_xsd_range. Qed.
Print Assumptions C34_type.

(** C34: distinct integers, or integers of distinct types, give distinct literals. *)
Theorem C34_integer_injective : forall gext printable, ascii_tables gext printable -> forall t z u y,
  lit_from_int gext printable t z = lit_from_int gext printable u y <-> t = u /\ z = y.
Proof. exact int_literal_inj. Qed.
Print Assumptions C34_integer_injective.

(** C34: booleans likewise, and no literal is both a boolean and an integer. *)
Theorem C34_boolean : forall gext printable, ascii_tables gext printable -> forall b,
  lit_data_type (lit_from_bool gext printable b) = Some DtBoolean /\
  (forall c, lit_eq_bool (lit_from_bool gext printable b) c = true <-> b = c) /\
  (forall t z, lit_eq_int t (lit_from_bool gext printable b) z = false
    /\ lit_eq_bool (lit_from_int gext printable t z) b = false).
Proof.
  exact (fun g p T b => conj eq_refl (conj (bool_literal_eq g p T b) (bool_int_disjoint g p b))).
Qed.
Print Assumptions C34_boolean.

Example C34_example :
  lexical_form (lit_from_int ex_gext ex_printable I8 (-128)) = $"-128" /\
  lit_eq_int I8 (lit_from_int ex_gext ex_printable I8 (-128)) (-128) = true /\
  lit_eq_int I16 (lit_from_int ex_gext ex_printable I8 (-128)) (-128) = false /\
  lit_eq_int U64 (lit_from_int ex_gext ex_printable U64 18446744073709551615) 18446744073709551615 = true /\
  lit_eq_bool (lit_from_bool ex_gext ex_printable false) false = true.
Proof. vm_compute. repeat split. Qed.

(** C35 is false: a string with a quote, a backslash, a line break or any character the
    Unicode tables reject is changed, and the literal does not equal the string. *)
Theorem C35_string_literal_refuted : forall gext printable,
  exists s, lit_eq_str (lit_plain gext printable s) s = false /\
            lit_eq_str (lit_from_str gext printable s) s = false.
Proof. exact (fun g p => ex_intro _ $"say ""hi""" (string_refuted g p)). Qed.
Print Assumptions C35_string_literal_refuted.

(** C35, exactly when it holds. *)
Theorem C35_string_literal : forall gext printable s,
  (lit_eq_str (lit_plain gext printable s) s = true <-> Forall (prints_as_itself gext printable) s) /\
  (lit_eq_str (lit_from_str gext printable s) s = true <-> Forall (prints_as_itself gext printable) s).
Proof. exact (fun g p s => conj (plain_eq_iff g p s) (from_str_eq_iff g p s)). Qed.
Print Assumptions C35_string_literal.

(** C35: in particular for printable ASCII without quotes and backslashes. *)
Theorem C35_string_literal_ascii : forall gext printable s, ascii_tables gext printable ->
  Forall (fun c => 32 <= c <= 126 /\ c <> 34 /\ c <> 92) s ->
  lit_eq_str (lit_plain gext printable s) s = true /\ lexical_form (lit_plain gext printable s) = s.
Proof. exact string_ascii. Qed.
Print Assumptions C35_string_literal_ascii.

(** C35: a literal equals at most one string. *)
Theorem C35_string_unique : forall l s t, lit_eq_str l s = true -> lit_eq_str l t = true -> s = t.
Proof. exact lit_eq_str_unique. Qed.
Print Assumptions C35_string_unique.

Example C35_example :
  lit_eq_str (lit_plain ex_gext ex_printable $"hello world") $"hello world" = true /\
  lexical_form (lit_plain ex_gext ex_printable ($"a" ++ [10] ++ $"b""c")) = $"a\nb\""c" /\
  lit_eq_str (lit_plain ex_gext ex_printable ($"a" ++ [10])) ($"a" ++ [10]) = false.
Proof. vm_compute. repeat split. Qed.

(** C36 is false: two bytes do not come back, and base64 content is tagged as hexadecimal. *)
Theorem C36_binary_refuted : forall gext printable, ascii_tables gext printable ->
  (exists bs, is_bytes bs /\ lit_to_bytes (lit_hex_encoded gext printable bs) = None) /\
  (forall bs, is_bytes bs -> lit_data_type (lit_base64_encoded gext printable bs) <> Some DtBase64Binary).
Proof. exact binary_refuted. Qed.
Print Assumptions C36_binary_refuted.

(** C36, exactly what happens: hexadecimal content comes back only for a single byte. *)
Theorem C36_hex : forall gext printable, ascii_tables gext printable -> forall bs, is_bytes bs ->
  lit_to_bytes (lit_hex_encoded gext printable bs) = if Nat.eqb (length bs) 1 then Some bs else None.
Proof. exact hex_roundtrip. Qed.
Print Assumptions C36_hex.

(** C36: the decoder expects pairs separated by blanks. *)
Theorem C36_hex_spaced : forall gext printable, ascii_tables gext printable -> forall bs,
  is_bytes bs -> bs <> [] ->
  lit_to_bytes (lit_with_data_type gext printable
    (join [32] (map (fun b => hex_encode [b]) bs)) DtHexBinary) = Some bs.
Proof. exact hex_spaced_roundtrip. Qed.
Print Assumptions C36_hex_spaced.

(** C36: base64 content never comes back, but would if it were tagged xsd:base64Binary. *)
Theorem C36_base64 : forall gext printable, ascii_tables gext printable -> forall bs, is_bytes bs ->
  lit_data_type (lit_base64_encoded gext printable bs) = Some DtHexBinary
  /\ lit_to_bytes (lit_base64_encoded gext printable bs) = None
  /\ lit_to_bytes (lit_with_data_type gext printable (b64_encode bs) DtBase64Binary) = Some bs.
Proof. exact base64_roundtrip. Qed.
Print Assumptions C36_base64.

(** C36: exactly the texts that convert to bytes, which are those of RFC 4648, and bytes of two
    hexadecimal digits, or of a plus sign and one, between single blanks. *)
Theorem C36_base64_exact : forall lex lang bs, lit_to_bytes (Lit lex (Some DtBase64Binary) lang) = Some bs <-> base64 lex bs.
Proof. exact c36_base64_exact. Qed.
Print Assumptions C36_base64_exact.
Theorem C36_hex_exact : forall lex lang bs, lit_to_bytes (Lit lex (Some DtHexBinary) lang) = Some bs <->
  exists ps, ps <> [] /\ lex = join [32] ps /\ Forall2 hex_byte ps bs.
Proof. exact c36_hex_exact. Qed.
Print Assumptions C36_hex_exact.

(** C36: only the two binary types convert to bytes. *)
Theorem C36_binary_types : forall l bs, lit_to_bytes l = Some bs ->
  lit_data_type l = Some DtBase64Binary \/ lit_data_type l = Some DtHexBinary.
Proof. exact to_bytes_type. Qed.
Print Assumptions C36_binary_types.

Example C36_example :
  is_bytes [0; 255; 16] /\
  lexical_form (lit_hex_encoded ex_gext ex_printable [0; 255; 16]) = $"00FF10" /\
  lit_to_bytes (lit_hex_encoded ex_gext ex_printable [0; 255; 16]) = None /\
  lit_to_bytes (lit_hex_encoded ex_gext ex_printable [255]) = Some [255] /\
  lexical_form (lit_base64_encoded ex_gext ex_printable [77; 97]) = $"TWE=" /\
  lit_to_bytes (Lit $"TWE=" (Some DtBase64Binary) None) = Some [77; 97] /\ lit_to_bytes (Lit $"TWF=" (Some DtBase64Binary) None) = None /\
  lit_to_bytes (Lit $"4d +a" (Some DtHexBinary) None) = Some [77; 10] /\ lit_to_bytes (Lit [] (Some DtHexBinary) None) = None.
Proof. split; [repeat constructor|]. vm_compute. repeat split. Qed.

(** C37: whatever constructor is used, the stored text may stand between double quotes. *)
Theorem C37_quotable : forall gext printable s d lang iri bs t z b secs nanos,
  let ok l := quotable (lexical_form l) = true in
  ok (lit_plain gext printable s) /\ ok (lit_with_language gext printable s lang) /\
  ok (lit_with_data_type gext printable s d) /\ ok (lit_with_data_type_iri gext printable s iri) /\
  ok (lit_hex_encoded gext printable bs) /\ ok (lit_base64_encoded gext printable bs) /\
  ok (lit_from_bool gext printable b) /\ ok (lit_from_int gext printable t z) /\
  ok (lit_from_duration gext printable secs nanos) /\ ok (lit_from_str gext printable s) /\
  ok (lit_from_lang gext printable s) /\ ok (lit_from_name gext printable s) /\
  ok (lit_from_qname gext printable s) /\ ok (lit_from_iri gext printable s).
Proof. exact constructors_quotable. Qed.
Print Assumptions C37_quotable.

(** C37: different strings give different texts, for each way of making a literal. *)
Theorem C37_injective : forall gext printable s t,
  (lit_plain gext printable s = lit_plain gext printable t -> s = t) /\
  (forall a b, lit_with_language gext printable s a = lit_with_language gext printable t b -> s = t /\ a = b) /\
  (forall a b, lit_with_data_type gext printable s a = lit_with_data_type gext printable t b -> s = t /\ a = b) /\
  (forall a b, lit_with_data_type_iri gext printable s a = lit_with_data_type_iri gext printable t b -> s = t /\ a = b).
Proof. exact constructors_injective. Qed.
Print Assumptions C37_injective.

(** C37: the stored text, between double quotes, is Rust's notation for the string, and for no
    other. *)
Theorem C37_text : forall gext printable s d lang iri t,
  let says l := rust_text (lexical_form l) t <-> t = s in
  says (lit_plain gext printable s) /\ says (lit_with_language gext printable s lang) /\
  says (lit_with_data_type gext printable s d) /\ says (lit_with_data_type_iri gext printable s iri).
Proof. exact constructors_stand. Qed.
Print Assumptions C37_text.

(** C37: no literal has both a data type and a language, whatever constructor is used, and
    texts, texts in a language and typed texts are never the same. *)
Theorem C37_kinds : forall gext printable s d lang iri bs t z b secs nanos,
  let ok l := lit_data_type l = None \/ lit_language l = None in
  (ok (lit_plain gext printable s) /\ ok (lit_with_language gext printable s lang) /\
   ok (lit_with_data_type gext printable s d) /\ ok (lit_with_data_type_iri gext printable s iri) /\
   ok (lit_hex_encoded gext printable bs) /\ ok (lit_base64_encoded gext printable bs) /\
   ok (lit_from_bool gext printable b) /\ ok (lit_from_int gext printable t z) /\
   ok (lit_from_duration gext printable secs nanos) /\ ok (lit_from_str gext printable s) /\
   ok (lit_from_lang gext printable s) /\ ok (lit_from_name gext printable s) /\
   ok (lit_from_qname gext printable s) /\ ok (lit_from_iri gext printable s)) /\
  forall s', lit_plain gext printable s <> lit_with_language gext printable s' lang /\
    lit_plain gext printable s <> lit_with_data_type gext printable s' d /\
    lit_with_language gext printable s lang <> lit_with_data_type gext printable s' d.
Proof. exact constructors_kinds. Qed.
Print Assumptions C37_kinds.

Example C37_example :
  lexical_form (lit_plain ex_gext ex_printable ($"\" ++ [34; 13; 0; 7])) = $"\\\""\r\0\u{7}" /\
  quotable $"\\\""\r\0\u{7}" = true /\ quotable $"a""b" = false /\ quotable $"a\" = false.
Proof. vm_compute. repeat split. Qed.

(** C54 is false: 1.05 seconds is written as PT1.50000000S, which denotes 1.5 seconds. *)
Theorem C54_duration_text_refuted : forall gext printable, ascii_tables gext printable ->
  exists secs nanos, nanos < 1000000000 /\
    duration_value (lexical_form (lit_from_duration gext printable secs nanos)) <>
    Some (secs * 1000000000 + nanos).
Proof. exact duration_refuted. Qed.
Print Assumptions C54_duration_text_refuted.

(** C54, exactly when the text denotes the duration: no fraction, or nine digits of it. *)
Theorem C54_duration_text : forall gext printable, ascii_tables gext printable ->
  forall secs nanos, nanos < 1000000000 ->
  (duration_value (lexical_form (lit_from_duration gext printable secs nanos))
     = Some (secs * 1000000000 + nanos) <-> nanos = 0 \/ 100000000 <= nanos).
Proof. exact duration_value_iff. Qed.
Print Assumptions C54_duration_text.

(** C54, the duration the text denotes in every case. *)
Theorem C54_duration_denotes : forall gext printable, ascii_tables gext printable ->
  forall secs nanos, nanos < 1000000000 ->
  duration_value (lexical_form (lit_from_duration gext printable secs nanos)) =
  Some (secs * 1000000000 + nanos * 10 ^ N.of_nat (9 - length (dec_N nanos))).
Proof. exact duration_value_form. Qed.
Print Assumptions C54_duration_denotes.

(** C54: different durations still give different literals. *)
Theorem C54_duration_injective : forall gext printable, ascii_tables gext printable ->
  forall secs nanos s n,
  lit_from_duration gext printable secs nanos = lit_from_duration gext printable s n ->
  secs = s /\ nanos = n.
Proof. exact duration_inj. Qed.
Print Assumptions C54_duration_injective.

Example C54_example :
  lexical_form (lit_from_duration ex_gext ex_printable 1 50000000) = $"PT1.50000000S" /\
  duration_value $"PT1.50000000S" = Some 1500000000 /\
  lexical_form (lit_from_duration ex_gext ex_printable 90 0) = $"PT90S" /\
  duration_value $"PT90S" = Some 90000000000 /\
  duration_value (lexical_form (lit_from_duration ex_gext ex_printable 1 500000000)) = Some 1500000000.
Proof. vm_compute. repeat split. Qed.

(** C55 is false of every duration: a literal made from one equals no duration at all. *)
Theorem C55_duration_equality_refuted : forall gext printable, ascii_tables gext printable ->
  forall secs nanos s n, lit_eq_duration (lit_from_duration gext printable secs nanos) s n = false.
Proof. exact duration_never_equal. Qed.
Print Assumptions C55_duration_equality_refuted.

Example C55_example :
  lit_eq_duration (lit_from_duration ex_gext ex_printable 1 5) 1 5 = false /\
  lit_eq_duration (lit_with_data_type ex_gext ex_printable $"1000000005" DtDuration) 1 5 = true.
Proof. vm_compute. repeat split. Qed.

(** C56 is false when [Display for Iri] adds angle brackets: equality never holds then. *)
Theorem C56_iri_literal_refuted : forall gext printable iri,
  lit_eq_iri Angled (lit_from_iri gext printable iri) iri = false.
Proof. exact iri_literal_angled. Qed.
Print Assumptions C56_iri_literal_refuted.

(** C56, exactly when it holds. *)
Theorem C56_iri_literal : forall gext printable m iri,
  lit_eq_iri m (lit_from_iri gext printable iri) iri = true <->
  m = Bare /\ Forall (prints_as_itself gext printable) iri.
Proof. exact iri_literal_eq. Qed.
Print Assumptions C56_iri_literal.

(** C56: conversion back to an IRI parses the escaped text; it gives the IRI back whenever
    the text needs no escaping, and other data types are refused. *)
Theorem C56_iri_literal_back : forall gext printable (parse : str -> option str),
  (forall iri, Forall (prints_as_itself gext printable) iri ->
     lit_to_iri parse (lit_from_iri gext printable iri) = parse iri) /\
  (forall l, lit_data_type l <> Some DtIri -> lit_to_iri parse l = None).
Proof. exact iri_literal_try. Qed.
Print Assumptions C56_iri_literal_back.

Example C56_example :
  lit_eq_iri Bare (lit_from_iri ex_gext ex_printable $"http://e/a") $"http://e/a" = true /\
  lit_eq_iri Angled (lit_from_iri ex_gext ex_printable $"http://e/a") $"http://e/a" = false /\
  lit_eq_iri Bare (lit_from_iri ex_gext ex_printable $"urn:a""b") $"urn:a""b" = false /\
  lit_to_iri Some (lit_from_iri ex_gext ex_printable $"http://e/a") = Some $"http://e/a".
Proof. vm_compute. repeat split. Qed.
