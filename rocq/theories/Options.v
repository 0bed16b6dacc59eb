(** Model of the builders of the options of the Turtle, TriG, DOT and XML writers.  No proofs
    here.  A program that makes options is the list of its calls, beginning with [default()];
    the fields are private, so there is no other way to make them.  [with_..] consumes the
    options and [set_..] changes them in place; both give the options that come after. *)
From Verif Require Export Turtle Dot Xml.

(** ** Turtle *)

(** turtle/writer.rs:160-330: every public function that gives or changes options. *)
Inductive ttl_call : Type :=
| TWithIdBase (i : str)
| TWithIntellij
| TWithSparql
| TWithIndentWidth (n : N)
| TWithPadding (b : bool)
| TWithNested
| TWithoutNested
| TSetIdBase (i : str)
| TUnsetIdBase
| TSetNest (b : bool)
| TSetSparql (b : bool)
| TSetIntellij (b : bool)
| TSetTypeLine (b : bool)
| TSetConvertTo (i : str)
| TUnsetConvertTo
| TSetIndentWidth (n : N)
| TSetPadding (b : bool).

(** A field replaced: [Self { field: .., ..self }], or an assignment. *)
Definition ttl_put_base (v : option str) (o : ttl_options) : ttl_options :=
  TtlOptions v (nest_blank_nodes o) (outdent_blank_node_end o) (outdent_collection_end o) (use_rdf_type_a o)
    (use_sparql_style o) (use_intellij_style o) (place_type_on_subject_line o) (convert_to_id_base o) (convert_base o)
    (indent_width o) (predicate_padding o).
Definition ttl_put_nest (v : bool) (o : ttl_options) : ttl_options :=
  TtlOptions (id_base o) v (outdent_blank_node_end o) (outdent_collection_end o) (use_rdf_type_a o)
    (use_sparql_style o) (use_intellij_style o) (place_type_on_subject_line o) (convert_to_id_base o) (convert_base o)
    (indent_width o) (predicate_padding o).
Definition ttl_put_sparql (v : bool) (o : ttl_options) : ttl_options :=
  TtlOptions (id_base o) (nest_blank_nodes o) (outdent_blank_node_end o) (outdent_collection_end o) (use_rdf_type_a o)
    v (use_intellij_style o) (place_type_on_subject_line o) (convert_to_id_base o) (convert_base o)
    (indent_width o) (predicate_padding o).
Definition ttl_put_intellij (v : bool) (o : ttl_options) : ttl_options :=
  TtlOptions (id_base o) (nest_blank_nodes o) (outdent_blank_node_end o) (outdent_collection_end o) (use_rdf_type_a o)
    (use_sparql_style o) v (place_type_on_subject_line o) (convert_to_id_base o) (convert_base o)
    (indent_width o) (predicate_padding o).
Definition ttl_put_type_line (v : bool) (o : ttl_options) : ttl_options :=
  TtlOptions (id_base o) (nest_blank_nodes o) (outdent_blank_node_end o) (outdent_collection_end o) (use_rdf_type_a o)
    (use_sparql_style o) (use_intellij_style o) v (convert_to_id_base o) (convert_base o)
    (indent_width o) (predicate_padding o).
Definition ttl_put_convert (v : option str) (o : ttl_options) : ttl_options :=
  TtlOptions (id_base o) (nest_blank_nodes o) (outdent_blank_node_end o) (outdent_collection_end o) (use_rdf_type_a o)
    (use_sparql_style o) (use_intellij_style o) (place_type_on_subject_line o) v (convert_base o)
    (indent_width o) (predicate_padding o).
Definition ttl_put_width (v : N) (o : ttl_options) : ttl_options :=
  TtlOptions (id_base o) (nest_blank_nodes o) (outdent_blank_node_end o) (outdent_collection_end o) (use_rdf_type_a o)
    (use_sparql_style o) (use_intellij_style o) (place_type_on_subject_line o) (convert_to_id_base o) (convert_base o)
    v (predicate_padding o).
Definition ttl_put_padding (v : bool) (o : ttl_options) : ttl_options :=
  TtlOptions (id_base o) (nest_blank_nodes o) (outdent_blank_node_end o) (outdent_collection_end o) (use_rdf_type_a o)
    (use_sparql_style o) (use_intellij_style o) (place_type_on_subject_line o) (convert_to_id_base o) (convert_base o)
    (indent_width o) v.

(** turtle/writer.rs:166-171, 182-188, 190-195, 197-202, 204-209, 211-216, 218-223; 229-235,
    241, 249, 261, 274, 287-293; 320-323 with its [assert!]; 329. *)
Definition ttl_call_on (c : ttl_call) (o : ttl_options) : outcome ttl_options :=
  match c with
  | TWithIdBase i => Ret (ttl_put_base (Some i) o)
  | TWithIntellij => Ret (ttl_put_width 4 (ttl_put_intellij true o))
  | TWithSparql => Ret (ttl_put_sparql true o)
  | TWithIndentWidth n => Ret (ttl_put_width n o)
  | TWithPadding b => Ret (ttl_put_padding b o)
  | TWithNested => Ret (ttl_put_nest true o)
  | TWithoutNested => Ret (ttl_put_nest false o)
  | TSetIdBase i => Ret (ttl_put_base (Some i) o)
  | TUnsetIdBase => Ret (ttl_put_base None o)
  | TSetNest b => Ret (ttl_put_nest b o)
  | TSetSparql b => Ret (ttl_put_sparql b o)
  | TSetIntellij b => Ret (ttl_put_intellij b o)
  | TSetTypeLine b => Ret (ttl_put_type_line b o)
  | TSetConvertTo i => Ret (ttl_put_convert (Some i) o)
  | TUnsetConvertTo => Ret (ttl_put_convert None o)
  | TSetIndentWidth n => if 0 <? n then Ret (ttl_put_width n o) else Panic
  | TSetPadding b => Ret (ttl_put_padding b o)
  end.
Fixpoint ttl_calls_on (l : list ttl_call) (o : ttl_options) : outcome ttl_options :=
  match l with
  | [] => Ret o
  | c :: r => match ttl_call_on c o with Ret o' => ttl_calls_on r o' | Panic => Panic end
  end.

(** ** TriG *)

(** trig/writer.rs:12-16 [TrigWriterOptions]. *)
Record trig_options : Type := TrigOptions { tg_turtle : ttl_options; tg_omit : bool }.
(** trig/writer.rs:27-34 [From<TurtleWriterOptions>], 43-48 [with_omit_graph_keyword], 54-56
    [set_omit_graph_keyword]. *)
Definition trig_from (t : ttl_options) : trig_options := TrigOptions t false.
Definition trig_put_omit (v : bool) (o : trig_options) : trig_options := TrigOptions (tg_turtle o) v.

(** ** DOT *)

(** dot/writer.rs:87-263: a [with_..] and a [set_..] for every field. *)
Inductive dot_call : Type :=
| DBlankShape (s : str)
| DBlankColor (s : str)
| DBlankLabels (b : bool)
| DIriShape (s : str)
| DIriColor (s : str)
| DLiteralShape (s : str)
| DLiteralColor (s : str)
| DNodePrefix (s : str).
Definition dot_with (c : dot_call) (o : dot_options) : dot_options :=
  match c with
  | DBlankShape s => DotOptions s (blank_color o) (blank_labels o) (iri_shape o) (iri_color o) (literal_shape o)
      (literal_color o) (node_prefix o)
  | DBlankColor s => DotOptions (blank_shape o) s (blank_labels o) (iri_shape o) (iri_color o) (literal_shape o)
      (literal_color o) (node_prefix o)
  | DBlankLabels b => DotOptions (blank_shape o) (blank_color o) b (iri_shape o) (iri_color o) (literal_shape o)
      (literal_color o) (node_prefix o)
  | DIriShape s => DotOptions (blank_shape o) (blank_color o) (blank_labels o) s (iri_color o) (literal_shape o)
      (literal_color o) (node_prefix o)
  | DIriColor s => DotOptions (blank_shape o) (blank_color o) (blank_labels o) (iri_shape o) s (literal_shape o)
      (literal_color o) (node_prefix o)
  | DLiteralShape s => DotOptions (blank_shape o) (blank_color o) (blank_labels o) (iri_shape o) (iri_color o) s
      (literal_color o) (node_prefix o)
  | DLiteralColor s => DotOptions (blank_shape o) (blank_color o) (blank_labels o) (iri_shape o) (iri_color o)
      (literal_shape o) s (node_prefix o)
  | DNodePrefix s => DotOptions (blank_shape o) (blank_color o) (blank_labels o) (iri_shape o) (iri_color o)
      (literal_shape o) (literal_color o) s
  end.
Definition dot_calls_on (l : list dot_call) (o : dot_options) : dot_options := fold_left (fun o c => dot_with c o) l o.

(** ** XML *)

(** xml/writer.rs:38-46 [XmlOptions], 69-78 [Default], syntax.rs:9. *)
Record xml_options : Type := XmlOptions { xo_style : xml_style; xo_pretty : bool; xo_encoding : str }.
Definition xml_default_options : xml_options := XmlOptions XFlat false $"utf-8".
(** xml/writer.rs:80-126. *)
Inductive xml_call : Type := XCallFlat | XCallStriped | XCallPretty | XCallPlain | XCallEncoding (s : str).
Definition xml_with (c : xml_call) (o : xml_options) : xml_options :=
  match c with
  | XCallFlat => XmlOptions XFlat (xo_pretty o) (xo_encoding o)
  | XCallStriped => XmlOptions XStriped (xo_pretty o) (xo_encoding o)
  | XCallPretty => XmlOptions (xo_style o) true (xo_encoding o)
  | XCallPlain => XmlOptions (xo_style o) false (xo_encoding o)
  | XCallEncoding s => XmlOptions (xo_style o) (xo_pretty o) s
  end.
Definition xml_calls_on (l : list xml_call) (o : xml_options) : xml_options := fold_left (fun o c => xml_with c o) l o.
