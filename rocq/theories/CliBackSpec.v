(** What a user expects of converting a document to another format and back.  No proofs
    here. *)
From Verif Require Export CliMoreSpec TurtleReadSpec.

(** The triples of a text, and what each of them says. *)
Definition triples_say (e : env) (l : list triple_src) (sts : list statement) : Prop :=
  Forall2 (fun t st => triple_meaning (e_iri e) (e_lang e) (e_label e) (e_gext e) (e_printable e) t = io_ok st) l sts.

(** The events of an RDF/XML document as input. *)
Definition xml_input (items : list xml_item) : input := Input None None items.

(** A statement about a blank node, with an IRI or a literal; the data type is none of those
    that have a name of their own in the library. *)
Definition json_keeps (st : statement) : Prop :=
  (exists b, st_subject st = SBlank b) /\
  match st_object st with
  | OLit l => forall d, lit_data_type l = Some d -> dt_from_iri (dt_as_iri d) = d
  | ORes _ => True
  | _ => False
  end.
