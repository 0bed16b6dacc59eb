(** More of what an RDF/XML document says: see [document_says] in XmlSpec.v for the rest.  No
    proofs here. *)
From Verif Require Export XmlSpec.

Section MoreSays.
Variable iri_parse : str -> option str.
Variable label_ok : str -> bool.
Variable gext printable : chr -> bool.
Variable meant : list (xname * str) -> option str -> Prop.
(** The text of XML events. *)
Variable emitted : list xml_item -> str.

Definition base_attribute (v : str) : xname * str := (XName (Some xml_ns) $"base", v).
(** What a node is about: as before, with or without a base for what is inside, or by
    [rdf:ID] if the base of the document is written with a ['#'] at the end. *)
Inductive more_about (base : option str) : N -> list (xname * str) -> subject -> N -> Prop :=
| Ma_plain n a s n' : about_says iri_parse label_ok n a s n' -> more_about base n a s n'
| Ma_base n a s n' v b : about_says iri_parse label_ok n a s n' -> iri_parse v = Some b ->
    more_about base n (a ++ [base_attribute v]) s n'
| Ma_id n v b' i (E : base = Some (b' ++ $"#")) : iri_parse (b' ++ $"#" ++ v) = Some i ->
    more_about base n [(rdf_name $"ID", v)] (SRes i) n.
(** Text, and well-formed contents. *)
Definition wordy (i : xml_item) : Prop := is_chars i \/ ignorable i.
Inductive contents : list xml_item -> Prop :=
| Ct_nil : contents []
| Ct_text i r : wordy i -> contents r -> contents (i :: r)
| Ct_element n a b n' r : contents b -> contents r -> contents (IStart n a :: b ++ IEnd n' :: r).
(** What an XML literal becomes: its angle brackets are escaped. *)
Definition angles_escaped (s : str) : str :=
  flat_map (fun c => if N.eqb c 60 then $"&lt;" else if N.eqb c 62 then $"&gt;" else [c]) s.
(** A property with an IRI, and one with an XML literal that ends in its only element. *)
Inductive reference_says (s : subject) : list xml_item -> statement -> Prop :=
| Rf_iri n n' p v i l : names iri_parse n p -> iri_parse v = Some i -> gap l ->
    reference_says s ([IStart n [(rdf_name $"resource", v)]] ++ l ++ [IEnd n']) (MkStmt s p (ORes i))
| Rf_xml n n' p t m a b m' l : names iri_parse n p -> Forall wordy t -> contents b -> gap l ->
    reference_says s ([IStart n [(rdf_name $"parseType", $"Literal")]] ++ (t ++ [IStart m a] ++ b ++ [IEnd m']) ++ l ++ [IEnd n'])
      (MkStmt s p (OLit (Lit (escape_string gext printable (angles_escaped (emitted (t ++ [IStart m a] ++ b ++ [IEnd m']))))
                             (Some DtXmlLiteral) None))).
(** Nodes, of which the last may end in such a property. *)
Inductive more_nodes (base : option str) : N -> list xml_item -> list statement -> N -> Prop :=
| Mn_end n l : gap l -> more_nodes base n l [] n
| Mn_more n n' n'' l name name' about attrs s type props body sts b y : gap l ->
    more_about base n about s n' -> type_says iri_parse s name type -> Forall2 (attribute_says iri_parse gext printable s) attrs props ->
    properties_say iri_parse gext printable is_chars meant s body sts ->
    more_nodes base n' b y n'' ->
    more_nodes base n (l ++ [IStart name (about ++ attrs)] ++ body ++ [IEnd name'] ++ b) ((type ++ props) ++ sts ++ y) n''
| Mn_last n n' l name name' about attrs s type props body sts a st gp last : gap l ->
    more_about base n about s n' -> type_says iri_parse s name type -> Forall2 (attribute_says iri_parse gext printable s) attrs props ->
    properties_say iri_parse gext printable is_chars meant s body sts -> reference_says s a st -> gap gp -> gap last ->
    more_nodes base n (l ++ [IStart name (about ++ attrs)] ++ body ++ a ++ gp ++ [IEnd name'] ++ last) ((type ++ props) ++ sts ++ [st]) n'.
Definition more_document (n : N) (items : list xml_item) (sts : list statement) (n' : N) : Prop :=
  exists before attrs base body name after rest,
    gap before /\ more_nodes base n body sts n' /\ gap after /\ gap rest /\
    (attrs = [] /\ base = None \/ exists v b, attrs = [base_attribute v] /\ iri_parse v = Some b /\ base = Some b) /\
    items = before ++ [IStart (rdf_name $"RDF") attrs] ++ body ++ [IEnd name] ++ after ++ [IDocEnd] ++ rest.

(** The base an element has of its own, and the nearest one of elements, from the inside out. *)
Definition own_base (attrs : list (xname * str)) (own : option str) : Prop :=
  attrs = [] /\ own = None \/ exists v b, attrs = [base_attribute v] /\ iri_parse v = Some b /\ own = Some b.
Inductive nearest_base : list (option str) -> str -> Prop :=
| Nb_here b l : nearest_base (Some b :: l) b
| Nb_outer b l : nearest_base l b -> nearest_base (None :: l) b.
End MoreSays.
