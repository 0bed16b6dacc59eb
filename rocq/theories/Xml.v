(** Model of rdftk_io/src/xml/writer.rs and reader.rs.  No proofs here.

    Both work on the events of the crate [xml-rs], so do the functions here; what [xml-rs]
    makes of them is in XmlSpec.v.  The writer recurses along the graph and the reader along
    the document, so both take fuel; running out of it is a result of its own. *)
From Verif Require Export Turtle.

(** ** The writer *)

(** [xml::writer::XmlEvent]: an element has a name as given, the namespaces it declares (the
    default one has the prefix [""]) and attributes.  The declaration at the start of the
    document and the indentation are left out. *)
Inductive xml_event : Type :=
| XStart (name : str) (ns : list (str * str)) (attrs : list (str * str))
| XEnd (name : str)
| XText (s : str).

(** writer.rs:27-33 [XmlStyle]; the other two options only concern the text. *)
Inductive xml_style : Type := XFlat | XStriped.

(** syntax.rs; writer.rs:61-68, 166. *)
Definition RDF_RDF : str := $"rdf:RDF".
Definition RDF_DESCRIPTION : str := $"rdf:Description".
Definition RDF_ABOUT : str := $"rdf:about".
Definition RDF_NODE_ID : str := $"rdf:nodeID".
Definition RDF_RESOURCE : str := $"rdf:resource".
Definition RDF_DATATYPE : str := $"rdf:datatype".
Definition XML_LANG : str := $"xml:lang".

(** [iri.chars().rev().enumerate().find_map(..)] of writer.rs:338-342: the number of
    characters before the first ['#'] or ['/']. *)
Definition is_separator (c : chr) : bool := N.eqb c 35 || N.eqb c 47.
Fixpoint find_separator (l : str) (i : nat) : option nat :=
  match l with
  | [] => None
  | c :: r => if is_separator c then Some i else find_separator r (S i)
  end.
(** [(&s[..k], &s[k..])] for a byte offset (std): panics if the string is shorter or the
    offset is inside a character. *)
Fixpoint split_bytes (s : str) (k : nat) {struct s} : outcome (str * str) :=
  match k with
  | O => Ret ([], s)
  | S _ =>
      match s with
      | [] => Panic
      | c :: r =>
          if Nat.leb (length (utf8 c)) k then
            match split_bytes r (k - length (utf8 c)) with
            | Ret (a, b) => Ret (c :: a, b)
            | Panic => Panic
            end
          else Panic
      end
  end.
(** writer.rs:336-347 [split_uri], on the text of the IRI. *)
Definition split_uri (iri : str) : outcome (str * str) :=
  match find_separator (rev iri) 0 with
  | None => Panic
  | Some index =>
      if Nat.eqb index (byte_len iri) then Panic else split_bytes iri (byte_len iri - index)
  end.

(** What has been written, and how many hash sets have been iterated. *)
Record xstate : Type := XState { x_out : list xml_event; x_tick : nat }.
Definition xaction : Type := xstate -> wres xstate.
Definition xskip : xaction := Done.
Definition xseq (a b : xaction) : xaction := fun s => wbind (a s) b.
Definition xemit (l : list xml_event) : xaction :=
  fun s => Done (XState (x_out s ++ l) (x_tick s)).
Definition xfail (e : io_error) : xaction := fun _ => Failed e.

Section Writer.
(** [Display for Iri]; the simplified graph; the orders of the hash sets of predicates and of
    objects. *)
Variable m : iri_mode.
Variable g : graph.
Variable ord_p : nat -> list str -> list str.
Variable ord_o : nat -> list object -> list object.

(** writer.rs:197-232 [default_mappings]; rdftk_names/src: the namespaces and prefixes. *)
Definition xml_mappings : list (str * str) :=
  [(show_iri m $"http://purl.org/dc/elements/1.1/", $"dc");
   (show_iri m $"http://xmlns.com/foaf/0.1/", $"foaf");
   (show_iri m $"http://www.w3.org/2003/01/geo/wgs84_pos#", $"geo");
   (show_iri m $"http://www.w3.org/2002/07/owl#", $"owl");
   (show_iri m $"http://www.w3.org/1999/02/22-rdf-syntax-ns#", $"rdf");
   (show_iri m $"http://www.w3.org/2000/01/rdf-schema#", $"rdfs");
   (show_iri m $"http://www.w3.org/2001/XMLSchema#", $"xsd")].

(** writer.rs:288-300, the attributes of a literal's element. *)
Definition literal_attrs (l : literal) : list (str * str) :=
  match lit_language l with
  | Some t => if is_nil t then [] else [(XML_LANG, t)]
  | None => []
  end
  ++ match lit_data_type l with
     | Some d => [(RDF_DATATYPE, show_iri m (dt_as_iri d))]
     | None => []
     end.

Section Objects.
(** [write_subject] of a blank node, with less fuel. *)
Variable write_blank : str -> xaction.

(** writer.rs:276-312, one object; [name] and [ns] are those of the element. *)
Definition write_property (flat : bool) (name : str) (ns : list (str * str)) (o : object) : xaction :=
  match o with
  | ORes i => xemit [XStart name ns [(RDF_RESOURCE, show_iri m i)]; XEnd name]
  | OBlank b =>
      if flat then xemit [XStart name ns [(RDF_NODE_ID, b)]; XEnd name]
      else xseq (xemit [XStart name ns []]) (xseq (write_blank b) (xemit [XEnd name]))
  | OLit l => xemit [XStart name ns (literal_attrs l); XText (lexical_form l); XEnd name]
  | OColl _ | OStmt _ => xfail RdfStarNotSupported
  end.
(** writer.rs:268-313; [name] is a variable that every object with a known namespace puts
    the prefix in front of. *)
Fixpoint write_properties (flat : bool) (ns name : str) (l : list object) : xaction :=
  match l with
  | [] => xskip
  | o :: r =>
      match assoc_get ns xml_mappings with
      | Some prefix =>
          let name' := prefix ++ $":" ++ name in
          xseq (write_property flat name' [(prefix, ns)] o) (write_properties flat ns name' r)
      | None =>
          xseq (write_property flat name [([], ns)] o) (write_properties flat ns name r)
      end
  end.
(** writer.rs:265-314. *)
Fixpoint write_predicates (flat : bool) (s : subject) (l : list str) : xaction :=
  match l with
  | [] => xskip
  | p :: r =>
      fun st =>
        match split_uri (show_iri m p) with
        | Panic => Crashed
        | Ret (ns, name) =>
            xseq (write_properties flat ns name (ord_o (x_tick st) (g_objects_for g s p)))
                 (write_predicates flat s r) (XState (x_out st) (S (x_tick st)))
        end
  end.
End Objects.

(** writer.rs:234-321 [write_subject]. *)
Fixpoint write_subject (fuel : nat) (flat : bool) (s : subject) : xaction :=
  match fuel with
  | O => fun _ => OutOfFuel
  | S fuel' =>
      let body : xaction := fun st =>
        xseq (write_predicates (fun b => write_subject fuel' flat (SBlank b)) flat s
                (ord_p (x_tick st) (g_predicates_for g s)))
             (xemit [XEnd RDF_DESCRIPTION]) (XState (x_out st) (S (x_tick st))) in
      match s with
      | SBlank b =>
          xseq (xemit [XStart RDF_DESCRIPTION [] (if flat then [(RDF_NODE_ID, b)] else [])]) body
      | SRes i => xseq (xemit [XStart RDF_DESCRIPTION [] [(RDF_ABOUT, i)]]) body
      | SStmt _ => xfail RdfStarNotSupported
      end
  end.
Fixpoint write_subjects (fuel : nat) (flat : bool) (l : list subject) : xaction :=
  match l with
  | [] => xskip
  | s :: r => xseq (write_subject fuel flat s) (write_subjects fuel flat r)
  end.
End Writer.

Definition s_is_resource (s : subject) : bool := match s with SRes _ => true | _ => false end.

(** writer.rs:149-191 [write]; [ho] and [n] are those of [simplify]. *)
Definition xml_write (m : iri_mode) (style : xml_style)
    (ord_s : list subject -> list subject) (ord_p : nat -> list str -> list str)
    (ord_o : nat -> list object -> list object) (ho : list statement -> list statement)
    (n : N) (fuel : nat) (g : graph) : wres (list xml_event) :=
  let simple := fst (g_simplify ho n g) in
  let subjects :=
    match style with
    | XFlat => ord_s (g_subjects simple)
    | XStriped => filter s_is_resource (ord_s (g_subjects simple))
    end in
  let flat := match style with XFlat => true | XStriped => false end in
  wbind (write_subjects m simple ord_p ord_o fuel flat subjects
           (XState [XStart RDF_RDF [($"rdf", rdf [])] []] 0))
    (fun s => Done (x_out s ++ [XEnd RDF_RDF])).

(** ** The reader *)

(** [xml::name::OwnedName] without its prefix. *)
Record xname : Type := XName { xn_space : option str; xn_local : str }.

(** [xml::reader::XmlEvent], with [Err] as an event.  Of names the reader looks at the
    namespace and the local part. *)
Inductive xml_item : Type :=
| IStart (name : xname) (attrs : list (xname * str))
| IEnd (name : xname)
| IChars (s : str)
| ICData (s : str)
| ISpace (s : str)
| IOther
| IDocEnd
| IError.

(** syntax.rs. *)
Definition XML_NAMESPACE : str := $"http://www.w3.org/XML/1998/namespace".

Inductive subject_type : Type :=
| TBlank (b : str)
| TResource (iri : str)
| TRelative (s : str).
Inductive parse_type : Type := PtLiteral | PtResource | PtCollection.
(** reader.rs:55-64 [Attributes]; its [data_type] is never set. *)
Record xattrs : Type := XAttrs {
  a_subject : option subject_type;
  a_parse : option parse_type;
  a_base : option str;
  a_data_type : option str;
  a_language : option str;
  a_resource : option str;
  a_inner : list (xname * str)
}.
Definition no_attrs : xattrs := XAttrs None None None None None None [].

Definition opt_str_eqb (a b : option str) : bool :=
  match a, b with
  | Some x, Some y => str_eqb x y
  | None, None => true
  | _, _ => false
  end.
(** reader.rs:92-94 [ExpectedName::matches]. *)
Definition name_matches (local ns : str) (n : xname) : bool :=
  str_eqb local (xn_local n) && opt_str_eqb (Some ns) (xn_space n).

(** The events not yet read, the counter of blank node labels, and the graph. *)
Record rstate : Type := RState { r_items : list xml_item; r_next : N; r_graph : graph }.

Section Reader.
(** As in Json.v; [m] is [Display for Iri]; [emitted] is the text [xml-rs] makes of the
    events inside an XML literal. *)
Variable m : iri_mode.
Variable iri_parse : str -> option str.
Variable lang_parse : str -> option str.
Variable label_ok : str -> bool.
Variable gext printable : chr -> bool.
Variable emitted : list xml_item -> str.

(** reader.rs:255-258 [value_to_iri], 246-253 [name_to_iri]. *)
Definition value_to_iri (s : str) : io str :=
  match iri_parse s with Some i => io_ok i | None => io_err InvalidIri end.
Definition name_to_iri (n : xname) : io str :=
  match xn_space n with
  | None => Panic
  | Some ns => value_to_iri (ns ++ xn_local n)
  end.

(** reader.rs:488-536 [parse_attributes]. *)
Fixpoint parse_attributes_from (r : xattrs) (l : list (xname * str)) : io xattrs :=
  match l with
  | [] => io_ok r
  | (n, v) :: more =>
      let? r' :=
        if opt_str_eqb (xn_space n) (Some XML_NAMESPACE) then
          if str_eqb (xn_local n) $"base" then
            let? i := value_to_iri v in
            io_ok (XAttrs (a_subject r) (a_parse r) (Some i) (a_data_type r) (a_language r) (a_resource r) (a_inner r))
          else if str_eqb (xn_local n) $"lang" then
            match lang_parse v with
            | Some t => io_ok (XAttrs (a_subject r) (a_parse r) (a_base r) (a_data_type r) (Some t) (a_resource r) (a_inner r))
            | None => io_err InvalidLanguageTag
            end
          else io_ok r
        else if opt_str_eqb (xn_space n) (Some (rdf [])) then
          if str_eqb (xn_local n) $"about" then
            let? i := value_to_iri v in
            io_ok (XAttrs (Some (TResource i)) (a_parse r) (a_base r) (a_data_type r) (a_language r) (a_resource r) (a_inner r))
          else if str_eqb (xn_local n) $"nodeID" then
            io_ok (XAttrs (Some (TBlank v)) (a_parse r) (a_base r) (a_data_type r) (a_language r) (a_resource r) (a_inner r))
          else if str_eqb (xn_local n) $"ID" then
            io_ok (XAttrs (Some (TRelative v)) (a_parse r) (a_base r) (a_data_type r) (a_language r) (a_resource r) (a_inner r))
          else if str_eqb (xn_local n) $"resource" then
            let? i := value_to_iri v in
            io_ok (XAttrs (a_subject r) (a_parse r) (a_base r) (a_data_type r) (a_language r) (Some i) (a_inner r))
          else if str_eqb (xn_local n) $"parseType" then
            let set t := io_ok (XAttrs (a_subject r) (Some t) (a_base r) (a_data_type r) (a_language r) (a_resource r) (a_inner r)) in
            if str_eqb v $"Literal" then set PtLiteral
            else if str_eqb v $"Resource" then set PtResource
            else if str_eqb v $"Collection" then set PtCollection
            else Panic
          else io_ok r
        else
          io_ok (XAttrs (a_subject r) (a_parse r) (a_base r) (a_data_type r) (a_language r) (a_resource r)
                   (a_inner r ++ [(n, v)])) in
      parse_attributes_from r' more
  end.
Definition parse_attributes (l : list (xname * str)) : io xattrs := parse_attributes_from no_attrs l.

(** reader.rs:190-208; the counter is used if a label is made. *)
Definition subject_of (base : option str) (a : xattrs) (n : N) : io (subject * N) :=
  match a_subject a with
  | None => io_ok (SBlank (gen_label n), n + 1)
  | Some (TResource i) => io_ok (SRes i, n)
  | Some (TRelative s) =>
      match base with
      | None => Panic
      | Some b => let? i := value_to_iri (show_iri m b ++ s) in io_ok (SRes i, n)
      end
  | Some (TBlank b) =>
      match bn_from_str label_ok b with
      | Some b' => io_ok (SBlank b', n)
      | None => io_err InvalidBlankNode
      end
  end.

(** reader.rs:260-279 [parse_predicate_attributes]. *)
Fixpoint parse_predicate_attributes (l : list (xname * str)) (s : subject) (g : graph) : io graph :=
  match l with
  | [] => io_ok g
  | (n, v) :: r =>
      let? p := name_to_iri n in
      parse_predicate_attributes r s (g_insert g (MkStmt s p (OLit (lit_plain gext printable v))))
  end.

Definition lift {A B} (x : io A) (f : A -> wres B) : wres B :=
  match x with
  | Ret (Ok a) => f a
  | Ret (Err e) => Failed e
  | Panic => Crashed
  end.

(** reader.rs:446-486 [parse_xml_literal_element].  An end tag without a start tag makes
    [xml-rs] refuse to write it, and the [unwrap] panics. *)
Fixpoint parse_xml_literal (l : list xml_item) (opened : nat) (seen : list xml_item)
  : wres (str * list xml_item) :=
  match l with
  | [] => OutOfFuel
  | IError :: _ => Failed Tokenizer
  | IStart n a :: r => parse_xml_literal r (S opened) (seen ++ [IStart n a])
  | IEnd n :: r =>
      match opened with
      | O => Crashed
      | S O => Done (emitted (seen ++ [IEnd n]), r)
      | S k => parse_xml_literal r k (seen ++ [IEnd n])
      end
  | e :: r => parse_xml_literal r opened (seen ++ [e])
  end.
(** [str::replace] of a character (std). *)
Definition replace_chr (c : chr) (w : str) (s : str) : str :=
  flat_map (fun x => if N.eqb x c then w else [x]) s.

Definition or_base (a : xattrs) (base : option str) : option str :=
  match a_base a with Some b => Some b | None => base end.

(** reader.rs:172-244 [parse_subject_element], 281-377 [parse_predicate_element], 379-444
    [parse_object_element].  Every turn of a loop takes one unit of fuel.  After the last
    event [xml-rs] repeats it, and only [parse_document] stops there. *)
Fixpoint parse_subjects (fuel : nat) (base : option str) (st : rstate) : wres rstate :=
  match fuel with
  | O => OutOfFuel
  | S fuel' =>
      match r_items st with
      | [] => OutOfFuel
      | IStart name attrs :: r =>
          lift (parse_attributes attrs) (fun a =>
          lift (subject_of base a (r_next st)) (fun sn =>
          let '(s, n) := sn in
          lift (if name_matches $"Description" (rdf []) name then io_ok (r_graph st)
                else let? t := name_to_iri name in
                     io_ok (g_insert (r_graph st) (MkStmt s (rdf $"type") (ORes t)))) (fun g1 =>
          lift (parse_predicate_attributes (a_inner a) s g1) (fun g2 =>
          wbind (parse_predicates fuel' (or_base a base) s false (RState r n g2))
            (fun st' => parse_subjects fuel' base st')))))
      | IEnd _ :: r => Done (RState r (r_next st) (r_graph st))
      | IError :: _ => Failed Tokenizer
      | _ :: r => parse_subjects fuel' base (RState r (r_next st) (r_graph st))
      end
  end
with parse_predicates (fuel : nat) (base : option str) (s : subject) (no_child_elements : bool)
    (st : rstate) : wres rstate :=
  match fuel with
  | O => OutOfFuel
  | S fuel' =>
      match r_items st with
      | [] => OutOfFuel
      | IStart name attrs :: r =>
          if no_child_elements then Failed Tokenizer
          else
            lift (parse_attributes attrs) (fun a =>
            match a_resource a with
            | Some i =>
                lift (name_to_iri name) (fun p =>
                  parse_predicates fuel' base s true
                    (RState r (r_next st) (g_insert (r_graph st) (MkStmt s p (ORes i)))))
            | None =>
                match a_parse a with
                | None =>
                    wbind (parse_object fuel' base [] false false (RState r (r_next st) (r_graph st)))
                      (fun cs =>
                        let '(content, st') := cs in
                        let l := match a_data_type a, a_language a with
                                 | Some d, _ => lit_with_data_type gext printable content (dt_from_iri d)
                                 | None, Some t => lit_with_language gext printable content t
                                 | None, None => lit_plain gext printable content
                                 end in
                        lift (name_to_iri name) (fun p =>
                          parse_predicates fuel' base s false
                            (RState (r_items st') (r_next st') (g_insert (r_graph st') (MkStmt s p (OLit l))))))
                | Some PtLiteral =>
                    wbind (parse_xml_literal r 0 []) (fun cr =>
                      let '(content, r') := cr in
                      let text := replace_chr 62 $"&gt;" (replace_chr 60 $"&lt;" content) in
                      lift (name_to_iri name) (fun p =>
                        parse_predicates fuel' base s false
                          (RState r' (r_next st)
                             (g_insert (r_graph st)
                                (MkStmt s p (OLit (lit_with_data_type gext printable text DtXmlLiteral)))))))
                | Some PtResource =>
                    wbind (parse_subjects fuel' (or_base a base) (RState r (r_next st + 1) (r_graph st)))
                      (fun st' => parse_predicates fuel' base s false st')
                | Some PtCollection => Crashed
                end
            end)
      | IEnd _ :: r => Done (RState r (r_next st) (r_graph st))
      | IError :: _ => Failed Tokenizer
      | _ :: r => parse_predicates fuel' base s no_child_elements (RState r (r_next st) (r_graph st))
      end
  end
with parse_object (fuel : nat) (base : option str) (content : str) (has_elements has_characters : bool)
    (st : rstate) : wres (str * rstate) :=
  match fuel with
  | O => OutOfFuel
  | S fuel' =>
      match r_items st with
      | [] => OutOfFuel
      | IStart name attrs :: r =>
          if has_characters then Failed Tokenizer
          else
            lift (parse_attributes attrs) (fun a =>
            wbind (parse_subjects fuel' (or_base a base) (RState r (r_next st + 1) (r_graph st)))
              (fun st' => parse_object fuel' base content true has_characters st'))
      | IEnd _ :: r => Done (content, RState r (r_next st) (r_graph st))
      | IChars v :: r | ICData v :: r =>
          if has_elements then Failed Tokenizer
          else parse_object fuel' base (content ++ v) has_elements true (RState r (r_next st) (r_graph st))
      | IError :: _ => Failed Tokenizer
      | _ :: r => parse_object fuel' base content has_elements has_characters (RState r (r_next st) (r_graph st))
      end
  end.

(** reader.rs:133-170 [parse_document]; 73-79 [read]. *)
Fixpoint parse_document (fuel : nat) (st : rstate) : wres rstate :=
  match fuel with
  | O => OutOfFuel
  | S fuel' =>
      match r_items st with
      | [] => Done st
      | IDocEnd :: _ => Done st
      | IStart name attrs :: r =>
          lift (parse_attributes attrs) (fun a =>
          if name_matches $"RDF" (rdf []) name then
            wbind (parse_subjects fuel' (a_base a) (RState r (r_next st) (r_graph st)))
              (fun st' => parse_document fuel' st')
          else Failed Tokenizer)
      | IError :: _ => Failed Tokenizer
      | _ :: r => parse_document fuel' (RState r (r_next st) (r_graph st))
      end
  end.
Definition xml_read (fuel : nat) (n : N) (items : list xml_item) : wres (graph * N) :=
  wbind (parse_document fuel (RState items n g_default)) (fun st => Done (r_graph st, r_next st)).
End Reader.
