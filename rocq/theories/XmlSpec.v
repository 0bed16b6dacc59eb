(** What an RDF/XML document says, independently of how it is written and read.  No proofs
    here. *)
From Verif Require Export Xml GraphSpec LiteralSpec.
From Coq Require Export Permutation.

(** A hash set is iterated in some order, each time. *)
Definition any_order {A} (ord : nat -> list A -> list A) : Prop :=
  forall t l, Permutation (ord t l) l.

(** ** Names *)

(** The last ['#'] or ['/'] of a text ends its first part. *)
Definition separator (c : chr) : Prop := c = 35 \/ c = 47.
Definition cut (t head tail : str) : Prop :=
  t = head ++ tail /\ (exists h c, head = h ++ [c] /\ separator c) /\ Forall (fun c => ~ separator c) tail.
(** What the writer makes of it: the second part gets as many bytes as the tail has
    characters. *)
Definition divided (t ns local : str) : Prop :=
  t = ns ++ local /\ exists head tail, cut t head tail /\ byte_len local = length tail.

(** XML 1.1, productions [4] and [4a], without the colon. *)
Definition name_start (c : chr) : bool :=
  is_alpha c || N.eqb c 95 || in_range 192 214 c || in_range 216 246 c || in_range 248 767 c
  || in_range 880 893 c || in_range 895 8191 c || in_range 8204 8205 c || in_range 8304 8591 c
  || in_range 11264 12271 c || in_range 12289 55295 c || in_range 63744 64975 c
  || in_range 65008 65533 c || in_range 65536 983039 c.
Definition name_char (c : chr) : bool :=
  name_start c || N.eqb c 45 || N.eqb c 46 || is_digit c || N.eqb c 183
  || in_range 768 879 c || in_range 8255 8256 c.
Definition ncname (s : str) : bool :=
  match s with [] => false | c :: r => name_start c && forallb name_char r end.
(** Namespaces in XML 1.1: a name has at most one colon, neither first nor last. *)
Definition qname (s : str) : option (option str * str) :=
  match split_on (N.eqb 58) s with
  | [l] => if ncname l then Some (None, l) else None
  | [p; l] => if ncname p && ncname l then Some (Some p, l) else None
  | _ => None
  end.

(** Namespaces in XML 1.1: what the prefix xml stands for. *)
Notation xml_ns := $"http://www.w3.org/XML/1998/namespace" (only parsing).
(** [scope] lists the declared namespaces, the innermost first. *)
Definition lookup_ns (scope : list (str * str)) (p : str) : option str :=
  if str_eqb p $"xml" then Some xml_ns else assoc_get p scope.
Definition element_xname (scope : list (str * str)) (s : str) : option xname :=
  match qname s with
  | Some (None, l) => Some (XName (assoc_get [] scope) l)
  | Some (Some p, l) => option_map (fun ns => XName (Some ns) l) (lookup_ns scope p)
  | None => None
  end.
Definition attribute_xname (scope : list (str * str)) (s : str) : option xname :=
  match qname s with
  | Some (None, l) => Some (XName None l)
  | Some (Some p, l) => option_map (fun ns => XName (Some ns) l) (lookup_ns scope p)
  | None => None
  end.

(** ** What is parsed of what is written

    The text that [xml-rs] writes for the events of the writer, as it reads it back.  This is
    trusted, for text and attributes made of [xml_char]s.  What is not well formed is an
    error. *)
Definition xml_space (c : chr) : bool := N.eqb c 32 || N.eqb c 9 || N.eqb c 10 || N.eqb c 13.
Definition xml_char (c : chr) : Prop :=
  c = 9 \/ c = 10 \/ 32 <= c <= 126 \/ (160 <= c <= 55295 /\ c <> 8232) \/ 57344 <= c <= 65533 \/ 65536 <= c.
(** In attributes line ends and tabs are replaced by blanks. *)
Definition attr_char (c : chr) : Prop := xml_char c /\ c <> 9 /\ c <> 10.
Definition text_items (s : str) : list xml_item :=
  match s with
  | [] => []
  | _ => if forallb xml_space s then [ISpace s] else [IChars s]
  end.
Fixpoint attribute_items (scope : list (str * str)) (l : list (str * str)) : option (list (xname * str)) :=
  match l with
  | [] => Some []
  | (n, v) :: r =>
      match attribute_xname scope n, attribute_items scope r with
      | Some x, Some xs => Some ((x, v) :: xs)
      | _, _ => None
      end
  end.
Fixpoint parsed (scopes : list (list (str * str))) (l : list xml_event) : list xml_item :=
  match l with
  | [] => [IDocEnd]
  | XStart n ns attrs :: r =>
      let scope := ns ++ hd [] scopes in
      match element_xname scope n, attribute_items scope attrs with
      | Some x, Some xs => IStart x xs :: parsed (scope :: scopes) r
      | _, _ => [IError]
      end
  | XEnd n :: r =>
      match element_xname (hd [] scopes) n with
      | Some x => IEnd x :: parsed (tl scopes) r
      | None => [IError]
      end
  | XText s :: r => text_items s ++ parsed scopes r
  end.
(** The whole document; [items] may have white space anywhere. *)
Definition is_space (i : xml_item) : bool := match i with ISpace _ => true | _ => false end.
Definition parses_to (doc : list xml_event) (items : list xml_item) : Prop :=
  filter (fun i => negb (is_space i)) items
  = filter (fun i => negb (is_space i)) (IOther :: parsed [] doc).

(** ** What a document shows of a graph *)

(** The statements about a subject, by predicates. *)
Definition groups (g : graph) (s : subject) (gs : list (str * list object)) : Prop :=
  NoDup (map fst gs) /\ (forall p os, In (p, os) gs -> os <> [] /\ NoDup os) /\
  forall p o, (exists os, In (p, os) gs /\ In o os) <-> In (MkStmt s p o) (g_list g).

(** The prefixes the writer knows, for an [Iri] that prints its bare text. *)
Definition known_prefixes : list (str * str) :=
  [($"http://purl.org/dc/elements/1.1/", $"dc");
   ($"http://xmlns.com/foaf/0.1/", $"foaf");
   ($"http://www.w3.org/2003/01/geo/wgs84_pos#", $"geo");
   ($"http://www.w3.org/2002/07/owl#", $"owl");
   ($"http://www.w3.org/1999/02/22-rdf-syntax-ns#", $"rdf");
   ($"http://www.w3.org/2000/01/rdf-schema#", $"rdfs");
   ($"http://www.w3.org/2001/XMLSchema#", $"xsd")].
Definition prefix_for (m : iri_mode) (ns : str) : option str :=
  assoc_get ns (map (fun e => (show_iri m (fst e), snd e)) known_prefixes).

(** The name of the element for the [k]th object of a predicate (from 0). *)
Definition element_name (prefix : option str) (k : nat) (local : str) : str :=
  match prefix with
  | None => local
  | Some p => concat (repeat (p ++ $":") (S k)) ++ local
  end.
Definition declares (prefix : option str) (ns : str) : list (str * str) :=
  match prefix with None => [([], ns)] | Some p => [(p, ns)] end.

Section Shows.
Variable m : iri_mode.
Variable g : graph.
(** Whether blank nodes are named ([flat]) or nested. *)
Variable named : bool.

Definition node_start (s : subject) (attrs : list (str * str)) : Prop :=
  match s with
  | SRes i => attrs = [($"rdf:about", i)]
  | SBlank b => attrs = if named then [($"rdf:nodeID", b)] else []
  | SStmt _ => False
  end.
Definition literal_start (l : literal) (attrs : list (str * str)) : Prop :=
  attrs = match lit_language l with None | Some [] => [] | Some t => [($"xml:lang", t)] end
          ++ match lit_data_type l with
             | Some d => [($"rdf:datatype", show_iri m (dt_as_iri d))]
             | None => []
             end.

Inductive shows_node : subject -> list xml_event -> Prop :=
| Xs_node s gs attrs body : node_start s attrs -> groups g s gs -> shows_groups gs body ->
    shows_node s ([XStart $"rdf:Description" [] attrs] ++ body ++ [XEnd $"rdf:Description"])
with shows_groups : list (str * list object) -> list xml_event -> Prop :=
| Xs_none : shows_groups [] []
| Xs_group p os r ns local b1 b2 : divided (show_iri m p) ns local ->
    shows_objects ns local 0 os b1 -> shows_groups r b2 -> shows_groups ((p, os) :: r) (b1 ++ b2)
with shows_objects : str -> str -> nat -> list object -> list xml_event -> Prop :=
| Xs_nil ns local k : shows_objects ns local k [] []
| Xs_cons ns local k o os attrs inner b : shows_object o attrs inner ->
    shows_objects ns local (S k) os b ->
    shows_objects ns local k (o :: os)
      ([XStart (element_name (prefix_for m ns) k local) (declares (prefix_for m ns) ns) attrs]
       ++ inner ++ [XEnd (element_name (prefix_for m ns) k local)] ++ b)
(** The attributes and the contents of a property element. *)
with shows_object : object -> list (str * str) -> list xml_event -> Prop :=
| Xs_iri i : shows_object (ORes i) [($"rdf:resource", show_iri m i)] []
| Xs_id b : named = true -> shows_object (OBlank b) [($"rdf:nodeID", b)] []
| Xs_nested b inner : named = false -> shows_node (SBlank b) inner -> shows_object (OBlank b) [] inner
| Xs_lit l attrs : literal_start l attrs -> shows_object (OLit l) attrs [XText (lexical_form l)].

(** A document: a node for each subject of a list. *)
Definition shows_document (subjects : list subject) (doc : list xml_event) : Prop :=
  exists blocks, Forall2 shows_node subjects blocks /\
    doc = [XStart $"rdf:RDF" [($"rdf", rdf [])] []] ++ concat blocks ++ [XEnd $"rdf:RDF"].
End Shows.

(** Every predicate can be divided. *)
Definition divisible (m : iri_mode) (sts : list statement) : Prop :=
  forall st, In st sts -> exists ns local, divided (show_iri m (st_predicate st)) ns local.

(** The statements of a striped document: those one comes to from an IRI. *)
Inductive reached (g : graph) : subject -> Prop :=
| Re_iri i p o : In (MkStmt (SRes i) p o) (g_list g) -> reached g (SRes i)
| Re_blank s p b : reached g s -> In (MkStmt s p (OBlank b)) (g_list g) -> reached g (SBlank b).
(** A way along blank nodes. *)
Inductive leads (g : graph) : str -> str -> Prop :=
| Le_step a p b : In (MkStmt (SBlank a) p (OBlank b)) (g_list g) -> leads g a b
| Le_more a p b c : In (MkStmt (SBlank a) p (OBlank b)) (g_list g) -> leads g b c -> leads g a c.
(** No way along blank nodes leads back: every step goes down. *)
Definition acyclic (g : graph) (depth : str -> nat) : Prop :=
  forall a p b, In (MkStmt (SBlank a) p (OBlank b)) (g_list g) -> (depth b < depth a)%nat.

(** ** What a document says

    The part of RDF/XML the reader understands: typed and untyped nodes with an IRI, a label
    or nothing, attributes for properties, and elements with text for properties. *)
Section Says.
Variable iri_parse : str -> option str.
Variable lang_parse : str -> option str.
Variable label_ok : str -> bool.
Variable gext printable : chr -> bool.
(** What may stand inside the element of a property; what its attributes say of the language
    (see [language_says]). *)
Variable inside : xml_item -> Prop.
Variable meant : list (xname * str) -> option str -> Prop.

Definition ignorable (i : xml_item) : Prop := match i with ISpace _ | IOther => True | _ => False end.
Definition gap (l : list xml_item) : Prop := Forall ignorable l.
Definition rdf_name (local : str) : xname := XName (Some (rdf [])) local.
(** An IRI as a name. *)
Definition names (n : xname) (p : str) : Prop :=
  exists ns, xn_space n = Some ns /\ iri_parse (ns ++ xn_local n) = Some p.

(** The attribute that says what a node is about, and the counter for new labels. *)
Inductive about_says : N -> list (xname * str) -> subject -> N -> Prop :=
| As_none n : about_says n [] (SBlank (gen_label n)) (n + 1)
| As_about n v i : iri_parse v = Some i -> about_says n [(rdf_name $"about", v)] (SRes i) n
| As_label n b : bn_from_str label_ok b = Some b -> about_says n [(rdf_name $"nodeID", b)] (SBlank b) n.
(** The name of the node. *)
Inductive type_says (s : subject) : xname -> list statement -> Prop :=
| Ty_none : type_says s (rdf_name $"Description") []
| Ty_some n t : n <> rdf_name $"Description" -> names n t ->
    type_says s n [MkStmt s (rdf $"type") (ORes t)].
(** Properties as attributes. *)
Definition attribute_says (s : subject) (a : xname * str) (st : statement) : Prop :=
  exists p, xn_space (fst a) <> Some (rdf []) /\ xn_space (fst a) <> Some xml_ns /\
    names (fst a) p /\ st = MkStmt s p (OLit (Lit (escape_string gext printable (snd a)) None None)).
(** Properties as elements. *)
Inductive language_says : list (xname * str) -> option str -> Prop :=
| La_none : language_says [] None
| La_some v t : lang_parse v = Some t -> language_says [(XName (Some xml_ns) $"lang", v)] (Some t).
Definition chars (i : xml_item) : str := match i with IChars s | ICData s => s | _ => [] end.
Definition is_chars (i : xml_item) : Prop := match i with IChars _ | ICData _ => True | _ => False end.
Inductive property_says (s : subject) : list xml_item -> statement -> Prop :=
| Pr_text n n' p attrs lang content : names n p -> meant attrs lang -> Forall inside content ->
    property_says s ([IStart n attrs] ++ content ++ [IEnd n'])
      (MkStmt s p (OLit (Lit (escape_string gext printable (flat_map chars content)) None lang))).
Inductive properties_say (s : subject) : list xml_item -> list statement -> Prop :=
| Ps_end l : gap l -> properties_say s l []
| Ps_more l a st b sts : gap l -> property_says s a st -> properties_say s b sts ->
    properties_say s (l ++ a ++ b) (st :: sts).
Inductive node_says (n : N) : list xml_item -> list statement -> N -> Prop :=
| No_node name name' s n' about attrs type props body sts :
    about_says n about s n' -> type_says s name type -> Forall2 (attribute_says s) attrs props ->
    properties_say s body sts ->
    node_says n ([IStart name (about ++ attrs)] ++ body ++ [IEnd name']) (type ++ props ++ sts) n'.
Inductive nodes_say : N -> list xml_item -> list statement -> N -> Prop :=
| Ns_end n l : gap l -> nodes_say n l [] n
| Ns_more n n' n'' l a x b y : gap l -> node_says n a x n' -> nodes_say n' b y n'' ->
    nodes_say n (l ++ a ++ b) (x ++ y) n''.
Definition document_says (n : N) (items : list xml_item) (sts : list statement) (n' : N) : Prop :=
  exists before attrs body name after rest,
    gap before /\ nodes_say n body sts n' /\ gap after /\ gap rest /\
    (attrs = [] \/ exists v b, attrs = [(XName (Some xml_ns) $"base", v)] /\ iri_parse v = Some b) /\
    items = before ++ [IStart (rdf_name $"RDF") attrs] ++ body ++ [IEnd name] ++ after ++ [IDocEnd] ++ rest.
End Says.

(** Start and end tags match, as in all that [xml-rs] delivers; [d] elements are open. *)
Fixpoint nested (d : nat) (l : list xml_item) : Prop :=
  match l with
  | [] => False
  | IError :: _ => True
  | IDocEnd :: _ => d = 0%nat
  | IStart _ _ :: r => nested (S d) r
  | IEnd _ :: r => match d with O => False | S d' => nested d' r end
  | _ :: r => nested d r
  end.

(** Something that is not well formed. *)
Definition broken (l : list xml_item) : Prop := exists a b, l = a ++ IError :: b /\ ~ In IDocEnd a.

(** What makes the reader panic. *)
Definition panics_at (i : xml_item) : Prop :=
  match i with
  | IStart n attrs =>
      xn_space n = None \/
      exists a v, In (a, v) attrs /\
        (xn_space a = None \/ a = rdf_name $"ID" \/ (a = rdf_name $"parseType" /\ v <> $"Resource"))
  | _ => False
  end.

(** ** What can be carried *)
Section Carried.
Variable iri_parse : str -> option str.
Variable lang_parse : str -> option str.
Variable label_ok : str -> bool.
Variable gext printable : chr -> bool.

Definition iri_carried (i : str) : Prop := iri_parse i = Some i /\ Forall attr_char i.
Definition label_carried (b : str) : Prop := bn_from_str label_ok b = Some b /\ Forall attr_char b.
Definition subject_carried (s : subject) : Prop :=
  match s with
  | SRes i => iri_carried i
  | SBlank b => label_carried b
  | SStmt _ => False
  end.
Definition predicate_carried (p : str) : Prop :=
  iri_carried p /\ exists ns local, divided p ns local /\ ncname local = true.
(** Text that is not white space only, except for no text at all. *)
Definition text_carried (s : str) : Prop :=
  Forall xml_char s /\ (s = [] \/ exists c, In c s /\ xml_space c = false).
Definition object_carried (o : object) : Prop :=
  match o with
  | ORes i => iri_carried i
  | OBlank b => label_carried b
  | OLit l =>
      text_carried (lexical_form l) /\
      match lit_language l with
      | Some t => t <> [] /\ lang_parse t = Some t /\ Forall attr_char t
      | None => True
      end
  | OColl _ | OStmt _ => False
  end.
Definition statement_carried (st : statement) : Prop :=
  subject_carried (st_subject st) /\ predicate_carried (st_predicate st) /\ object_carried (st_object st).
(** Predicates with a known prefix occur once about a subject. *)
Definition prefixed_once (sts : list statement) : Prop :=
  forall s p o o' ns local, In (MkStmt s p o) sts -> In (MkStmt s p o') sts ->
    divided p ns local -> prefix_for Bare ns <> None -> o = o'.
(** What becomes of a statement whose object is not an IRI. *)
Definition xml_reread (st : statement) : statement :=
  MkStmt (st_subject st) (st_predicate st)
    match st_object st with
    | OLit l => OLit (Lit (escape_string gext printable (lexical_form l)) None (lit_language l))
    | _ => OLit (Lit [] None None)
    end.
(** Literals which come back as they were. *)
Definition xml_stable (st : statement) : Prop :=
  exists l, st_object st = OLit l /\ lit_data_type l = None /\
    Forall (prints_as_itself gext printable) (lexical_form l).
End Carried.
