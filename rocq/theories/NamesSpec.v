(** Vocabulary for the statements about rdftk_names.  No proofs here. *)
From Verif Require Export Str PName Url Iri Names IriSpec PrefixMapSpec.

(** A table as its author would want it: the namespace is an IRI that can be extended by
    names, and the names are valid and written in ASCII. *)
Definition valid_member (nm : str) : Prop := name_from_str nm = Ok (MkName nm) /\ forallb is_ascii nm = true.
Definition sound (t : table) : Prop :=
  (exists u, wf_url u = true /\ namespace_like u /\ url_ser u = tb_ns t) /\
  (forall f nm, In (f, nm) (tb_members t) -> valid_member nm).
(** One function per identifier: otherwise the module does not compile. *)
Definition distinct_functions (t : table) : Prop := NoDup (map fst (tb_members t)).
(** A name cannot be appended. *)
Definition closed_namespace (u : url) : Prop :=
  u_frag u = None /\ (ends_with_chr 47 (u_path u) = false \/ u_query u <> None).

(** RDF Schema 1.1, and XML Schema Part 2 (all simple types), as far as named in RDF 1.1. *)
Definition rdfs_terms : list str :=
  [$"Resource"; $"Class"; $"Literal"; $"Datatype"; $"range"; $"domain"; $"subClassOf"; $"subPropertyOf";
   $"label"; $"comment"; $"Container"; $"ContainerMembershipProperty"; $"member"; $"seeAlso"; $"isDefinedBy"].
Definition xsd_terms : list str :=
  [$"anySimpleType"; $"anyAtomicType"; $"anyURI"; $"base64Binary"; $"boolean"; $"date"; $"dateTime";
   $"dateTimeStamp"; $"decimal"; $"integer"; $"long"; $"int"; $"short"; $"byte"; $"nonNegativeInteger";
   $"positiveInteger"; $"unsignedLong"; $"unsignedInt"; $"unsignedShort"; $"unsignedByte";
   $"nonPositiveInteger"; $"negativeInteger"; $"double"; $"duration"; $"dayTimeDuration";
   $"yearMonthDuration"; $"float"; $"gDay"; $"gMonth"; $"gMonthDay"; $"gYear"; $"gYearMonth"; $"hexBinary";
   $"NOTATION"; $"QName"; $"string"; $"normalizedString"; $"token"; $"language"; $"Name"; $"NCName";
   $"ENTITY"; $"ID"; $"IDREF"; $"NMTOKEN"; $"time"; $"ENTITIES"; $"IDREFS"; $"NMTOKENS"].
(** The classes, properties and data types of RDF 1.1 and JSON-LD 1.1 in the RDF namespace;
    [li] is only part of the syntax of RDF/XML. *)
Definition rdf_terms : list str :=
  [$"HTML"; $"langString"; $"PlainLiteral"; $"type"; $"Property"; $"Statement"; $"subject"; $"predicate";
   $"object"; $"Bag"; $"Seq"; $"Alt"; $"value"; $"List"; $"nil"; $"first"; $"rest"; $"XMLLiteral"; $"JSON";
   $"CompoundLiteral"; $"language"; $"direction"; $"li"].
(** SKOS Reference, appendix B. *)
Definition skos_terms : list str :=
  [$"Collection"; $"Concept"; $"ConceptScheme"; $"OrderedCollection"; $"altLabel"; $"broadMatch";
   $"broader"; $"broaderTransitive"; $"changeNote"; $"closeMatch"; $"definition";
   $"editorialNote"; $"exactMatch"; $"example"; $"hasTopConcept"; $"hiddenLabel"; $"historyNote";
   $"inScheme"; $"mappingRelation"; $"member"; $"memberList"; $"narrowMatch"; $"narrower";
   $"narrowerTransitive"; $"notation"; $"note"; $"prefLabel"; $"related"; $"relatedMatch";
   $"scopeNote"; $"semanticRelation"; $"topConceptOf"].
(** The reserved vocabulary of OWL 2 and of its mapping to RDF graphs. *)
Definition owl_terms : list str :=
  [$"Nothing"; $"Thing"; $"backwardCompatibleWith"; $"bottomDataProperty";
   $"bottomObjectProperty"; $"deprecated"; $"incompatibleWith"; $"priorVersion"; $"rational";
   $"real"; $"topDataProperty"; $"topObjectProperty"; $"versionInfo"; $"AllDifferent";
   $"AllDisjointClasses"; $"AllDisjointProperties"; $"allValuesFrom"; $"annotatedProperty";
   $"annotatedSource"; $"annotatedTarget"; $"Annotation"; $"AnnotationProperty";
   $"assertionProperty"; $"AsymmetricProperty"; $"Axiom"; $"cardinality"; $"Class";
   $"complementOf"; $"DataRange"; $"datatypeComplementOf"; $"DatatypeProperty";
   $"DeprecatedClass"; $"DeprecatedProperty"; $"differentFrom"; $"disjointUnionOf";
   $"disjointWith"; $"distinctMembers"; $"equivalentClass"; $"equivalentProperty";
   $"FunctionalProperty"; $"hasKey"; $"hasSelf"; $"hasValue"; $"imports"; $"intersectionOf";
   $"InverseFunctionalProperty"; $"inverseOf"; $"IrreflexiveProperty"; $"maxCardinality";
   $"maxQualifiedCardinality"; $"members"; $"minCardinality"; $"minQualifiedCardinality";
   $"NamedIndividual"; $"NegativePropertyAssertion"; $"ObjectProperty"; $"onClass";
   $"onDataRange"; $"onDatatype"; $"oneOf"; $"onProperties"; $"onProperty"; $"Ontology";
   $"OntologyProperty"; $"propertyChainAxiom"; $"propertyDisjointWith"; $"qualifiedCardinality";
   $"ReflexiveProperty"; $"Restriction"; $"sameAs"; $"someValuesFrom"; $"sourceIndividual";
   $"SymmetricProperty"; $"targetIndividual"; $"targetValue"; $"TransitiveProperty"; $"unionOf";
   $"versionIRI"; $"withRestrictions"].

(** DCMI Metadata Terms: properties, encoding schemes and classes of the namespace terms; the
    fifteen elements; the types; the abstract model. *)
Definition dc_terms_terms : list str :=
  [$"abstract"; $"accessRights"; $"accrualMethod"; $"accrualPeriodicity"; $"accrualPolicy";
   $"alternative"; $"audience"; $"available"; $"bibliographicCitation"; $"conformsTo";
   $"contributor"; $"coverage"; $"created"; $"creator"; $"date"; $"dateAccepted";
   $"dateCopyrighted"; $"dateSubmitted"; $"description"; $"educationLevel"; $"extent"; $"format";
   $"hasFormat"; $"hasPart"; $"hasVersion"; $"identifier"; $"instructionalMethod"; $"isFormatOf";
   $"isPartOf"; $"isReferencedBy"; $"isReplacedBy"; $"isRequiredBy"; $"issued"; $"isVersionOf";
   $"language"; $"license"; $"mediator"; $"medium"; $"modified"; $"provenance"; $"publisher";
   $"references"; $"relation"; $"replaces"; $"requires"; $"rights"; $"rightsHolder"; $"source";
   $"spatial"; $"subject"; $"tableOfContents"; $"temporal"; $"title"; $"type"; $"valid";
   $"DCMIType"; $"DDC"; $"IMT"; $"LCC"; $"LCSH"; $"MESH"; $"NLM"; $"TGN"; $"UDC"; $"Box";
   $"ISO3166"; $"ISO639-2"; $"ISO639-3"; $"Period"; $"Point"; $"RFC1766"; $"RFC3066"; $"RFC4646";
   $"RFC5646"; $"URI"; $"W3CDTF"; $"Agent"; $"AgentClass"; $"BibliographicResource"; $"FileFormat";
   $"Frequency"; $"Jurisdiction"; $"LicenseDocument"; $"LinguisticSystem"; $"Location";
   $"LocationPeriodOrJurisdiction"; $"MediaType"; $"MediaTypeOrExtent"; $"MethodOfAccrual";
   $"MethodOfInstruction"; $"PeriodOfTime"; $"PhysicalMedium"; $"PhysicalResource"; $"Policy";
   $"ProvenanceStatement"; $"RightsStatement"; $"SizeOrDuration"; $"Standard"].
Definition dc_elements_terms : list str :=
  [$"contributor"; $"coverage"; $"creator"; $"date"; $"description"; $"format"; $"identifier";
   $"language"; $"publisher"; $"relation"; $"rights"; $"source"; $"subject"; $"title"; $"type"].
Definition dcmi_type_terms : list str :=
  [$"Collection"; $"Dataset"; $"Event"; $"Image"; $"InteractiveResource"; $"MovingImage";
   $"PhysicalObject"; $"Service"; $"Software"; $"Sound"; $"StillImage"; $"Text"].
Definition dcam_terms : list str :=
  [$"VocabularyEncodingScheme"; $"memberOf"; $"domainIncludes"; $"rangeIncludes"].
(** FOAF Vocabulary Specification 0.99. *)
Definition foaf_terms : list str :=
  [$"Agent"; $"Document"; $"Group"; $"Image"; $"LabelProperty"; $"OnlineAccount";
   $"OnlineChatAccount"; $"OnlineEcommerceAccount"; $"OnlineGamingAccount"; $"Organization";
   $"Person"; $"PersonalProfileDocument"; $"Project"; $"account"; $"accountName";
   $"accountServiceHomepage"; $"age"; $"aimChatID"; $"based_near"; $"birthday"; $"currentProject";
   $"depiction"; $"depicts"; $"dnaChecksum"; $"familyName"; $"family_name"; $"firstName"; $"focus";
   $"fundedBy"; $"geekcode"; $"gender"; $"givenName"; $"givenname"; $"holdsAccount"; $"homepage";
   $"icqChatID"; $"img"; $"interest"; $"isPrimaryTopicOf"; $"jabberID"; $"knows"; $"lastName";
   $"logo"; $"made"; $"maker"; $"mbox"; $"mbox_sha1sum"; $"member"; $"membershipClass";
   $"msnChatID"; $"myersBriggs"; $"name"; $"nick"; $"openid"; $"page"; $"pastProject"; $"phone";
   $"plan"; $"primaryTopic"; $"publications"; $"schoolHomepage"; $"sha1"; $"skypeID"; $"status";
   $"surname"; $"theme"; $"thumbnail"; $"tipjar"; $"title"; $"topic"; $"topic_interest"; $"weblog";
   $"workInfoHomepage"; $"workplaceHomepage"; $"yahooChatID"].
(** The WGS84 geo vocabulary. *)
(** The prefixes in use for the namespaces. *)
Definition customary_prefixes : list (str * str) :=
  [($"rdf", $"http://www.w3.org/1999/02/22-rdf-syntax-ns#"); ($"rdfs", $"http://www.w3.org/2000/01/rdf-schema#");
   ($"xsd", $"http://www.w3.org/2001/XMLSchema#"); ($"owl", $"http://www.w3.org/2002/07/owl#");
   ($"skos", $"http://www.w3.org/2004/02/skos/core#"); ($"dc", $"http://purl.org/dc/elements/1.1/");
   ($"dcterms", $"http://purl.org/dc/terms/"); ($"dctype", $"http://purl.org/dc/dcmitype/"); ($"dcam", $"http://purl.org/dc/dcam/");
   ($"foaf", $"http://xmlns.com/foaf/0.1/"); ($"geo", $"http://www.w3.org/2003/01/geo/wgs84_pos#")].
Definition geo_terms : list str :=
  [$"SpatialThing"; $"TemporalThing"; $"Event"; $"Point"; $"lat"; $"location"; $"long"; $"alt";
   $"lat_long"; $"time"; $"event"].

(** A function is spelled like the name: the same letters and digits, whatever their case,
    apart from an article before it or a word after it where the name alone is a keyword of
    Rust or an abbreviation. *)
Definition small (c : chr) : chr := if N.leb 65 c && N.leb c 90 then c + 32 else c.
Definition letters (s : str) : str := filter is_alnum (map small s).
Definition spelled_like (f nm : str) : Prop :=
  exists before after, letters f = before ++ letters nm ++ after /\
    In (before, after) [([], []); ($"a", []); ($"an", []); ([], $"classify"); ([], $"literal")].
