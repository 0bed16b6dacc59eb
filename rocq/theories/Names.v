(** Model of rdftk_names: the macros [namespace!] and [nsname!] and the vocabularies made
    with them. *)
From Verif Require Import Str PName Url Iri.

(** The arguments of [namespace!]: prefix, namespace, and for each member the identifier of
    its function and its name. *)
Record table : Type := Table { tb_prefix : str; tb_ns : str; tb_members : list (str * str) }.

(** [HashMap::get] and [HashMap::insert] (std) for string keys. *)
Fixpoint assoc {A} (k : str) (l : list (str * A)) : option A :=
  match l with
  | [] => None
  | (k', v) :: r => if str_eqb k' k then Some v else assoc k r
  end.
Fixpoint assoc_insert {A} (k : str) (v : A) (l : list (str * A)) : list (str * A) :=
  match l with
  | [] => [(k, v)]
  | (k', v') :: r => if str_eqb k' k then (k', v) :: r else (k', v') :: assoc_insert k v r
  end.
Definition unwrap {A} (o : option A) : outcome A := match o with Some a => Ret a | None => Panic end.
Definition unwrap_ok {A E} (r : result A E) : outcome A := match r with Ok a => Ret a | Err _ => Panic end.
Definition and_then {A B} (o : outcome A) (f : A -> outcome B) : outcome B :=
  match o with Ret a => f a | Panic => Panic end.

Section Names.
(** [url::Url::parse]. *)
Variable parse : str -> option url.

(** rdftk_names/src/lib.rs:114-116 [NS_IRI]. *)
Definition ns_iri (t : table) : outcome iri := unwrap (iri_from_str parse (tb_ns t)).
(** lib.rs:118-120 [NS_PREFIX]. *)
Definition ns_prefix (t : table) : outcome name := unwrap_ok (name_from_str (tb_prefix t)).

(** lib.rs:127-144 [make_cache]: the members in turn. *)
Definition member_iri (t : table) (nm : str) : outcome iri :=
  and_then (ns_iri t) (fun ns =>
  and_then (unwrap_ok (name_from_str nm)) (fun n => unwrap (make_name ns n))).
Fixpoint cache_from (t : table) (l : list (str * str)) (cache : list (str * (iri * str)))
  : outcome (list (str * (iri * str))) :=
  match l with
  | [] => Ret cache
  | (_, nm) :: r =>
      and_then (member_iri t nm) (fun i =>
        cache_from t r (assoc_insert nm (i, tb_prefix t ++ $":" ++ nm) cache))
  end.
Definition make_cache (t : table) : outcome (list (str * (iri * str))) := cache_from t (tb_members t) [].

(** lib.rs:146-156 [default_prefix], [namespace_str], [namespace]. *)
Definition default_prefix_fn (t : table) : outcome name := ns_prefix t.
Definition namespace_str (t : table) : str := tb_ns t.
Definition namespace_fn (t : table) : outcome iri := ns_iri t.

(** lib.rs:175-201 [nsname!]: the three functions of a member, found by their identifier;
    [None] if there is no such function. *)
Definition from_cache {A} (f : iri * str -> A) (t : table) (nm : str) : outcome A :=
  and_then (make_cache t) (fun cache => and_then (unwrap (assoc nm cache)) (fun v => Ret (f v))).
Definition call (t : table) (fn : str) : option (outcome iri) :=
  option_map (from_cache fst t) (assoc fn (tb_members t)).
Definition call_str (t : table) (fn : str) : option str := assoc fn (tb_members t).
Definition call_qname (t : table) (fn : str) : option (outcome str) :=
  option_map (from_cache snd t) (assoc fn (tb_members t)).

(** rdftk_names/src/rdf.rs:38-48 [member], [member_qname]; the index in decimal. *)
Definition member_fn (t : table) (index : str) : outcome iri :=
  unwrap (iri_from_str parse (tb_ns t ++ $"_" ++ index)).
Definition member_qname (t : table) (index : str) : str := tb_prefix t ++ $":_" ++ index.
End Names.

(** rdftk_names/src/dc/dcam.rs:8-17. *)
Definition tb_dcam : table := Table $"dcam" $"http://purl.org/dc/dcam/"
  [($"vocabulary_encoding_scheme", $"VocabularyEncodingScheme");
   ($"domain_includes", $"domainIncludes"); ($"member_of", $"memberOf");
   ($"range_includes", $"rangeIncludes")].

(** rdftk_names/src/dc/dcmi_type.rs:7-24. *)
Definition tb_dcmi_type : table := Table $"dctype" $"http://purl.org/dc/dcmitype/"
  [($"collection", $"Collection"); ($"dataset", $"Dataset"); ($"event", $"Event"); ($"image", $"Image");
   ($"interactive_resource", $"InteractiveResource"); ($"moving_image", $"MovingImage");
   ($"physical_object", $"PhysicalObject"); ($"service", $"Service"); ($"software", $"Software");
   ($"sound", $"Sound"); ($"still_image", $"StillImage"); ($"text", $"Text")].

(** rdftk_names/src/dc/elements.rs:7-27. *)
Definition tb_dc_elements : table := Table $"dc" $"http://purl.org/dc/elements/1.1/"
  [($"contributor", $"contributor"); ($"coverage", $"coverage"); ($"creator", $"creator");
   ($"date", $"date"); ($"description", $"description"); ($"format", $"format");
   ($"identifier", $"identifier"); ($"language", $"language"); ($"publisher", $"publisher");
   ($"relation", $"relation"); ($"rights", $"rights"); ($"source", $"source"); ($"subject", $"subject");
   ($"title", $"title"); ($"a_type", $"type")].

(** rdftk_names/src/dc/terms.rs:7-109. *)
Definition tb_dc_terms : table := Table $"dcterms" $"http://purl.org/dc/terms/"
  [($"agent", $"Agent"); ($"agent_class", $"AgentClass");
   ($"bibliographic_resource", $"BibliographicResource"); ($"a_box", $"Box");
   ($"dcmi_type", $"DCMIType"); ($"ddc_classify", $"DDC"); ($"file_format", $"FileFormat");
   ($"frequency", $"Frequency"); ($"imt_classify", $"IMT"); ($"iso_3166", $"ISO3166");
   ($"iso_639_2", $"ISO639-2"); ($"iso_639_3", $"ISO639-3"); ($"jurisdiction", $"Jurisdiction");
   ($"lcc_classify", $"LCC"); ($"lcsh_classify", $"LCSH"); ($"license_document", $"LicenseDocument");
   ($"linguistic_system", $"LinguisticSystem"); ($"location", $"Location");
   ($"location_period_or_jurisdiction", $"LocationPeriodOrJurisdiction"); ($"mesh_classify", $"MESH");
   ($"media_type", $"MediaType"); ($"media_type_or_extent", $"MediaTypeOrExtent");
   ($"method_of_accrual", $"MethodOfAccrual"); ($"method_of_instruction", $"MethodOfInstruction");
   ($"nlm_classify", $"NLM"); ($"period", $"Period"); ($"period_of_time", $"PeriodOfTime");
   ($"physical_medium", $"PhysicalMedium"); ($"physical_resource", $"PhysicalResource");
   ($"point", $"Point"); ($"policy", $"Policy"); ($"rfc_1766", $"RFC1766"); ($"rfc_3066", $"RFC3066");
   ($"rfc_4646", $"RFC4646"); ($"rfc_5646", $"RFC5646"); ($"rights_statement", $"RightsStatement");
   ($"size_or_duration", $"SizeOrDuration"); ($"standard", $"Standard"); ($"tgn_classify", $"TGN");
   ($"udc_classify", $"UDC"); ($"uri", $"URI"); ($"w3c_dtf", $"W3CDTF"); ($"an_abstract", $"abstract");
   ($"access_rights", $"accessRights"); ($"accrual_method", $"accrualMethod");
   ($"accrual_periodicity", $"accrualPeriodicity"); ($"accrual_policy", $"accrualPolicy");
   ($"alternative", $"alternative"); ($"audience", $"audience"); ($"available", $"available");
   ($"bibliographic_citation", $"bibliographicCitation"); ($"conforms_to", $"conformsTo");
   ($"contributor", $"contributor"); ($"coverage", $"coverage"); ($"created", $"created");
   ($"creator", $"creator"); ($"date", $"date"); ($"date_accepted", $"dateAccepted");
   ($"date_copyrighted", $"dateCopyrighted"); ($"date_submitted", $"dateSubmitted");
   ($"description", $"description"); ($"education_level", $"educationLevel"); ($"extent", $"extent");
   ($"format", $"format"); ($"has_format", $"hasFormat"); ($"has_part", $"hasPart");
   ($"has_version", $"hasVersion"); ($"identifier", $"identifier");
   ($"instructional_method", $"instructionalMethod"); ($"is_format_of", $"isFormatOf");
   ($"is_part_of", $"isPartOf"); ($"is_referenced_by", $"isReferencedBy");
   ($"is_replaced_by", $"isReplacedBy"); ($"is_required_by", $"isRequiredBy");
   ($"is_version_of", $"isVersionOf"); ($"issued", $"issued"); ($"language", $"language");
   ($"license", $"license"); ($"mediator", $"mediator"); ($"medium", $"medium");
   ($"modified", $"modified"); ($"provenance", $"provenance"); ($"publisher", $"publisher");
   ($"references", $"references"); ($"relation", $"relation"); ($"replaces", $"replaces");
   ($"requires", $"requires"); ($"rights", $"rights"); ($"rights_holder", $"rightsHolder");
   ($"source", $"source"); ($"spatial", $"spatial"); ($"subject", $"subject");
   ($"temporal", $"temporal"); ($"title", $"title"); ($"a_type", $"type"); ($"valid", $"valid")].

(** rdftk_names/src/foaf.rs:6-59. *)
Definition tb_foaf : table := Table $"foaf" $"http://xmlns.com/foaf/0.1/"
  [($"agent", $"Agent"); ($"person", $"Person"); ($"name", $"name"); ($"title", $"title");
   ($"img", $"img"); ($"depiction", $"depiction"); ($"depicts", $"depicts");
   ($"family_name", $"familyName"); ($"given_name", $"givenName"); ($"knows", $"knows");
   ($"based_near", $"based_near"); ($"age", $"age"); ($"made", $"made"); ($"maker", $"maker");
   ($"primary_topic", $"primaryTopic"); ($"primary_topic_of", $"primaryTopicOf");
   ($"project", $"Project"); ($"organization", $"Organization"); ($"group", $"Group");
   ($"member", $"member"); ($"document", $"Document"); ($"image", $"Image"); ($"nick", $"nick");
   ($"mbox", $"mbox"); ($"homepage", $"homepage"); ($"weblog", $"weblog"); ($"openid", $"openid");
   ($"jabber_id", $"jabberID"); ($"mbox_sha1sum", $"mbox_sha1sum"); ($"interest", $"interest");
   ($"topic_interest", $"topic_interest"); ($"topic", $"topic"); ($"page", $"page");
   ($"workplace_homepage", $"workplaceHomepage"); ($"work_info_homepage", $"workInfoHomepage");
   ($"school_homepage", $"schoolHomepage"); ($"publications", $"publications");
   ($"current_project", $"currentProject"); ($"past_project", $"pastProject"); ($"account", $"account");
   ($"online_account", $"OnlineAccount"); ($"account_name", $"accountName");
   ($"account_service_homepage", $"accountServiceHomepage");
   ($"personal_profile_document", $"PersonalProfileDocument"); ($"tipjar", $"tipjar");
   ($"sha1", $"sha1"); ($"thumbnail", $"thumbnail"); ($"logo", $"logo")].

(** rdftk_names/src/geo.rs:5-19. *)
Definition tb_geo : table := Table $"geo" $"http://www.w3.org/2003/01/geo/wgs84_pos#"
  [($"spatial_thing", $"SpatialThing"); ($"temporal_thing", $"TemporalThing"); ($"event", $"Event");
   ($"point", $"Point"); ($"lat", $"lat"); ($"location", $"location"); ($"long", $"long");
   ($"alt", $"alt"); ($"lat_long", $"lat_long")].

(** rdftk_names/src/owl.rs:6-82. *)
Definition tb_owl : table := Table $"owl" $"http://www.w3.org/2002/07/owl#"
  [($"thing", $"Thing"); ($"nothing", $"Nothing"); ($"intersection_of", $"intersectionOf");
   ($"union_of", $"unionOf"); ($"complement_of", $"complementOf"); ($"one_of", $"oneOf");
   ($"restriction", $"Restriction"); ($"on_property", $"onProperty"); ($"on_class", $"onClass");
   ($"on_datatype", $"onDatatype"); ($"all_values_from", $"allValuesFrom");
   ($"some_values_from", $"someValuesFrom"); ($"has_value", $"hasValue"); ($"has_self", $"hasSelf");
   ($"cardinality", $"cardinality"); ($"qualified_cardinality", $"qualifiedCardinality");
   ($"max_cardinality", $"maxCardinality"); ($"max_qualified_cardinality", $"maxQualifiedCardinality");
   ($"min_cardinality", $"minCardinality"); ($"min_qualified_cardinality", $"minQualifiedCardinality");
   ($"datatype_complement_of", $"datatypeComplementOf"); ($"with_restrictions", $"withRestrictions");
   ($"equivalent_class", $"equivalentClass"); ($"disjoint_with", $"disjointWith");
   ($"all_disjoint_classes", $"AllDisjointClasses"); ($"members", $"members");
   ($"disjoint_union_of", $"disjointUnionOf"); ($"property_chain_axiom", $"propertyChainAxiom");
   ($"equivalent_property", $"equivalentProperty");
   ($"property_disjoint_with", $"propertyDisjointWith");
   ($"all_disjoint_properties", $"AllDisjointProperties"); ($"inverse_of", $"inverseOf");
   ($"functional_property", $"FunctionalProperty");
   ($"inverse_functional_property", $"InverseFunctionalProperty");
   ($"reflexive_property", $"ReflexiveProperty"); ($"irreflexive_property", $"IrreflexiveProperty");
   ($"symmetric_property", $"SymmetricProperty"); ($"asymmetric_property", $"AsymmetricProperty");
   ($"transitive_property", $"TransitiveProperty"); ($"same_as", $"sameAs");
   ($"different_from", $"differentFrom"); ($"all_different", $"AllDifferent");
   ($"negative_property_assertion", $"NegativePropertyAssertion");
   ($"source_individual", $"sourceIndividual"); ($"assertion_property", $"assertionProperty");
   ($"target_individual", $"targetIndividual"); ($"target_value", $"targetValue");
   ($"has_key", $"hasKey"); ($"class", $"Class"); ($"object_property", $"ObjectProperty");
   ($"datatype_property", $"DatatypeProperty"); ($"annotation_property", $"AnnotationProperty");
   ($"named_individual", $"NamedIndividual"); ($"axiom", $"Axiom");
   ($"annotated_source", $"annotatedSource"); ($"annotated_property", $"annotatedProperty");
   ($"annotated_target", $"annotatedTarget"); ($"version_info", $"versionInfo");
   ($"deprecated", $"deprecated"); ($"backward_compatible_with", $"backwardCompatibleWith");
   ($"incompatible_with", $"incompatible_with"); ($"prior_version", $"priorVersion");
   ($"ontology", $"Ontology"); ($"version", $"version"); ($"imports", $"imports");
   ($"rational", $"rational"); ($"real", $"real"); ($"distinct_members", $"distinctMembers");
   ($"ontology_property", $"OntologyProperty"); ($"deprecated_class", $"DeprecatedClass");
   ($"deprecated_property", $"DeprecatedProperty")].

(** rdftk_names/src/rdf.rs:8-36. *)
Definition tb_rdf : table := Table $"rdf" $"http://www.w3.org/1999/02/22-rdf-syntax-ns#"
  [($"html", $"HTML"); ($"lang_string", $"langString"); ($"plain_literal", $"PlainLiteral");
   ($"a_type", $"type"); ($"property", $"Property"); ($"statement", $"Statement");
   ($"subject", $"subject"); ($"predicate", $"predicate"); ($"object", $"object"); ($"bag", $"Bag");
   ($"seq", $"Seq"); ($"alt", $"Alt"); ($"value", $"value"); ($"list", $"List"); ($"nil", $"nil");
   ($"first", $"first"); ($"rest", $"rest"); ($"li", $"li"); ($"xml_literal", $"XMLLiteral");
   ($"json", $"JSON"); ($"compound_literal", $"CompoundLiteral"); ($"language", $"language");
   ($"direction", $"direction")].

(** rdftk_names/src/rdfs.rs:5-37. *)
Definition tb_rdfs : table := Table $"rdfs" $"http://www.w3.org/2000/01/rdf-schema#"
  [($"resource", $"Resource"); ($"class", $"Class"); ($"literal", $"Literal");
   ($"data_type", $"Datatype"); ($"lang_string", $"langString"); ($"html_literal", $"HTML");
   ($"xml_literal", $"XMLLiteral"); ($"property", $"Property"); ($"range", $"range");
   ($"domain", $"domain"); ($"subclass_of", $"subClassOf"); ($"subproperty_of", $"subPropertyOf");
   ($"label", $"label"); ($"comment", $"comment"); ($"container", $"Container");
   ($"container_membership_property", $"ContainerMembershipProperty"); ($"member", $"member");
   ($"see_also", $"seeAlso"); ($"is_defined_by", $"isDefinedBy"); ($"value", $"value")].

(** rdftk_names/src/skos.rs:5-43. *)
Definition tb_skos : table := Table $"skos" $"http://www.w3.org/2004/02/skos/core#"
  [($"collection", $"Collection"); ($"concept", $"Concept"); ($"concept_scheme", $"ConceptScheme");
   ($"ordered_collection", $"OrderedCollection"); ($"alt_label", $"altLabel");
   ($"broad_match", $"broadMatch"); ($"broader", $"broader");
   ($"broader_transitive", $"broaderTransitive"); ($"change_note", $"changeNote");
   ($"close_match", $"closeMatch"); ($"definition", $"definition");
   ($"editorial_note", $"editorialNote"); ($"exact_match", $"exactMatch"); ($"example", $"example");
   ($"has_top_concept", $"hasTopConcept"); ($"hidden_label", $"hiddenLabel");
   ($"history_note", $"historyNote"); ($"in_scheme", $"inScheme");
   ($"mapping_relation", $"mappingRelation"); ($"member", $"member"); ($"member_list", $"memberList");
   ($"narrow_match", $"narrowMatch"); ($"narrower", $"narrower");
   ($"narrower_transitive", $"narrowerTransitive"); ($"notation", $"notation"); ($"note", $"note");
   ($"pref_label", $"prefLabel"); ($"related", $"related"); ($"related_match", $"relatedMatch");
   ($"scope_note", $"scopeNote"); ($"semantic_relation", $"semanticRelation");
   ($"top_concept_of", $"topConceptOf")].

(** rdftk_names/src/xsd.rs:5-56. *)
Definition tb_xsd : table := Table $"xsd" $"http://www.w3.org/2001/XMLSchema#"
  [($"any_uri", $"anyURI"); ($"base64_binary", $"base64Binary"); ($"date", $"date");
   ($"date_time", $"dateTime"); ($"date_time_stamp", $"dateTimeStamp");
   ($"day_time_duration", $"dayTimeDuration"); ($"decimal", $"decimal"); ($"duration", $"duration");
   ($"entity", $"entity"); ($"g_day", $"gDay"); ($"g_month", $"gMonth"); ($"g_month_day", $"gMonthDay");
   ($"g_year", $"gYear"); ($"g_year_month", $"gYearMonth"); ($"hex_binary", $"hexBinary");
   ($"id", $"ID"); ($"id_ref", $"IDREF"); ($"id_refs", $"IDREFS"); ($"integer", $"integer");
   ($"language", $"language"); ($"name", $"Name"); ($"nc_name", $"NCName"); ($"nm_token", $"NMTOKEN");
   ($"nm_tokens", $"NMTOKENS"); ($"non_negative_integer", $"nonNegativeInteger");
   ($"non_positive_integer", $"nonPositiveInteger"); ($"normalized_string", $"normalizedString");
   ($"notation", $"NOTATION"); ($"ns", $"NS"); ($"positive_integer", $"positiveInteger");
   ($"q_name", $"QName"); ($"time", $"time"); ($"token", $"token"); ($"unsigned_byte", $"unsignedByte");
   ($"unsigned_int", $"unsignedInt"); ($"unsigned_long", $"unsignedLong");
   ($"unsigned_short", $"unsignedShort"); ($"boolean", $"boolean"); ($"byte", $"byte");
   ($"double", $"double"); ($"float", $"float"); ($"int", $"int"); ($"long", $"long");
   ($"short", $"short"); ($"string", $"string"); ($"year_month_duration", $"yearMonthDuration")].

Definition shipped : list table :=
  [tb_dcam; tb_dcmi_type; tb_dc_elements; tb_dc_terms; tb_foaf; tb_geo; tb_owl; tb_rdf; tb_rdfs; tb_skos; tb_xsd].
