{"claims": [
 {"property": "C01", "status": "proved", "theorems": ["C01_name_accepts_exactly_PN_LOCAL"], "note": ""},
 {"property": "C02", "status": "proved", "theorems": ["C02_namespace_grammar_refuted", "C02_namespace_accepts_exactly"], "note": "Refuted as stated: a prefix ending in '.' (\"a.:\") is accepted. C02_namespace_accepts_exactly gives the exact accepted set: PNAME_NS plus prefixes ending in '.'."},
 {"property": "C03", "status": "proved", "theorems": ["C03_local_name_parse_display", "C03_local_name_display_parse", "C03_local_name_display_injective"], "note": ""},
 {"property": "C04", "status": "proved", "theorems": ["C04_name_string_total", "C04_separator_optional"], "note": ""},
 {"property": "C05", "status": "proved", "theorems": ["C05_namespace_errors", "C05_name_errors", "C05_local_name_errors", "C05_local_name_invalid"], "note": ""},
 {"property": "C06", "status": "proved", "theorems": ["C06_display_parse", "C06_brackets", "C06_parser_exists", "C06_equality"], "note": "Url::parse is a quantified function assumed to invert serialisation of normalised URLs; C06_parser_exists shows the assumption can be met."},
 {"property": "C07", "status": "proved", "theorems": ["C07_split_make_name_refuted", "C07_split_make_name", "C07_empty_fragment"], "note": "Refuted as stated: an IRI ending in a bare '#' splits by path but re-joins by fragment (https://e/ns/Name#). The iff theorem gives exactly when it holds."},
 {"property": "C08", "status": "proved", "theorems": ["C08_make_name_split_refuted", "C08_make_name_split"], "note": "Refuted as stated for names with non-ASCII characters (percent-encoded in the URL, '%' is no name character). The iff theorem gives exactly when it holds."},
 {"property": "C09", "status": "proved", "theorems": ["C09_split_never_panics_refuted", "C09_split_panics_exactly"], "note": "Refuted as stated: opaque IRIs such as urn:isbn:42 panic (path_segments().unwrap()). The iff theorem lists exactly the panicking IRIs."},
 {"property": "C10", "status": "proved", "theorems": ["C10_halves", "C10_split_gives_namespace", "C10_namespace_accepts_names", "C10_namespace_forms"], "note": ""},
 {"property": "C11", "status": "proved", "theorems": ["C11_bijection"], "note": ""},
 {"property": "C12", "status": "proved", "theorems": ["C12_refines_relation", "C12_operation_effects"], "note": ""},
 {"property": "C13", "status": "proved", "theorems": ["C13_compress_expand_refuted", "C13_compress_expand"], "note": "Refuted as stated for an IRI ending in a bare '#'; the iff theorem gives exactly when it holds."},
 {"property": "C14", "status": "proved", "theorems": ["C14_expand_compress_refuted", "C14_expand_compress"], "note": "Refuted as stated for non-ASCII names; the iff theorem gives exactly when it holds."},
 {"property": "C15", "status": "proved", "theorems": ["C15_compress_to_iriref", "C15_prefixed", "C15_compress_to_iriref_refuted"], "note": "Refuted in full (bare '#', and panic on opaque IRIs); the theorem gives the exact panicking set and losslessness otherwise."},
 {"property": "C16", "status": "proved", "theorems": ["C16_vocabularies_valid", "C16_published", "C16_each_once", "C16_stock_maps", "C16_no_eviction"], "note": ""},
 {"property": "C17", "status": "proved", "theorems": ["C17_sorted_listings", "C17_canonical", "C17_display", "C17_readable"], "note": ""},
 {"property": "C18", "status": "proved", "theorems": ["C18_total_orders", "C18_cmp_agrees_with_eq", "C18_equality"], "note": ""},
 {"property": "C19", "status": "proved", "theorems": ["C19_conversions", "C19_variants"], "note": ""},
 {"property": "C20", "status": "proved", "theorems": ["C20_bag_refinement"], "note": "remove_all_for is excluded from these histories because it does not do what its name says (C23)."},
 {"property": "C21", "status": "proved", "theorems": ["C21_invariant", "C21_initial", "C21_started", "C21_named"], "note": ""},
 {"property": "C22", "status": "proved", "theorems": ["C22_dedup"], "note": ""},
 {"property": "C23", "status": "proved", "theorems": ["C23_remove_all_for_refuted", "C23_remove_all_for"], "note": "Refuted as stated: the retain test is inverted, so exactly the statements about the subject are kept and all others returned. C23_remove_all_for is the exact behaviour."},
 {"property": "C24", "status": "proved", "theorems": ["C24_matches_refuted", "C24_matches", "C24_absent_component"], "note": "Refuted as stated: an absent component is compared with ==, so it matches nothing. C24_matches is the exact result; with all three components given it is what the property asks."},
 {"property": "C25", "status": "proved", "theorems": ["C25_projections", "C25_each_once", "C25_enumeration"], "note": ""},
 {"property": "C26", "status": "proved", "theorems": ["C26_contains"], "note": ""},
 {"property": "C27", "status": "proved", "theorems": ["C27_everywhere_refuted", "C27_skolemize", "C27_skolemize_counts", "C27_skolemize_fails"], "note": "Refuted for blank nodes inside quoted statements, which are left alone; proved for subjects and objects of statements. The result drops name, kind and mappings."},
 {"property": "C28", "status": "proved", "theorems": ["C28_simplify_refuted", "C28_simplify_flat", "C28_simplify_reconstruct", "C28_reading_unique", "C28_simplify_injective", "C28_reconstruct_refuted"], "note": "Refuted in both halves. C28_simplify_flat says exactly for which graphs the result is in strict triple form; reconstruction and injectivity are proved for such graphs when they do not use the reification/list vocabulary themselves or labels the generator will produce."},
 {"property": "C29", "status": "proved", "theorems": ["C29_statement_reify", "C29_nested", "C29_statement_reify_in_graph", "C29_label_collision_refuted"], "note": "Refuted when the statement contains a label the generator will produce; proved whenever it does not, also inside any larger graph."},
 {"property": "C30", "status": "proved", "theorems": ["C30_collection_reify"], "note": ""},
 {"property": "C31", "status": "proved", "theorems": ["C31_nested_refuted", "C31_numbering_refuted", "C31_statements", "C31_literals"], "note": "Refuted in two ways: the statement for a nested resource links the outer subject to itself, and container members are numbered from 0. C31_statements is the exact output for every resource tree and map order; C31_literals is the part that is as intended."},
 {"property": "C32", "status": "proved", "theorems": ["C32_catalogue", "C32_start", "C32_own_name", "C32_listing", "C32_rename_refuted"], "note": "Proved for all histories; refuted only when a graph is renamed in place through graph_mut or the data set is built from a ready-made map."},
 {"property": "C33", "status": "proved", "theorems": ["C33_iri_datatype_iri", "C33_datatype_iri_datatype_refuted", "C33_datatype_iri_datatype", "C33_w3c_names", "C33_injective"], "note": "IRI to data type to IRI holds; the other direction is refuted (several data types are not recognised) and characterised exactly."},
 {"property": "C34", "status": "proved", "theorems": ["C34_text", "C34_integer", "C34_type", "C34_integer_injective", "C34_boolean"], "note": ""},
 {"property": "C35", "status": "proved", "theorems": ["C35_string_literal_refuted", "C35_string_literal", "C35_string_literal_ascii", "C35_string_unique"], "note": "Refuted as stated: the text is escaped when stored. The iff theorem gives exactly the strings for which it holds. The Unicode tables of char::escape_debug are quantified."},
 {"property": "C36", "status": "proved", "theorems": ["C36_binary_refuted", "C36_hex", "C36_hex_spaced", "C36_base64", "C36_base64_exact", "C36_hex_exact", "C36_binary_types"], "note": "Refuted: hex decoding expects spaces, base64 literals are tagged xsd:hexBinary. Exact behaviour proved."},
 {"property": "C37", "status": "proved", "theorems": ["C37_quotable", "C37_injective", "C37_text", "C37_kinds"], "note": ""},
 {"property": "C38", "status": "proved", "theorems": ["C38_from_str", "C38_prefix_refuted", "C38_generated"], "note": "Refuted as far as the prefix goes: \"_:x\" and \"x\" give different nodes, the first shown as \"_:_:x\". The label syntax check (NameParser, not in this repository) is quantified."},
 {"property": "C39", "status": "proved", "theorems": ["C39_data_set_refuted", "C39_duplicates_refuted", "C39_features", "C39_term_features"], "note": "Refuted: the feature is reported by exactly the graphs which drop duplicates. Exact answers proved."},
 {"property": "C40", "status": "proved", "theorems": ["C40_round_trip", "C40_exact", "C40_nested", "C40_round_trip_refuted", "C40_unreadable", "C40_numbers", "C40_brackets_refuted"], "note": "Proved for an Iri that prints its bare text, for literals that are not escaped and untyped or of a data type without its own name; C40_exact says what becomes of everything else, C40_nested that quoted statements and collections can be told from what is read, C40_unreadable/C40_numbers which literals make the whole document unreadable. Refuted in general, and refuted for every non-empty graph as the crates stand at this commit (Display for Iri adds brackets, the writer adds its own)."},
 {"property": "C41", "status": "proved", "theorems": ["C41_round_trip", "C41_exact", "C41_nested", "C41_default_graph_refuted", "C41_brackets_refuted"], "note": "Proved for data sets of named graphs under the same conditions as C40 (C41_nested with quoted statements and collections); refuted for the default graph (always an error), and for every non-empty graph with the Display of this commit."},
 {"property": "C42", "status": "proved", "theorems": ["C42_layout"], "note": ""},
 {"property": "C43", "status": "proved", "theorems": ["C43_survives", "C43_escaped_again", "C43_special_characters_refuted"], "note": "Refuted; C43_survives gives the exact condition and C43_escaped_again what happens otherwise."},
 {"property": "C44", "status": "proved", "theorems": ["C44_unescape", "C44_no_panic_refuted"], "note": "Exactness proved; the absence of panics is refuted (surrogates and numbers beyond U+10FFFF), these being the only panics."},
 {"property": "C45", "status": "proved", "theorems": ["C45_balanced", "C45_column", "C45_wrapping", "C45_offset", "C45_balanced_refuted"], "note": "Proved for steps that are not empty; refuted for empty steps at column 0 (panic) and, without overflow checks, for steps beyond the left edge (wraps instead of panicking)."},
 {"property": "C46", "status": "proved", "theorems": ["C46_round_trip", "C46_exact", "C46_brackets_refuted", "C46_blank_object_refuted"], "note": "Proved for graphs about blank nodes with an Iri that prints its bare text (C46_round_trip, C46_exact); refuted for every graph with an IRI as subject, for every non-empty graph with the Display of this commit, and for blank node objects (the label loses two bytes, or the reader panics)."},
 {"property": "C47", "status": "proved", "theorems": ["C47_one_entry_each", "C47_plain", "C47_count"], "note": ""},
 {"property": "C48", "status": "proved", "theorems": ["C48_terminates", "C48_cyclic_refuted", "C48_cyclic_never_done"], "note": "Proved for graphs without cycles of blank nodes and for writers that do not nest (with an explicit bound); refuted for every graph with a cycle otherwise: whatever the fuel, it runs out."},
 {"property": "C49", "status": "proved", "theorems": ["C49_own_predicate", "C49_type_refuted"], "note": "Refuted for rdfs:subClassOf, rdfs:subPropertyOf and owl:equivalentClass, which are all written as rdf:type; proved for graphs without them."},
 {"property": "C50", "status": "proved", "theorems": ["C50_split", "C50_ascii", "C50_panics_refuted", "C50_element", "C50_repeated_refuted"], "note": "Division of an IRI proved exactly (C50_split, C50_ascii, C50_element); there is no error: the writer panics on every predicate that cannot be divided (no '#' or '/', or a byte position inside a character), and the second object of a predicate whose namespace has a prefix gets a name with the prefix twice."},
 {"property": "C51", "status": "proved", "theorems": ["C51_statements_refuted", "C51_names", "C51_blocks"], "note": "Refuted for every data set: no statement is written, the text is a function of the graph names (C51_statements_refuted); the names can be told from it (C51_names)."},
 {"property": "C52", "status": "proved", "theorems": ["C52_picture", "C52_told_apart", "C52_exact", "C52_text", "C52_written", "C52_default", "C52_prefix_refuted", "C52_alike_refuted", "C52_collection_refuted", "C52_again_refuted"], "note": "Proved for a new writer with the default prefix and graphs of plain terms that are shown differently; C52_exact is what holds for all graphs and for writers used before. Refuted for every other prefix (except node_ with digits), for terms shown alike, collections, quoted statements and reuse."},
 {"property": "C53", "status": "proved", "theorems": ["C53_genid_form", "C53_genid_distinct"], "note": ""},
 {"property": "C54", "status": "proved", "theorems": ["C54_duration_text_refuted", "C54_duration_text", "C54_duration_denotes", "C54_duration_injective"], "note": "Refuted: the nanoseconds are printed without leading zeros. Exact iff, exact value and injectivity proved."},
 {"property": "C55", "status": "proved", "theorems": ["C55_duration_equality_refuted"], "note": "Refuted completely: a duration literal never equals any duration (the comparison is with the bare number of nanoseconds)."},
 {"property": "C56", "status": "proved", "theorems": ["C56_iri_literal_refuted", "C56_iri_literal", "C56_iri_literal_back"], "note": "Refuted for the current rdftk_iri, where an Iri is displayed in angle brackets; for the interface rdftk_core was written for, exactly characterised."},
 {"property": "C57", "status": "proved", "theorems": ["C57_expand_is_lookup", "C57_expand_fails", "C57_compress_is_lookup", "C57_compress_fails"], "note": ""},
 {"property": "C58", "status": "proved", "theorems": ["C58_builder_collects", "C58_new"], "note": ""},
 {"property": "C59", "status": "proved", "theorems": ["C59_accepts_exactly", "C59_meaning"], "note": ""},
 {"property": "C60", "status": "proved", "theorems": ["C60_quads", "C60_default_graph_refuted"], "note": "Proved for quads with a label; the default graph part is refuted for every document."},
 {"property": "C61", "status": "proved", "theorems": ["C61_reads", "C61_panics"], "note": ""},
 {"property": "C62", "status": "proved", "theorems": ["C62_document", "C62_each_statement_once", "C62_twice_refuted", "C62_grammar", "C62_angled_refuted", "C62_default"], "note": "Shape and completeness proved for all options and hash orders with an Iri that prints its bare text; refuted: statements of nested blank nodes are written twice, collections of more than one item are not Turtle (commas), nothing but the empty graph is written with the Display of this commit, an indentation width of 0 panics (example). The text is modelled as words, signs and white space; that two words are always kept apart is not claimed."},
 {"property": "C63", "status": "proved", "theorems": ["C63_plain", "C63_object_refuted", "C63_blank_refuted", "C63_subject_refuted"], "note": "Proved for graphs without quoted statements; refuted for every quoted object (the node stands for the enclosing statement) and every quoted subject (panic)."},
 {"property": "C64", "status": "proved", "theorems": ["C64_order", "C64_settled", "C64_order_refuted"], "note": "Order of subjects that are IRIs, of predicate groups, of the names of predicates of a single group, and of the words among objects proved (C64_order). The whole text is independent of hash orders for graphs whose subjects have predicates of one group, with words that differ (C64_settled); refuted for other graphs."},
 {"property": "C65", "status": "proved", "theorems": ["C65_denotes", "C65_base_refuted", "C65_converted", "C65_converted_names_refuted"], "note": "Proved for bases that end in a slash and one-segment remainders, with and without conversions of bases; refuted for every other base with a path, and for prefixed names when bases are converted (the prefix is declared with the converted namespace, the name made with the original one)."},
 {"property": "C66", "status": "proved", "theorems": ["C66_document", "C66_refused"], "note": "Proved for divisible predicates and all hash orders; a graph that cannot be simplified is refused."},
 {"property": "C67", "status": "proved", "theorems": ["C67_document", "C67_acyclic", "C67_cyclic_refuted", "C67_unreached_refuted", "C67_shared_refuted"], "note": "Shape proved for whatever is written; termination proved without cycles of blank nodes and refuted with them; refuted: blank nodes not reached from an IRI are lost, shared ones are written twice without identity."},
 {"property": "C68", "status": "proved", "theorems": ["C68_exact", "C68_round_trip", "C68_iris_refuted", "C68_repeated_refuted", "C68_angled_refuted"], "note": "C68_exact gives what comes back of every flat document without IRI objects, C68_round_trip the part that comes back unchanged; refuted for two subjects with IRI objects, for repeated predicates with a prefix, and for every non-empty graph with the Display of this commit. The text layer (xml-rs) is trusted: parses_to in XmlSpec.v."},
 {"property": "C69", "status": "proved", "theorems": ["C69_reads", "C69_resource_refuted", "C69_label_refuted", "C69_data_type_refuted", "C69_nested_refuted", "C69_space_refuted", "C69_id_refuted", "C69_reads_more", "C69_xml_literal_refuted", "C69_inherited_base"], "note": "Proved for nodes with rdf:about, rdf:nodeID, rdf:ID (base ending in #) or nothing, xml:base, types, property attributes and property elements with text and language, and rdf:resource or one XML literal (its angle brackets escaped) on the last property of the document; refuted by witnesses for rdf:resource, rdf:nodeID and rdf:datatype on properties, nested nodes, parseType Resource and Literal, white space and rdf:ID."},
 {"property": "C70", "status": "proved", "theorems": ["C70_terminates"], "note": ""},
 {"property": "C71", "status": "proved", "theorems": ["C71_panics", "C71_panics_refuted"], "note": "Refuted by six documents; C71_panics says that names without namespace, rdf:ID and parseTypes other than Resource are the only causes."},
 {"property": "C72", "status": "proved", "theorems": ["C72_quoted", "C72_text", "C72_bare", "C72_integer_refuted", "C72_iri_refuted"], "note": "Proved for literals in quotes: read as the stored lexical form, type and language, exactly if Debug escapes no character in Rust notation. Refuted: texts with escaped characters (the stored form is already escaped), integers of every type (read as xsd:integer), floats, xsd:anyURI literals (read as resources); C72_bare says which unquoted literals survive."},
 {"property": "C73", "status": "proved", "theorems": ["C73_member", "C73_distinct", "C73_namespace", "C73_panics", "C73_shipped", "C73_functions", "C73_one_each", "C73_prefix_map", "C73_container", "C73_container_distinct"], "note": ""},
 {"property": "C74", "status": "proved", "theorems": ["C74_rdf", "C74_skos", "C74_rdfs_refuted", "C74_rdfs_complete", "C74_xsd_refuted", "C74_xsd_missing", "C74_owl_refuted", "C74_owl_missing", "C74_dc", "C74_dc_missing", "C74_geo", "C74_foaf_refuted", "C74_spelled", "C74_prefixes", "C74_agree"], "note": "Exact for rdf, skos, the Dublin Core elements, types and abstract model. Dublin Core terms lack two; geo has defined names only. Refuted for rdfs (five names of rdf), xsd (entity, NS), owl (incompatible_with, version) and foaf (primaryTopicOf); the theorems give exactly the undefined names, and the missing ones except for geo and foaf. In every table the function is spelled like its name. The lists of the recommendations in NamesSpec.v are trusted."},
 {"property": "C75", "status": "proved", "theorems": ["C75_history", "C75_header", "C75_named", "C75_from_refuted", "C75_from", "C75_from_split", "C75_mut_refuted", "C75_mut"], "note": "Proved for every history from an empty graph. Refuted for graphs built from a slice (each statement is stored twice, indexed once; C75_from, C75_from_split) and for statements_mut (the indices keep the old statement)."},
 {"property": "C76", "status": "proved", "theorems": ["C76_matches", "C76_wildcard_refuted", "C76_wildcard", "C76_predicates_for", "C76_objects_for_refuted", "C76_objects_for", "C76_stale_refuted", "C76_keys", "C76_none_missing"], "note": "matches with three criteria and predicates_for are exact. Refuted: an absent criterion matches nothing (C76_wildcard), hence objects_for is always empty; contains_subject, subjects, predicates and objects report everything inserted since the last clear, also what has been removed (C76_keys, C76_stale_refuted); nothing present is missing (C76_none_missing)."},
 {"property": "C77", "status": "proved", "theorems": ["C77_remove", "C77_remove_all_for", "C77_dedup"], "note": ""},
 {"property": "C78", "status": "proved", "theorems": ["C78_success", "C78_converted", "C78_drawn", "C78_lines", "C78_json", "C78_xml", "C78_turtle", "C78_arrows", "C78_from_json", "C78_json_json", "C78_panics_refuted", "C78_draw_others", "C78_trig_refuted", "C78_from_xml"], "note": "Exact for N-Triples input and the targets RDF/JSON, N-Quads, N-Triples, RDF/XML, TriG and DOT, and for Turtle if all terms have words; what is written is one line, entry, element or arrow per statement. RDF/JSON input: exact for the line formats. RDF/XML input: the documents of C69_reads. Refuted: JSON-LD, N3, N-Quads, TriG and Turtle as source and JSON-LD and N3 as target panic; conversion to TriG reports success and writes an empty graph."},
 {"property": "C79", "status": "proved", "theorems": ["C79_again", "C79_brackets_refuted", "C79_escapes_refuted", "C79_json_refuted"], "note": "Exact: the output is read as the statements with literals escaped once more, or not at all; the same statements if and only if no character in quotes needs escaping. Documents without []. Refuted for escapes, and for the Display of IRIs as it is (brackets doubled)."},
 {"property": "C80", "status": "proved", "theorems": ["C80_new_fragment", "C80_no_fragment", "C80_space_refuted", "C80_new_path", "C80_fragment_bytes", "C80_no_dots", "C80_opaque", "C80_path_refuted"], "note": "with_new_path for IRIs with an authority and paths without '^'; refuted for opaque IRIs (a '#' in the new path becomes a fragment) and, for with_no_fragment, exactly for a space before the fragment of an opaque IRI."},
 {"property": "C81", "status": "proved", "theorems": ["C81_display_injective", "C81_alternate", "C81_alternate_refuted", "C81_curie", "C81_qualify", "C81_unchecked"], "note": "Refuted for the alternate form of references: exactly an IRI scheme:name and the local name with that prefix."},
 {"property": "C82", "status": "proved", "theorems": ["C82_one_value", "C82_agree", "C82_string", "C82_string_refuted", "C82_escaped_refuted"], "note": "At most one value: for all types. Exactly the value it can be made from: for booleans, integers, language tags, names and IRIs without escaped characters; refuted for strings (untyped literals in any language equal them too) and for values with characters that are escaped, such as names with combining accents; durations are C55."},
 {"property": "C83", "status": "proved", "theorems": ["C83_class", "C83_property", "C83_made", "C83_new", "C83_made_property_refuted", "C83_new_property_refuted", "C83_vocabulary"], "note": "Proved for all histories; refuted for one detail: a property made by sub_property (or new) is an instance of rdfs:Property, a term that does not exist, instead of rdf:Property."},
 {"property": "C84", "status": "proved", "theorems": ["C84_flat", "C84_orders", "C84_exact", "C84_parents_refuted"], "note": "Refuted for parents: they are written as rdf:type, and rdfs:subClassOf and rdfs:subPropertyOf are never written. Proved for vocabularies without parents, and exactly what is written otherwise."},
 {"property": "C85", "status": "proved", "theorems": ["C85_written", "C85_moved", "C85_superclasses", "C85_extra", "C85_refuted"], "note": "Refuted: all rdfs:subClassOf triples are missing (C84) and the four terms Property, langString, HTML and XMLLiteral are in the rdfs: namespace. Proved that nothing else is missing, and what else is written."},
 {"property": "C86", "status": "proved", "theorems": ["C86_says", "C86_graph", "C86_ends", "C86_fuel", "C86_collections", "C86_concepts", "C86_once_refuted"], "note": "Proved for membership, the graph and termination; refuted for each statement once: the statements of a concept with two parents, and skos:inScheme of every collection, are repeated."},
 {"property": "C87", "status": "proved", "theorems": ["C87_list", "C87_cells", "C87_memberList_refuted"], "note": "Refuted: the list ends in an extra cell without rdf:first, so no list can be read to its end, and nothing refers to it (skos:memberList is not written). Proved that the cells before it hold the members in order."},
 {"property": "C88", "status": "proved", "theorems": ["C88_inverse_refuted"], "note": "Refuted for the instantial relations: the inverse of BroaderInstantial is BroaderInstantial. Proved exactly for all others."},
 {"property": "C89", "status": "proved", "theorems": ["C89_preferred", "C89_new"], "note": ""},
 {"property": "C90", "status": "proved", "theorems": ["C90_named_refuted", "C90_language", "C90_others", "C90_statements"], "note": "Refuted for available, which uses dcterms:created; proved for all others."},
 {"property": "C91", "status": "proved", "theorems": ["C91_functions", "C91_spelled", "C91_prefixes", "C91_skos", "C91_xl_refuted"], "note": "SKOS is exact; refuted for SKOS-XL, where hiddenLabel is missing."},
 {"property": "C92", "status": "proved", "theorems": ["C92_calls", "C92_has_property"], "note": ""},
 {"property": "C93", "status": "proved", "theorems": ["C93_object_equals_what_it_is", "C93_one_term", "C93_accessors", "C93_subjects", "C93_collection_of_one"], "note": ""},
 {"property": "C94", "status": "proved", "theorems": ["C94_scheme", "C94_collections", "C94_concepts", "C94_any", "C94_hierarchy", "C94_order", "C94_external_refuted", "C94_type_refuted", "C94_once_refuted"], "note": "Proved; refuted for external relations of a concept without other relations, for data types without a short form (the predicate is shown instead), and for each concept once when labels are equal."},
 {"property": "C95", "status": "proved", "theorems": ["C95_change", "C95_run", "C95_same", "C95_appendix", "C95_panics", "C95_self", "C95_unchanged_refuted"], "note": "Refuted: inverse relations are added to the concepts, again each time. Proved exactly what is added and what the appendix says."},
 {"property": "C96", "status": "proved", "theorems": ["C96_ends", "C96_loops", "C96_acyclic", "C96_fuel", "C96_hierarchy_refuted"], "note": "Proved with the exact condition; refuted without it: a concept with two parents and mutually related to another makes the comparison recurse forever."},
 {"property": "C97", "status": "proved", "theorems": ["C97_links", "C97_anchors", "C97_anchors_refuted"], "note": "Links are exact; refuted that all have targets: the heading Collections has no anchor, and concepts outside the tree have no section."},
 {"property": "C98", "status": "proved", "theorems": ["C98_float", "C98_type", "C98_agree", "C98_equality_refuted", "C98_text", "C98_infinite_refuted", "C98_decimal", "C98_decimal_refuted"], "note": "Exact characterisation. C98_equality_refuted (NaN, zeros), C98_infinite_refuted (inf is no xsd:double) and C98_decimal_refuted (1.0 and 1.00) give the cases in which the statement fails. The digits printed for finite magnitudes are an oracle: decimal numerals, different for different magnitudes."},
 {"property": "C99", "status": "proved", "theorems": ["C99_trace", "C99_faithful", "C99_faithful_refuted", "C99_source", "C99_causes", "C99_payload", "C99_kind", "C99_names", "C99_listed", "C99_tokenizer_refuted"], "note": "C99_faithful_refuted: with line breaks in messages two different chains have the same trace. C99_tokenizer_refuted: the source held by Error::Tokenizer is not reported by source()."},
 {"property": "C100", "status": "proved", "theorems": ["C100_read_back", "C100_nested_refuted", "C100_one_reading", "C100_same_text", "C100_collection_refuted", "C100_prefix_map", "C100_fragment_refuted", "C100_type_refuted"], "note": "The reader (TurtleReadSpec.v) covers the part of Turtle the writer can make. With nest_blank_nodes the nodes in brackets unfold the graph; it must have no cycle (C48). No conversion of IRIs to another base. C100_nested_refuted: with nest_blank_nodes a blank node that is object and subject is read as two nodes. C100_collection_refuted: commas are written between the items of a collection, no graph with two or more items is written as a Turtle document. C100_fragment_refuted: with names of a prefix map an IRI ending in a bare # is read as another IRI. C100_type_refuted: with a long name for rdf:type verb and object run together."},
 {"property": "C101", "status": "proved", "theorems": ["C101_keywords", "C101_booleans"], "note": ""},
 {"property": "C102", "status": "proved", "theorems": ["C102_prologue", "C102_rejects", "C102_declarations", "C102_from", "C102_grammar_refuted"], "note": "C102_rejects and C102_declarations say exactly what is read. C102_grammar_refuted: BASE has to be followed by white space, and a prefix may end with a full stop."},
 {"property": "C103", "status": "proved", "theorems": ["C103_variables", "C103_grammar_refuted"], "note": "C103_variables says exactly what is read; refuted as a description of the grammar: names with a low line are cut off or not read, and the mark is optional."},
 {"property": "C104", "status": "proved", "theorems": ["C104_exact", "C104_names_refuted", "C104_iri", "C104_percent"], "note": "Refuted: only local names of one character that are followed by white space are read (C104_exact, C104_names_refuted), a namespace alone never is (C104_iri), white space is allowed after the colon; percent escapes are read as decimal numbers and panic on letters (C104_percent)."},
 {"property": "C105", "status": "proved", "theorems": ["C105_language_tags", "C105_no_panic"], "note": ""},
 {"property": "C106", "status": "proved", "theorems": ["C106_text", "C106_equal", "C106_standard", "C106_standard_refuted"], "note": "The last part is refuted: C106_standard says exactly when it holds, C106_standard_refuted has witnesses."},
 {"property": "C107", "status": "proved", "theorems": ["C107_json", "C107_json_refuted", "C107_types_refuted", "C107_xml", "C107_xml_refuted", "C107_angled_refuted", "C107_turtle"], "note": "C107_json, C107_xml and C107_turtle give conditions under which it holds, C107_json_refuted (a subject that is an IRI), C107_types_refuted, C107_xml_refuted (IRIs as objects of two subjects) and C107_angled_refuted (every document, with the Display of Iri at this commit) where it fails."},
 {"property": "C108", "status": "proved", "theorems": ["C108_round_trip", "C108_again", "C108_accepts", "C108_maps", "C108_unchecked_refuted", "C108_display_refuted"], "note": "Round trips and maps hold for all values. C108_unchecked_refuted and C108_display_refuted: the derived Deserialize of Name and Namespace checks nothing. C108_accepts says exactly what is accepted."},
 {"property": "C109", "status": "proved", "theorems": ["C109_exact", "C109_text", "C109_made", "C109_refuted"], "note": "C109_exact says when texts are the same, C109_text when they determine the statement, C109_made that the constructors make literals that meet the conditions; C109_refuted has the texts that several statements have"},
 {"property": "C110", "status": "proved", "theorems": ["C110_prefix_free", "C110_equal", "C110_set", "C110_collect"], "note": "C110_prefix_free and C110_equal are about the bytes fed, C110_set about tables; C110_collect says that collecting into a table gives the sets used in the model of graphs"},
 {"property": "C111", "status": "proved", "theorems": ["C111_reads", "C111_picture", "C111_labels", "C111_iris", "C111_iri_refuted", "C111_option_refuted", "C111_record_refuted"], "note": "C111_reads and C111_picture hold for words as options and texts that may stand between quotes (C37: all texts of literals; C111_iris: IRIs without quotation marks and backslashes); false for other IRIs and options (C111_iri_refuted, C111_option_refuted), and literals with a bar are drawn as several fields (C111_record_refuted)"},
 {"property": "C112", "status": "proved", "theorems": ["C112_text", "C112_other", "C112_one_text", "C112_graph", "C112_data_set"], "note": ""},
 {"property": "C113", "status": "proved", "theorems": ["C113_output", "C113_triples", "C113_quads", "C113_dotted_refuted"], "note": "C113_output, C113_triples and C113_quads; false of blank nodes as objects whose labels have a full stop (C113_dotted_refuted): cut just after it, `_:b.1 .` is read as the node `_:b`"},
 {"property": "C114", "status": "proved", "theorems": ["C114_output", "C114_panic", "C114_again", "C114_cut", "C114_trig", "C114_collection_refuted"], "note": "C114_output, C114_panic, C114_again, C114_cut, C114_trig; drawing again is not the same for graphs with collections or quoted statements (C114_collection_refuted)"},
 {"property": "C115", "status": "proved", "theorems": ["C115_turtle", "C115_style_refuted", "C115_panic", "C115_width", "C115_unset_refuted", "C115_type", "C115_trig", "C115_dot", "C115_xml"], "note": "C115_turtle, C115_trig, C115_dot, C115_xml, C115_panic, C115_width, C115_type; with_intellij_style also changes the width (C115_style_refuted), four settings of the Turtle writer cannot be changed by any call (C115_unset_refuted), and with_indent_width does not refuse zero (C115_width, C115_example)"},
 {"property": "C116", "status": "proved", "theorems": ["C116_layout", "C116_padding_refuted", "C116_space_refuted"], "note": "C116_layout for graphs whose objects have a text of their own (no blank nodes with statements if they are nested, no collections with items); predicate_padding does the opposite of what it says (C116_padding_refuted), and rdf:type written for a shorter predicate runs into the object (C116_space_refuted)"},
 {"property": "C117", "status": "proved", "theorems": ["C117_output", "C117_cut", "C117_dotted_refuted"], "note": "C117_cut for graphs as in C100_read_back whose names, labels and unquoted literals are without full stops; with them the cut document can be read as saying something else (C117_dotted_refuted); C117_output only for documents the writer can write"},
 {"property": "C118", "status": "proved", "theorems": ["C118_mappings", "C118_thesaurus", "C118_constructors"], "note": "default_mappings of rdftk_core::simple::mapping is not in the repository; proved for every map to start from. Predicates the program chooses (given) are excepted."}
]}
