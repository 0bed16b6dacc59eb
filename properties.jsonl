{"id": "C01", "title": "Name parsing accepts exactly the documented PN_LOCAL grammar", "statement": "Name::from_str(s) succeeds if and only if s is derivable from the documented production PN_LOCAL ::= (PN_CHARS_U | [0-9]) ((PN_CHARS | '.')* PN_CHARS)?, and on success the Name's text is exactly s. Name::is_valid_str agrees with from_str.", "quantifier": "every Unicode string", "why_tests_cant": "The set of strings is infinite and the character classes span 17 planes with boundary gaps; a test samples a few letters.", "anchors": ["rdftk_iri/src/pname.rs: FromStr for Name, Name::is_valid_str, is_pn_local_first, is_pn_prefix_local_rest, is_pn_chars, is_pn_chars_u, is_pn_chars_base"]}
{"id": "C02", "title": "Namespace parsing accepts exactly the documented PNAME_NS grammar", "statement": "Namespace::from_str(s) succeeds if and only if s is derivable from PNAME_NS ::= PN_PREFIX? ':' with PN_PREFIX ::= PN_CHARS_BASE ((PN_CHARS|'.')* PN_CHARS)?, and on success its text is exactly s.", "quantifier": "every Unicode string", "why_tests_cant": "Needs agreement of an acceptor and a grammar on infinitely many strings, including prefixes ending in '.'.", "anchors": ["rdftk_iri/src/pname.rs: FromStr for Namespace, Namespace::is_valid_str"]}
{"id": "C03", "title": "LocalName text round trip", "statement": "Displaying a LocalName built from a parsed Namespace and a parsed Name and parsing that text again yields the same namespace and the same name; and parsing any text succeeds only if displaying the result gives back exactly that text. Hence two distinct LocalNames never display alike.", "quantifier": "every valid namespace, every valid name, every Unicode string", "why_tests_cant": "A round trip must hold for every pair of components, including names with dots, digits and non-ASCII letters next to the separator.", "anchors": ["rdftk_iri/src/pname.rs: Display/FromStr for LocalName, LocalName::new, LocalName::as_curie"]}
{"id": "C04", "title": "Namespace values always end in the separator, so name_string never panics", "statement": "Every Namespace obtainable from from_str, new_named, new_default or new_unchecked ends in ':'; name_string therefore never panics, returns None exactly for the default namespace, and otherwise returns the text without the final ':'. new_named and new_unchecked give the same result with or without the trailing ':' supplied.", "quantifier": "every Unicode string passed to every constructor", "why_tests_cant": "The unwrap inside name_string is only safe if no constructor whatsoever can produce a namespace lacking ':'.", "anchors": ["rdftk_iri/src/pname.rs: Namespace::new_named, new_default, new_unchecked, is_default, name_string"]}
{"id": "C05", "title": "Name parse errors are classified by cause", "statement": "Parsing a Namespace, Name or LocalName never panics; EmptyString is returned exactly for the empty string (for a local name also when a valid namespace is followed by nothing); MissingSeparator exactly when a namespace text does not end in ':' (or a local name text contains no ':'); TooManySeparators exactly when a namespace text ends in ':' and contains an earlier ':' ; otherwise a failure is InvalidCharacter. LocalName parsing never reports TooManySeparators.", "quantifier": "every Unicode string, all three parsers", "why_tests_cant": "Which branch fires for which string is a claim about the whole input space and about error precedence.", "anchors": ["rdftk_iri/src/pname.rs: FromStr for Namespace, FromStr for Name, FromStr for LocalName", "rdftk_iri/src/error.rs: NameParseError"]}
{"id": "C06", "title": "IRI display/parse round trip in both forms", "statement": "For every IRI, parsing its default display form (<...>) and parsing its alternate display form (bare) both give the same IRI back; angle brackets are removed only when both are present.", "quantifier": "every parsed URL (under the url crate's own reparse guarantee)", "why_tests_cant": "Ranges over all URLs and both formats.", "anchors": ["rdftk_iri/src/iri.rs: Display for Iri, FromStr for Iri"]}
{"id": "C07", "title": "Splitting an IRI and re-joining gives the original", "statement": "If split() returns (namespace, name) then namespace.make_name(name) returns the original IRI.", "quantifier": "every IRI for which split succeeds", "why_tests_cant": "Must hold for each combination of scheme, authority, path, query and fragment; the failing combination (path split with an empty fragment) is an unlikely test input.", "anchors": ["rdftk_iri/src/iri.rs: Iri::split, Iri::make_name, with_new_path, with_new_fragment, with_empty_fragment"]}
{"id": "C08", "title": "Making a name and splitting gives the parts back", "statement": "If make_name(name) on a namespace IRI (empty fragment, or path ending in '/' without query or fragment) returns an IRI, then split() of that IRI returns exactly the namespace and the name.", "quantifier": "every namespace-like IRI and every valid Name", "why_tests_cant": "Ranges over all names, including non-ASCII ones that the URL layer percent-encodes.", "anchors": ["rdftk_iri/src/iri.rs: Iri::make_name, Iri::split"]}
{"id": "C09", "title": "split never panics", "statement": "split(), namespace() and name() return normally (Some or None) on every IRI.", "quantifier": "every IRI, including opaque ones such as urn: and mailto:", "why_tests_cant": "Absence of panics is a claim over all URLs; unit tests only use http(s) URLs.", "anchors": ["rdftk_iri/src/iri.rs: Iri::split, Iri::namespace, Iri::name"]}
{"id": "C10", "title": "Namespace recognition is coherent", "statement": "The namespace half of a successful split looks like a namespace; every IRI that looks like a namespace accepts every name through make_name; with_empty_fragment always looks like a namespace; split of something that looks like a slash namespace without fragment is None; namespace and name give the two halves of what split gives.", "quantifier": "every IRI and every name", "why_tests_cant": "Coherence of four methods over all URLs.", "anchors": ["rdftk_iri/src/iri.rs: Iri::looks_like_namespace, Iri::split, Iri::make_name, with_empty_fragment, with_no_fragment"]}
{"id": "C11", "title": "Prefix map stays a bijection", "statement": "After any sequence of insert, insert_vocabulary, set_default_namespace, remove, remove_default_namespace, clear (starting from empty, default or common), get_namespace(p)=Some(i) if and only if get_prefix(i)=Some(p): no two prefixes share an IRI and no prefix has two IRIs; len, mappings, prefixes and iris agree with each other.", "quantifier": "every finite history of map operations", "why_tests_cant": "Invariant over unbounded operation sequences with collisions on either side.", "anchors": ["rdftk_iri/src/map.rs: IriPrefixMap::insert, remove, clear, set_default_namespace, remove_default_namespace, get_namespace, get_prefix, mappings, len"]}
{"id": "C12", "title": "Prefix map operations have exactly their documented effect", "statement": "insert(p,i) makes p map to i and i to p, removes any other mapping that used p or i, and leaves every other mapping untouched; remove(p) removes exactly p's mapping; clear leaves nothing; set_default_namespace/remove_default_namespace act as insert/remove on ':'. After any history the map equals the abstract relation obtained by replaying the same history on a plain set of pairs.", "quantifier": "every finite history of operations, every prefix and IRI", "why_tests_cant": "Frame conditions (what must not change) quantify over all other keys and over histories.", "anchors": ["rdftk_iri/src/map.rs: IriPrefixMap::insert, remove, clear, with, with_default, set_default_namespace, remove_default_namespace, get_default_namespace"]}
{"id": "C13", "title": "compress then expand is lossless", "statement": "In any reachable prefix map, if compress(iri) returns a local name then expand of that local name returns exactly iri.", "quantifier": "every reachable map, every IRI", "why_tests_cant": "Combines the map invariant with the split/make_name round trip for all IRIs.", "anchors": ["rdftk_iri/src/map.rs: IriPrefixMap::compress, expand"]}
{"id": "C14", "title": "expand then compress is lossless", "statement": "In any reachable prefix map, if the prefix of a valid local name maps to a namespace-like IRI, then compress(expand(local)) returns exactly that local name.", "quantifier": "every reachable map, every valid local name", "why_tests_cant": "Uniqueness of the prefix for an IRI and faithful splitting have to hold together.", "anchors": ["rdftk_iri/src/map.rs: IriPrefixMap::expand, compress"]}
{"id": "C15", "title": "compress_to_iriref never loses the IRI", "statement": "compress_to_iriref(iri) returns either iri itself or a prefixed name which the same map expands to iri; the latter whenever the map has the namespace of the IRI.", "quantifier": "every reachable map, every IRI", "why_tests_cant": "Totality plus losslessness over all inputs.", "anchors": ["rdftk_iri/src/map.rs: IriPrefixMap::compress_to_iriref"]}
{"id": "C16", "title": "Built-in vocabularies are valid and the stock maps contain exactly the documented mappings", "statement": "Every built-in vocabulary's prefix parses as a Namespace and its IRI looks like a namespace (so prefix_as_namespace and iri_as_iri never panic); default() maps exactly rdf, rdfs, xsd, owl; common() maps these plus dcterms, skos, void, each to its documented IRI; inserting all vocabularies in any order never evicts one.", "quantifier": "all 21 built-in vocabularies, all orders of insertion", "why_tests_cant": "Order independence ranges over 21! insertion orders.", "anchors": ["rdftk_iri/src/vocab.rs: VOCABULARY_*, Vocabulary::prefix_as_namespace, iri_as_iri", "rdftk_iri/src/map.rs: Default for IriPrefixMap, IriPrefixMap::common, with_vocabulary"]}
{"id": "C17", "title": "Prefix map iteration order is canonical", "statement": "mappings() and prefixes() list every mapping exactly once in strictly increasing prefix order, iris() in strictly increasing IRI order, independently of the insertion history; two maps reached by different histories with the same content are equal and display identically. Display writes one line for each mapping in that order, and maps with the same text are equal.", "quantifier": "every pair of histories", "why_tests_cant": "Confluence over histories.", "anchors": ["rdftk_iri/src/map.rs: mappings, prefixes, iris, Display for IriPrefixMap, derive PartialEq"]}
{"id": "C18", "title": "Ordering of RDF terms is a total order consistent with equality", "statement": "cmp on data types, literals, blank nodes, subjects, objects, collections and statements (arbitrarily nested) is reflexive, antisymmetric, transitive, total, and returns Equal exactly when == holds.", "quantifier": "all pairs and triples of arbitrarily deeply nested terms", "why_tests_cant": "Transitivity over recursive term structure cannot be enumerated.", "anchors": ["rdftk_core/src/model/literal.rs: Ord for Literal, Ord for DataType", "rdftk_core/src/model/statement/subject.rs: Ord for SubjectNode", "rdftk_core/src/model/statement/object.rs: Ord for ObjectNode", "rdftk_core/src/model/statement.rs: Ord for Statement", "rdftk_core/src/model/statement/collection.rs: Collection"]}
{"id": "C19", "title": "Subject/object conversions are faithful", "statement": "to_object of any subject converts back with to_subject to the same subject; to_subject of an object is None exactly for literals and collections and otherwise converts back to the same object; comparison of subjects agrees with comparison of the corresponding objects.", "quantifier": "all subjects and objects", "why_tests_cant": "Universal over all (nested) terms, and relates two independently written orders.", "anchors": ["rdftk_core/src/model/statement/subject.rs: SubjectNode::to_object, Ord", "rdftk_core/src/model/statement/object.rs: ObjectNode::to_subject, Ord"]}
{"id": "C20", "title": "A graph behaves as a set or bag of statements", "statement": "After any sequence of insert, extend, merge, remove, clear, dedup and with_statements on a graph, contains/len/is_empty/statements agree with the same history replayed on an abstract set (unique graph) or bag (non-unique graph): inserting adds exactly one occurrence (or none if already present in a unique graph), removing removes every occurrence of the statement and nothing else.", "quantifier": "every history of operations on either kind of graph", "why_tests_cant": "Refinement over unbounded histories.", "anchors": ["rdftk_core/src/model/graph.rs: Graph::insert, extend, merge, remove, clear, dedup, contains, len, is_empty, statements; Statements"]}
{"id": "C21", "title": "A unique graph never holds a duplicate, and a graph's kind never changes", "statement": "A graph created unique reports is_unique and lists every statement at most once after any history of operations; a non-unique graph stays non-unique; name and prefix mappings are changed only by their own setters.", "quantifier": "every history of mutating operations", "why_tests_cant": "Invariant over all histories.", "anchors": ["rdftk_core/src/model/graph.rs: Graph::unique, unique_named, is_unique, insert, extend, merge, remove, remove_all_for, dedup, clear; Statements"]}
{"id": "C22", "title": "dedup conserves statements", "statement": "dedup leaves exactly one occurrence of every distinct statement and returns exactly the surplus occurrences: kept plus returned is a permutation of what was there before; on a unique graph it changes nothing and returns nothing; it is idempotent.", "quantifier": "every graph content and every hash iteration order", "why_tests_cant": "Conservation over all multisets and hash orders.", "anchors": ["rdftk_core/src/model/graph.rs: Graph::dedup, Statements::dedup"]}
{"id": "C23", "title": "remove_all_for removes exactly the statements about a subject", "statement": "remove_all_for(s) removes every statement whose subject is s, keeps all others, and returns the removed ones.", "quantifier": "every graph and subject", "why_tests_cant": "Universal claim on content before/after including the frame.", "anchors": ["rdftk_core/src/model/graph.rs: Graph::remove_all_for, Statements::remove_all_for"]}
{"id": "C24", "title": "matches implements wildcard pattern matching", "statement": "matches(s,p,o) returns exactly the statements which agree with every given component, an absent component matching anything.", "quantifier": "every graph and every combination of present/absent components", "why_tests_cant": "All 8 patterns over all graphs.", "anchors": ["rdftk_core/src/model/graph.rs: Graph::matches"]}
{"id": "C25", "title": "Graph projections are exact", "statement": "subjects, node_subjects, blank_node_subjects, predicates, predicates_for, objects and objects_for return exactly the components of statements in the graph which satisfy the stated condition, each once; contains_subject(s) holds exactly when s is listed by subjects; every statement in the graph is found by iterating subjects x predicates_for x objects_for and nothing else is.", "quantifier": "every graph, subject, predicate", "why_tests_cant": "The last part (the enumeration the writers rely on) ranges over all graphs.", "anchors": ["rdftk_core/src/model/graph.rs: subjects, node_subjects, blank_node_subjects, predicates, predicates_for, objects, objects_for, contains_subject"]}
{"id": "C26", "title": "Containment queries agree with content", "statement": "contains(st) holds exactly if st is among statements(); contains_all(subject, predicate, object) holds exactly if the statement with these three terms is.", "quantifier": "every graph, statement and terms", "why_tests_cant": "Universal over all graph states reachable by any history.", "anchors": ["rdftk_core/src/model/graph.rs: Graph::contains, contains_all, contains_subject"]}
{"id": "C27", "title": "Skolemization replaces blank nodes consistently and changes nothing else", "statement": "skolemize(base) returns a graph in which the same blank node is replaced everywhere by the same fresh IRI and different blank nodes by different IRIs, all other terms are unchanged, the number of statements is preserved and no top-level subject or object is blank; replacing the fresh IRIs back yields the original statements.", "quantifier": "every graph, any source of pairwise distinct fresh IRIs not occurring in the graph", "why_tests_cant": "Consistency of the renaming over all statements and orders.", "anchors": ["rdftk_core/src/model/graph.rs: Graph::skolemize"]}
{"id": "C28", "title": "simplify removes RDF-star statements and collections without losing information", "statement": "simplify() returns a graph in which no subject or object is a quoted statement or a collection, and the original statements can be reconstructed from the result.", "quantifier": "every graph with arbitrarily nested terms", "why_tests_cant": "Arbitrary nesting; the failing shape (quoted subject together with a quoted/collection object) needs a systematic search.", "anchors": ["rdftk_core/src/model/graph.rs: Graph::simplify", "rdftk_core/src/model/statement.rs: Statement::reify", "rdftk_core/src/model/statement/collection.rs: Collection::reify"]}
{"id": "C29", "title": "Statement reification is faithful", "statement": "reify() of a statement returns statements about a fresh blank node from which subject, predicate and object of the original (recursively, for nested statements) can be read back; all statements emitted are free of nested statements and each reification node carries exactly one rdf:type, rdf:subject, rdf:predicate and rdf:object.", "quantifier": "every statement nested to any depth, any source of distinct fresh blank nodes", "why_tests_cant": "Induction over nesting depth.", "anchors": ["rdftk_core/src/model/statement.rs: Statement::reify"]}
{"id": "C30", "title": "Collection reification is a faithful rdf:List encoding", "statement": "reify() of a collection returns a node and statements such that following rdf:first/rdf:rest from the node to rdf:nil yields exactly the items in order; the empty collection is rdf:nil; each cell has exactly one rdf:first and one rdf:rest.", "quantifier": "every list length and content", "why_tests_cant": "Unbounded length.", "anchors": ["rdftk_core/src/model/statement/collection.rs: Collection::reify"]}
{"id": "C31", "title": "The resource builder emits exactly the statements described", "statement": "Converting a Resource into statements yields for each property/value the statement (resource, property, value); nested resources are linked from their parent by their own node and contribute their own statements; containers are linked with numbered membership properties.", "quantifier": "every resource tree", "why_tests_cant": "Arbitrary trees.", "anchors": ["rdftk_core/src/model/resource.rs: Resource, Predicate, From<Resource> for Vec<Statement>, flatten"]}
{"id": "C32", "title": "A dataset files each graph under its own name", "statement": "After any history of insert, extend, remove, clear (starting from From<Graph>, from_iter or default), every graph is found under exactly its own name, there is at most one graph per name, the latest inserted graph with a name wins and other graphs are unaffected; has_default_graph/has_graph_named/contains_graph/graph agree.", "quantifier": "every history of operations", "why_tests_cant": "Invariant over histories.", "anchors": ["rdftk_core/src/model/data_set.rs: DataSet::insert, extend, remove, clear, graph, graph_named, default_graph, contains_graph, has_default_graph, has_graph_named, From<Graph>, FromIterator"]}
{"id": "C33", "title": "Data type <-> IRI conversion is lossless", "statement": "Converting an IRI to a DataType and back gives the same IRI; converting a DataType to its IRI and back gives the same DataType.", "quantifier": "every IRI and every data type", "why_tests_cant": "Needs all IRIs (only finitely many are special) and every variant.", "anchors": ["rdftk_core/src/model/literal.rs: DataType::as_iri, From<Iri> for DataType"]}
{"id": "C34", "title": "Literals made from numbers and booleans equal exactly the value they were made from", "statement": "For every integer type, Literal::from(n) carries that type's XSD data type, has no language, and compares equal (PartialEq) to the value m of integer type U exactly if U is its type and m = n; likewise bool; two such literals are equal only if made from the same value of the same type.", "quantifier": "every value of i8..i64, u8..u64, bool", "why_tests_cant": "2^64 values per type.", "anchors": ["rdftk_core/src/model/literal.rs: From<i64> for Literal, PartialEq<i64> for Literal (and the other integer types), From<bool>, PartialEq<bool> for Literal"]}
{"id": "C35", "title": "A string literal equals the string it was made from", "statement": "Literal::plain(s) == s and Literal::from(s) == s, for every string s; a literal equals at most one string.", "quantifier": "every Unicode string", "why_tests_cant": "Strings with quotes, backslashes or control characters are the interesting ones.", "anchors": ["rdftk_core/src/model/literal.rs: Literal::plain, From<&str> for Literal, PartialEq<str> for Literal, escape_string"]}
{"id": "C36", "title": "Binary literals survive a round trip", "statement": "Literal::hex_encoded(bytes) converts back to the same bytes, and Literal::base64_encoded is tagged xsd:base64Binary and converts back to the same bytes. Converting a literal to bytes accepts exactly the texts of its data type.", "quantifier": "every byte sequence", "why_tests_cant": "All byte strings of every length.", "anchors": ["rdftk_core/src/model/literal.rs: Literal::hex_encoded, base64_encoded, TryFrom<Literal> for Vec<u8>, hex_encode, hex_decode"]}
{"id": "C37", "title": "Lexical forms are escaped safely and injectively", "statement": "The lexical form stored by every Literal constructor contains no unescaped double quote and no line break, so that writing it between double quotes cannot terminate early; different input strings produce different lexical forms. No literal has both a data type and a language; plain texts, texts in a language and typed texts are never equal.", "quantifier": "every Unicode string", "why_tests_cant": "All strings; an escaping hole shows only on particular character sequences.", "anchors": ["rdftk_core/src/model/literal.rs: escape_string, Literal::plain, with_language, with_data_type, Display for Literal"]}
{"id": "C38", "title": "Blank node labels are validated", "statement": "BlankNode::from_str(s) succeeds exactly on strings of the documented form and keeps the text; generated blank nodes are valid labels and pairwise distinct within a process.", "quantifier": "every string; every number of generated nodes", "why_tests_cant": "All strings and any number of generations.", "anchors": ["rdftk_core/src/model/statement/bnode.rs: FromStr for BlankNode, BlankNode::generate, is_valid_str"]}
{"id": "C39", "title": "Graph feature reporting matches behaviour", "statement": "supports_feature(DUPLICATES) holds exactly if the graph keeps duplicate statements; RDF-star is always supported; unknown features are not.", "quantifier": "every graph and every feature IRI", "why_tests_cant": "Universal over feature IRIs and graph kinds.", "anchors": ["rdftk_core/src/model/graph.rs: Featured for Graph", "rdftk_core/src/model/features.rs"]}
{"id": "C40", "title": "N-Triples write/read round trip", "statement": "Reading the text produced by the N-Triples writer yields a graph containing exactly the statements written (for graphs whose terms N-Triples can express).", "quantifier": "every graph, every hash iteration order", "why_tests_cant": "All graphs, all terms, all orders.", "anchors": ["rdftk_io/src/nt/writer.rs: NTripleWriter::write", "rdftk_io/src/common/parser/ntriples.rs: parse_doc", "rdftk_io/src/common/common.pest: ntripleDoc"]}
{"id": "C41", "title": "N-Quads write/read round trip", "statement": "Reading the text produced by the N-Quads writer for a named or default graph yields a dataset containing exactly that graph under that name.", "quantifier": "every graph and graph name, every hash iteration order", "why_tests_cant": "All graphs, names and orders.", "anchors": ["rdftk_io/src/nq/writer.rs: NQuadWriter::write", "rdftk_io/src/common/parser/nquads.rs: parse_doc, nquad"]}
{"id": "C42", "title": "N-Triples layout does not matter", "statement": "Inserting spaces, tabs, line breaks or comments between the tokens of an N-Triples document does not change the graph read from it.", "quantifier": "every document and every insertion", "why_tests_cant": "Unbounded insertions.", "anchors": ["rdftk_io/src/common/common.pest: ntripleDoc, ntriple, WHITESPACE, COMMENT"]}
{"id": "C43", "title": "Literals with special characters survive N-Triples", "statement": "A literal whose text contains quotes, backslashes, line breaks or non-ASCII characters is written and read back as the same literal.", "quantifier": "every literal", "why_tests_cant": "All strings.", "anchors": ["rdftk_io/src/common/parser/ntriples.rs: string, rdf_literal", "rdftk_core/src/model/literal.rs: Display for Literal, escape_string"]}
{"id": "C44", "title": "IRI unescaping in the N-Triples reader is total and exact", "statement": "Reading an IRI reference replaces each \\uXXXX / \\UXXXXXXXX escape by its code point and leaves all other text unchanged, and never panics on a document accepted by the grammar.", "quantifier": "every IRIREF token", "why_tests_cant": "All escape values, including surrogates and out-of-range values.", "anchors": ["rdftk_io/src/common/parser/ntriples.rs: unescape_iri, unescape_uchar, iri_ref"]}
{"id": "C45", "title": "Indentation bookkeeping is balanced", "statement": "Any balanced sequence of indent/outdent (in any nesting, with any step sizes) returns an Indenter to its starting depth and rendering; the rendered prefix is always offset + depth*width spaces; outdenting below zero is the only panic.", "quantifier": "every sequence of indent operations", "why_tests_cant": "All operation sequences.", "anchors": ["rdftk_io/src/common/indenter.rs: Indenter"]}
{"id": "C46", "title": "JSON write/read round trip", "statement": "Reading the RDF/JSON produced by the JSON writer yields exactly the statements written.", "quantifier": "every simplified graph, every iteration order", "why_tests_cant": "All graphs.", "anchors": ["rdftk_io/src/json/writer.rs: JsonWriter::write", "rdftk_io/src/json/reader.rs: JsonReader::read"]}
{"id": "C47", "title": "JSON writer groups every statement exactly once", "statement": "The RDF/JSON document lists, under subject and predicate keys, exactly one value entry per distinct statement, and nothing else.", "quantifier": "every graph", "why_tests_cant": "All graphs and groupings.", "anchors": ["rdftk_io/src/json/writer.rs: JsonWriter::write"]}
{"id": "C48", "title": "The Turtle writer terminates on every finite graph", "statement": "Writing any finite graph as Turtle finishes.", "quantifier": "every finite graph, including cyclic blank node structures", "why_tests_cant": "Non-termination shows only on cyclic inputs, and termination on all acyclic ones needs a measure.", "anchors": ["rdftk_io/src/turtle/writer.rs: TurtleWriter::write, write_object, write_blank_node_property_list"]}
{"id": "C49", "title": "The Turtle writer keeps predicates apart", "statement": "In Turtle output every statement is written with its own predicate.", "quantifier": "every graph", "why_tests_cant": "All predicates.", "anchors": ["rdftk_io/src/turtle/writer.rs: write_verb, group_predicates, PredicateGroup"]}
{"id": "C50", "title": "The RDF/XML writer splits every predicate into namespace and element name", "statement": "For every predicate IRI the writer either reports an error or writes an element whose namespace and local name concatenate to the predicate.", "quantifier": "every predicate IRI", "why_tests_cant": "All IRIs, including those without '#' or '/' or ending in one.", "anchors": ["rdftk_io/src/xml/writer.rs: split_uri, write_subject"]}
{"id": "C51", "title": "The TriG writer writes all statements", "statement": "TriG output of a dataset contains the statements of every graph.", "quantifier": "every dataset", "why_tests_cant": "All datasets.", "anchors": ["rdftk_io/src/trig/writer.rs: TrigWriter::write"]}
{"id": "C52", "title": "DOT output edges connect declared nodes", "statement": "In DOT output each edge's end points are nodes declared in the same document with the label of the statement's subject/object, and distinct terms get distinct node ids.", "quantifier": "every graph, every option setting", "why_tests_cant": "All graphs and options.", "anchors": ["rdftk_io/src/dot/writer.rs: DotWriter::write"]}
{"id": "C53", "title": "genid gives a fresh well-known IRI under the same authority", "statement": "genid() fails exactly for IRIs that cannot be a base (urn:, mailto:, ...); otherwise the result keeps scheme and authority, has path /.well-known/genid/<uuid> and no query or fragment; different UUIDs give different IRIs.", "quantifier": "every IRI and every UUID", "why_tests_cant": "All IRIs and all random values.", "anchors": ["rdftk_iri/src/iri.rs: Iri::genid"]}
{"id": "C54", "title": "A duration literal denotes the duration it was made from", "statement": "Literal::from(duration) has as lexical form an xsd:duration that denotes the same number of seconds and nanoseconds, and different durations give different literals.", "quantifier": "every std::time::Duration", "why_tests_cant": "All 2^64 seconds values with all 10^9 nanosecond values.", "anchors": ["rdftk_core/src/model/literal.rs: From<Duration> for Literal"]}
{"id": "C55", "title": "A duration literal equals the duration it was made from", "statement": "Literal::from(d) == d for every duration d.", "quantifier": "every std::time::Duration", "why_tests_cant": "Universal over all durations.", "anchors": ["rdftk_core/src/model/literal.rs: From<Duration> for Literal, PartialEq<Duration> for Literal"]}
{"id": "C56", "title": "An IRI literal equals, and converts back to, the IRI it was made from", "statement": "Literal::from(iri) == iri, and converting it back gives what parsing the text of the IRI gives; a literal of any other data type is not converted.", "quantifier": "every IRI", "why_tests_cant": "All IRIs, including those with characters the literal escapes.", "anchors": ["rdftk_core/src/model/literal.rs: From<Iri> for Literal, PartialEq<Iri> for Literal, TryFrom<Literal> for Iri"]}
{"id": "C57", "title": "Expanding and compressing are look-ups in the current mappings", "statement": "expand(local name) gives v exactly if the prefix is currently mapped to an IRI to which the name can be appended giving v, and None exactly otherwise (no fall-back to other mappings); compress(iri) gives prefix:name exactly if the IRI splits into a currently mapped namespace IRI and that name, and None exactly if it does not split or the namespace is unmapped.", "quantifier": "every history of operations on the map, every local name and every IRI", "why_tests_cant": "Universal over map contents; the negative half (no result for anything unmapped) cannot be enumerated.", "anchors": ["rdftk_iri/src/map.rs: IriPrefixMap::expand, compress"]}
{"id": "C58", "title": "The resource builder keeps every value it is given", "statement": "After any sequence of calls on a Resource (including values added through a Predicate builder), its property/value pairs are exactly those asked for, as often as asked for, and the values of one property are kept in the order of the calls; the subject never changes.", "quantifier": "every sequence of builder calls", "why_tests_cant": "Arbitrary call sequences; no value is lost or replaced by a later call.", "anchors": ["rdftk_core/src/model/resource.rs: Resource::predicate, literal, resource, property_*, resource_*, instance_of, insert; Predicate"]}
{"id": "C59", "title": "The N-Triples and N-Quads readers accept exactly their grammar and read what is written", "statement": "A text is accepted by the N-Triples (N-Quads) reader exactly if it can be split into statements with white space and comments between tokens as the grammar in common.pest allows; an accepted N-Triples text yields exactly its statements in order, or the first error among its terms; a rejected text yields a tokenizer error and never a partial graph.", "quantifier": "every text", "why_tests_cant": "Universal over all texts; the negative half (everything else is rejected) cannot be enumerated.", "anchors": ["rdftk_io/src/common/common.pest", "rdftk_io/src/common/parser/ntriples.rs: parse_doc", "rdftk_io/src/common/parser/nquads.rs: parse_doc"]}
{"id": "C60", "title": "Every quad ends up in the graph it names", "statement": "Reading an N-Quads document gives a data set in which each graph holds exactly the statements of the quads with its label, in document order, quads without label go to the default graph, and there are no other graphs.", "quantifier": "every N-Quads document", "why_tests_cant": "All interleavings of any number of graphs.", "anchors": ["rdftk_io/src/common/parser/nquads.rs: nquad, parse_doc"]}
{"id": "C61", "title": "The RDF/JSON reader reads exactly what a document lists", "statement": "A JSON value is read as a graph exactly if every subject key, predicate key and object entry in it makes sense; the graph then holds exactly the statements listed, one for each entry; the reader panics only on a blank node object too short for the two bytes it cuts off.", "quantifier": "every JSON value", "why_tests_cant": "Universal over all documents, including malformed ones.", "anchors": ["rdftk_io/src/json/reader.rs: parse_graph, parse_statements, parse_predicate_element, parse_object_element"]}
{"id": "C62", "title": "A Turtle document says what the graph says", "statement": "For every graph whose terms can all be written, the Turtle text is, white space apart, the directives followed by one block for each subject, listing for each predicate of the subject exactly its objects; every statement stands in the document exactly once, and the text has the form the Turtle grammar asks for.", "quantifier": "every graph, every option setting, every hash order", "why_tests_cant": "Universal over graphs, options and hash orders; that nothing is lost or said twice cannot be sampled.", "anchors": ["rdftk_io/src/turtle/writer.rs: write_turtle_doc, write_triples, write_predicate_object_list, write_object, write_collection"]}
{"id": "C63", "title": "Quoted statements are written as reifications in Turtle", "statement": "In the Turtle output of a graph with quoted statements every quoted statement is replaced by a node that reifies it; graphs without quoted statements are written as they are.", "quantifier": "every graph", "why_tests_cant": "All nestings of quoted statements.", "anchors": ["rdftk_io/src/turtle/writer.rs: TurtleWriter::write"]}
{"id": "C64", "title": "The order of Turtle output is canonical", "statement": "Blocks are ordered by subject, predicates within a block by group (types, labels, comments, others) and name; the text depends on the graph only, not on hash orders.", "quantifier": "every graph, every hash order", "why_tests_cant": "Hash orders differ from run to run.", "anchors": ["rdftk_io/src/turtle/writer.rs: write_triples, write_predicate_object_list, group_predicates"]}
{"id": "C65", "title": "An IRI in Turtle output denotes the IRI in the graph", "statement": "The reference or prefixed name written for an IRI resolves, against the base and prefixes written, to that IRI.", "quantifier": "every IRI, base and prefix map", "why_tests_cant": "All IRIs and bases.", "anchors": ["rdftk_io/src/turtle/writer.rs: compress_iri"]}
{"id": "C66", "title": "A flat RDF/XML document has one node per subject and one element per statement", "statement": "For every graph that can be simplified to plain triples, in the flat style, the writer produces a well-nested document with exactly one node element for each subject, and in it exactly one property element for each statement about the subject, carrying its object; a graph that cannot be simplified is refused with an error.", "quantifier": "every graph, every hash order", "why_tests_cant": "That nothing is lost or said twice, over all graphs and hash orders, cannot be sampled.", "anchors": ["rdftk_io/src/xml/writer.rs: XmlWriter::write, write_subject"]}
{"id": "C67", "title": "A striped RDF/XML document says what the graph says", "statement": "In the striped style the document has a node for every IRI with statements, nests the nodes of blank objects in the property elements, says every statement of the graph, and the writer ends for every graph.", "quantifier": "every graph, every hash order", "why_tests_cant": "Termination and completeness over all graphs, including cyclic ones.", "anchors": ["rdftk_io/src/xml/writer.rs: XmlWriter::write, write_subject"]}
{"id": "C68", "title": "Writing RDF/XML and reading it back gives the same graph", "statement": "What the reader reads of a document the writer wrote is the graph written.", "quantifier": "every graph, every hash order", "why_tests_cant": "All graphs; the hash order is not under test control.", "anchors": ["rdftk_io/src/xml/writer.rs: XmlWriter::write", "rdftk_io/src/xml/reader.rs: XmlReader::read, parse_subject_element, parse_predicate_element, parse_object_element"]}
{"id": "C69", "title": "The RDF/XML reader reads what the document says", "statement": "For every document of node elements with property attributes and property elements the graph read holds exactly the statements the RDF/XML recommendation gives for it.", "quantifier": "every document", "why_tests_cant": "All documents and nestings.", "anchors": ["rdftk_io/src/xml/reader.rs: parse_document, parse_subject_element, parse_predicate_element, parse_object_element"]}
{"id": "C70", "title": "Reading RDF/XML always ends", "statement": "For every well-formed document (and every prefix of one that ends in an error) the reader ends with a graph or an error.", "quantifier": "every document", "why_tests_cant": "Termination over all documents.", "anchors": ["rdftk_io/src/xml/reader.rs: parse_document, parse_subject_element, parse_predicate_element, parse_object_element"]}
{"id": "C71", "title": "Reading RDF/XML never panics", "statement": "Whatever the document, the reader returns a graph or an error and does not panic.", "quantifier": "every document", "why_tests_cant": "All documents, including hostile ones.", "anchors": ["rdftk_io/src/xml/reader.rs: parse_subject_element, parse_predicate_element, parse_object_element, name_to_iri"]}
{"id": "C72", "title": "Literals in Turtle documents are read as what they are", "statement": "The word the Turtle writer puts for a literal is read, by the Turtle grammar, as a literal with the same lexical form, data type and language.", "quantifier": "every literal, every text, every set of prefixes and base", "why_tests_cant": "All characters, data types and languages; unit tests compare a handful of documents.", "anchors": ["rdftk_io/src/turtle/writer.rs: TurtleWriter::write_literal, compress_iri", "rdftk_core/src/model/literal.rs: escape_string, DataType::as_iri"]}
{"id": "C73", "title": "Vocabulary functions return the IRI and qualified name of their term", "statement": "For every use of namespace! with a namespace that ends in '#' or '/' and valid names, each generated function returns the namespace followed by the name, its _str and _qname companions the name and prefix:name, and different names give different IRIs; they never panic. All vocabularies shipped are of this kind, and their qualified names expand to the IRI, and the IRI compresses to the qualified name, in every prefix map that has the prefix. rdf::member gives a different IRI for each index.", "quantifier": "every table, every member, every prefix map and its history, every index", "why_tests_cant": "The tables are macro arguments, checked only at run time when first used; prefix maps are arbitrary.", "anchors": ["rdftk_names/src/lib.rs: namespace!, nsname!", "rdftk_names/src/rdf.rs: member, member_qname", "rdftk_names/src: all tables"]}
{"id": "C74", "title": "Vocabulary functions name terms that exist", "statement": "Every name in the shipped rdf, rdfs, owl, skos, xsd, dc, foaf and geo modules is a term of the vocabulary with that namespace, each function is spelled like its name, and the modules agree with the vocabularies of rdftk_iri on prefixes and namespaces.", "quantifier": "every name of the tables", "why_tests_cant": "Tests compare the crate with itself; here the tables are compared with the recommendations.", "anchors": ["rdftk_names/src/rdf.rs", "rdftk_names/src/rdfs.rs", "rdftk_names/src/owl.rs", "rdftk_names/src/skos.rs", "rdftk_names/src/xsd.rs", "rdftk_names/src/dc", "rdftk_names/src/foaf.rs", "rdftk_names/src/geo.rs", "rdftk_iri/src/vocab.rs"]}
{"id": "C75", "title": "An indexed graph holds the statements its history gives it", "statement": "After any sequence of insert, merge, dedup, remove, remove_all_for, clear, set_name and set_prefix_mappings on a new indexed graph, statements, len and is_empty are those of the bag the calls describe, and only the setters change the name and the mappings. A graph built from a slice holds the statements of the slice, and changes through statements_mut are seen by the queries.", "quantifier": "every history, every statement, every merged graph, every hash order, every slice", "why_tests_cant": "Three indices and a vector must stay in step over every interleaving of operations.", "anchors": ["rdftk_core/src/simple/indexed.rs: create, insert, merge, dedup, remove, remove_all_for, clear, statements_mut"]}
{"id": "C76", "title": "The queries of an indexed graph answer from the statements it holds", "statement": "After any history, matches finds exactly the statements that agree with the criteria given, an absent criterion agreeing with everything; contains_subject, subjects, predicates, objects, predicates_for and objects_for report exactly what occurs in the statements.", "quantifier": "every history, every subject, predicate and object, with each criterion present or absent", "why_tests_cant": "The answers come from indices that are updated separately from the statements; stale keys appear only after particular histories.", "anchors": ["rdftk_core/src/simple/indexed.rs: matches, contains_subject, subjects, predicates, predicates_for, objects, objects_for"]}
{"id": "C77", "title": "Removal from an indexed graph is exact", "statement": "remove takes one occurrence of the statement away and changes nothing if there is none; remove_all_for returns all statements with the subject and keeps all others; dedup keeps one of each statement and returns the surplus.", "quantifier": "every history, statement, subject and hash order", "why_tests_cant": "remove and dedup search the vector and three indices by equality; the results depend on multiplicities.", "anchors": ["rdftk_core/src/simple/indexed.rs: remove, remove_all_for, dedup, remove_indices_for, remove_from_index"]}
{"id": "C78", "title": "A command of the tool writes its output or reports failure", "statement": "rdftk convert and draw, given an input in one of the formats they list, either read it, write the graph in the target format and exit with success, or write nothing and exit with failure; they do not panic. For N-Triples input success depends only on whether every statement of the text can be understood.", "quantifier": "every input text, every source and target format, every iteration order", "why_tests_cant": "Only some of the 64 combinations of formats can be tried, each with a few files; which inputs lead to an unimplemented branch is a matter of all inputs.", "anchors": ["rdftk_cli/src/commands/mod.rs: read_graph, write_graph", "rdftk_cli/src/commands/representations.rs: ConvertCmd", "rdftk_cli/src/commands/draw.rs: DrawCmd", "rdftk_cli/src/commands/namespaces.rs: NamespaceCmd"]}
{"id": "C79", "title": "Converting N-Triples to N-Triples keeps the statements", "statement": "The output of converting an N-Triples document to N-Triples is an N-Triples document with the same statements.", "quantifier": "every document, every character in its strings, every iteration order", "why_tests_cant": "It depends on every character of every literal surviving a reader and a writer that each have their own idea of escaping.", "anchors": ["rdftk_cli/src/commands/representations.rs: ConvertCmd", "rdftk_io/src/nt/writer.rs", "rdftk_io/src/common/parser/ntriples.rs"]}
{"id": "C80", "title": "Changing the fragment or path of an IRI changes nothing else", "statement": "with_new_fragment and with_empty_fragment replace whatever follows the first '#' of an IRI, with_no_fragment removes it together with the '#', with_new_path replaces the path; every other part of the text is unchanged and the result is a valid IRI; a fragment, and the path of an opaque IRI, stand for the bytes of the text given, and a path has no dot segments.", "quantifier": "every IRI, every fragment and path", "why_tests_cant": "IRIs come in many shapes (opaque, with query, with authority); the claim is about every text that can be given as a fragment or path.", "anchors": ["rdftk_iri/src/iri.rs: with_new_fragment, with_empty_fragment, with_no_fragment, with_new_path"]}
{"id": "C81", "title": "References and names have unambiguous texts", "statement": "Two IRI references (IRIs, namespaces or local names) that are displayed alike are the same; so are two local names with the same compact URI; a name qualified by a namespace is what is read from the text of both; a local name made without checks can be read back if and only if it would have passed them.", "quantifier": "every pair of references, every namespace and name", "why_tests_cant": "Injectivity quantifies over all pairs.", "anchors": ["rdftk_iri/src/iri.rs: IriRef", "rdftk_iri/src/pname.rs: LocalName, Namespace, Name"]}
{"id": "C82", "title": "A literal equals at most one native value: the one it can be made from", "statement": "Whatever native values a literal is compared with (booleans, integers of all widths, strings, language tags, names, qualified names, IRIs, durations), it equals at most one of them, and it equals the value v exactly if it equals Literal::from(v).", "quantifier": "every literal, every pair of values", "why_tests_cant": "All literals, including those nobody made from a native value, against all values of all types.", "anchors": ["rdftk_core/src/model/literal.rs: From<bool>, From<i64>.., From<&str>, From<LanguageTag>, From<Name>, From<QName>, From<Iri>, From<Duration> and the PartialEq impls for Literal"]}
{"id": "C83", "title": "Ontology classes, properties and vocabularies hold what was added and not removed", "statement": "After any sequence of calls a Class or Property of rdftk_ontology is an instance of exactly the types, and a child of exactly the parents, that were added and not removed since, and has exactly those label properties (domains, ranges); a class made by subclass or instance has the class it was made from as its only parent or type, and is otherwise a plain class. A Vocabulary has, for every IRI, the class and the property added last under it and not removed since, each once.", "quantifier": "every history of calls, every hash order", "why_tests_cant": "Histories of interleaved additions and removals, with repeated additions of one value, are unbounded.", "anchors": ["rdftk_ontology/src/macros.rs: impl_labeled!, impl_has_type!, impl_has_parent!", "rdftk_ontology/src/rdfs/mod.rs: Vocabulary, Class, Property"]}
{"id": "C84", "title": "The statements of a vocabulary say its labels, types, parents, domains and ranges", "statement": "Vocabulary::to_statements yields, in any order of its maps, exactly the statements: each label property of the vocabulary, its classes and its properties under the predicate of its kind; each type under rdf:type; each parent under rdfs:subClassOf or rdfs:subPropertyOf; each domain and range.", "quantifier": "every vocabulary that calls can make, every hash order, every statement", "why_tests_cant": "No test looks at the statements of a vocabulary, and their order depends on the hasher.", "anchors": ["rdftk_ontology/src/rdfs/mod.rs: to_statements", "rdftk_ontology/src/macros.rs: to_statements of the helper traits", "rdftk_ontology/src/lib.rs: LabelProperty, ToStatements"]}
{"id": "C85", "title": "rdf_schema() is the vocabulary of the RDF Schema recommendation", "statement": "The statements of rdf_schema() are the class, subclass, property, domain and range triples of the RDF Schema 1.1 recommendation for the rdf: and rdfs: terms.", "quantifier": "every statement, every hash order", "why_tests_cant": "A comparison with the recommendation in both directions; no test makes one.", "anchors": ["rdftk_ontology/src/rdfs/mod.rs: rdf_schema", "rdftk_names/src/rdfs.rs"]}
{"id": "C86", "title": "The statements of a SKOS scheme say exactly what the scheme has", "statement": "Scheme::to_statements (and to_rdf_graph) yields exactly: the type, labels and properties of the scheme; for every concept reachable from a top concept by narrower relations its type, skos:inScheme, relations, external relations, labels and properties, with skos:topConceptOf and skos:hasTopConcept for the top concepts; and the same for every collection with its members, each statement once. It ends for every scheme whose concepts are not narrower than themselves.", "quantifier": "every scheme that calls can make, every statement", "why_tests_cant": "Schemes are graphs of shared concepts of any shape; tests look at one or two concepts.", "anchors": ["rdftk_skos/src/model/scheme.rs: to_statements, concepts_flattened, collections_flattened", "rdftk_skos/src/model/concept.rs: to_statements, concepts_flattened", "rdftk_skos/src/model/collection.rs: to_statements, collections_flattened", "rdftk_skos/src/model/mod.rs: to_rdf_graph_with_mappings"]}
{"id": "C87", "title": "An ordered SKOS collection is written as a list of its members", "statement": "For every ordered collection with members the statements contain skos:memberList with a well-formed RDF list of the IRIs of its members, in order.", "quantifier": "every scheme that calls can make, every ordered collection", "why_tests_cant": "The list is a chain of generated blank nodes of any length, among the lists of other collections.", "anchors": ["rdftk_skos/src/model/collection.rs: to_statements, make_list_node, add_to_list_node, make_list_end"]}
{"id": "C88", "title": "Inverting a concept relation twice gives it back", "statement": "ConceptRelation::inverse is an involution that exchanges narrower and broader relations of the same kind.", "quantifier": "every relation", "why_tests_cant": "A law over all pairs; the inverse is used only when a document is made.", "anchors": ["rdftk_skos/src/model/concept.rs: ConceptRelation::inverse, is_narrower, is_broader"]}
{"id": "C89", "title": "The preferred label is the first preferred label in exactly that language, or else the IRI", "statement": "preferred_label(language) returns the text of the first label of kind Preferred with that language (or without one, for None), and the IRI if there is none; Label constructors accept the empty language and panic exactly for texts that are no language tag.", "quantifier": "every list of labels, every language, every parser of tags", "why_tests_cant": "Lists of labels of several kinds and languages are unbounded.", "anchors": ["rdftk_skos/src/model/properties.rs: final_preferred_label, Label::new", "rdftk_skos/src/model/concept.rs, collection.rs, scheme.rs: preferred_label"]}
{"id": "C90", "title": "Each named constructor of a literal property uses the predicate it is named after", "statement": "LiteralProperty::change_note, definition, ..., title, term_status make a property with the SKOS, Dublin Core or vocabulary status predicate of that name and the text given; the forms with a language also have the language, and panic exactly for texts that are no language tag.", "quantifier": "every constructor, every text, every parser of tags", "why_tests_cant": "A comparison of a table of names with the specifications, over all texts.", "anchors": ["rdftk_skos/src/model/properties.rs: LiteralProperty"]}
{"id": "C91", "title": "The vocabularies of rdftk_skos are those of the specifications", "statement": "Every function of ns, ns::xl, ns::iso and ns::term_status returns its namespace followed by its name, and is spelled like it; the names in ns and ns::xl are exactly those of SKOS and of SKOS-XL.", "quantifier": "every function, every name", "why_tests_cant": "A comparison with the specifications in both directions; no test makes one.", "anchors": ["rdftk_skos/src/ns.rs"]}
{"id": "C92", "title": "Concepts, collections and schemes hold what was added to them, in order", "statement": "After any sequence of calls each concept has exactly the labels, properties, relations and external relations given to it, each collection its labels, properties and members, and the scheme its top concepts, top collections, labels and properties, in the order of the calls; calls on one value change no other.", "quantifier": "every history of calls", "why_tests_cant": "Values are shared between parents and histories are unbounded.", "anchors": ["rdftk_skos/src/model/concept.rs", "rdftk_skos/src/model/collection.rs", "rdftk_skos/src/model/scheme.rs"]}
{"id": "C93", "title": "A node equals a bare term exactly when it is that term", "statement": "SubjectNode == t and ObjectNode == t, for t a BlankNode, Iri, Literal, Collection, Statement or Arc<Statement>, hold exactly when the node is the one t converts into; a node equals exactly one bare term; subject and object nodes agree; a collection made from a term has that term as its one item.", "quantifier": "every node, every bare term, nested to any depth", "why_tests_cant": "Statements and collections nest; the pairs of kinds that must differ even when their texts agree are not enumerated by tests.", "anchors": ["rdftk_core/src/model/statement/subject.rs: PartialEq, From", "rdftk_core/src/model/statement/object.rs: PartialEq, From", "rdftk_core/src/model/statement/collection.rs: From"]}
{"id": "C94", "title": "The document of a SKOS scheme shows everything that is in it", "statement": "make_document gives the scheme, every collection and every concept under the top concepts a section with its IRI, labels by kind, definition and properties, relations (given and inverse, then external), members and memberships; the hierarchy lists exactly the chains of narrower concepts, by label, parts and instances in italics; a definition is shown only in the language of the document; sections are in the order of labels, each concept once if labels and IRIs differ.", "quantifier": "every sequence of calls on a scheme, every language, abbreviation and anchor function", "why_tests_cant": "The tree of shared concepts, sorting and removal of duplicates interact; tests look at single documents.", "anchors": ["rdftk_skos/src/document.rs: make_document_with_mappings, write_entity_header, write_labels, write_other_properties, write_concept, write_collection, write_concept_tree"]}
{"id": "C95", "title": "Making the document of a SKOS scheme leaves the scheme as it is", "statement": "make_document changes nothing but the related concepts: to each it appends the inverses of the narrower and related concepts of the tree, as add_related_concept would; it changes nothing only if there are none; the RDF appendix says what the scheme says and these; it panics only for a concept related to itself.", "quantifier": "every sequence of calls on a scheme, every language, abbreviation and anchor function", "why_tests_cant": "The change is through shared cells behind a & reference, and shows only on what is made afterwards.", "anchors": ["rdftk_skos/src/document.rs: make_document_with_mappings", "rdftk_skos/src/model/concept.rs: ConceptRelation::inverse, add_related_concept"]}
{"id": "C96", "title": "Making the document of a SKOS scheme ends", "statement": "make_document ends unless a concept is narrower than itself or one listed twice reaches, by relations of any kind, a concept related to itself (IRIs being different); in these cases (labels being different) it never ends; without concepts related to themselves it always ends; the result does not depend on the depth allowed.", "quantifier": "every sequence of calls on a scheme, every language, abbreviation and anchor function", "why_tests_cant": "Concepts are compared by structure through cyclic references; no finite set of runs shows that a recursion ends.", "anchors": ["rdftk_skos/src/document.rs: make_document_with_mappings, write_concept_tree_inner", "rdftk_skos/src/model/concept.rs: PartialEq of Concept"]}
{"id": "C97", "title": "The links in the document of a SKOS scheme go somewhere", "statement": "The internal links of the document are exactly those to its parts, to the concepts in the tree, in relations and in collections, and to collections that have or are members, each with the label as its caption; each goes to an anchor of the document, but for the link to Collections and for those to concepts outside the tree.", "quantifier": "every sequence of calls on a scheme, every language, abbreviation and anchor function", "why_tests_cant": "Anchors and links are made in different functions for different sets of concepts.", "anchors": ["rdftk_skos/src/document.rs: write_entity_header, write_concept_relations, write_collection_members, write_collection_membership, write_concept_tree"]}
{"id": "C98", "title": "Literals of floating point numbers and decimals", "statement": "Literal::from(x) for an f64, f32 or Decimal x compares equal (PartialEq) to y of the same type exactly if x == y; its data type is xsd:double for f64, xsd:float for f32, xsd:decimal for Decimal, and its lexical form is a valid one of that type and denotes x. False for NaN, for the two zeros, for decimals of different scale, and for the infinities, which are written 'inf'.", "quantifier": "every floating point number, including NaN, infinities and negative zero; every decimal of any scale", "why_tests_cant": "The exceptional values are the ones a test suite leaves out, and the lexical forms are checked against the XML Schema grammar for all others.", "anchors": ["rdftk_core/src/model/literal.rs: From<f64>, PartialEq<f64>, From<f32>, PartialEq<f32>, From<Decimal>, PartialEq<Decimal> for Literal"]}
{"id": "C99", "title": "Error traces list every cause once", "statement": "error_trace(e) has one numbered line for e and one for each error reached through source(), numbered from 1 in order, followed by as many empty lines; errors with the same trace have the same messages (if these are single lines). The message of an error ends with the message of its source and contains the text the error was made with; errors of different kinds have different messages. Every error that wraps another reports it as its source: false of Error::Tokenizer.", "quantifier": "every error value and every chain of sources of any length", "why_tests_cant": "Chains of any depth and messages of any content.", "anchors": ["rdftk_core/src/error.rs: error_trace, trace_one, Display for Error, Error::source", "rdftk_iri/src/error.rs: Error, NameParseError"]}
{"id": "C100", "title": "Turtle documents read back as the same statements", "statement": "The text the Turtle writer makes of a graph is a Turtle document, and the statements a Turtle reader finds in it are exactly those of the graph, each once, with blank nodes in brackets described as the graph describes them; so graphs written as the same text say the same, whatever the options, prefixes and hash orders. False of nested blank nodes that are subjects too, which are read as two nodes, of graphs with a collection of two or more items, of IRIs that end in a bare '#' written with names of a prefix map, and of rdfs:subClassOf and the other predicates written as rdf:type.", "quantifier": "every graph of statements with IRI or labelled blank subjects, every option, prefix map, base and hash order", "why_tests_cant": "All graphs with all layouts; needs a reader of Turtle, which the project does not have.", "anchors": ["rdftk_io/src/turtle/writer.rs: write_graph, write_base, write_prefixes, write_subject, write_predicate, write_object", "rdftk_core/src/model/graph/mapping.rs: compress"]}
{"id": "C101", "title": "SPARQL keywords are whole words in any case", "statement": "keyword(k) succeeds exactly if the text begins with k, whatever the case of its ASCII letters, and no alphanumeric character follows; it leaves what follows, and otherwise fails without consuming anything, so that alternatives work.", "quantifier": "every keyword and every text, every table of alphanumeric characters", "why_tests_cant": "All texts after all keywords.", "anchors": ["rdftk_query/src/sparql/parser/common.rs: keyword"]}
{"id": "C102", "title": "SPARQL prologues are read to their end", "statement": "A sequence of BASE and PREFIX declarations with any white space between the tokens is read to the end of the last one, each with the prefix and IRI that stand in the text, and every other text after a BASE or PREFIX keyword is an error; FROM and FROM NAMED clauses likewise. What is read is what the grammar of SPARQL allows.", "quantifier": "every text", "why_tests_cant": "All sequences of declarations and all layouts.", "anchors": ["rdftk_query/src/sparql/parser/common.rs: prologue, base_decl, prefix_decl, iri_ref, prefixed_name_namespace, prefixed_name_prefix, dataset_clause"]}
{"id": "C103", "title": "SPARQL variables", "statement": "variable() reads '?' or '$' and the longest variable name of the grammar after it, and nothing else.", "quantifier": "every text", "why_tests_cant": "All characters of Unicode.", "anchors": ["rdftk_query/src/sparql/parser/common.rs: variable, var_name, is_var_name_head, is_var_name_tail"]}
{"id": "C104", "title": "SPARQL prefixed names", "statement": "A prefixed name is read as its prefix and its local name, with escapes replaced by the characters they stand for; a name without local part is read too; no text makes the reader panic.", "quantifier": "every text", "why_tests_cant": "All names and all escapes.", "anchors": ["rdftk_query/src/sparql/parser/common.rs: prefixed_name, prefixed_name_local_name, prefixed_name_local, prefixed_name_local_tail, prefixed_local_escape, percent_escape, iri"]}
{"id": "C105", "title": "SPARQL language tags", "statement": "lang_tag() reads exactly the LANGTAGs of the grammar, to their end, and never panics.", "quantifier": "every text", "why_tests_cant": "All texts.", "anchors": ["rdftk_query/src/sparql/parser/common.rs: lang_tag"]}
{"id": "C106", "title": "Literals of chrono durations", "statement": "Literal::from(d) for a chrono::Duration d is an xsd:duration that denotes d, to the nanosecond and with its sign, and equals (PartialEq<chrono::Duration>) d and no other duration. Standard durations are converted to those of chrono first, as the documentation of the module says, so their literals equal the same duration of chrono.", "quantifier": "every duration of any sign with any number of nanoseconds", "why_tests_cant": "All 2^64 seconds and 10^9 nanoseconds; the borrow between seconds and nanoseconds of negative durations and the trimming of zeros.", "anchors": ["rdftk_core/src/model/literal.rs: From<chrono::Duration>, PartialEq<chrono::Duration>, From<Duration>, module documentation"]}
{"id": "C107", "title": "Converting there and back", "statement": "What `rdftk convert` writes for an N-Triples document in RDF/JSON or RDF/XML can be given to `rdftk convert` again, and converting it back to N-Triples gives the statements of the original document; the Turtle it writes says the same as the original.", "quantifier": "every N-Triples document, every environment of the tool (hash orders, IRI and language tag parsers, Unicode tables)", "why_tests_cant": "Composition of four readers and writers that are tested one by one; the quirks of one side only show in the other.", "anchors": ["rdftk_cli/src/commands/mod.rs: read_graph, write_graph", "rdftk_cli/src/commands/representations.rs: ConvertCmd", "rdftk_io/src/json/writer.rs: JsonWriter::write", "rdftk_io/src/json/reader.rs: JsonReader::read", "rdftk_io/src/xml/writer.rs: XmlWriter::write", "rdftk_io/src/xml/reader.rs: XmlReader::read"]}
{"id": "C108", "title": "Serde", "statement": "Deserializing what was serialized of an Iri, IriRef, Name, Namespace, LocalName, PrefixedName or IriPrefixMap with serde_json gives an equal value. Whatever is deserialized is a value that could also have been made by the other public functions: names and prefixes follow the grammar, and a map is a bijection whatever its text.", "quantifier": "all values of the seven types, all JSON texts (with repeated and unknown keys), all histories of calls for maps", "why_tests_cant": "Tests serialize valid values and read them back; what else is accepted, and what it breaks elsewhere, is not tested.", "anchors": ["rdftk_iri/src/pname.rs: derive(Deserialize, Serialize) for PrefixedName, Namespace, Name, LocalName", "rdftk_iri/src/iri.rs: derive(Deserialize, Serialize) for Iri, IriRef", "rdftk_iri/src/map.rs: derive(Deserialize, Serialize) for IriPrefixMap"]}
{"id": "C109", "title": "The text of a statement determines it", "statement": "Two statements, subjects or objects have the same Display text exactly if they look alike: they are the same, but for numbers and truth values with the same text and different types (not at the top of {:#}), data types with the same IRI, and IRIs and literals of IRIs. Without these, the text determines the statement, however deeply quoted statements and collections are nested.", "quantifier": "every two terms whose IRIs have no blanks and angle brackets, whose labels and tags have no blanks and whose literals are escaped, as the constructors make them", "why_tests_cant": "Two terms with the same text would have to be found among unboundedly nested ones; a test only shows texts of a few.", "anchors": ["rdftk_core/src/model/statement.rs: Display for Statement", "rdftk_core/src/model/statement/subject.rs: Display for SubjectNode", "rdftk_core/src/model/statement/object.rs: Display for ObjectNode", "rdftk_core/src/model/statement/collection.rs: Display for Collection", "rdftk_core/src/model/literal.rs: Display for Literal"]}
{"id": "C110", "title": "Hashing agrees with equality and tells terms apart", "statement": "What Hash feeds to a hasher is the same for two statements, subjects, objects, literals or graph names exactly if they are equal by ==, and is never a prefix of what is fed for another one, so nothing that is fed next to it makes them alike. A hash table of them works as a set through any sequence of insert, remove and contains, whatever the hasher, and however its hashes collide.", "quantifier": "every two terms, however nested; every size and byte order of usize; every hasher; every sequence of calls", "why_tests_cant": "Two unequal terms fed alike, or equal ones fed differently, would have to be found among unboundedly many; and a test uses one hasher with random keys, under which collisions do not happen.", "anchors": ["rdftk_core/src/model/literal.rs: Hash for Literal", "rdftk_core/src/model/statement.rs: derived Hash for Statement", "rdftk_core/src/model/statement/subject.rs: derived Hash for SubjectNode", "rdftk_core/src/model/statement/object.rs: derived Hash for ObjectNode", "rdftk_core/src/model/statement/collection.rs: derived Hash for Collection", "rdftk_core/src/model/graph.rs: derived Hash for GraphName"]}
{"id": "C111", "title": "The text of a DOT document says what is drawn", "statement": "What the DOT writer writes for a graph is a document of the DOT language, and reading it gives a node for each term of the graph, with its kind, text and (for IRIs) URL, and an edge between the right nodes for each statement, labelled with its predicate: nothing in the text of an IRI, literal or option can end a quoted text early or be taken for something else.", "quantifier": "every graph of IRIs, blank nodes and literals, every hash order, all options and prefix mappings", "why_tests_cant": "All texts that IRIs and literals may have, with quotation marks and backslashes in any order; tests look for a line in the output and do not read it.", "anchors": ["rdftk_io/src/dot/writer.rs: DotWriter::write, DotOptions"]}
{"id": "C112", "title": "N-Triples and N-Quads files are UTF-8, no more and no less", "statement": "Reading a file whose bytes are the UTF-8 encoding of a text is reading that text; every other sequence of bytes, and an input that fails, gives an I/O error and never a panic or a graph. What the writers hand to an output that accepts everything is read back as the graph or data set that was written.", "quantifier": "every sequence of bytes, every text, every graph and data set the formats can carry, every way the formatting code may divide a line into calls of the output", "why_tests_cant": "All byte sequences: truncated, overlong and surrogate encodings in any place; tests use ASCII strings and never give the readers bytes that are not text.", "anchors": ["rdftk_io/src/nt/reader.rs: read; rdftk_io/src/nq/reader.rs: read; rdftk_io/src/nt/writer.rs: write; rdftk_io/src/nq/writer.rs: write"]}
{"id": "C113", "title": "An interrupted file never says something else", "statement": "If a call of the output fails, the N-Triples and N-Quads writers stop, report an I/O error, and have written a beginning of the document. A file that was cut, at whatever byte, is rejected or consists of whole lines and is read as just their statements: no cut makes a statement that was not in the graph.", "quantifier": "every output and every call at which it may fail, every place to cut, every graph and data set the formats can carry whose objects (for N-Quads, graph names) have no labels with a full stop", "why_tests_cant": "Every byte of every document is a place to cut, inside characters, labels, tags and texts; tests write to a vector that never fails and read whole documents.", "anchors": ["rdftk_io/src/nt/writer.rs: write; rdftk_io/src/nq/writer.rs: write; rdftk_io/src/common/common.pest: BLANK_NODE_LABEL_TAIL, ntriple, nquad"]}
{"id": "C114", "title": "A drawing that failed can be made again", "statement": "If a call of the output fails, the DOT and TriG writers stop, report an I/O error, and have written a beginning of the document. The DOT writer keeps the nodes it has numbered so far; drawing the same graph again with it gives exactly the document the first attempt was to give. A drawing that was cut anywhere is no DOT document.", "quantifier": "every output and every call at which it may fail, every graph of IRIs, blank nodes and literals, every state of the writer, every order of statements and nodes", "why_tests_cant": "The state the writer is left in depends on where the output failed; tests draw each graph once, with a new writer, into a vector.", "anchors": ["rdftk_io/src/dot/writer.rs: write, subject_id, object_id; rdftk_io/src/trig/writer.rs: write"]}
{"id": "C115", "title": "A writer's setting is what was said last", "statement": "Whatever calls a program makes to build the options of the Turtle, TriG, DOT or XML writer, each setting is what the last call that names it says, or its default if none does; no call changes another setting, and each setting can be changed. A Turtle indent width of zero, with which writing panics, is refused.", "quantifier": "every list of calls of the builders, with every argument, on every options type of the writers", "why_tests_cant": "The orders of calls are unlimited; tests call one or two builders and look at the document.", "anchors": ["rdftk_io/src/turtle/writer.rs: TurtleWriterOptions; rdftk_io/src/trig/writer.rs: TrigWriterOptions; rdftk_io/src/dot/writer.rs: DotOptions; rdftk_io/src/xml/writer.rs: XmlOptions"]}
{"id": "C116", "title": "The layout of a Turtle document is given by the options", "statement": "The text of a Turtle document is determined, down to every space and line break, by the options, the words for the terms and the order they are written in: directives, a block for each subject, predicates one step in, and with predicate padding the objects in a column, without it one space after each predicate; words never run together.", "quantifier": "every graph without nested blank nodes and non-empty collections, every options, every order of hash sets", "why_tests_cant": "Tests compare a few documents with expected texts; the layout depends on the lengths of all names of a subject and on which object comes next.", "anchors": ["rdftk_io/src/turtle/writer.rs: write_turtle_doc, write_base_iri, write_prefixes, write_triples, write_subject, write_predicate_object_list, write_verb, write_predicate_object, write_predicate_object_object, write_padded, write_padding, new_line"]}
{"id": "C117", "title": "An interrupted Turtle file does not say anything the graph does not say", "statement": "Whichever call of the output fails, what has been accepted is the beginning of the Turtle document, and success is reported only if all of it was accepted.  A document cut anywhere is rejected by readers, or is read as all the graph says about some of its subjects and nothing about the others.", "quantifier": "every readable graph without full stops in names, labels and numbers, every options and orders, every place to cut, every output", "why_tests_cant": "Tests write to outputs that do not fail; a document can be cut at every byte, in the middle of characters, words and strings.", "anchors": ["rdftk_io/src/turtle/writer.rs: write, write_turtle_doc, write_triples, write_subject, write_predicate_object_list, write_object, write_literal, write_iri; rdftk_core/src/error.rs: Io"]}
{"id": "C118", "title": "The standard prefixes shorten everything the SKOS library says", "statement": "standard_mappings never panics and has the eight prefixes for their namespaces; of the mappings it starts from it keeps exactly those that use none of them. Every predicate and class that the library puts into the graph of a thesaurus on its own, and every predicate of a property constructor, is shortened to prefix and name by these mappings, and expands to the same IRI again.", "quantifier": "every map to start from, every history of calls on a thesaurus, every statement of its graph, every constructor", "why_tests_cant": "A test with one thesaurus sees the terms it uses; the claim relates every term in three crates to the prefixes in a fourth.", "anchors": ["rdftk_skos/src/model/mod.rs: standard_mappings, to_rdf_graph; rdftk_skos/src/ns.rs; rdftk_names/src/lib.rs: namespace!; rdftk_iri/src/map.rs: insert, compress, expand"]}
