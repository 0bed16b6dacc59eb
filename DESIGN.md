# Formal model of rust-rdftk: design

## Scope

Source: `/repo` (johnstonskj/rust-rdftk), read as text. Nothing is compiled or run.
The model is a set of total Gallina functions, one per modelled Rust function, each
with a comment citing file and lines. Proofs use Coq 8.16.1 and its standard library only.

Modelled crates: `rdftk_iri` (names, IRIs, prefix maps, vocabularies), `rdftk_core`
(literals, terms, statements, collections, graphs, datasets, resource builder) and
`rdftk_io` (N-Triples, N-Quads, RDF/JSON, indentation, the Turtle, TriG and DOT writers, RDF/XML),
`rdftk_names` (the macros and all tables),
`rdftk_core/src/simple/indexed.rs` (in the source tree but not declared as a module),
`rdftk_cli` (the commands, as compositions of readers and writers).
`rdftk_ontology` (commented out of the workspace and written for the factories of an earlier
`rdftk_core`; its statements are made with the present constructors).
`rdftk_skos` (the same; it does not compile as it is, see Skos.v): the data model, the vocabularies
the statements, and the documents of document.rs as lists of blocks.
`rdftk_query` (commented out of the workspace and not finished): the tokens and declarations of SPARQL.
Not modelled: the rest of `rdftk_query`, the Turtle/TriG/N3 parsers (`todo!()`).

An inconsistency in the pinned commit: `rdftk_iri` has been rewritten (`LocalName`,
`Namespace`, `Iri` over `url::Url` with `<...>` display) while `rdftk_core`, `rdftk_io` and
`rdftk_names` still call its previous interface (`QName`, `IriExtra`, ...). Each crate is
modelled as written. Where a lower layer's behaviour matters to an upper one and the two
versions differ (how an `Iri` is displayed) the model is parametrised by the display
function and theorems say for which choice they hold.

## Representation

* Rust `String`/`&str`: `str := list N`, the list of Unicode scalar values. UTF-8 byte order
  equals code point order, so lexicographic comparison of code points models `Ord for str`.
* `&mut self` methods return the new value. `Result`/`Option` are data. A panic is an
  explicit result (`Panic`), never a default value.
* `HashSet`/`HashMap` iteration order is unspecified: theorems about iteration quantify over
  an arbitrary order (a permutation).
* `url::Url` (external crate): record of components plus the serialisation function and
  the two setters used (`set_path`, `set_fragment`), written from the WHATWG rules the crate
  implements, restricted to well-formed (already normalised) URLs. `Url::parse` is a
  universally quantified function assumed to invert serialisation; a concrete instance
  satisfying the assumption is given.
  The authority is one opaque string, the scheme `file` (which has rules of its own) is
  excluded, and percent-encoding uses the crate's PATH and FRAGMENT sets.
* `genid` (UUID): a universally quantified stream of values, with distinctness as an explicit
  hypothesis where needed. Blank node generation is the counter of the code, threaded through.
* In the core layer an `Iri` is its text. A `HashSet` is a list without repetitions plus, for
  every operation that iterates, a quantified order. A `LanguageTag` is its normalised text.
  `char::escape_debug` is modelled with its two Unicode tables (grapheme-extend, printable) as
  quantified predicates, constrained on ASCII only. `NameParser::BlankNode` is not in the
  repository: quantified predicate `label_ok`.

## Trusted base

1. Coq's kernel (8.16.1), and what `Print Assumptions` reports under each theorem:
   "Closed under the global context" for every theorem so far; no axiom is used. (`coqchk` on the whole library also lists the parameters of a module type in
   `Coq.ssr.ssrunder`, which the standard library loads; no theorem depends on them.)
2. That the Gallina functions say what the cited Rust code does (by reading).
3. The models of external crates (`url`, `bimap`, `pest`, `std` collections, `regex`,
   `serde_json`, `combine`, `chrono`, `xml-rs` (`parsed` in XmlSpec.v), `language-tags`, `uuid`) as described in the comments.

## Method

For each area: `X.v` (model, no proofs), `XSpec.v` (independent specification: grammars as
inductive predicates, abstract sets), `XProofs.v` (lemmas), `PropsX.v` (only the property
theorems, each closed by `exact`, with `Print Assumptions` and an `Example` showing that
the hypotheses are met by a non-trivial case). A property that is false of the faithful
model gets `..._refuted` with a concrete witness, and next to it a theorem stating exactly
when it does hold.

## Plan per property

* C01, C02: grammar as an inductive predicate built from the productions in the doc comments;
  equivalence with the acceptor by list induction. C02 is false (prefix ending in '.'):
  refute, and characterise the accepted set exactly.
* C03: first-separator lemma: the parsed prefix contains no inner ':'.
* C04: constructors are the only source of values; invariant "ends with ':'".
* C05: case analysis of the three parsers against a declarative classification.
* C06: quantified URL parser which inverts serialisation.
* C07, C08: algebra of URL components; refuted for path split with an empty fragment (C07)
  and for non-ASCII names (C08); proved under exactly those guards.
* C09: refuted (opaque URLs); exact characterisation of panicking IRIs.
* C10: direct from the component algebra.
* C11, C12, C17: two sorted association lists as in `bimap`; invariant and refinement to a
  set of pairs by induction over histories.
* C13-C15: C07/C08 composed with the map invariant.
* C16: finite computation over the table plus permutation argument.
* C18, C19: mutual structural induction over terms.
* C20-C26: list/permutation model of the two statement containers; refinement by induction
  over histories. C23, C24 are false of the code: refute and characterise.
* C27: renaming as a finite map; invariant of the fold.
* C28: refuted; proved for graphs without the failing shape.
* C29, C30: decoder specification; induction over nesting/length with fresh supply.
* C31: refuted for nested resources; proved for trees without nested resources.
* C32: association list keyed by name; invariant by induction over histories.
* C33: case analysis; one direction refuted.
* C34: decimal printing/parsing round trip for Z with range checks.
* C35-C37: model of Rust's `Debug` escaping with the two Unicode tables
  (grapheme-extend, printable) as quantified predicates; C35 refuted for strings that need escaping.
  C37_text relates what is written to Rust's notation for strings.
* C36: refuted (decoder expects spaces, tag wrong); characterised.
* C38: acceptor = specification; generator is a counter.
* C39: refuted (inverted test).
* C40-C43: executable model of the PEG grammar and of the writer; induction over documents.
  C43 refuted (double escaping); C40/C41 proved for literals whose escaping is the identity; for graphs with
  quoted statements and collections C40_nested and C41_nested (composition with the argument for C28).
* C44: refuted (surrogates panic); exact elsewhere.
* C45: state machine; balanced sequences as an inductive predicate, columns in Z as reference.
* C46, C47, C61: JSON values as a tree; the text layer (`serde_json`) is trusted. C46 refuted for
  blank objects and IRI subjects. C47, C61: declarative description of a document (`describes`,
  `lists`, `sensible`).
* C48: writer as a fuelled function; divergence proved for cyclic inputs, termination for acyclic.
* C64_settled: sorted permutations with different keys are equal (TurtleStable.v); the writer under two families of hash orders, by induction on fuel.
* C62-C65, C49: documents as trees with a grammar of pieces (TurtleSpec.v); the writer as a state
  machine over pieces, indenter and a count of hash iterations; Hoare-style rules (`tri`) for its shape.
* C50: division of an IRI specified by `cut`/`divided`, independent of byte positions; panics
  characterised. C66, C67: documents as lists of events with a declarative shape (`shows_document`);
  the striped style by induction over the recursion, with a rank function for termination.
* C68: the text layer of xml-rs as a function from events to items (`parsed`); the reader run on what
  the shape allows, for any order. C69: declarative meaning of a document (`document_says`);
  C70, C71: induction over the number of items.
* C51: text as a function of the names; injectivity by cutting lines. C52: the state of the writer as a
  numbered list of terms, invariant over sessions; injectivity of the text and of the way terms are shown.
* C72: reading of words by the Turtle grammar (`denotes`, TurtleLitSpec.v) as an inductive relation; strings
  are cut uniquely at the closing quote. Added after a mutant (languages dropped) survived C48, C62.
* C73: any table of names, by induction over the cache; the shipped tables by computation. C74: the names
  compared with lists written from the recommendations (trusted: NamesSpec.v).
* C75: the three indices refine one bag, by induction over the history. C76: queries from that invariant; the
  keys are those of all statements inserted since the last clear. C77: from the multiplicities.
* C78: from the exact domain of the N-Triples reader (C59), RDF/XML input from C69_reads (CliXml.v), and totality of the writers on flat graphs;
  the content of what is written from C47, C52, C62, C66 applied to the graph that was read. C79: from
  C40/C43 applied to a graph that was itself read; "the same statements only if nothing is escaped" by an
  infinite chain of ever longer literals in a finite graph.
* C80: the fragment is the only place of '#' in a valid IRI; a path given to the setter becomes a normalised one; escapes read back by induction on the text, two characters ahead
  (induction over its segments). C81: first and last characters tell the kinds of references apart.
* C82: every comparison is one of text and data type; texts of values of one type are injective.
* C83: histories as lists of operations; the last change decides (`holds_after`). C84: membership in
  the concatenated statements against a declarative `vocab_says`. C85: computation over the two finite lists.
* C86: concepts are places in a list; flattening with fuel, shown to end without narrower cycles, and its
  members to be the reflexive transitive closure; membership against a declarative `scheme_says`. C87: intervals of
  generated labels per collection. C88, C90, C91: finite. C89: the first element. C92: what each call adds, along the history.
* C93: case analysis; collections item by item.
* C94: the document as a list of blocks; sections by their headings; induction over labels, rows
  and the tree.
* C95: the concepts grow by appended relations (invariant of the loop).
* C96: comparison ends where the graph of relations has no cycle; a concept is only compared with
  itself if it is listed twice.
* C97: links block by block.
* C98: text of a float as sign and oracle digits, injective; decimal display modelled after rust_decimal.
* C99: trace as numbered lines by induction over the chain of sources.
* C100: a scanner and a parser for Turtle written from the recommendation (TurtleReadSpec.v); the text is scanned back into the pieces C62 is about (TurtleLex.v, TurtleWalk.v), these are parsed back into the trees C62 and C63 are about (TurtleParse.v), words are read with C65 and C72 (TurtleRead.v). Blank nodes in brackets are read as terms that unfold the graph (`means` of TurtleReadSpec.v).
* C101-C105: the combinators of combine as functions whose replies say whether input was consumed (Sparql.v); the tokens as relations between texts (SparqlSpec.v); each parser is shown to succeed exactly on its relation, by lemmas on runs of characters of a class. The crate does not compile; the part modelled is what its own tests cover, and those tests are an Example in PropsSparql.v.
* C106: the Display of chrono as a function; xsd:duration as a relation between texts and numbers; injectivity by splitting at the first character that is no digit.
* C107: composition of C78 with C46, C68 and C100; the lines written only depend on the set of statements.
* C108: the derived functions on trees of JSON; a relation for what is accepted; maps by the bijection of C11 and C12.
* C109: `DisplaySpec.v` defines when terms look alike; `DisplayProofs.v` cuts the text of a term off a longer text by
  induction over nested terms (a term is a word, a quoted text, or begins with `(` or `<<` and a blank).
* C110: `Hash.v` models the bytes that derived and written `Hash` implementations feed, and a table that compares only entries
  with the same hash; `HashProofs.v` shows that UTF-8 with the final 0xFF is prefix-free, and then every term by induction.
* C111: `DotReadSpec.v` is a reader of DOT (tokens and statements, without numerals, HTML texts, comments, ports and subgraphs), written
  after the language's definition and not after the writer.  The theorems say what it makes of the text written.
* C112, C113: `Files.v` models decoding (the table of RFC 3629), inputs and outputs that fail at any call, and the writers call by call.
  C113 is proved from the grammar of C59: what is read of a beginning of a line is also read of the whole line (`FilesCut.v`), where it
  can only be the whole statement, unless the cut ends a label early.
* C114: `DotFiles.v` runs the writers of Dot.v call by call on the outputs of Files.v; C114_again by induction over the statements, as a
  term that has a number keeps it; C114_cut because the only closing brace outside of quotes is the last but one character.
* C115: `Options.v` has a constructor for each public call of the builders; induction over the list of calls from its end, with one lemma
  that is applied to each setting.  The one-flag options of JSON and N-Triples are left out.
* C116: LayoutSpec.v says the text of a document for an arrangement of the statements (subjects, their predicates, their objects);
  triples on the text written, as those of TurtleShape.v on the pieces, bottom up.  Order is C64.
* C117: C113 for Turtle.  TurtleFiles.v hands a document to an output in any parts.  The scanner and the parser of TurtleReadSpec.v are
  shown to do the same on a beginning of the text as on the text, up to a last word (TurtleCut.v); words with a full stop outside
  brackets and quotes are the exception, and the reason for `dotless_graph`.
* C118: `standard_mappings` as a history of insertions (C12), so that C73 applies to its result; the statements of a thesaurus by cases
  of `scheme_says` (C86) and `cell_says` (C87).
* C53: URL component algebra.
* C57: expand/compress characterised as look-ups (added after a mutant survived C13/C14).
* C58: multiset of property/value pairs, induction over builder calls.
* C59, C60: declarative description of documents (`gap_at`, `doc_at`) independent of the parser;
  soundness and completeness of the PEG parser by parser-combinator lemmas.
* C54-C56: found while modelling the literal constructors; all refuted, exact conditions proved.

## What is modelled

| crate/file | modelled | not modelled |
|---|---|---|
| rdftk_iri/name.rs (LocalName etc.) | parsing, display, constructors: PName.v; serde, also of iri.rs and map.rs: Serde.v | what the derive macros of serde expand to is trusted |
| rdftk_iri/iri.rs | split, make_name, looks_like_namespace, genid, display, changes of path and fragment: Iri.v, Url.v | conversions to and from `url::Url` |
| rdftk_iri/map.rs, vocab.rs | all operations: PrefixMap.v | |
| rdftk_core/model/literal*.rs | data types, constructors, conversions, comparison, display: Literal.v; floats and decimals: Floats.v; durations of chrono: Chrono.v | the digits of floats (oracle) |
| rdftk_core/model/statement*.rs | terms, order, conversion, reification, collections, display: Term.v; comparison with and conversion from bare terms: NodeEq.v | |
| rdftk_core/error.rs, rdftk_iri/error.rs | messages, sources, traces: Errors.v | Debug output; print_trace, eprint_trace |
| rdftk_core/model/data_set.rs | all methods: DataSet.v | |
| rdftk_core/model/resource.rs | all builder calls, flatten: Resource.v | LanguageTag parsing in literal_language_str_str |
| rdftk_core/model/graph*.rs | all methods of Graph: Graph.v |  |
| rdftk_io/common/common.pest, parser/mod.rs, ntriples.rs, nquads.rs | grammar of N-Triples and N-Quads as PEG combinators (Pest.v, NTriples.v), all reader functions, unescape_iri; reading of bytes and failing inputs (Files.v) | Turtle, TriG, N3 rules (their parsers are `todo!()`) |
| rdftk_io/nt, nq writers | all: NTriples.v; outputs that fail: Files.v | how the formatting code divides a line into calls (quantified) |
| rdftk_io/common/indenter.rs | all, with and without overflow checks: Indenter.v | |
| rdftk_io/json | writer and reader on `serde_json::Value`: Json.v | text of JSON (`serde_json`), pretty printing |
| rdftk_io/turtle/writer.rs | all of the writer for both recursion and layout: Turtle.v; outputs that fail: TurtleFiles.v | what an output has been given when the writer fails for another reason; `write_prefixes` takes its mappings as text (it does not fit the current `Namespace`); object keys computed once, not per comparison |
| rdftk_io/xml | writer (both styles) as a list of `xml-rs` events, reader on a list of `xml-rs` events: Xml.v | text of XML (`xml-rs`): `parsed` in XmlSpec.v says what its reader makes of what its writer was given |
| rdftk_io/dot/writer.rs, trig/writer.rs | all: Dot.v; outputs that fail: DotFiles.v | |
| rdftk_cli/commands | convert, draw: Cli.v | the namespace command (it only panics), argument parsing (clap), files (clio), logging, what a failing writer has already written |
| rdftk_ontology | lib.rs, macros.rs, rdfs/mod.rs: Ontology.v | owl/mod.rs (no functions) |
| rdftk_skos | ns.rs, model/*.rs: Skos.v; standard_mappings: SkosMap.v; document.rs: SkosDoc.v | from_rdf_graph (`todo!()`); the rendering of documents (crate somedoc) |
| rdftk_query/sparql/parser/common.rs | keyword, prologue, names, variables, language tags: Sparql.v | query.rs, update.rs and the clauses that call functions which do not exist |

`Iri::from_str`, the language tag parser and the label check are quantified functions in the io part.

## Findings (places where the code does not do what it is meant to)

* C02 a prefix ending in '.' is accepted. C07/C13 a bare '#' is lost or misplaced when an IRI is
  split and re-joined. C08/C14 non-ASCII names do not survive. C09/C15 splitting an opaque IRI panics.
* C23 `remove_all_for` keeps what it should remove. C24 `matches` treats an absent component as
  matching nothing. C27 skolemization skips quoted statements. C28 `simplify` leaves quoted objects
  when the subject is quoted too. C29 reification can clash with user labels such as `B7`.
* C31 the resource builder never links a nested resource (it links the outer subject to itself),
  and numbers container members from rdf:_0. C32 renaming a graph inside a data set leaves it
  filed under its old name.
* C33 data types not recognised from their IRI. C35 strings are stored escaped, so they differ from
  the text given. C36 hex and base64 do not round trip. C38 `_:x` keeps its prefix as part of the
  label. C39 the duplicates feature is reported the wrong way round. C54 `PT1.5S` for 1 s 5 ns.
  C55 duration equality never holds. C56 IRI literals under the new display form.
* C40/C41 at this commit `Display for Iri` prints `<text>` and the writers add brackets of their own,
  so nothing written can be read; apart from that: typed literals come back with
  `DataType::Other`, numbers and booleans are written without quotes and cannot be read, literals are
  escaped again on reading (C43), escapes in Rust's notation (`\u{..}`, `\0`) are rejected by the
  grammar. C44 a surrogate escape panics. C60 a quad without graph label is always an error.
* C45 an empty step panics at column 0. C46 the RDF/JSON writer puts subjects in angle brackets, which
  the reader does not accept, and writes blank node objects without the `_:` which the reader cuts off.
* C48 the Turtle writer never ends on a cycle of blank nodes (nesting is the default), and so on every
  blank node with a quoted object (C63), since the node written for it leads back to the subject.
  C49 sub-class, sub-property and equivalent-class statements are written as rdf:type. C62 nested
  blank nodes are written again at the top level under their label; items of collections are separated by
  commas; with the current Display nothing is written. C63 quoted subjects panic. C64 predicates are
  grouped by runs of hash order, so the text changes from run to run. C65 IRIs are made relative by
  cutting off the text of the base, which is wrong unless it ends in a slash. C72 literals are escaped a second
  time, in Rust's notation; integers lose their type, xsd:anyURI literals become resources.
* C50 the RDF/XML writer panics on predicates without '#' or '/', or if the rest is not ASCII (it counts
  characters from one end and bytes from the other); a second object of a predicate with a known prefix
  is written as `p:p:name`. C67 the striped style loses blank nodes not reached from an IRI, writes shared
  ones twice, and never ends on cycles. C68 with the current Display every element name ends in '>'.
  C69 after an `rdf:resource` property the reader takes the next property for a node and then fails on
  any further node; labels, data types and nested nodes as objects are lost. C71 names without
  namespace, `rdf:ID` and most `rdf:parseType`s panic.
* C74 `rdfs` has five names of RDF's; `xsd` has `entity` (for ENTITY) and `NS`; `owl` has
  `incompatible_with` and `version` (for versionIRI); `foaf` has `primaryTopicOf` (for isPrimaryTopicOf); Dublin Core terms
  lack tableOfContents and ProvenanceStatement; rdf, skos, the elements, types and DCAM are exact. C73 one invalid name in a
  table makes every function of the module panic.
* C75 an indexed graph built from a slice holds every statement twice and indexes it once. C76 removed
  subjects, predicates and objects are still reported; an absent criterion matches nothing, so
  `objects_for` is always empty.
* C78 `convert` panics on every JSON-LD, N3, N-Quads, TriG and Turtle input; converting to TriG succeeds with
  an empty graph. C79 each conversion from N-Triples to N-Triples doubles the backslashes.
* C65 with `convert_base`, a prefixed name is made with a namespace of the graph and the prefix declared with
  its converted form, so the name can denote another IRI.
* C69 the element of a property is lost, only the elements inside it are read as nodes; they inherit the base (C69_inherited_base, added
  after a mutant survived).
* C69 a node after a property with `rdf:resource` cannot be read; the last property of a document can have one.
* C69 XML literals: the angle brackets are escaped, what follows the first element is lost, the next property is taken for
  a node, and a literal without an element makes the reader panic.
* C80 `with_new_path` on an opaque IRI lets '#' and '?' through. C81 `{:#}` shows `urn:x` for an IRI and a local name.
* C82 `"chat"@fr == "chat"` holds though `Literal::from("chat")` is another literal; a name with a combining
  accent does not equal the literal made from it.
* C83 `Property::new` makes an instance of `rdfs:Property`; the term is `rdf:Property`.
* C84 `to_statements` writes parents as `rdf:type`; `rdfs:subClassOf` and `rdfs:subPropertyOf` are never written.
* C85 `rdf_schema()` lacks all `rdfs:subClassOf` triples and has four terms of RDF in the `rdfs:` namespace.
* C86 `skos:inScheme` is written twice for each collection, and all statements of a concept once per path to it.
* C87 ordered collections: `skos:memberList` is never written, and each list has an extra last cell without `rdf:first`.
* C88 the inverse of `BroaderInstantial` is itself.
* C90 `LiteralProperty::available` makes `dcterms:created`.
* C91 `skosxl:hiddenLabel` is missing.
* C94 `write_concept` writes the external relations of a concept only if it has related concepts.
* C94 `write_other_properties` shows the predicate where the data type belongs if the IRI of the
  data type has no prefix.
* C94 `concepts.dedup()` after sorting by label leaves a concept with two parents in twice if
  another has its label.
* C95 `make_document` takes `&Scheme` but adds relations to its concepts, once more each time; for a
  concept related to itself `borrow_mut` panics.
* C96 comparing concepts in `dedup` overflows the stack if a concept with two parents is related to
  another both ways.
* C97 the link to "Collections" has no target (the heading has no label, and the label is used
  again for every "In Collections"); concepts outside the tree are linked to but have no section.
* C98 infinite floats are written `inf`, which is no xsd:double; the literal of NaN equals NaN; the literal of 0.0 does not equal -0.0; the literal of the decimal 1.0 does not equal 1.00.
* C99 `Error::Tokenizer` holds a source that `source()` does not report, so traces stop there.
* C100 with `nest_blank_nodes`, the default, a blank node that is object and subject is read as two nodes. Collections of two or more items are written with commas, which no Turtle reader accepts. Verb and object run together (`rdfnamespace:typee:B`) if the word for rdf:type is longer than the predicate it is written for. IRIs ending in a bare `#` are read back as other IRIs.
* C102 `BASE<http://e/>` is rejected; `PREFIX a.: <...>` is accepted. C103 `?first_name` is read as `?first`. C104 no local name of two
  characters or more can be read (the repetition leaves nothing for the last character); `%41` is read as `)`, `%C3` panics; `ex:` alone is an error.
* C106 standard durations are not converted to those of chrono, contrary to literal.rs:5-9: `PT0S` and `P0D`, `PT1.500000000S` and `PT1.5S`, `PT1.50S` and `PT1.00000005S`.
* C107 the tool refuses the RDF/JSON and RDF/XML it has written itself: RDF/JSON with an IRI as subject, RDF/XML with IRIs as objects of two subjects, and both for every document at this commit (IRIs in brackets). `"7"^^xsd:int` comes back from RDF/JSON as `7`, which is not N-Triples.
* C108 `Deserialize` for `Namespace` and `Name` is derived on the private text and skips all validation: `"rdf"` (no colon) is read as a `Namespace` on which `name_string` panics, `"not a name"` as a `Name`.
* C109 the texts of a byte and a long, of an IRI and a literal of that IRI, and of a number with a blank in its text and two
  numbers in a collection are the same.
* C111 IRIs are put between quotes as they are: `urn:a"b`, or `http://e/?a\` with a backslash at its end, and the text is no DOT
  document; the texts of shape and colour options are not quoted; literals are drawn with shape `record`, where bars and braces in their text
  are taken as fields.
* C36 the decoder of hexadecimal texts takes `+a` for the byte 10 (`u8::from_str_radix`).
* C113 a label may have a full stop inside, and the full stop that ends a statement needs no space before it: the file `<a:> <b:> _:b.1 .`
  cut after `_:b.` is read without an error, as a statement about another node.
* C114 a collection drawn a second time by the same writer points to another node than the first time, and to one that is not declared.
* C115 `use_rdf_type_a`, `convert_base` and the two `outdent_..` settings of the Turtle writer are private and have no setter: rdf:type is
  never written as `a`, and no program can have bases converted by `convert_base` (it can only read the empty list).
  `with_indent_width(0)` is not refused as `set_indent_width(0)` is; `with_intellij_style` silently resets the width.
* C116 `predicate_padding` is inverted: predicates are padded to the longest of their subject unless `with_predicate_padding(true)` is
  called.  The second and further objects of a predicate are a step to the right of the first, not below it; blank nodes stay on the line.
* C117 a Turtle file cut off after the full stop in `1.5` is read as saying 1, and after the one in `e:v1.2` as saying `e:v1`.
* C51 the TriG writer writes no statements at all. C52 edges in DOT always lead to `node_n`, whatever the
  prefix; collections and quoted statements are given the number of the next node and no node of their
  own; literals such as 1 as int and as long share a node; a writer used again repeats all nodes.
