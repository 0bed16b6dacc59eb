(** Model of rdftk_skos: model/*.rs and ns.rs.  The crate is no member of the workspace and is
    written for the factories of an earlier rdftk_core; [factory.statement], [named_subject],
    [literal_object] and the like make the statements, nodes and literals of Term.v.  As it is
    the crate does not compile: [Scheme] is declared with [Vec<Concept>], [Vec<Collection>] and
    without the field [preferred_label], and used with [Vec<Rc<RefCell<Concept>>>],
    [Vec<Rc<RefCell<Collection>>>] and that field; the model follows the use.  No proofs here. *)
From Verif Require Export Graph.
From Verif Require Export Names.

(** ns.rs:7-47 the namespace [skos]. *)
Definition tb_sk : table := Table $"skos" $"http://www.w3.org/2004/02/skos/core#"
  [($"collection", $"Collection"); ($"concept", $"Concept"); ($"concept_scheme", $"ConceptScheme");
   ($"ordered_collection", $"OrderedCollection"); ($"alt_label", $"altLabel");
   ($"broad_match", $"broadMatch"); ($"broader", $"broader");
   ($"broader_transitive", $"broaderTransitive"); ($"change_note", $"changeNote");
   ($"close_match", $"closeMatch"); ($"definition", $"definition");
   ($"editorial_note", $"editorialNote"); ($"exact_match", $"exactMatch"); ($"example", $"example");
   ($"has_top_concept", $"hasTopConcept"); ($"hidden_label", $"hiddenLabel");
   ($"history_note", $"historyNote"); ($"in_scheme", $"inScheme");
   ($"mapping_relation", $"mappingRelation"); ($"member", $"member"); ($"member_list", $"memberList");
   ($"narrow_match", $"narrowMatch"); ($"narrower", $"narrower");
   ($"narrower_transitive", $"narrowerTransitive"); ($"notation", $"notation"); ($"note", $"note");
   ($"pref_label", $"prefLabel"); ($"related", $"related"); ($"related_match", $"relatedMatch");
   ($"scope_note", $"scopeNote"); ($"semantic_relation", $"semanticRelation");
   ($"top_concept_of", $"topConceptOf")].
(** ns.rs:49-62 [xl]. *)
Definition tb_sk_xl : table := Table $"skosxl" $"http://www.w3.org/2008/05/skos-xl#"
  [($"label", $"Label"); ($"literal_form", $"literalForm"); ($"pref_label", $"prefLabel");
   ($"alt_label", $"altLabel"); ($"label_relation", $"labelRelation")].
(** ns.rs:64-91 [iso]. *)
Definition tb_sk_iso : table := Table $"isothes" $"http://purl.org/iso25964/skos-thes#"
  [($"compound_equivalence", $"CompoundEquivalence"); ($"concept_group", $"ConceptGroup");
   ($"preferred_term", $"PreferredTerm"); ($"thesaurus_array", $"ThesaurusArray");
   ($"micro_thesaurus_of", $"microThesaurusOf"); ($"plus_uf_term", $"plusUFTerm");
   ($"plus_use_term", $"plusUseTerm"); ($"sub_group", $"subGroup");
   ($"subordinate_array", $"subordinateArray"); ($"super_group", $"superGroup");
   ($"super_ordinate", $"superOrdinate"); ($"broader_generic", $"broaderGeneric");
   ($"broader_instantial", $"broaderInstantial"); ($"broader_partitive", $"broaderPartitive");
   ($"narrower_generic", $"narrowerGeneric"); ($"narrower_instantial", $"narrowerInstantial");
   ($"narrower_partitive", $"narrowerPartitive")].
(** ns.rs:93-107 [term_status]. *)
Definition tb_sk_status : table := Table $"status" $"http://www.w3.org/2003/06/sw-vocab-status/ns#"
  [($"term_status", $"term_status")].

(** [ns::concept()] and the like: the function [fn] of the module with table [t]. *)
Definition ns_term (t : table) (fn : str) : str :=
  match call_str t fn with Some nm => tb_ns t ++ nm | None => [] end.

(** ** Labels and properties (model/properties.rs) *)

(** properties.rs:25-31 [LabelKind], 33-38 [Label], 40-46 [LiteralProperty]. *)
Inductive label_kind : Type := LkPreferred | LkAlternative | LkHidden | LkOther (i : str).
Record slabel : Type := MkLabel { sl_kind : label_kind; sl_text : str; sl_language : option str }.
Record lprop : Type := MkLprop {
  lp_predicate : str; lp_form : str; lp_data_type : option data_type; lp_language : option str }.

(** properties.rs:25 the derived [PartialEq]. *)
Definition lk_eqb (a b : label_kind) : bool :=
  match a, b with
  | LkPreferred, LkPreferred | LkAlternative, LkAlternative | LkHidden, LkHidden => true
  | LkOther x, LkOther y => str_eqb x y
  | _, _ => false
  end.
(** [PartialEq for Option<LanguageTag>]. *)
Definition lang_eqb (a b : option str) : bool :=
  match a, b with
  | Some x, Some y => str_eqb x y
  | None, None => true
  | _, _ => false
  end.

(** properties.rs:75-85 [LabelKind::to_uri]. *)
Definition lk_uri (k : label_kind) : str :=
  match k with
  | LkPreferred => ns_term tb_sk $"pref_label"
  | LkAlternative => ns_term tb_sk $"alt_label"
  | LkHidden => ns_term tb_sk $"hidden_label"
  | LkOther i => i
  end.

(** properties.rs:52-64 [final_preferred_label]; the callers (concept.rs:136-145,
    collection.rs:112-121, scheme.rs:72-81) fall back on the text of the IRI.  Their field
    [preferred_label] is [None] from every constructor and never set, and is left out. *)
Definition final_preferred_label (labels : list slabel) (lang : option str) : option str :=
  option_map sl_text (find (fun l => lk_eqb (sl_kind l) LkPreferred && lang_eqb (sl_language l) lang) labels).
Definition preferred_label_for (u : str) (labels : list slabel) (lang : option str) : str :=
  match final_preferred_label labels lang with None => u | Some s => s end.

Section Tags.
(** [LanguageTag::from_str] (its normalised text). *)
Variable tag_parse : str -> option str.

(** properties.rs:127-138 [Label::new], 111-125 its four public forms. *)
Definition label_new (k : label_kind) (text language : str) : outcome slabel :=
  match language with
  | [] => Ret (MkLabel k text None)
  | _ => match tag_parse language with
         | Some t => Ret (MkLabel k text (Some t))
         | None => Panic
         end
  end.

(** properties.rs:174-199 [new], [with_data_type], [with_language]. *)
Definition lprop_new (p text : str) : lprop := MkLprop p text None None.
Definition lprop_with_data_type (p text : str) (d : data_type) : lprop := MkLprop p text (Some d) None.
Definition lprop_with_language (p text language : str) : lprop := MkLprop p text None (Some language).

(** properties.rs:203-321 the constructors named after a predicate: the function and the
    predicate it uses. *)
Definition plain_constructors : list (str * str) :=
  [($"change_note", ns_term tb_sk $"change_note"); ($"definition", ns_term tb_sk $"definition");
   ($"editorial_note", ns_term tb_sk $"editorial_note"); ($"example", ns_term tb_sk $"example");
   ($"history_note", ns_term tb_sk $"history_note"); ($"note", ns_term tb_sk $"note");
   ($"scope_note", ns_term tb_sk $"scope_note"); ($"notation", ns_term tb_sk $"notation");
   ($"available", ns_term tb_dc_terms $"created"); ($"created", ns_term tb_dc_terms $"created");
   ($"creator", ns_term tb_dc_terms $"creator"); ($"date_accepted", ns_term tb_dc_terms $"date_accepted");
   ($"date_submitted", ns_term tb_dc_terms $"date_submitted"); ($"issued", ns_term tb_dc_terms $"issued");
   ($"modified", ns_term tb_dc_terms $"modified"); ($"publisher", ns_term tb_dc_terms $"publisher");
   ($"rights", ns_term tb_dc_terms $"rights"); ($"source", ns_term tb_dc_terms $"source");
   ($"subject", ns_term tb_dc_terms $"subject"); ($"title", ns_term tb_dc_terms $"title");
   ($"term_status", ns_term tb_sk_status $"term_status")].
Definition lprop_named (fn text : str) : option lprop :=
  option_map (fun p => lprop_new p text) (assoc fn plain_constructors).
(** properties.rs:206-272 those with a language; [unwrap] panics. *)
Definition language_constructors : list (str * str) :=
  [($"change_note_with", ns_term tb_sk $"change_note"); ($"definition_with", ns_term tb_sk $"definition");
   ($"editorial_note_with", ns_term tb_sk $"editorial_note"); ($"example_with", ns_term tb_sk $"example");
   ($"history_note_with", ns_term tb_sk $"history_note"); ($"note_with", ns_term tb_sk $"note");
   ($"scope_note_with", ns_term tb_sk $"scope_note")].
Definition lprop_named_with (fn text language : str) : option (outcome lprop) :=
  option_map (fun p => match tag_parse language with
                       | Some t => Ret (lprop_with_language p text t)
                       | None => Panic
                       end) (assoc fn language_constructors).
End Tags.

(** ** Concepts, collections and schemes *)

(** concept.rs:28-38 [ConceptRelation]. *)
Inductive concept_relation : Type :=
| RNarrower | RNarrowerPartitive | RNarrowerInstantial
| RBroader | RBroaderPartitive | RBroaderInstantial
| RRelated | RInverseRelated.

(** concept.rs:60-74 [to_uri]. *)
Definition rel_uri (r : concept_relation) : str :=
  match r with
  | RNarrower => ns_term tb_sk $"narrower"
  | RNarrowerPartitive => ns_term tb_sk_iso $"narrower_partitive"
  | RNarrowerInstantial => ns_term tb_sk_iso $"narrower_instantial"
  | RBroader => ns_term tb_sk $"broader"
  | RBroaderPartitive => ns_term tb_sk_iso $"broader_partitive"
  | RBroaderInstantial => ns_term tb_sk_iso $"broader_instantial"
  | RRelated => ns_term tb_sk $"related"
  | RInverseRelated => ns_term tb_sk $"related"
  end.
(** concept.rs:77-88 [inverse]. *)
Definition rel_inverse (r : concept_relation) : concept_relation :=
  match r with
  | RNarrower => RBroader
  | RNarrowerPartitive => RBroaderPartitive
  | RNarrowerInstantial => RBroaderInstantial
  | RBroader => RNarrower
  | RBroaderPartitive => RNarrowerPartitive
  | RBroaderInstantial => RBroaderInstantial
  | RRelated => RInverseRelated
  | RInverseRelated => RRelated
  end.
(** concept.rs:90-102 [is_narrower], [is_broader]. *)
Definition rel_is_narrower (r : concept_relation) : bool :=
  match r with RNarrower | RNarrowerPartitive | RNarrowerInstantial => true | _ => false end.
Definition rel_is_broader (r : concept_relation) : bool :=
  match r with RBroader | RBroaderPartitive | RBroaderInstantial => true | _ => false end.

(** concept.rs:40-48 [Concept].  An [Rc<RefCell<Concept>>] is the place of the concept in the
    list [w_concepts] of the world below. *)
Record concept : Type := MkConcept {
  kc_uri : str;
  kc_concepts : list (concept_relation * nat);
  kc_external : list (str * str);
  kc_labels : list slabel;
  kc_properties : list lprop
}.
(** collection.rs:30-44 [Member], [Collection]. *)
Inductive member : Type := MConcept (k : nat) | MCollection (k : nat).
Record collection : Type := MkCollection {
  kl_uri : str;
  kl_ordered : bool;
  kl_members : list member;
  kl_labels : list slabel;
  kl_properties : list lprop
}.
(** scheme.rs:30-37 [Scheme]. *)
Record scheme : Type := MkScheme {
  ks_uri : str;
  ks_concepts : list nat;
  ks_collections : list nat;
  ks_labels : list slabel;
  ks_properties : list lprop
}.
(** All concepts and collections there are, and one scheme. *)
Record world : Type := MkWorld {
  w_concepts : list concept;
  w_collections : list collection;
  w_scheme : scheme
}.

(** concept.rs:206-221 [new], [new_with_label]; collection.rs:200-215; scheme.rs:164-179.
    [l] are the labels made for the text and language given, [[]] or one preferred label. *)
Definition concept_new (u : str) (l : list slabel) : concept := MkConcept u [] [] l [].
Definition collection_new (u : str) (ordered : bool) (l : list slabel) : collection := MkCollection u ordered [] l [].
Definition scheme_new (u : str) (l : list slabel) : scheme := MkScheme u [] [] l [].
Definition preferred (l : option (str * option str)) : list slabel :=
  match l with None => [] | Some (t, g) => [MkLabel LkPreferred t g] end.

(** Changing the element at a place. *)
Fixpoint update {A} (k : nat) (f : A -> A) (l : list A) : list A :=
  match l, k with
  | [], _ => []
  | x :: r, O => f x :: r
  | x :: r, S k' => x :: update k' f r
  end.

(** concept.rs:225-231 [add_related_concept], 342-344 [add_external_relation], 114-126
    [add_property], [add_label]. *)
Definition kc_add_concept (r : concept_relation) (k : nat) (c : concept) : concept :=
  MkConcept (kc_uri c) (kc_concepts c ++ [(r, k)]) (kc_external c) (kc_labels c) (kc_properties c).
Definition kc_add_external (r i : str) (c : concept) : concept :=
  MkConcept (kc_uri c) (kc_concepts c) (kc_external c ++ [(r, i)]) (kc_labels c) (kc_properties c).
Definition kc_add_label (l : slabel) (c : concept) : concept :=
  MkConcept (kc_uri c) (kc_concepts c) (kc_external c) (kc_labels c ++ [l]) (kc_properties c).
Definition kc_add_property (p : lprop) (c : concept) : concept :=
  MkConcept (kc_uri c) (kc_concepts c) (kc_external c) (kc_labels c) (kc_properties c ++ [p]).
(** collection.rs:220-222, 247-249 [add_member_collection], [add_member_concept], 90-102. *)
Definition kl_add_member (m : member) (c : collection) : collection :=
  MkCollection (kl_uri c) (kl_ordered c) (kl_members c ++ [m]) (kl_labels c) (kl_properties c).
Definition kl_add_label (l : slabel) (c : collection) : collection :=
  MkCollection (kl_uri c) (kl_ordered c) (kl_members c) (kl_labels c ++ [l]) (kl_properties c).
Definition kl_add_property (p : lprop) (c : collection) : collection :=
  MkCollection (kl_uri c) (kl_ordered c) (kl_members c) (kl_labels c) (kl_properties c ++ [p]).
(** scheme.rs:201-203, 248-250 [add_top_concept], [add_top_collection], 50-62. *)
Definition ks_add_concept (k : nat) (s : scheme) : scheme :=
  MkScheme (ks_uri s) (ks_concepts s ++ [k]) (ks_collections s) (ks_labels s) (ks_properties s).
Definition ks_add_collection (k : nat) (s : scheme) : scheme :=
  MkScheme (ks_uri s) (ks_concepts s) (ks_collections s ++ [k]) (ks_labels s) (ks_properties s).
Definition ks_add_label (l : slabel) (s : scheme) : scheme :=
  MkScheme (ks_uri s) (ks_concepts s) (ks_collections s) (ks_labels s ++ [l]) (ks_properties s).
Definition ks_add_property (p : lprop) (s : scheme) : scheme :=
  MkScheme (ks_uri s) (ks_concepts s) (ks_collections s) (ks_labels s) (ks_properties s ++ [p]).

Definition w_on_concepts (f : list concept -> list concept) (w : world) : world :=
  MkWorld (f (w_concepts w)) (w_collections w) (w_scheme w).
Definition w_on_collections (f : list collection -> list collection) (w : world) : world :=
  MkWorld (w_concepts w) (f (w_collections w)) (w_scheme w).
Definition w_on_scheme (f : scheme -> scheme) (w : world) : world :=
  MkWorld (w_concepts w) (w_collections w) (f (w_scheme w)).

(** The calls, with the places of the values they are made on.  A place that does not exist
    cannot be had, and changes nothing.
    - [TopConcept]: scheme.rs:183-199;
    - [SubConcept] with [RNarrower], [RNarrowerInstantial], [RNarrowerPartitive], [RRelated]:
      concept.rs:233-299 [sub_concept], [instance], [part], [related] and their forms with a label;
    - [Relate]: 225-231 [add_related_concept], 301-303 [add_related];
    - [Elsewhere]: a concept made in another scheme;
    - [TopCollection], [SubCollection], [AddMember]: scheme.rs:227-246, collection.rs:224-249. *)
Inductive skos_op : Type :=
| TopConcept (u : str) (l : option (str * option str))
| SubConcept (k : nat) (r : concept_relation) (u : str) (l : option (str * option str))
| Relate (k : nat) (r : concept_relation) (k' : nat)
| Elsewhere (u : str) (l : option (str * option str))
| External (k : nat) (r i : str)
| ConceptLabel (k : nat) (l : slabel)
| ConceptProperty (k : nat) (p : lprop)
| TopCollection (u : str) (ordered : bool) (l : option (str * option str))
| SubCollection (k : nat) (u : str) (ordered : bool) (l : option (str * option str))
| AddMember (k : nat) (k' : nat)
| CollectionLabel (k : nat) (l : slabel)
| CollectionProperty (k : nat) (p : lprop)
| SchemeLabel (l : slabel)
| SchemeProperty (p : lprop).

Definition skos_step (w : world) (o : skos_op) : world :=
  let nc := length (w_concepts w) in
  let nl := length (w_collections w) in
  match o with
  | TopConcept u l => w_on_scheme (ks_add_concept nc) (w_on_concepts (fun cs => cs ++ [concept_new u (preferred l)]) w)
  | SubConcept k r u l =>
      if Nat.ltb k nc then w_on_concepts (fun cs => update k (kc_add_concept r nc) cs ++ [concept_new u (preferred l)]) w else w
  | Relate k r k' => if Nat.ltb k' nc then w_on_concepts (update k (kc_add_concept r k')) w else w
  | Elsewhere u l => w_on_concepts (fun cs => cs ++ [concept_new u (preferred l)]) w
  | External k r i => w_on_concepts (update k (kc_add_external r i)) w
  | ConceptLabel k l => w_on_concepts (update k (kc_add_label l)) w
  | ConceptProperty k p => w_on_concepts (update k (kc_add_property p)) w
  | TopCollection u o l =>
      w_on_scheme (ks_add_collection nl) (w_on_collections (fun cs => cs ++ [collection_new u o (preferred l)]) w)
  | SubCollection k u o l =>
      if Nat.ltb k nl then
        w_on_collections (fun cs => update k (kl_add_member (MCollection nl)) cs ++ [collection_new u o (preferred l)]) w
      else w
  | AddMember k k' => if Nat.ltb k' nc then w_on_collections (update k (kl_add_member (MConcept k'))) w else w
  | CollectionLabel k l => w_on_collections (update k (kl_add_label l)) w
  | CollectionProperty k p => w_on_collections (update k (kl_add_property p)) w
  | SchemeLabel l => w_on_scheme (ks_add_label l) w
  | SchemeProperty p => w_on_scheme (ks_add_property p) w
  end.
Definition world_new (u : str) (l : list slabel) : world := MkWorld [] [] (scheme_new u l).
Definition skos_run (w : world) (h : list skos_op) : world := fold_left skos_step h w.

(** mod.rs:48-52 [Propertied::has_property]; collection.rs:261-263 [has_member]. *)
Definition has_property (ps : list lprop) (p : str) : bool := existsb (fun x => str_eqb (lp_predicate x) p) ps.
(** concept.rs:108-110, collection.rs:51-56 the IRI at a place. *)
Definition uri_of (w : world) (k : nat) : str :=
  match nth_error (w_concepts w) k with Some c => kc_uri c | None => [] end.
Definition uri_of_collection (w : world) (k : nat) : str :=
  match nth_error (w_collections w) k with Some c => kl_uri c | None => [] end.
Definition member_uri (w : world) (m : member) : str :=
  match m with MConcept k => uri_of w k | MCollection k => uri_of_collection w k end.
Definition has_member (w : world) (c : collection) (u : str) : bool :=
  existsb (fun m => str_eqb (member_uri w m) u) (kl_members c).

(** ** Flattening.  A recursion that does not end overflows the stack: [None] if [fuel] calls
    deep are not enough. *)
Fixpoint sequence {A} (l : list (option (list A))) : option (list A) :=
  match l with
  | [] => Some []
  | None :: _ => None
  | Some x :: r => option_map (fun y => x ++ y) (sequence r)
  end.

(** concept.rs:315-330 [Concept::concepts_flattened]. *)
Fixpoint concepts_flattened (fuel : nat) (w : world) (k : nat) : option (list nat) :=
  match fuel with
  | O => None
  | S f =>
      match nth_error (w_concepts w) k with
      | None => Some []
      | Some c =>
          sequence (map (fun rk => let '(r, k') := rk in
            if rel_is_narrower r then option_map (fun subs => subs ++ [k']) (concepts_flattened f w k') else Some [])
            (kc_concepts c))
      end
  end.
(** scheme.rs:213-223 [Scheme::concepts_flattened]. *)
Definition scheme_concepts_flattened (fuel : nat) (w : world) : option (list nat) :=
  sequence (map (fun k => option_map (fun subs => subs ++ [k]) (concepts_flattened fuel w k)) (ks_concepts (w_scheme w))).

(** collection.rs:269-280 [Collection::collections_flattened]. *)
Fixpoint collections_flattened (fuel : nat) (w : world) (k : nat) : option (list nat) :=
  match fuel with
  | O => None
  | S f =>
      match nth_error (w_collections w) k with
      | None => Some []
      | Some c =>
          sequence (map (fun m => match m with
            | MCollection k' => option_map (fun subs => subs ++ [k']) (collections_flattened f w k')
            | MConcept _ => Some []
            end) (kl_members c))
      end
  end.
(** scheme.rs:260-270 [Scheme::collections_flattened]. *)
Definition scheme_collections_flattened (fuel : nat) (w : world) : option (list nat) :=
  sequence (map (fun k => option_map (fun subs => subs ++ [k]) (collections_flattened fuel w k))
    (ks_collections (w_scheme w))).

(** ** Statements *)
Section Statements.
(** As in Literal.v: the two tables of [char::escape_debug]. *)
Variables gext printable : N -> bool.

(** properties.rs:89-107 [ToStatement for Label]. *)
Definition label_statement (u : str) (l : slabel) : statement :=
  MkStmt (SRes u) (lk_uri (sl_kind l))
    (OLit (match sl_language l with
           | Some g => lit_with_language gext printable (sl_text l) g
           | None => lit_plain gext printable (sl_text l)
           end)).
(** properties.rs:349-357 [make_literal], 156-171 [ToStatement for LiteralProperty]. *)
Definition make_literal (p : lprop) : literal :=
  match lp_data_type p, lp_language p with
  | Some d, _ => lit_with_data_type gext printable (lp_form p) d
  | None, Some g => lit_with_language gext printable (lp_form p) g
  | None, None => lit_plain gext printable (lp_form p)
  end.
Definition property_statement (u : str) (p : lprop) : statement :=
  MkStmt (SRes u) (lp_predicate p) (OLit (make_literal p)).

(** concept.rs:148-203 [ToStatements for Concept]. *)
Definition concept_statements (w : world) (in_scheme : option str) (c : concept) : list statement :=
  let u := kc_uri c in
  [MkStmt (SRes u) (ns_term tb_rdf $"a_type") (ORes (ns_term tb_sk $"concept"))] ++
  match in_scheme with
  | Some s => [MkStmt (SRes u) (ns_term tb_sk $"in_scheme") (ORes s)]
  | None => []
  end ++
  map (fun rk => MkStmt (SRes u) (rel_uri (fst rk)) (ORes (uri_of w (snd rk)))) (kc_concepts c) ++
  map (fun ri => MkStmt (SRes u) (fst ri) (ORes (snd ri))) (kc_external c) ++
  map (label_statement u) (kc_labels c) ++
  map (property_statement u) (kc_properties c).

(** collection.rs:287-314 [make_list_node], 316-331 [add_to_list_node], 333-356 [make_list_end]. *)
Definition make_list_node (n : N) (from : option str) : list statement :=
  match from with
  | Some b => [MkStmt (SBlank b) (ns_term tb_rdf $"rest") (OBlank (gen_label n))]
  | None => []
  end ++ [MkStmt (SBlank (gen_label n)) (ns_term tb_rdf $"a_type") (ORes (ns_term tb_rdf $"list"))].
Definition add_to_list_node (b u : str) : list statement :=
  [MkStmt (SBlank b) (ns_term tb_rdf $"first") (ORes u)].
Definition make_list_end (b : str) : list statement :=
  [MkStmt (SBlank b) (ns_term tb_rdf $"a_type") (ORes (ns_term tb_rdf $"list"));
   MkStmt (SBlank b) (ns_term tb_rdf $"rest") (ORes (ns_term tb_rdf $"nil"))].
(** collection.rs:163-174 the loop over the members of an ordered collection: the test
    [i < self.members.len()] holds for every member. *)
Fixpoint list_loop (w : world) (n : N) (b : str) (i len : nat) (ms : list member) : list statement * N :=
  match ms with
  | [] => (make_list_end b, n)
  | m :: r =>
      let first := add_to_list_node b (member_uri w m) in
      if Nat.ltb i len then
        let '(more, n') := list_loop w (n + 1)%N (gen_label n) (S i) len r in
        (first ++ make_list_node n (Some b) ++ more, n')
      else
        let '(more, n') := list_loop w n b (S i) len r in
        (first ++ more, n')
  end.
(** collection.rs:124-197 [ToStatements for Collection]. *)
Definition collection_statements (w : world) (n : N) (in_scheme : option str) (c : collection) : list statement * N :=
  let u := kl_uri c in
  let '(members, n') :=
    match kl_members c with
    | [] => ([], n)
    | _ =>
        if kl_ordered c then
          let '(cells, n') := list_loop w (n + 1)%N (gen_label n) 0 (length (kl_members c)) (kl_members c) in
          (make_list_node n None ++ cells, n')
        else (map (fun m => MkStmt (SRes u) (ns_term tb_sk $"member") (ORes (member_uri w m))) (kl_members c), n)
    end in
  ([MkStmt (SRes u) (ns_term tb_rdf $"a_type")
      (ORes (if kl_ordered c then ns_term tb_sk $"ordered_collection" else ns_term tb_sk $"collection"))] ++
   match in_scheme with
   | Some s => [MkStmt (SRes u) (ns_term tb_sk $"in_scheme") (ORes s)]
   | None => []
   end ++
   members ++
   map (label_statement u) (kl_labels c) ++
   map (property_statement u) (kl_properties c), n').

(** scheme.rs:103-129 the loop over the concepts. *)
Definition concept_part (w : world) (tops : list str) (k : nat) : list statement :=
  match nth_error (w_concepts w) k with
  | None => []
  | Some c =>
      let s := ks_uri (w_scheme w) in
      concept_statements w (Some s) c ++
      (if existsb (str_eqb (kc_uri c)) tops then
         [MkStmt (SRes (kc_uri c)) (ns_term tb_sk $"top_concept_of") (ORes s);
          MkStmt (SRes s) (ns_term tb_sk $"has_top_concept") (ORes (kc_uri c))]
       else [])
  end.
(** scheme.rs:130-147 the loop over the collections. *)
Fixpoint collection_parts (w : world) (n : N) (ks : list nat) : list statement * N :=
  match ks with
  | [] => ([], n)
  | k :: r =>
      match nth_error (w_collections w) k with
      | None => collection_parts w n r
      | Some c =>
          let s := ks_uri (w_scheme w) in
          let '(sts, n1) := collection_statements w n (Some s) c in
          let '(more, n2) := collection_parts w n1 r in
          (sts ++ [MkStmt (SRes (kl_uri c)) (ns_term tb_sk $"in_scheme") (ORes s)] ++ more, n2)
      end
  end.
(** scheme.rs:84-161 [ToStatements for Scheme]. *)
Definition scheme_statements (fuel : nat) (n : N) (w : world) : option (list statement * N) :=
  let s := w_scheme w in
  match scheme_concepts_flattened fuel w, scheme_collections_flattened fuel w with
  | Some ks, Some ls =>
      let '(parts, n') := collection_parts w n ls in
      Some ([MkStmt (SRes (ks_uri s)) (ns_term tb_rdf $"a_type") (ORes (ns_term tb_sk $"concept_scheme"))] ++
            flat_map (concept_part w (map (uri_of w) (ks_concepts s))) ks ++
            parts ++
            map (label_statement (ks_uri s)) (ks_labels s) ++
            map (property_statement (ks_uri s)) (ks_properties s), n')
  | _, _ => None
  end.
(** mod.rs:122-139 [to_rdf_graph_with_mappings]; [to_rdf_graph] (109-120) chooses the mappings. *)
Definition to_rdf_graph_with_mappings (fuel : nat) (n : N) (w : world) (m : list (str * str)) : option (graph * N) :=
  option_map (fun sn => (fold_left g_insert (fst sn) (g_with_mappings g_default m), snd sn)) (scheme_statements fuel n w).
End Statements.
