(** Model of rdftk_skos/src/document.rs on top of Skos.v.  A somedoc document is the list of the
    blocks added to it.  No proofs here. *)
From Verif Require Export Skos.
From Verif Require Import Turtle.

(** ** Documents (crate somedoc, as far as it is used) *)
Inductive style : Type := Normal | Bold | Italic.
(** Text, and links to an anchor of the document or to another resource.  [HyperLink::external]
    has no caption. *)
Inductive inline : Type :=
| IText (y : style) (s : str)
| IAnchor (y : style) (target caption : str)
| IExternal (target : str) (caption : option str).
Inductive ditem : Type :=
| DItem (i : list inline)
| DSub (l : list ditem).
(** [level] is the argument of [level_to_heading] (document.rs:184-193), of which only 1 to 4 are used; a cell is [[]] for [Cell::empty]. *)
Inductive block : Type :=
| DHeading (level : nat) (text : str) (anchor : option str)
| DPara (i : list inline)
| DTable (columns : list str) (rows : list (list (list inline)))
| DList (l : list ditem)
| DCode (s : str).

(** std [sort_by_key]: stable. *)
Definition sort_by_key {A K} (cmp : K -> K -> comparison) (key : A -> K) (l : list A) : list A :=
  stable_sort (fun a b => match cmp (key a) (key b) with Gt => false | _ => true end) l.

(** properties.rs:25 the derived [Ord] of [LabelKind]. *)
Definition lk_index (k : label_kind) : nat :=
  match k with LkPreferred => 0 | LkAlternative => 1 | LkHidden => 2 | LkOther _ => 3 end.
Definition lk_cmp (a b : label_kind) : comparison :=
  match a, b with
  | LkOther x, LkOther y => str_cmp x y
  | _, _ => Nat.compare (lk_index a) (lk_index b)
  end.

(** ** Equality of concepts (concept.rs:40 derived [PartialEq]).  [Concept] is not [Eq], so
    [Rc<RefCell<Concept>>] compares what it points to, even if it is the same concept; with
    [None] if [fuel] levels are not enough (the recursion overflows the stack if no number of
    levels is). *)
Definition rel_eqb (a b : concept_relation) : bool :=
  match a, b with
  | RNarrower, RNarrower | RNarrowerPartitive, RNarrowerPartitive | RNarrowerInstantial, RNarrowerInstantial
  | RBroader, RBroader | RBroaderPartitive, RBroaderPartitive | RBroaderInstantial, RBroaderInstantial
  | RRelated, RRelated | RInverseRelated, RInverseRelated => true
  | _, _ => false
  end.
Fixpoint list_eqb {A} (e : A -> A -> bool) (x y : list A) : bool :=
  match x, y with
  | [], [] => true
  | a :: x', b :: y' => e a b && list_eqb e x' y'
  | _, _ => false
  end.
Definition dt_opt_eqb (a b : option data_type) : bool :=
  match a, b with
  | Some x, Some y => dt_eqb x y
  | None, None => true
  | _, _ => false
  end.
(** properties.rs:33, 40 the derived [PartialEq] of [Label] and [LiteralProperty]. *)
Definition slabel_eqb (a b : slabel) : bool :=
  lk_eqb (sl_kind a) (sl_kind b) && str_eqb (sl_text a) (sl_text b) && lang_eqb (sl_language a) (sl_language b).
Definition lprop_eqb (a b : lprop) : bool :=
  str_eqb (lp_predicate a) (lp_predicate b) && str_eqb (lp_form a) (lp_form b) &&
  dt_opt_eqb (lp_data_type a) (lp_data_type b) && lang_eqb (lp_language a) (lp_language b).
(** [PartialEq] of the vectors of related concepts, given that of concepts: first the lengths. *)
Fixpoint related_eqb (e : nat -> nat -> option bool) (x y : list (concept_relation * nat)) : option bool :=
  match x, y with
  | [], [] => Some true
  | (r, k) :: x', (r', k') :: y' =>
      if rel_eqb r r' then
        match e k k' with
        | Some true => related_eqb e x' y'
        | o => o
        end
      else Some false
  | _, _ => Some false
  end.
Fixpoint concept_eqb (fuel : nat) (w : world) (a b : nat) : option bool :=
  match fuel with
  | O => None
  | S f =>
      match nth_error (w_concepts w) a, nth_error (w_concepts w) b with
      | Some x, Some y =>
          if str_eqb (kc_uri x) (kc_uri y) && Nat.eqb (length (kc_concepts x)) (length (kc_concepts y)) then
            match related_eqb (concept_eqb f w) (kc_concepts x) (kc_concepts y) with
            | Some true =>
                Some (list_eqb (fun p q => str_eqb (fst p) (fst q) && str_eqb (snd p) (snd q)) (kc_external x) (kc_external y) &&
                      list_eqb slabel_eqb (kc_labels x) (kc_labels y) &&
                      list_eqb lprop_eqb (kc_properties x) (kc_properties y))
            | o => o
            end
          else Some false
      | _, _ => Some false
      end
  end.
(** [Vec::dedup]: each element is compared with the last one kept. *)
Fixpoint dedup_from (e : nat -> nat -> option bool) (last : nat) (l : list nat) : option (list nat) :=
  match l with
  | [] => Some [last]
  | k :: r =>
      match e k last with
      | None => None
      | Some true => dedup_from e last r
      | Some false => option_map (cons last) (dedup_from e k r)
      end
  end.
Definition dedup (e : nat -> nat -> option bool) (l : list nat) : option (list nat) :=
  match l with [] => Some [] | k :: r => dedup_from e k r end.

(** document.rs:121-133 the loop that adds the inverse relations: [concept] is borrowed while its
    relations are walked, so that [related.borrow_mut()] panics for the concept itself. *)
Definition is_related_one_way (r : concept_relation) : bool :=
  match r with RNarrower | RNarrowerPartitive | RNarrowerInstantial | RRelated => true | _ => false end.
Fixpoint relate_all (k : nat) (rels : list (concept_relation * nat)) (w : world) : outcome world :=
  match rels with
  | [] => Ret w
  | (r, k') :: more =>
      if is_related_one_way r then
        if Nat.eqb k' k then Panic
        else relate_all k more (w_on_concepts (update k' (kc_add_concept (rel_inverse r) k)) w)
      else relate_all k more w
  end.
Fixpoint relate (ks : list nat) (w : world) : outcome world :=
  match ks with
  | [] => Ret w
  | k :: r =>
      match nth_error (w_concepts w) k with
      | None => relate r w
      | Some c =>
          match relate_all k (kc_concepts c) w with
          | Ret w' => relate r w'
          | Panic => Panic
          end
      end
  end.

Section Document.
(** As in Skos.v. *)
Variables gext printable : N -> bool.
(** [Anchor::safe_from(label, Some(prefix))] (somedoc). *)
Variable anchor : str -> str -> str.
(** [ns_mappings.compress(iri)] and [to_string]. *)
Variable short : str -> option str.
(** [Context::ns_mappings] for the graph, and [TurtleWriter::default().write_to_string]. *)
Variable mappings : list (str * str).
Variable turtle : graph -> wres str.
(** [Context::language]. *)
Variable lang : option str.

(** document.rs:250-257 and the like: the compressed form of an IRI, or else the IRI. *)
Definition shown (i : str) : str := match short i with None => i | Some q => q end.

(** concept.rs:136-145, collection.rs:112-121 the preferred label at a place. *)
Definition label_of (w : world) (k : nat) : str :=
  match nth_error (w_concepts w) k with Some c => preferred_label_for (kc_uri c) (kc_labels c) lang | None => [] end.
Definition label_of_collection (w : world) (k : nat) : str :=
  match nth_error (w_collections w) k with Some c => preferred_label_for (kl_uri c) (kl_labels c) lang | None => [] end.

(** document.rs:264-273, 310-319 the cell of a language. *)
Definition language_cell (g : option str) : list inline :=
  match g with
  | None => []
  | Some t => [IText (if lang_eqb (Some t) lang then Bold else Normal) t]
  end.

(** document.rs:239-279 [write_labels]; [table] is [None] as long as it has no columns. *)
Definition label_columns : list str := [$"Label text"; $"Language"].
Fixpoint label_tables (current : option label_kind) (table : option (list (list (list inline)))) (ls : list slabel) : list block :=
  let flush := match table with Some rows => [DTable label_columns rows] | None => [] end in
  match ls with
  | [] => flush
  | l :: r =>
      let row := [[IText Normal (sl_text l)]; language_cell (sl_language l)] in
      if match current with Some k => lk_eqb (sl_kind l) k | None => false end then
        label_tables current (option_map (fun rows => rows ++ [row]) table) r
      else
        flush ++ [DPara [IText Bold (shown (lk_uri (sl_kind l)))]] ++ label_tables (Some (sl_kind l)) (Some [row]) r
  end.
Definition write_labels (ls : list slabel) : list block :=
  label_tables None None (sort_by_key lk_cmp sl_kind ls).

(** document.rs:281-323 [write_other_properties]; the data type of a property whose IRI cannot be
    compressed is shown as the predicate (line 306). *)
Definition property_row (p : lprop) : list (list inline) :=
  [[IText Normal (shown (lp_predicate p))];
   [IText Normal (lp_form p)];
   [IText Normal (match lp_data_type p with
                  | None => []
                  | Some d => match short (dt_as_iri d) with None => lp_predicate p | Some q => q end
                  end)];
   language_cell (lp_language p)].
Definition property_columns : list str := [$"Predicate"; $"Literal Form"; $"Data Type"; $"Language"].
Definition write_other_properties (ps : list lprop) : list block :=
  [DTable property_columns (map property_row (sort_by_key str_cmp lp_predicate ps))].

(** document.rs:194-237 [write_entity_header]; [prefix] is [header_text.to_lowercase()]. *)
Definition write_entity_header (u : str) (ls : list slabel) (ps : list lprop) (text prefix : str) (depth : nat) : list block :=
  let label := preferred_label_for u ls lang in
  [DHeading depth (text ++ $": " ++ label) (Some (anchor label prefix))] ++
  match find (fun p => str_eqb (lp_predicate p) (ns_term tb_sk $"definition") && lang_eqb (lp_language p) lang) ps with
  | Some p => [DPara [IText Italic (lp_form p)]]
  | None => []
  end ++
  [DPara [IExternal u None]] ++
  match ls with [] => [] | _ => [DHeading (S depth) $"Labels" None] ++ write_labels ls end ++
  match ps with [] => [] | _ => [DHeading (S depth) $"Other Properties" None] ++ write_other_properties ps end.

(** An internal link with the label as caption. *)
Definition concept_link (y : style) (label : str) : inline := IAnchor y (anchor label $"concept") label.
Definition collection_link (label : str) : inline := IAnchor Normal (anchor label $"collection") label.

(** document.rs:335-371 [write_concept_relations]. *)
Definition relation_columns : list str := [$"Relationship"; $"Concept Iri"].
Definition write_concept_relations (w : world) (c : concept) : list block :=
  [DHeading 4 $"Related Concepts" None;
   DTable relation_columns
     (map (fun rk => [[IText Normal (shown (rel_uri (fst rk)))]; [concept_link Normal (label_of w (snd rk))]]) (kc_concepts c) ++
      map (fun ri => [[IText Normal (shown (fst ri))]; [IExternal (snd ri) (Some (shown (snd ri)))]]) (kc_external c))].

(** document.rs:448-475 [write_collection_membership]; [ls] is [context.collections]. *)
Definition in_collections (w : world) (ls : list nat) (u : str) : list nat :=
  filter (fun k => match nth_error (w_collections w) k with Some c => has_member w c u | None => false end) ls.
Definition write_collection_membership (w : world) (ls : list nat) (u : str) : list block :=
  match in_collections w ls u with
  | [] => []
  | ks => [DHeading 4 $"In Collections" (Some $"Collections");
           DList (map (fun k => DItem [collection_link (label_of_collection w k)]) ks)]
  end.

(** document.rs:325-333 [write_concept]. *)
Definition write_concept (w : world) (ls : list nat) (k : nat) : list block :=
  match nth_error (w_concepts w) k with
  | None => []
  | Some c =>
      write_entity_header (kc_uri c) (kc_labels c) (kc_properties c) $"Concept" $"concept" 3 ++
      match kc_concepts c with [] => [] | _ => write_concept_relations w c end ++
      write_collection_membership w ls (kc_uri c)
  end.

(** document.rs:477-513 [write_collection_members]. *)
Definition write_collection_members (w : world) (ms : list member) : list block :=
  [DHeading 4 $"Members" None] ++
  match ms with
  | [] => []
  | _ => [DList (map (fun m => match m with
            | MCollection k => DItem [IText Normal $"Collection "; collection_link (label_of_collection w k)]
            | MConcept k => DItem [IText Normal $"Concept "; concept_link Normal (label_of w k)]
            end) ms)]
  end.
(** document.rs:438-446 [write_collection]. *)
Definition write_collection (w : world) (ls : list nat) (k : nat) : list block :=
  match nth_error (w_collections w) k with
  | None => []
  | Some c =>
      write_entity_header (kl_uri c) (kl_labels c) (kl_properties c) $"Collection" $"collection" 3 ++
      match kl_members c with [] => [] | ms => write_collection_members w ms end ++
      write_collection_membership w ls (kl_uri c)
  end.

(** document.rs:399-436 [write_concept_tree_inner]: the items of the sub list. *)
Fixpoint tree_inner (fuel : nat) (w : world) (rels : list (concept_relation * nat)) : option (list ditem) :=
  match fuel with
  | O => None
  | S f =>
      sequence (map (fun rk =>
          let item := DItem [concept_link (match fst rk with RNarrowerPartitive | RNarrowerInstantial => Italic | _ => Normal end)
                               (label_of w (snd rk))] in
          match nth_error (w_concepts w) (snd rk) with
          | Some c =>
              match kc_concepts c with
              | [] => Some [item]
              | more => option_map (fun sub => [item; DSub sub]) (tree_inner f w more)
              end
          | None => Some [item]
          end)
        (filter (fun rk => rel_is_narrower (fst rk)) (sort_by_key str_cmp (fun rk => label_of w (snd rk)) rels)))
  end.
(** document.rs:373-397 [write_concept_tree]. *)
Definition tree_of (fuel : nat) (w : world) (k : nat) : option (list block) :=
  let item := DItem [concept_link Bold (label_of w k)] in
  match nth_error (w_concepts w) k with
  | Some c =>
      match kc_concepts c with
      | [] => Some [DList [item]]
      | more => option_map (fun sub => [DList [item; DSub sub]]) (tree_inner fuel w more)
      end
  | None => Some []
  end.
Definition write_concept_tree (fuel : nat) (w : world) : option (list block) :=
  option_map (fun lists => [DHeading 2 $"Concepts Hierarchy" (Some $"ConceptsHierarchy")] ++ lists)
    (sequence (map (tree_of fuel w) (ks_concepts (w_scheme w)))).

(** document.rs:84-107 the links to the parts of the document. *)
Definition jump_links (collections : bool) : block :=
  DPara ([IText Normal $"Jump to: "; IAnchor Normal $"ConceptsHierarchy" $"Concepts Hierarchy";
          IText Normal $" | "; IAnchor Normal $"Concepts" $"Concepts"] ++
         (if collections then [IText Normal $" | "; IAnchor Normal $"Collections" $"Collections"] else []) ++
         [IText Normal $" | "; IAnchor Normal $"Appendix-RDF" $"Appendix - RDF"]).

(** document.rs:83-138: what is written about concepts, and what becomes of them. *)
Definition concepts_part (fuel : nat) (w : world) (ls : list nat) : wres (list block * world) :=
  match ks_concepts (w_scheme w) with
  | [] => Done ([], w)
  | _ =>
      match write_concept_tree fuel w with
      | None => OutOfFuel
      | Some tree =>
          match scheme_concepts_flattened fuel w with
          | None => OutOfFuel
          | Some flat =>
              match dedup (concept_eqb fuel w) (sort_by_key str_cmp (label_of w) flat) with
              | None => OutOfFuel
              | Some ks =>
                  match relate ks w with
                  | Panic => Crashed
                  | Ret w' =>
                      Done ([jump_links (match ks_collections (w_scheme w) with [] => false | _ => true end)] ++ tree ++
                            [DHeading 2 $"Concepts" (Some $"Concepts")] ++ flat_map (write_concept w' ls) ks, w')
                  end
              end
          end
      end
  end.

(** document.rs:72-160 [make_document_with_mappings], 167-178 [Context::new]; 53-65
    [make_document] chooses the mappings.  The result is the document, the concepts as they are
    afterwards, and the counter of blank nodes. *)
Definition make_document (fuel : nat) (n : N) (w : world) : wres (list block * world * N) :=
  match scheme_collections_flattened fuel w with
  | None => OutOfFuel
  | Some flat =>
      let ls := sort_by_key str_cmp (label_of_collection w) flat in
      let s := w_scheme w in
      wbind (concepts_part fuel w ls) (fun bw =>
        let '(concepts, w') := bw in
        match to_rdf_graph_with_mappings gext printable fuel n w' mappings with
        | None => OutOfFuel
        | Some (g, n') =>
            wbind (turtle g) (fun code =>
              Done (write_entity_header (ks_uri s) (ks_labels s) (ks_properties s) $"Scheme" $"scheme" 1 ++
                    concepts ++
                    match ks_collections s with
                    | [] => []
                    | _ => [DHeading 2 $"Collections" None] ++ flat_map (write_collection w' ls) ls
                    end ++
                    [DHeading 2 $"Appendix - RDF" (Some $"Appendix-RDF"); DCode code], w', n'))
        end)
  end.
End Document.
