(** What the document of a SKOS scheme shows, independent of how it is written. *)
From Verif Require Export SkosDoc SkosSpec.
From Coq Require Export Sorted Permutation.

(** ** Reading documents *)

(** A block below a heading of the level: anything but a heading of that level or above. *)
Definition below_heading (level : nat) (b : block) : Prop :=
  match b with DHeading l _ _ => (level < l)%nat | _ => True end.
(** A section: a heading and the blocks below it up to the next heading of its level or above. *)
Definition section_of (d : list block) (level : nat) (text : str) (a : option str) (body : list block) : Prop :=
  exists before after, d = before ++ DHeading level text a :: body ++ after /\
    Forall (below_heading level) body /\
    match after with [] => True | b :: _ => ~ below_heading level b end.
(** The texts of the headings of a level, in order. *)
Definition headings (level : nat) (d : list block) : list str :=
  flat_map (fun b => match b with DHeading l t _ => if Nat.eqb l level then [t] else [] | _ => [] end) d.
(** The anchors of a document. *)
Definition has_anchor (d : list block) (a : str) : Prop := exists level text, In (DHeading level text (Some a)) d.
(** The rows of the tables with these columns, each with the bold paragraph before its table. *)
Fixpoint rows_under (columns : list str) (title : str) (d : list block) : list (str * list (list inline)) :=
  match d with
  | [] => []
  | DPara [IText Bold s] :: r => rows_under columns s r
  | DTable c rows :: r => (if list_eqb str_eqb c columns then map (pair title) rows else []) ++ rows_under columns title r
  | _ :: r => rows_under columns title r
  end.
Definition titles (d : list block) : list str :=
  flat_map (fun b => match b with DPara [IText Bold s] => [s] | _ => [] end) d.
(** What comes before the first heading. *)
Fixpoint lead (d : list block) : list block :=
  match d with [] => [] | DHeading _ _ _ :: _ => [] | b :: r => b :: lead r end.
(** All the items of the lists, and the items nested in an item. *)
Definition items_of (d : list block) : list ditem := flat_map (fun b => match b with DList l => l | _ => [] end) d.
(** A way down nested lists by the captions of their links. *)
Inductive way_down : list ditem -> list str -> Prop :=
| wd_here l y a s : In (DItem [IAnchor y a s]) l -> way_down l [s]
| wd_below before y a s sub after p : way_down sub p ->
    way_down (before ++ DItem [IAnchor y a s] :: DSub sub :: after) (s :: p).
(** The internal links of a document. *)
Definition in_item (i : inline) : ditem -> Prop :=
  fix go (t : ditem) : Prop :=
    match t with
    | DItem l => In i l
    | DSub l => (fix any (l : list ditem) : Prop := match l with [] => False | x :: r => go x \/ any r end) l
    end.
Definition in_block (i : inline) (b : block) : Prop :=
  match b with
  | DHeading _ _ _ | DCode _ => False
  | DPara l => In i l
  | DTable _ rows => exists row cell, In row rows /\ In cell row /\ In i cell
  | DList l => exists t, In t l /\ in_item i t
  end.
Definition has_link (d : list block) (target caption : str) : Prop :=
  exists b y, In b d /\ in_block (IAnchor y target caption) b.

(** ** What is to be shown *)

(** The kinds of labels in order: preferred, alternative, hidden, and others by their IRI. *)
Inductive kind_before : label_kind -> label_kind -> Prop :=
| kb_preferred k : k <> LkPreferred -> kind_before LkPreferred k
| kb_alternative k : k <> LkPreferred -> k <> LkAlternative -> kind_before LkAlternative k
| kb_hidden i : kind_before LkHidden (LkOther i)
| kb_other i j : str_cmp i j = Lt -> kind_before (LkOther i) (LkOther j).
Section Shown.
Variable short : str -> option str.
Variable lang : option str.

(** An IRI as it is shown: its short form, if it has one. *)
Inductive shows_iri (i : str) : str -> Prop :=
| si_short q : short i = Some q -> shows_iri i q
| si_long : short i = None -> shows_iri i i.
(** A language is shown in bold if it is that of the document. *)
Inductive shows_language : option str -> list inline -> Prop :=
| sl_none : shows_language None []
| sl_same g : lang = Some g -> shows_language (Some g) [IText Bold g]
| sl_other g : lang <> Some g -> shows_language (Some g) [IText Normal g].
(** A label in a table with the name of its kind above. *)
Definition shows_label (l : slabel) (row : str * list (list inline)) : Prop :=
  exists g, shows_iri (kind_name (sl_kind l)) (fst row) /\ shows_language (sl_language l) g /\
    snd row = [[IText Normal (sl_text l)]; g].
(** A property in a table with predicate, text, data type and language.  [type_cell] is what is
    shown for the data type. *)
Definition shows_property (type_cell : lprop -> str -> Prop) (p : lprop) (row : list (list inline)) : Prop :=
  exists q t g, shows_iri (lp_predicate p) q /\ type_cell p t /\ shows_language (lp_language p) g /\
    row = [[IText Normal q]; [IText Normal (lp_form p)]; [IText Normal t]; g].
(** The data type of a property: nothing, or its IRI. *)
Definition shows_type (p : lprop) (t : str) : Prop :=
  match lp_data_type p with None => t = [] | Some d => shows_iri (dt_as_iri d) t end.
(** What is shown instead: the predicate, if the IRI has no short form. *)
Definition shows_type_or_predicate (p : lprop) (t : str) : Prop :=
  match lp_data_type p with
  | None => t = []
  | Some d => short (dt_as_iri d) = Some t \/ (short (dt_as_iri d) = None /\ t = lp_predicate p)
  end.

(** The preferred label of a concept or collection (C89). *)
Definition is_label (u : str) (ls : list slabel) (t : str) : Prop :=
  first_preferred ls lang t \/ (t = u /\ forall t', ~ In (MkLabel LkPreferred t' lang) ls).

(** Labels and properties below a heading of a level. *)
Definition shows_resource (level : nat) (u : str) (ls : list slabel) (ps : list lprop) (body : list block) : Prop :=
  In (DPara [IExternal u None]) (lead body) /\
  (forall p, In p ps -> lp_predicate p = skos $"definition" -> lp_language p = lang ->
     exists before p' after, ps = before ++ p' :: after /\ lp_predicate p' = skos $"definition" /\ lp_language p' = lang /\
       (forall q, In q before -> lp_predicate q = skos $"definition" -> lp_language q <> lang) /\
       In (DPara [IText Italic (lp_form p')]) (lead body)) /\
  (forall t, In (DPara [IText Italic t]) (lead body) ->
     exists p, In p ps /\ lp_predicate p = skos $"definition" /\ lp_language p = lang /\ lp_form p = t) /\
  (ls <> [] -> exists part rows kinds, section_of body (S level) $"Labels" None part /\
     Permutation ls rows /\ Forall2 shows_label rows (rows_under [$"Label text"; $"Language"] [] part) /\
     Forall2 (fun k t => shows_iri (kind_name k) t) kinds (titles part) /\ NoDup kinds /\ StronglySorted kind_before kinds /\
     (forall k, In k kinds <-> exists l, In l ls /\ sl_kind l = k)) /\
  (ls = [] -> ~ In $"Labels" (headings (S level) body)) /\
  (ps <> [] -> exists part rows, section_of body (S level) $"Other Properties" None part /\
     Permutation ps rows /\ StronglySorted (fun p q => str_cmp (lp_predicate p) (lp_predicate q) <> Gt) rows /\
     Forall2 (shows_property shows_type_or_predicate) rows
       (map snd (rows_under [$"Predicate"; $"Literal Form"; $"Data Type"; $"Language"] [] part))) /\
  (ps = [] -> ~ In $"Other Properties" (headings (S level) body)).
End Shown.

(** Chains of concepts, each narrower than the one before. *)
Inductive narrower_chain (w : world) : list nat -> Prop :=
| nc_one k : narrower_chain w [k]
| nc_more k k' r : under w k k' -> narrower_chain w (k' :: r) -> narrower_chain w (k :: k' :: r).

Section ShownParts.
(** [Anchor::safe_from] and as above. *)
Variable anchor : str -> str -> str.
Variable short : str -> option str.
Variable lang : option str.

(** The label of the concept or collection at a place. *)
Definition concept_label (w : world) (k : nat) (t : str) : Prop :=
  exists c, nth_error (w_concepts w) k = Some c /\ is_label lang (kc_uri c) (kc_labels c) t.
Definition collection_label (w : world) (k : nat) (t : str) : Prop :=
  exists c, nth_error (w_collections w) k = Some c /\ is_label lang (kl_uri c) (kl_labels c) t.

(** Rows of the table of relations. *)
Definition shows_relation (w : world) (rk : concept_relation * nat) (row : list (list inline)) : Prop :=
  exists q t, shows_iri short (relation_name (fst rk)) q /\ concept_label w (snd rk) t /\
    row = [[IText Normal q]; [IAnchor Normal (anchor t $"concept") t]].
Definition shows_external (pi : str * str) (row : list (list inline)) : Prop :=
  exists q q', shows_iri short (fst pi) q /\ shows_iri short (snd pi) q' /\
    row = [[IText Normal q]; [IExternal (snd pi) (Some q')]].
Definition shows_relations (w : world) (rels : list (concept_relation * nat)) (ext : list (str * str)) (body : list block) : Prop :=
  (rels <> [] -> exists rows rows',
     section_of body 4 $"Related Concepts" None [DTable [$"Relationship"; $"Concept Iri"] (rows ++ rows')] /\
     Forall2 (shows_relation w) rels rows /\ Forall2 shows_external ext rows') /\
  (rels = [] -> ~ In $"Related Concepts" (headings 4 body)).

(** The collections something is in. *)
Definition shows_collection (w : world) (k : nat) (i : ditem) : Prop :=
  exists t, collection_label w k t /\ i = DItem [IAnchor Normal (anchor t $"collection") t].
Definition shows_membership (w : world) (u : str) (body : list block) : Prop :=
  ((exists c, In c (w_collections w) /\ is_member w c u) -> exists ks items,
     section_of body 4 $"In Collections" (Some $"Collections") [DList items] /\
     (forall k, In k ks <-> exists c, nth_error (w_collections w) k = Some c /\ is_member w c u) /\ NoDup ks /\
     Forall2 (shows_collection w) ks items) /\
  (~ (exists c, In c (w_collections w) /\ is_member w c u) -> ~ In $"In Collections" (headings 4 body)).

(** The members of a collection. *)
Definition shows_member (w : world) (m : member) (i : ditem) : Prop :=
  match m with
  | MConcept k => exists t, concept_label w k t /\ i = DItem [IText Normal $"Concept "; IAnchor Normal (anchor t $"concept") t]
  | MCollection k => exists t, collection_label w k t /\ i = DItem [IText Normal $"Collection "; IAnchor Normal (anchor t $"collection") t]
  end.
Definition shows_members (w : world) (ms : list member) (body : list block) : Prop :=
  (ms <> [] -> exists items, section_of body 4 $"Members" None [DList items] /\ Forall2 (shows_member w) ms items) /\
  (ms = [] -> ~ In $"Members" (headings 4 body)).

(** The section of a concept; the relations it shows are given. *)
Definition shows_concept (w : world) (rels : list (concept_relation * nat)) (c : concept) (d : list block) : Prop :=
  exists t body, is_label lang (kc_uri c) (kc_labels c) t /\
    section_of d 3 ($"Concept: " ++ t) (Some (anchor t $"concept")) body /\
    shows_resource short lang 3 (kc_uri c) (kc_labels c) (kc_properties c) body /\
    shows_relations w rels (kc_external c) body /\ shows_membership w (kc_uri c) body.
Definition shows_collection_section (w : world) (c : collection) (d : list block) : Prop :=
  exists t body, is_label lang (kl_uri c) (kl_labels c) t /\
    section_of d 3 ($"Collection: " ++ t) (Some (anchor t $"collection")) body /\
    shows_resource short lang 3 (kl_uri c) (kl_labels c) (kl_properties c) body /\
    shows_members w (kl_members c) body /\ shows_membership w (kl_uri c) body.
(** The narrower concepts among the related ones, by their labels. *)
Definition narrower_by_label (w : world) (rels below : list (concept_relation * nat)) : Prop :=
  Permutation below (filter (fun rk => match fst rk with RNarrower | RNarrowerPartitive | RNarrowerInstantial => true | _ => false end) rels) /\
  StronglySorted (fun a b => forall s t, concept_label w (snd a) s -> concept_label w (snd b) t -> str_cmp s t <> Gt) below.
(** The items for narrower concepts: parts and instances are in italics, and a concept that has relations
    has a list of those below it. *)
Definition narrower_style (r : concept_relation) : style := match r with RNarrower => Normal | _ => Italic end.
Inductive lists_narrower (w : world) : list (concept_relation * nat) -> list ditem -> Prop :=
| ln_nil : lists_narrower w [] []
| ln_alone r k c t rest l : nth_error (w_concepts w) k = Some c -> kc_concepts c = [] -> concept_label w k t ->
    lists_narrower w rest l ->
    lists_narrower w ((r, k) :: rest) (DItem [IAnchor (narrower_style r) (anchor t $"concept") t] :: l)
| ln_more r k c t below sub rest l : nth_error (w_concepts w) k = Some c -> kc_concepts c <> [] -> concept_label w k t ->
    narrower_by_label w (kc_concepts c) below -> lists_narrower w below sub -> lists_narrower w rest l ->
    lists_narrower w ((r, k) :: rest) (DItem [IAnchor (narrower_style r) (anchor t $"concept") t] :: DSub sub :: l).
Definition lists_top (w : world) (k : nat) (l : list ditem) : Prop :=
  exists c t, nth_error (w_concepts w) k = Some c /\ concept_label w k t /\
    ((kc_concepts c = [] /\ l = [DItem [IAnchor Bold (anchor t $"concept") t]]) \/
     (kc_concepts c <> [] /\ exists below sub, narrower_by_label w (kc_concepts c) below /\ lists_narrower w below sub /\
        l = [DItem [IAnchor Bold (anchor t $"concept") t]; DSub sub])).
(** The hierarchy: a list for each top concept, with the chains of labels below it. *)
Definition shows_hierarchy (w : world) (d : list block) : Prop :=
  exists lists, section_of d 2 $"Concepts Hierarchy" (Some $"ConceptsHierarchy") lists /\
    Forall2 (fun k b => exists l, b = DList l /\
      (forall p, way_down l p <-> exists ks, narrower_chain w (k :: ks) /\ Forall2 (concept_label w) (k :: ks) p) /\ lists_top w k l)
    (ks_concepts (w_scheme w)) lists.
End ShownParts.

(** The relations a document adds: each concept [j] of the tree that is narrower or related makes
    its inverse. *)
Definition one_way (r : concept_relation) : Prop := narrower r \/ r = RRelated.
Definition inverse_of (r : concept_relation) : concept_relation :=
  match r with
  | RNarrower => RBroader | RNarrowerPartitive => RBroaderPartitive | RNarrowerInstantial => RBroaderInstantial
  | RBroader => RNarrower | RBroaderPartitive => RNarrowerPartitive | RBroaderInstantial => RNarrowerInstantial
  | RRelated => RInverseRelated | RInverseRelated => RRelated
  end.
Definition has_relation (w : world) (j : nat) (r : concept_relation) (k : nat) : Prop :=
  exists c, nth_error (w_concepts w) j = Some c /\ In (r, k) (kc_concepts c).
Definition is_inverse (w : world) (k : nat) (rj : concept_relation * nat) : Prop :=
  exists r, in_tree w (snd rj) /\ has_relation w (snd rj) r k /\ one_way r /\ fst rj = inverse_of r.
(** The concepts of the tree have different IRIs; different labels. *)
Definition distinct_iris (w : world) : Prop :=
  forall a b x y, in_tree w a -> in_tree w b -> nth_error (w_concepts w) a = Some x -> nth_error (w_concepts w) b = Some y ->
  kc_uri x = kc_uri y -> a = b.
Definition distinct_labels (lang : option str) (w : world) : Prop :=
  forall a b t, in_tree w a -> in_tree w b -> concept_label lang w a t -> concept_label lang w b t -> a = b.
(** A concept from which one is reached that is related to itself by some relations. *)
Definition relates (w : world) (a b : nat) : Prop := exists r, has_relation w a r b.
Definition reaches_cycle (w : world) (k : nat) : Prop :=
  exists x, clos_refl_trans nat (relates w) k x /\ clos_trans nat (relates w) x x.
Definition relation_cycle (w : world) : Prop := exists t, In t (ks_concepts (w_scheme w)) /\ reaches_cycle w t.
(** A concept that is in the tree more than once: [Scheme::concepts_flattened] has it twice. *)
Definition listed_twice (w : world) (k : nat) : Prop :=
  exists fuel flat before between after, scheme_concepts_flattened fuel w = Some flat /\
    flat = before ++ k :: between ++ k :: after.

(** The internal links: to the parts of the document, to concepts and to collections. *)
Inductive link_of (anchor : str -> str -> str) (lang : option str) (w : world) : str -> str -> Prop :=
| lo_part a t : ks_concepts (w_scheme w) <> [] ->
    In (a, t) [($"ConceptsHierarchy", $"Concepts Hierarchy"); ($"Concepts", $"Concepts"); ($"Appendix-RDF", $"Appendix - RDF")] ->
    link_of anchor lang w a t
| lo_collections : ks_concepts (w_scheme w) <> [] -> ks_collections (w_scheme w) <> [] ->
    link_of anchor lang w $"Collections" $"Collections"
| lo_concept k t : concept_label lang w k t ->
    in_tree w k \/ (exists j r, in_tree w j /\ has_relation w j r k) \/
      (exists c, In c (w_collections w) /\ In (MConcept k) (kl_members c)) ->
    link_of anchor lang w (anchor t $"concept") t
| lo_collection k c t : nth_error (w_collections w) k = Some c -> collection_label lang w k t ->
    (exists c', In c' (w_collections w) /\ In (MCollection k) (kl_members c')) \/
      (exists j c', in_tree w j /\ nth_error (w_concepts w) j = Some c' /\ is_member w c (kc_uri c')) \/
      (exists c', In c' (w_collections w) /\ is_member w c (kl_uri c')) ->
    link_of anchor lang w (anchor t $"collection") t.
