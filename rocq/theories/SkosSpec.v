(** What a SKOS scheme says, from the SKOS reference, independent of how statements are made. *)
From Verif Require Export Skos NamesSpec.
From Coq Require Export Relations.

Definition skos (x : str) : str := $"http://www.w3.org/2004/02/skos/core#" ++ x.
Definition thes (x : str) : str := $"http://purl.org/iso25964/skos-thes#" ++ x.
Definition dct (x : str) : str := $"http://purl.org/dc/terms/" ++ x.

(** The property for each relation and kind of label. *)
Definition relation_name (r : concept_relation) : str :=
  match r with
  | RNarrower => skos $"narrower" | RNarrowerPartitive => thes $"narrowerPartitive"
  | RNarrowerInstantial => thes $"narrowerInstantial"
  | RBroader => skos $"broader" | RBroaderPartitive => thes $"broaderPartitive"
  | RBroaderInstantial => thes $"broaderInstantial"
  | RRelated | RInverseRelated => skos $"related"
  end.
Definition kind_name (k : label_kind) : str :=
  match k with
  | LkPreferred => skos $"prefLabel" | LkAlternative => skos $"altLabel" | LkHidden => skos $"hiddenLabel"
  | LkOther i => i
  end.

(** The narrower concepts of a concept, the concepts under the top concepts, and a concept under
    itself. *)
Definition narrower (r : concept_relation) : Prop := r = RNarrower \/ r = RNarrowerPartitive \/ r = RNarrowerInstantial.
Definition under (w : world) (a b : nat) : Prop :=
  exists c r, nth_error (w_concepts w) a = Some c /\ In (r, b) (kc_concepts c) /\ narrower r.
Definition in_tree (w : world) (k : nat) : Prop :=
  exists t, In t (ks_concepts (w_scheme w)) /\ clos_refl_trans nat (under w) t k.
Definition narrower_cycle (w : world) : Prop := exists k, in_tree w k /\ clos_trans nat (under w) k k.

Section Says.
Variables gext printable : N -> bool.

(** The literal for a text: what Literal.v makes of it (C35). *)
Definition text_in (s : str) (d : option data_type) (g : option str) : object :=
  OLit (Lit (escape_string gext printable s) d (match d with Some _ => None | None => g end)).

Inductive resource_says (u : str) (ls : list slabel) (ps : list lprop) : statement -> Prop :=
| rs_label l : In l ls ->
    resource_says u ls ps (MkStmt (SRes u) (kind_name (sl_kind l)) (text_in (sl_text l) None (sl_language l)))
| rs_property p : In p ps ->
    resource_says u ls ps (MkStmt (SRes u) (lp_predicate p) (text_in (lp_form p) (lp_data_type p) (lp_language p))).
Definition of_type (u t : str) : statement := MkStmt (SRes u) (rdf $"type") (ORes t).
Definition link (s p o : str) : statement := MkStmt (SRes s) p (ORes o).

(** The statements about a concept of the scheme [s]. *)
Inductive concept_says (w : world) (s : str) (c : concept) : statement -> Prop :=
| cs_type : concept_says w s c (of_type (kc_uri c) (skos $"Concept"))
| cs_scheme : concept_says w s c (link (kc_uri c) (skos $"inScheme") s)
| cs_relation r k c' : In (r, k) (kc_concepts c) -> nth_error (w_concepts w) k = Some c' ->
    concept_says w s c (link (kc_uri c) (relation_name r) (kc_uri c'))
| cs_external p i : In (p, i) (kc_external c) -> concept_says w s c (link (kc_uri c) p i)
| cs_resource st : resource_says (kc_uri c) (kc_labels c) (kc_properties c) st -> concept_says w s c st.

(** The member at a place. *)
Inductive is_member (w : world) (c : collection) (u : str) : Prop :=
| im_concept k c' : In (MConcept k) (kl_members c) -> nth_error (w_concepts w) k = Some c' -> u = kc_uri c' -> is_member w c u
| im_collection k c' : In (MCollection k) (kl_members c) -> nth_error (w_collections w) k = Some c' -> u = kl_uri c' ->
    is_member w c u.
(** The statements about a collection; those for the list of an ordered one are in C87. *)
Inductive collection_says (w : world) (s : str) (c : collection) : statement -> Prop :=
| ls_type : collection_says w s c
    (of_type (kl_uri c) (if kl_ordered c then skos $"OrderedCollection" else skos $"Collection"))
| ls_scheme : collection_says w s c (link (kl_uri c) (skos $"inScheme") s)
| ls_member u : kl_ordered c = false -> is_member w c u -> collection_says w s c (link (kl_uri c) (skos $"member") u)
| ls_resource st : resource_says (kl_uri c) (kl_labels c) (kl_properties c) st -> collection_says w s c st.

(** The statements about a scheme: those about itself, its top concepts, the concepts under them,
    and all its collections. *)
Inductive scheme_says (w : world) : statement -> Prop :=
| ss_type : scheme_says w (of_type (ks_uri (w_scheme w)) (skos $"ConceptScheme"))
| ss_resource st : resource_says (ks_uri (w_scheme w)) (ks_labels (w_scheme w)) (ks_properties (w_scheme w)) st -> scheme_says w st
| ss_top k c : In k (ks_concepts (w_scheme w)) -> nth_error (w_concepts w) k = Some c ->
    scheme_says w (link (kc_uri c) (skos $"topConceptOf") (ks_uri (w_scheme w)))
| ss_has_top k c : In k (ks_concepts (w_scheme w)) -> nth_error (w_concepts w) k = Some c ->
    scheme_says w (link (ks_uri (w_scheme w)) (skos $"hasTopConcept") (kc_uri c))
| ss_concept k c st : in_tree w k -> nth_error (w_concepts w) k = Some c -> concept_says w (ks_uri (w_scheme w)) c st ->
    scheme_says w st
| ss_collection c st : In c (w_collections w) -> collection_says w (ks_uri (w_scheme w)) c st -> scheme_says w st.
End Says.

(** A list as it is read: cells with rdf:first and rdf:rest up to rdf:nil. *)
Inductive reads_list (G : list statement) : object -> list object -> Prop :=
| rd_nil : reads_list G (ORes (rdf $"nil")) []
| rd_cons b x r items : In (MkStmt (SBlank b) (rdf $"first") x) G -> In (MkStmt (SBlank b) (rdf $"rest") r) G ->
    reads_list G r items -> reads_list G (OBlank b) (x :: items).
(** A list with a cell too many: the last one has no rdf:first. *)
Inductive open_list (G : list statement) : str -> list str -> Prop :=
| ol_end b : In (MkStmt (SBlank b) (rdf $"rest") (ORes (rdf $"nil"))) G ->
    (forall x, ~ In (MkStmt (SBlank b) (rdf $"first") x) G) -> open_list G b []
| ol_cons b u b' us : In (MkStmt (SBlank b) (rdf $"type") (ORes (rdf $"List"))) G ->
    In (MkStmt (SBlank b) (rdf $"first") (ORes u)) G -> In (MkStmt (SBlank b) (rdf $"rest") (OBlank b')) G ->
    open_list G b' us -> open_list G b (u :: us).
(** What can be said of a cell [b]; [P] holds of the items. *)
Inductive cell_says (P : str -> Prop) (b : str) : statement -> Prop :=
| ce_type : cell_says P b (MkStmt (SBlank b) (rdf $"type") (ORes (rdf $"List")))
| ce_first u : P u -> cell_says P b (MkStmt (SBlank b) (rdf $"first") (ORes u))
| ce_rest b' : cell_says P b (MkStmt (SBlank b) (rdf $"rest") (OBlank b'))
| ce_end : cell_says P b (MkStmt (SBlank b) (rdf $"rest") (ORes (rdf $"nil"))).
(** The IRIs of the members of a collection, in order. *)
Definition member_iris (w : world) (c : collection) (us : list str) : Prop :=
  Forall2 (fun m u => match m with
    | MConcept k => exists c', nth_error (w_concepts w) k = Some c' /\ u = kc_uri c'
    | MCollection k => exists c', nth_error (w_collections w) k = Some c' /\ u = kl_uri c'
    end) (kl_members c) us.

(** The first preferred label in a language. *)
Definition first_preferred (ls : list slabel) (g : option str) (t : str) : Prop :=
  exists before after, ls = before ++ MkLabel LkPreferred t g :: after /\
    forall t', ~ In (MkLabel LkPreferred t' g) before.

(** The predicate each constructor of properties is named after. *)
Definition constructor_names : list (str * str) :=
  [($"change_note", skos $"changeNote"); ($"definition", skos $"definition"); ($"editorial_note", skos $"editorialNote");
   ($"example", skos $"example"); ($"history_note", skos $"historyNote"); ($"note", skos $"note");
   ($"scope_note", skos $"scopeNote"); ($"notation", skos $"notation"); ($"available", dct $"available");
   ($"created", dct $"created"); ($"creator", dct $"creator"); ($"date_accepted", dct $"dateAccepted");
   ($"date_submitted", dct $"dateSubmitted"); ($"issued", dct $"issued"); ($"modified", dct $"modified");
   ($"publisher", dct $"publisher"); ($"rights", dct $"rights"); ($"source", dct $"source");
   ($"subject", dct $"subject"); ($"title", dct $"title");
   ($"term_status", $"http://www.w3.org/2003/06/sw-vocab-status/ns#term_status")].
Definition constructor_names_with : list (str * str) :=
  [($"change_note_with", skos $"changeNote"); ($"definition_with", skos $"definition");
   ($"editorial_note_with", skos $"editorialNote"); ($"example_with", skos $"example");
   ($"history_note_with", skos $"historyNote"); ($"note_with", skos $"note"); ($"scope_note_with", skos $"scopeNote")].

(** The terms of SKOS-XL (SKOS Reference, appendix B); those of SKOS are in NamesSpec.v. *)
Definition skosxl_terms : list str :=
  [$"Label"; $"altLabel"; $"hiddenLabel"; $"labelRelation"; $"literalForm"; $"prefLabel"].

(** ** What calls add.  The [n]-th concept made is at the place [n]; likewise for collections. *)
Definition makes_concept (o : skos_op) : nat :=
  match o with TopConcept _ _ | SubConcept _ _ _ _ | Elsewhere _ _ => 1 | _ => 0 end.
Definition makes_collection (o : skos_op) : nat :=
  match o with TopCollection _ _ _ | SubCollection _ _ _ _ => 1 | _ => 0 end.
(** Calls on values that were made before. *)
Definition on_made (nc nl : nat) (o : skos_op) : Prop :=
  match o with
  | SubConcept k _ _ _ | External k _ _ | ConceptLabel k _ | ConceptProperty k _ => k < nc
  | Relate k _ k' => k < nc /\ k' < nc
  | SubCollection k _ _ _ | CollectionLabel k _ | CollectionProperty k _ => k < nl
  | AddMember k k' => k < nl /\ k' < nc
  | _ => True
  end%nat.
Fixpoint proper (nc nl : nat) (h : list skos_op) : Prop :=
  match h with
  | [] => True
  | o :: r => on_made nc nl o /\ proper (nc + makes_concept o) (nl + makes_collection o) r
  end.
(** What each call adds, given how many concepts and collections were made before. *)
Fixpoint added {A} (f : nat -> nat -> skos_op -> list A) (nc nl : nat) (h : list skos_op) : list A :=
  match h with
  | [] => []
  | o :: r => f nc nl o ++ added f (nc + makes_concept o) (nl + makes_collection o) r
  end.
Definition given_label (l : option (str * option str)) : list slabel :=
  match l with Some (t, g) => [MkLabel LkPreferred t g] | None => [] end.
Definition at_place {A} (k k' : nat) (l : list A) : list A := if Nat.eqb k k' then l else [].

Definition concept_iri (_ _ : nat) (o : skos_op) : list str :=
  match o with TopConcept u _ | SubConcept _ _ u _ | Elsewhere u _ => [u] | _ => [] end.
Definition label_for (k nc nl : nat) (o : skos_op) : list slabel :=
  match o with
  | TopConcept _ l | SubConcept _ _ _ l | Elsewhere _ l => at_place k nc (given_label l)
  | ConceptLabel k' l => at_place k k' [l]
  | _ => []
  end.
Definition property_for (k nc nl : nat) (o : skos_op) : list lprop :=
  match o with ConceptProperty k' p => at_place k k' [p] | _ => [] end.
Definition relation_for (k nc nl : nat) (o : skos_op) : list (concept_relation * nat) :=
  match o with
  | SubConcept k' r _ _ => at_place k k' [(r, nc)]
  | Relate k' r k'' => at_place k k' [(r, k'')]
  | _ => []
  end.
Definition external_for (k nc nl : nat) (o : skos_op) : list (str * str) :=
  match o with External k' r i => at_place k k' [(r, i)] | _ => [] end.

Definition collection_iri (_ _ : nat) (o : skos_op) : list (str * bool) :=
  match o with TopCollection u b _ | SubCollection _ u b _ => [(u, b)] | _ => [] end.
Definition member_for (k nc nl : nat) (o : skos_op) : list member :=
  match o with
  | SubCollection k' _ _ _ => at_place k k' [MCollection nl]
  | AddMember k' c => at_place k k' [MConcept c]
  | _ => []
  end.
Definition collection_label_for (k nc nl : nat) (o : skos_op) : list slabel :=
  match o with
  | TopCollection _ _ l | SubCollection _ _ _ l => at_place k nl (given_label l)
  | CollectionLabel k' l => at_place k k' [l]
  | _ => []
  end.
Definition collection_property_for (k nc nl : nat) (o : skos_op) : list lprop :=
  match o with CollectionProperty k' p => at_place k k' [p] | _ => [] end.

Definition top_concept (nc nl : nat) (o : skos_op) : list nat := match o with TopConcept _ _ => [nc] | _ => [] end.
Definition top_collection (nc nl : nat) (o : skos_op) : list nat := match o with TopCollection _ _ _ => [nl] | _ => [] end.
Definition scheme_label (nc nl : nat) (o : skos_op) : list slabel := match o with SchemeLabel l => [l] | _ => [] end.
Definition scheme_property (nc nl : nat) (o : skos_op) : list lprop := match o with SchemeProperty p => [p] | _ => [] end.

(** A property with a type or a language, not both. *)
Definition one_kind (p : lprop) : Prop := lp_data_type p = None \/ lp_language p = None.
