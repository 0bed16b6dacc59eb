(** Properties of the data model for SKOS thesauri. *)
From Verif Require Import SkosSpec SkosProofs SkosMain SkosMore IriProofs NamesProofs.
From Coq Require Import Permutation Lia List.
Import ListNotations.

(** C86: the statements made for a scheme are those that say what it has: itself, the concepts
    under its top concepts, and all its collections.  (Statements about blank nodes are the lists
    of C87.) *)
Theorem C86_says : forall gext printable u l h fuel n sts n' st,
  scheme_statements gext printable fuel n (skos_run (world_new u l) h) = Some (sts, n') ->
  (forall b, st_subject st <> SBlank b) ->
  In st sts <-> scheme_says gext printable (skos_run (world_new u l) h) st.
Proof. exact c86_in. Qed.
Print Assumptions C86_says.

(** The graph has them in the same order, no name and the mappings given. *)
Theorem C86_graph : forall gext printable fuel n w m,
  to_rdf_graph_with_mappings gext printable fuel n w m =
  match scheme_statements gext printable fuel n w with
  | Some (sts, n') => Some (Graph None (NonUnique sts) m, n')
  | None => None
  end.
Proof. exact c86_graph. Qed.
Print Assumptions C86_graph.

(** Making them ends, unless a concept is narrower than itself. *)
Theorem C86_ends : forall gext printable u l h n, let w := skos_run (world_new u l) h in
  (exists fuel r, scheme_statements gext printable fuel n w = Some r) <-> ~ narrower_cycle w.
Proof. exact c86_ends. Qed.
Print Assumptions C86_ends.
Theorem C86_fuel : forall gext printable w n f f' r, (f <= f')%nat -> scheme_statements gext printable f n w = Some r ->
  scheme_statements gext printable f' n w = Some r.
Proof. exact c86_fuel. Qed.
Print Assumptions C86_fuel.

(** The flattened lists: every collection once; every concept below the top concepts. *)
Theorem C86_collections : forall u l h fuel ks, scheme_collections_flattened fuel (skos_run (world_new u l) h) = Some ks ->
  Permutation ks (seq 0 (length (w_collections (skos_run (world_new u l) h)))).
Proof. exact c86_collections. Qed.
Print Assumptions C86_collections.
Theorem C86_concepts : forall u l h fuel ks, scheme_concepts_flattened fuel (skos_run (world_new u l) h) = Some ks ->
  forall k, In k ks <-> in_tree (skos_run (world_new u l) h) k.
Proof. exact c86_concepts. Qed.
Print Assumptions C86_concepts.

(** C86 fails for concepts in two places, and for the statement that a collection is in its scheme:
    they are said twice. *)
Definition ex_none : N -> bool := fun _ => false.
Definition ex_all : N -> bool := fun _ => true.
Definition ex_ops : list skos_op :=
  [TopConcept $"p:a" (Some ($"A", Some $"en")); SubConcept 0 RNarrower $"p:b" None; SubConcept 0 RNarrowerPartitive $"p:c" None;
   SubConcept 1 RNarrower $"p:d" None; Relate 2 RNarrower 3; Relate 3 RRelated 0; External 3 $"p:match" $"q:d";
   ConceptProperty 1 (lprop_new $"p:note" $"N"); Elsewhere $"p:e" None;
   TopCollection $"p:l" true None; AddMember 0 3; SubCollection 0 $"p:m" false None; AddMember 1 1; AddMember 1 2;
   SchemeLabel (MkLabel LkAlternative $"S" None)].
Definition ex_world : world := skos_run (world_new $"p:s" []) ex_ops.
Theorem C86_once_refuted : ~ (forall u l h fuel ks, scheme_concepts_flattened fuel (skos_run (world_new u l) h) = Some ks -> NoDup ks) /\
  ~ (forall gext printable u l h fuel n sts n', scheme_statements gext printable fuel n (skos_run (world_new u l) h) = Some (sts, n') ->
       NoDup sts).
Proof.
  split; intros H.
  - assert (E : scheme_concepts_flattened 5 (skos_run (world_new $"p:s" []) ex_ops) = Some [3; 1; 3; 2; 0]%nat) by (vm_compute; reflexivity).
    apply H in E. inversion E as [|a b N _]. apply N. right. left. reflexivity.
  - assert (E : exists st st' n', scheme_statements ex_none ex_all 5 0 (skos_run (world_new $"p:s" []) [TopCollection $"p:l" false None]) =
      Some ([st; st'; link $"p:l" (skos $"inScheme") $"p:s"; link $"p:l" (skos $"inScheme") $"p:s"] , n'))
      by (eexists; eexists; eexists; vm_compute; reflexivity).
    destruct E as (st & st' & n' & E). apply H in E.
    inversion E as [|a b _ D]. inversion D as [|c d _ D']. inversion D' as [|x y N _]. apply N. left. reflexivity.
Qed.
Print Assumptions C86_once_refuted.

Example C86_example : exists sts n', scheme_statements ex_none ex_all 5 0 ex_world = Some (sts, n') /\
  In (link $"p:d" (skos $"related") $"p:a") sts /\ In (link $"p:a" (skos $"topConceptOf") $"p:s") sts /\
  In (link $"p:m" (skos $"member") $"p:c") sts /\ In (link $"p:a" (thes $"narrowerPartitive") $"p:c") sts /\
  In (link $"p:d" $"p:match" $"q:d") sts /\
  In (MkStmt (SRes $"p:s") (skos $"altLabel") (OLit (Lit $"S" None None))) sts /\
  ~ In (of_type $"p:e" (skos $"Concept")) sts /\
  scheme_statements ex_none ex_all 50 0 (skos_run ex_world [Relate 3 RNarrower 0]) = None.
Proof.
  eexists. eexists. split; [vm_compute; reflexivity|]. split; [vm_compute; tauto|]. split; [vm_compute; tauto|].
  split; [vm_compute; tauto|]. split; [vm_compute; tauto|]. split; [vm_compute; tauto|]. split; [vm_compute; tauto|].
  split; [|vm_compute; reflexivity]. intros I. vm_compute in I. repeat (destruct I as [I|I]; [discriminate I|]). destruct I.
Qed.

(** C87: an ordered collection that has members has a list of their IRIs, in order, that ends in a
    cell without rdf:first. *)
Theorem C87_list : forall gext printable u l h fuel n sts n',
  scheme_statements gext printable fuel n (skos_run (world_new u l) h) = Some (sts, n') ->
  forall c, In c (w_collections (skos_run (world_new u l) h)) -> kl_ordered c = true -> kl_members c <> [] ->
  exists b us, member_iris (skos_run (world_new u l) h) c us /\ open_list sts b us.
Proof. exact c87_open. Qed.
Print Assumptions C87_list.

(** Nothing else is said of blank nodes: they are cells of such lists, and the items are members
    of ordered collections. *)
Theorem C87_cells : forall gext printable u l h fuel n sts n',
  scheme_statements gext printable fuel n (skos_run (world_new u l) h) = Some (sts, n') ->
  forall st b, In st sts -> st_subject st = SBlank b ->
  cell_says (fun u' => exists c, In c (w_collections (skos_run (world_new u l) h)) /\ kl_ordered c = true /\
    is_member (skos_run (world_new u l) h) c u') b st.
Proof. exact c87_cells. Qed.
Print Assumptions C87_cells.

(** C87 fails: no cell starts a list that can be read to its end, and nothing refers to any of
    them (skos:memberList is not used). *)
Theorem C87_memberList_refuted : forall gext printable u l h fuel n sts n',
  scheme_statements gext printable fuel n (skos_run (world_new u l) h) = Some (sts, n') ->
  (forall b items, ~ reads_list sts (OBlank b) items) /\ (forall s p b, ~ In (MkStmt (SRes s) p (OBlank b)) sts).
Proof. exact c87_no_list. Qed.
Print Assumptions C87_memberList_refuted.

Example C87_example : exists sts n' c, scheme_statements ex_none ex_all 5 0 ex_world = Some (sts, n') /\
  nth_error (w_collections ex_world) 0 = Some c /\ kl_ordered c = true /\ member_iris ex_world c [$"p:d"; $"p:m"] /\
  length (filter (fun st => match st_subject st with SBlank _ => true | _ => false end) sts) = 9%nat.
Proof.
  eexists. eexists. eexists. split; [vm_compute; reflexivity|]. split; [vm_compute; reflexivity|]. split; [vm_compute; reflexivity|].
  split; [|vm_compute; reflexivity].
  repeat constructor; (eexists; split; [vm_compute; reflexivity|reflexivity]).
Qed.

(** C88: the inverse of the inverse of a relation is the relation, and inverting exchanges narrower
    and broader -- but for the instantial ones, as the inverse of broader instantial is itself. *)
Theorem C88_inverse_refuted : forall r, (rel_inverse (rel_inverse r) = r <-> r <> RNarrowerInstantial) /\
  (rel_is_narrower r = true -> rel_is_broader (rel_inverse r) = true) /\
  (rel_is_broader r = true -> (rel_is_narrower (rel_inverse r) = true <-> r <> RBroaderInstantial)).
Proof. exact c88_inverse. Qed.
Print Assumptions C88_inverse_refuted.
Example C88_example : rel_inverse RNarrowerPartitive = RBroaderPartitive /\ rel_inverse RBroaderInstantial = RBroaderInstantial /\
  rel_uri (rel_inverse RRelated) = rel_uri RRelated.
Proof. repeat split. Qed.

(** C89: the preferred label is the first one in exactly that language, else the IRI. *)
Theorem C89_preferred : forall u ls g t, preferred_label_for u ls g = t <->
  first_preferred ls g t \/ (t = u /\ forall t', ~ In (MkLabel LkPreferred t' g) ls).
Proof. exact c89_preferred. Qed.
Print Assumptions C89_preferred.
(** Making a label: no language for the empty text, and a panic for what is no language tag. *)
Theorem C89_new : forall tag k text language r, label_new tag k text language = r <->
  match r with
  | Ret l => (language = [] /\ l = MkLabel k text None) \/
             (language <> [] /\ exists g, tag language = Some g /\ l = MkLabel k text (Some g))
  | Panic => language <> [] /\ tag language = None
  end.
Proof. exact c89_new. Qed.
Print Assumptions C89_new.
Example C89_example :
  let ls := [MkLabel LkAlternative $"x" (Some $"en"); MkLabel LkPreferred $"y" None; MkLabel LkPreferred $"z" (Some $"en")] in
  preferred_label_for $"p:a" ls (Some $"en") = $"z" /\ preferred_label_for $"p:a" ls None = $"y" /\
  preferred_label_for $"p:a" ls (Some $"fr") = $"p:a" /\
  label_new (fun s => if str_eqb s $"en" then Some s else None) LkHidden $"x" $"??" = Panic.
Proof. vm_compute. repeat split. Qed.

(** C90: a constructor uses the predicate it is named after -- except [available], which makes
    dcterms:created. *)
Theorem C90_named_refuted : forall fn text p, assoc fn constructor_names = Some p ->
  lprop_named fn text = Some (MkLprop (if str_eqb fn $"available" then dct $"created" else p) text None None).
Proof. exact c90_plain. Qed.
Print Assumptions C90_named_refuted.
(** The ones with a language panic for what is no language tag, the empty text too if it is none. *)
Theorem C90_language : forall tag fn text g p, assoc fn constructor_names_with = Some p ->
  lprop_named_with tag fn text g =
    Some (match tag g with Some t => Ret (MkLprop p text None (Some t)) | None => Panic end).
Proof. exact c90_with. Qed.
Print Assumptions C90_language.
Theorem C90_others : forall tag fn text g, (lprop_named fn text = None <-> assoc fn constructor_names = None) /\
  (lprop_named_with tag fn text g = None <-> assoc fn constructor_names_with = None).
Proof. exact c90_none. Qed.
Print Assumptions C90_others.
(** The statement made for a property has its predicate, type and language and determines it:
    different subjects, predicates, texts, types or languages give different statements.  (No
    constructor makes a property with both a type and a language.) *)
Theorem C90_statements : forall gext printable,
  (forall p text d g, Forall one_kind [lprop_new p text; lprop_with_data_type p text d; lprop_with_language p text g]) /\
  (forall u p text d g, exists lex,
     map (property_statement gext printable u) [lprop_new p text; lprop_with_data_type p text d; lprop_with_language p text g] =
     map (fun l => MkStmt (SRes u) p (OLit l)) [Lit lex None None; Lit lex (Some d) None; Lit lex None (Some g)]) /\
  (forall u p, one_kind p -> exists lex, property_statement gext printable u p =
     MkStmt (SRes u) (lp_predicate p) (OLit (Lit lex (lp_data_type p) (lp_language p)))) /\
  (forall u v p q, one_kind p -> one_kind q ->
     property_statement gext printable u p = property_statement gext printable v q -> u = v /\ p = q).
Proof. exact c90_statements. Qed.
Print Assumptions C90_statements.
Example C90_example : lprop_named $"scope_note" $"x" = Some (MkLprop (skos $"scopeNote") $"x" None None) /\
  lprop_named $"available" $"x" = lprop_named $"created" $"x" /\ dct $"available" <> dct $"created" /\
  lprop_named_with (fun _ => None) $"note_with" $"x" [] = Some Panic.
Proof. split; [vm_compute; reflexivity|]. split; [vm_compute; reflexivity|]. split; [discriminate|vm_compute; reflexivity]. Qed.

(** C91: the vocabularies of the crate: every function returns its IRI; SKOS is complete, and of
    SKOS-XL hiddenLabel is missing. *)
Theorem C91_functions : forall parse t f nm, parser_ok parse -> In t [tb_sk; tb_sk_xl; tb_sk_iso; tb_sk_status] ->
  In (f, nm) (tb_members t) ->
  exists i, call parse t f = Some (Ret i) /\ url_ser i = tb_ns t ++ nm /\ ns_term t f = tb_ns t ++ nm.
Proof. exact c91_functions. Qed.
Print Assumptions C91_functions.
(** C91: and is spelled like it. *)
Theorem C91_spelled : forall t f nm, In t [tb_sk; tb_sk_xl; tb_sk_iso; tb_sk_status] ->
  In (f, nm) (tb_members t) -> spelled_like f nm.
Proof. exact c91_spelled. Qed.
Print Assumptions C91_spelled.
Theorem C91_prefixes : map (fun t => (tb_prefix t, tb_ns t)) [tb_sk; tb_sk_xl; tb_sk_iso; tb_sk_status] =
  [($"skos", $"http://www.w3.org/2004/02/skos/core#"); ($"skosxl", $"http://www.w3.org/2008/05/skos-xl#");
   ($"isothes", $"http://purl.org/iso25964/skos-thes#"); ($"status", $"http://www.w3.org/2003/06/sw-vocab-status/ns#")].
Proof. exact c91_prefixes. Qed.
Print Assumptions C91_prefixes.
Theorem C91_skos : forall nm, tb_ns tb_sk = skos [] /\ (In nm (map snd (tb_members tb_sk)) <-> In nm skos_terms).
Proof. exact c91_skos. Qed.
Print Assumptions C91_skos.
Theorem C91_xl_refuted : forall nm, tb_ns tb_sk_xl = $"http://www.w3.org/2008/05/skos-xl#" /\
  (In nm (map snd (tb_members tb_sk_xl)) <-> In nm skosxl_terms /\ nm <> $"hiddenLabel").
Proof. exact c91_xl. Qed.
Print Assumptions C91_xl_refuted.
Example C91_example : parser_ok url_reparse /\ In ($"hidden_label", $"hiddenLabel") (tb_members tb_sk) /\
  In $"hiddenLabel" skosxl_terms /\
  option_map (fun o => match o with Ret i => url_ser i | Panic => [] end) (call url_reparse tb_sk $"hidden_label") = Some (skos $"hiddenLabel").
Proof.
  split; [intros u; apply url_reparse_ser|]. split; [vm_compute; tauto|]. split; [vm_compute; tauto|vm_compute; reflexivity].
Qed.

(** C92: after any calls, on values made before, each concept, collection and scheme has the
    labels, properties, relations and members given to it, in that order, and nothing else. *)
Theorem C92_calls : forall u l h, proper 0 0 h -> let w := skos_run (world_new u l) h in
  map kc_uri (w_concepts w) = added concept_iri 0 0 h /\
  (forall k c, nth_error (w_concepts w) k = Some c ->
     kc_labels c = added (label_for k) 0 0 h /\ kc_properties c = added (property_for k) 0 0 h /\
     kc_concepts c = added (relation_for k) 0 0 h /\ kc_external c = added (external_for k) 0 0 h) /\
  map (fun c => (kl_uri c, kl_ordered c)) (w_collections w) = added collection_iri 0 0 h /\
  (forall k c, nth_error (w_collections w) k = Some c ->
     kl_members c = added (member_for k) 0 0 h /\ kl_labels c = added (collection_label_for k) 0 0 h /\
     kl_properties c = added (collection_property_for k) 0 0 h) /\
  w_scheme w = MkScheme u (added top_concept 0 0 h) (added top_collection 0 0 h) (l ++ added scheme_label 0 0 h)
    (added scheme_property 0 0 h).
Proof. exact c92_calls. Qed.
Print Assumptions C92_calls.
(** ... and is asked about exactly those. *)
Theorem C92_has_property : forall u l h k c p, proper 0 0 h -> nth_error (w_concepts (skos_run (world_new u l) h)) k = Some c ->
  (has_property (kc_properties c) p = true <-> exists q, In q (added (property_for k) 0 0 h) /\ lp_predicate q = p).
Proof.
  intros u l h k c p P N. destruct (c92_calls u l h P) as (_ & C & _). destruct (C k c N) as (_ & <- & _). apply c92_has_property.
Qed.
Print Assumptions C92_has_property.

Example C92_example : proper 0 0 ex_ops /\ added (relation_for 0) 0 0 ex_ops = [(RNarrower, 1%nat); (RNarrowerPartitive, 2%nat)] /\
  added (member_for 0) 0 0 ex_ops = [MConcept 3; MCollection 1] /\ added concept_iri 0 0 ex_ops = [$"p:a"; $"p:b"; $"p:c"; $"p:d"; $"p:e"].
Proof. split; [cbn; repeat split; lia|]. vm_compute. repeat split. Qed.
