(** Properties of the data model for RDF Schema vocabularies. *)
From Verif Require Import OntologySpec OntologyProofs.
From Coq Require Import Permutation.

(** C83: after any calls a class has the types, parents and label properties added and not removed
    since; a property also its domains and ranges. *)
Theorem C83_class : forall c h, c_uri (class_run c h) = c_uri c /\
  (forall i, c_is_instance_of (class_run c h) i = true <-> holds_after (fun i => In i (c_types c)) (map type_change h) i) /\
  (forall i, c_is_child_of (class_run c h) i = true <-> holds_after (fun i => In i (c_parents c)) (map parent_change h) i) /\
  (forall p, In p (c_labels (class_run c h)) <-> holds_after (fun p => In p (c_labels c)) (map label_change h) p).
Proof. exact c83_class. Qed.
Print Assumptions C83_class.
Theorem C83_property : forall p h,
  p_class (property_run p h) = class_run (p_class p) (flat_map (fun o => match o with PClass o => [o] | _ => [] end) h) /\
  (forall i, In i (p_domain (property_run p h)) <-> holds_after (fun i => In i (p_domain p)) (map domain_change h) i) /\
  (forall i, In i (p_range (property_run p h)) <-> holds_after (fun i => In i (p_range p)) (map range_change h) i).
Proof. exact c83_property. Qed.
Print Assumptions C83_property.

(** A class made from another is its subclass, or its instance, and nothing else. *)
Theorem C83_made : forall c u, let k := class_subclass c u in let n := class_instance c u in
  c_uri k = u /\ (forall i, c_is_child_of k i = true <-> i = c_uri c) /\ (forall i, c_is_instance_of k i = true <-> i = rdfs $"Class") /\
  c_uri n = u /\ (forall i, c_is_child_of n i = true <-> False) /\ (forall i, c_is_instance_of n i = true <-> i = c_uri c).
Proof. exact c83_made. Qed.
Print Assumptions C83_made.
Theorem C83_new : forall u t p i,
  (forall c, In c [class_new u; class_new_instance u t; class_new_subclass u p; class_new_instance_and_subclass u t p] ->
     c_uri c = u /\ c_labels c = []) /\
  (c_is_instance_of (class_new u) i = true <-> i = rdfs $"Class") /\ c_is_child_of (class_new u) i = false /\
  (c_is_instance_of (class_new_instance u t) i = true <-> i = t) /\ c_is_child_of (class_new_instance u t) i = false /\
  (c_is_instance_of (class_new_subclass u p) i = true <-> i = rdfs $"Class") /\ (c_is_child_of (class_new_subclass u p) i = true <-> i = p) /\
  (c_is_instance_of (class_new_instance_and_subclass u t p) i = true <-> i = t) /\
  (c_is_child_of (class_new_instance_and_subclass u t p) i = true <-> i = p).
Proof. exact c83_new. Qed.
Print Assumptions C83_new.

(** C83 fails for properties: they are instances of rdfs:Property, which is no term of RDF
    Schema (rdf:Property is meant). *)
Theorem C83_made_property_refuted : forall q u, let k := property_sub_property q u in let n := property_instance q u in
  c_uri (p_class k) = u /\ (forall i, c_is_child_of (p_class k) i = true <-> i = c_uri (p_class q)) /\
  (forall i, c_is_instance_of (p_class k) i = true <-> i = rdfs $"Property") /\
  c_uri (p_class n) = u /\ (forall i, c_is_child_of (p_class n) i = true <-> False) /\
  (forall i, c_is_instance_of (p_class n) i = true <-> i = c_uri (p_class q)) /\
  p_domain k = [] /\ p_range k = [] /\ p_domain n = [] /\ p_range n = [].
Proof. exact c83_made_property. Qed.
Print Assumptions C83_made_property_refuted.

(** The same for those that are not made from another property. *)
Theorem C83_new_property_refuted : forall u d r t,
  (forall q, In q [property_new u; property_new_with u d r; property_new_sub_property u t] ->
     c_uri (p_class q) = u /\ (forall i, c_is_instance_of (p_class q) i = true <-> i = rdfs $"Property")) /\
  (c_uri (p_class (property_new_instance u t)) = u /\ forall i, c_is_instance_of (p_class (property_new_instance u t)) i = true <-> i = t) /\
  (forall i, c_is_child_of (p_class (property_new_sub_property u t)) i = true <-> i = t) /\
  (forall q i, In q [property_new u; property_new_with u d r; property_new_instance u t] -> c_is_child_of (p_class q) i = false) /\
  (p_domain (property_new_with u d r) = [d] /\ p_range (property_new_with u d r) = [r]) /\
  (forall q, In q [property_new u; property_new_instance u t; property_new_sub_property u t] -> p_domain q = [] /\ p_range q = []).
Proof. exact c83_new_property. Qed.
Print Assumptions C83_new_property_refuted.

(** A vocabulary has, for each IRI, the class and the property added last and not removed since,
    each once. *)
Theorem C83_vocabulary : forall u h ord_c ord_p, reorders ord_c -> reorders ord_p -> v_uri (vocab_run u h) = u /\
  (forall c, In c (v_class_list ord_c (vocab_run u h)) <-> class_after None h (c_uri c) = Some c) /\
  (forall p, In p (v_property_list ord_p (vocab_run u h)) <-> property_after None h (c_uri (p_class p)) = Some p) /\
  NoDup (v_class_list ord_c (vocab_run u h)) /\ NoDup (v_property_list ord_p (vocab_run u h)) /\
  (forall p, In p (v_labels (vocab_run u h)) <-> holds_after (fun _ => False) (map vocab_label_change h) p).
Proof. exact c83_vocab. Qed.
Print Assumptions C83_vocabulary.

Example C83_example :
  let a := class_new $"p:a" in let b := class_subclass a $"p:b" in
  let h := [CAddType $"p:t"; CAddParent $"p:c"; CRemoveType $"p:t"; CRemoveParent $"p:a"; CAddLabel (LpSeeAlso $"p:d")] in
  c_is_instance_of (class_run b h) $"p:t" = false /\ c_is_child_of (class_run b h) $"p:a" = false /\
  c_is_child_of (class_run b h) $"p:c" = true /\
  v_class_list (fun l => l) (vocab_run $"p:" [VAddClass a; VAddClass b; VAddClass (class_run b h); VRemoveClass a]) = [class_run b h].
Proof. vm_compute. repeat split. Qed.

(** C84: the statements of a vocabulary without superclasses and superproperties are those that say
    its labels, types, domains and ranges, in any order of its maps. *)
Theorem C84_flat : forall ord_c ord_p u h st, reorders ord_c -> reorders ord_p -> no_parents (vocab_run u h) ->
  In st (v_to_statements ord_c ord_p (vocab_run u h)) <-> vocab_says sub_class_of sub_property_of (vocab_run u h) st.
Proof. exact c84_flat. Qed.
Print Assumptions C84_flat.
Theorem C84_orders : forall ord_c ord_p ord_c' ord_p' v, reorders ord_c -> reorders ord_p -> reorders ord_c' -> reorders ord_p' ->
  Permutation (v_to_statements ord_c ord_p v) (v_to_statements ord_c' ord_p' v).
Proof. exact c84_orders. Qed.
Print Assumptions C84_orders.

(** C84 fails for all others: a parent is written as a type, and rdfs:subClassOf and
    rdfs:subPropertyOf are never written. *)
Theorem C84_exact : forall ord_c ord_p u h st, reorders ord_c -> reorders ord_p ->
  In st (v_to_statements ord_c ord_p (vocab_run u h)) <-> vocab_says (rdf $"type") (rdf $"type") (vocab_run u h) st.
Proof. intros ord_c ord_p u h st A B. exact (c84_exact ord_c ord_p (vocab_run u h) st A B (wf_run u h)). Qed.
Print Assumptions C84_exact.
Theorem C84_parents_refuted : forall ord_c ord_p u h, reorders ord_c -> reorders ord_p ->
  (forall k c t, assoc k (v_classes (vocab_run u h)) = Some c -> In t (c_parents c) ->
    In (MkStmt (SRes k) (rdf $"type") (ORes t)) (v_to_statements ord_c ord_p (vocab_run u h)) /\
    vocab_says sub_class_of sub_property_of (vocab_run u h) (MkStmt (SRes k) sub_class_of (ORes t)) /\
    ~ In (MkStmt (SRes k) sub_class_of (ORes t)) (v_to_statements ord_c ord_p (vocab_run u h))) /\
  (forall k p t, assoc k (v_properties (vocab_run u h)) = Some p -> In t (c_parents (p_class p)) ->
    In (MkStmt (SRes k) (rdf $"type") (ORes t)) (v_to_statements ord_c ord_p (vocab_run u h)) /\
    vocab_says sub_class_of sub_property_of (vocab_run u h) (MkStmt (SRes k) sub_property_of (ORes t)) /\
    ~ In (MkStmt (SRes k) sub_property_of (ORes t)) (v_to_statements ord_c ord_p (vocab_run u h))).
Proof. exact c84_parents. Qed.
Print Assumptions C84_parents_refuted.

Example C84_example :
  let v := vocab_run $"p:" [VAddLabel (LpComment (Lit $"x" None None)); VAddClass (class_subclass (class_new $"p:a") $"p:b");
                            VAddProperty (property_new_with $"p:q" $"p:b" $"p:a")] in
  (exists k c t, assoc k (v_classes v) = Some c /\ In t (c_parents c)) /\
  no_parents (vocab_run $"p:" [VAddClass (class_new $"p:a")]) /\
  v_to_statements (fun l => l) (fun l => l) v =
    [MkStmt (SRes $"p:") (rdfs $"comment") (OLit (Lit $"x" None None));
     triple $"p:b" (rdf $"type") (rdfs $"Class"); triple $"p:b" (rdf $"type") $"p:a";
     triple $"p:q" (rdf $"type") (rdfs $"Property"); triple $"p:q" (rdfs $"domain") $"p:b"; triple $"p:q" (rdfs $"range") $"p:a"].
Proof.
  cbv zeta. split; [|split].
  - eexists $"p:b", _, _. split; [vm_compute; reflexivity|vm_compute; left; reflexivity].
  - split; intros u x G; vm_compute in G; [|discriminate G]. destruct u as [|c u]; [discriminate G|].
    match type of G with (if ?b then _ else _) = _ => destruct b end; [|discriminate G]. injection G as <-. reflexivity.
  - vm_compute. reflexivity.
Qed.

(** C85: of the RDF Schema recommendation, [rdf_schema] writes exactly the triples without
    rdfs:subClassOf and without the four terms of RDF that rdfs.rs has in the wrong namespace. *)
Theorem C85_written : forall ord_c ord_p st, reorders ord_c -> reorders ord_p -> In st rdf_schema_triples ->
  In st (v_to_statements ord_c ord_p rdf_schema) <-> st_predicate st <> sub_class_of /\ ~ mentions (map rdf misplaced) st.
Proof. exact c85_written. Qed.
Print Assumptions C85_written.
(** With those moved, only the superclasses are missing. *)
Theorem C85_moved : forall ord_c ord_p st, reorders ord_c -> reorders ord_p -> In st rdf_schema_triples -> st_predicate st <> sub_class_of ->
  exists st', In st' (v_to_statements ord_c ord_p rdf_schema) /\ moved_st st' = st.
Proof. exact c85_moved. Qed.
Print Assumptions C85_moved.
(** Every superclass is written as a type. *)
Theorem C85_superclasses : forall ord_c ord_p s o, reorders ord_c -> reorders ord_p -> In (triple s sub_class_of o) rdf_schema_triples ->
  exists st', In st' (v_to_statements ord_c ord_p rdf_schema) /\ moved_st st' = triple s (rdf $"type") o.
Proof. exact c85_superclasses. Qed.
Print Assumptions C85_superclasses.
(** What it writes besides has a misplaced term or a superclass as a type. *)
Theorem C85_extra : forall ord_c ord_p st, reorders ord_c -> reorders ord_p -> In st (v_to_statements ord_c ord_p rdf_schema) ->
  In st rdf_schema_triples \/ mentions (map rdfs misplaced) st \/
  (exists s o, st = triple s (rdf $"type") o /\ In (triple s sub_class_of o) rdf_schema_triples) \/
  st = triple $"http://www.w3.org/2000/01/rdf-schema#" (rdfs $"isDefinedBy") $"https://www.w3.org/TR/rdf-schema".
Proof. exact c85_extra. Qed.
Print Assumptions C85_extra.

(** C85 fails: some triples are missing. *)
Theorem C85_refuted : forall ord_c ord_p, reorders ord_c -> reorders ord_p ->
  exists st, In st rdf_schema_triples /\ ~ In st (v_to_statements ord_c ord_p rdf_schema).
Proof.
  intros ord_c ord_p A B. exists (triple (rdfs $"Literal") sub_class_of (rdfs $"Resource")).
  assert (I : In (triple (rdfs $"Literal") sub_class_of (rdfs $"Resource")) rdf_schema_triples) by (apply mem_st_iff; vm_compute; reflexivity).
  split; [exact I|]. intros J. apply c85_written in J as [J _]; [|assumption|assumption|exact I]. apply J. reflexivity.
Qed.
Print Assumptions C85_refuted.

Example C85_example :
  reorders (fun l : list class => rev l) /\ In (triple (rdf $"rest") (rdfs $"range") (rdf $"List")) rdf_schema_triples /\
  In (triple (rdf $"rest") (rdfs $"range") (rdf $"List")) (v_to_statements (fun l => rev l) (fun l => l) rdf_schema).
Proof.
  split; [intros l; apply Permutation_sym, Permutation_rev|]. split; apply mem_st_iff; vm_compute; reflexivity.
Qed.
