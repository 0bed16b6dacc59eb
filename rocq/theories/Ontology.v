(** Model of rdftk_ontology: lib.rs, macros.rs and rdfs/mod.rs (owl/mod.rs has no functions).
    The crate is no member of the workspace and is written for the factories of an earlier
    rdftk_core; [factory.statement], [named_subject], [named_object] and [literal_object] make
    the statements and nodes of Term.v.  No proofs here. *)
From Verif Require Export Term.
From Verif Require Export Names.

(** [rdfs::class()] and the like: the function [fn] of the module with table [t] (Names.v;
    C73 states that it returns this IRI). *)
Definition term (t : table) (fn : str) : str :=
  match call_str t fn with Some nm => tb_ns t ++ nm | None => [] end.

(** lib.rs:39-45 [LabelProperty]. *)
Inductive label_property : Type :=
| LpLabel (l : literal)
| LpComment (l : literal)
| LpSeeAlso (i : str)
| LpIsDefinedBy (i : str).
(** lib.rs:39 the derived [PartialEq]. *)
Definition lp_eqb (a b : label_property) : bool :=
  match a, b with
  | LpLabel x, LpLabel y => lit_eqb x y
  | LpComment x, LpComment y => lit_eqb x y
  | LpSeeAlso x, LpSeeAlso y => str_eqb x y
  | LpIsDefinedBy x, LpIsDefinedBy y => str_eqb x y
  | _, _ => false
  end.

(** rdfs/mod.rs:32-38 [Class], and the fields [Property] (40-48) shares with it. *)
Record class : Type := MkClass {
  c_uri : str;
  c_labels : list label_property;
  c_types : list str;
  c_parents : list str
}.
Record property : Type := MkProperty {
  p_class : class;
  p_domain : list str;
  p_range : list str
}.
(** rdfs/mod.rs:24-30 [Vocabulary]; a [HashMap] is its entries, the order of [values] is
    quantified over. *)
Record vocab : Type := MkVocab {
  v_uri : str;
  v_labels : list label_property;
  v_classes : list (str * class);
  v_properties : list (str * property)
}.

(** [Vec::retain(|p| p != x)]. *)
Definition drop_all {A} (eqb : A -> A -> bool) (x : A) (l : list A) : list A :=
  filter (fun y => negb (eqb y x)) l.

(** macros.rs:15-33 [impl_labeled!]; lib.rs:51-67 the four ways to call it. *)
Definition c_add_label_property (c : class) (p : label_property) : class :=
  MkClass (c_uri c) (c_labels c ++ [p]) (c_types c) (c_parents c).
Definition c_remove_label_property (c : class) (p : label_property) : class :=
  MkClass (c_uri c) (drop_all lp_eqb p (c_labels c)) (c_types c) (c_parents c).
Definition v_add_label_property (v : vocab) (p : label_property) : vocab :=
  MkVocab (v_uri v) (v_labels v ++ [p]) (v_classes v) (v_properties v).
Definition v_remove_label_property (v : vocab) (p : label_property) : vocab :=
  MkVocab (v_uri v) (drop_all lp_eqb p (v_labels v)) (v_classes v) (v_properties v).

(** macros.rs:35-53 [impl_individual!], lib.rs:69-76. *)
Definition c_add_instance_of (c : class) (i : str) : class :=
  MkClass (c_uri c) (c_labels c) (c_types c ++ [i]) (c_parents c).
Definition c_remove_instance_of (c : class) (i : str) : class :=
  MkClass (c_uri c) (c_labels c) (drop_all str_eqb i (c_types c)) (c_parents c).
Definition c_is_instance_of (c : class) (i : str) : bool := existsb (fun p => str_eqb p i) (c_types c).

(** macros.rs:55-73 [impl_subclassed!], lib.rs:78-85. *)
Definition c_add_parent (c : class) (i : str) : class :=
  MkClass (c_uri c) (c_labels c) (c_types c) (c_parents c ++ [i]).
Definition c_remove_parent (c : class) (i : str) : class :=
  MkClass (c_uri c) (c_labels c) (c_types c) (drop_all str_eqb i (c_parents c)).
Definition c_is_child_of (c : class) (i : str) : bool := existsb (fun p => str_eqb p i) (c_parents c).

(** rdfs/mod.rs:207-263 [Class]. *)
Definition class_new (u : str) : class := MkClass u [] [term tb_rdfs $"class"] [].
Definition class_new_instance (u t : str) : class := MkClass u [] [t] [].
Definition class_new_subclass (u p : str) : class := MkClass u [] [term tb_rdfs $"class"] [p].
Definition class_new_instance_and_subclass (u t p : str) : class := MkClass u [] [t] [p].
Definition class_instance (c : class) (u : str) : class := MkClass u [] [c_uri c] [].
Definition class_subclass (c : class) (u : str) : class := MkClass u [] [term tb_rdfs $"class"] [c_uri c].

(** rdfs/mod.rs:269-365 [Property]. *)
Definition property_new (u : str) : property := MkProperty (MkClass u [] [term tb_rdfs $"property"] []) [] [].
Definition property_new_with (u d r : str) : property :=
  MkProperty (MkClass u [] [term tb_rdfs $"property"] []) [d] [r].
Definition property_new_instance (u t : str) : property := MkProperty (MkClass u [] [t] []) [] [].
Definition property_new_sub_property (u p : str) : property :=
  MkProperty (MkClass u [] [term tb_rdfs $"property"] [p]) [] [].
Definition property_instance (q : property) (u : str) : property :=
  MkProperty (MkClass u [] [c_uri (p_class q)] []) [] [].
Definition property_sub_property (q : property) (u : str) : property :=
  MkProperty (MkClass u [] [term tb_rdfs $"property"] [c_uri (p_class q)]) [] [].
Definition p_on_class (f : class -> class) (q : property) : property := MkProperty (f (p_class q)) (p_domain q) (p_range q).
Definition p_add_domain (q : property) (i : str) : property := MkProperty (p_class q) (p_domain q ++ [i]) (p_range q).
Definition p_remove_domain (q : property) (i : str) : property :=
  MkProperty (p_class q) (drop_all str_eqb i (p_domain q)) (p_range q).
Definition p_add_range (q : property) (i : str) : property := MkProperty (p_class q) (p_domain q) (p_range q ++ [i]).
Definition p_remove_range (q : property) (i : str) : property :=
  MkProperty (p_class q) (p_domain q) (drop_all str_eqb i (p_range q)).

(** [HashMap::remove]. *)
Fixpoint assoc_remove {A} (k : str) (l : list (str * A)) : list (str * A) :=
  match l with
  | [] => []
  | (k', v) :: r => if str_eqb k' k then r else (k', v) :: assoc_remove k r
  end.

(** rdfs/mod.rs:414-447 [Vocabulary]. *)
Definition vocab_new (u : str) : vocab := MkVocab u [] [] [].
Definition v_add_class (v : vocab) (c : class) : vocab :=
  MkVocab (v_uri v) (v_labels v) (assoc_insert (c_uri c) c (v_classes v)) (v_properties v).
Definition v_remove_class (v : vocab) (c : class) : vocab :=
  MkVocab (v_uri v) (v_labels v) (assoc_remove (c_uri c) (v_classes v)) (v_properties v).
Definition v_add_property (v : vocab) (p : property) : vocab :=
  MkVocab (v_uri v) (v_labels v) (v_classes v) (assoc_insert (c_uri (p_class p)) p (v_properties v)).
Definition v_remove_property (v : vocab) (p : property) : vocab :=
  MkVocab (v_uri v) (v_labels v) (v_classes v) (assoc_remove (c_uri (p_class p)) (v_properties v)).
(** rdfs/mod.rs:434-436, 448-450 [classes], [properties]. *)
Definition v_class_list (ord : list class -> list class) (v : vocab) : list class := ord (map snd (v_classes v)).
Definition v_property_list (ord : list property -> list property) (v : vocab) : list property :=
  ord (map snd (v_properties v)).

(** rdfs/mod.rs:457-503 [to_label_statements]. *)
Definition label_statement (u : str) (p : label_property) : statement :=
  match p with
  | LpLabel v => MkStmt (SRes u) (term tb_rdfs $"label") (OLit v)
  | LpComment v => MkStmt (SRes u) (term tb_rdfs $"comment") (OLit v)
  | LpSeeAlso v => MkStmt (SRes u) (term tb_rdfs $"see_also") (ORes v)
  | LpIsDefinedBy v => MkStmt (SRes u) (term tb_rdfs $"is_defined_by") (ORes v)
  end.
Definition to_label_statements (u : str) (l : list label_property) : list statement := map (label_statement u) l.
(** rdfs/mod.rs:505-534 [to_statements]. *)
Definition to_statements (c : class) : list statement :=
  map (fun t => MkStmt (SRes (c_uri c)) (term tb_rdf $"a_type") (ORes t)) (c_types c) ++
  map (fun t => MkStmt (SRes (c_uri c)) (term tb_rdf $"a_type") (ORes t)) (c_parents c).
(** rdfs/mod.rs:369-410 [ToStatements for Vocabulary]. *)
Definition v_to_statements (ord_c : list class -> list class) (ord_p : list property -> list property) (v : vocab)
  : list statement :=
  to_label_statements (v_uri v) (v_labels v) ++
  flat_map (fun c => to_label_statements (c_uri c) (c_labels c) ++ to_statements c) (v_class_list ord_c v) ++
  flat_map (fun p => to_label_statements (c_uri (p_class p)) (c_labels (p_class p)) ++ to_statements (p_class p) ++
      map (fun u => MkStmt (SRes (c_uri (p_class p))) (term tb_rdfs $"domain") (ORes u)) (p_domain p) ++
      map (fun u => MkStmt (SRes (c_uri (p_class p))) (term tb_rdfs $"range") (ORes u)) (p_range p))
    (v_property_list ord_p v).

(** The calls on a class, a property and a vocabulary. *)
Inductive class_op : Type :=
| CAddLabel (p : label_property) | CRemoveLabel (p : label_property)
| CAddType (i : str) | CRemoveType (i : str)
| CAddParent (i : str) | CRemoveParent (i : str).
Definition class_step (c : class) (o : class_op) : class :=
  match o with
  | CAddLabel p => c_add_label_property c p
  | CRemoveLabel p => c_remove_label_property c p
  | CAddType i => c_add_instance_of c i
  | CRemoveType i => c_remove_instance_of c i
  | CAddParent i => c_add_parent c i
  | CRemoveParent i => c_remove_parent c i
  end.
Inductive property_op : Type :=
| PClass (o : class_op)
| PAddDomain (i : str) | PRemoveDomain (i : str)
| PAddRange (i : str) | PRemoveRange (i : str).
Definition property_step (p : property) (o : property_op) : property :=
  match o with
  | PClass o => p_on_class (fun c => class_step c o) p
  | PAddDomain i => p_add_domain p i
  | PRemoveDomain i => p_remove_domain p i
  | PAddRange i => p_add_range p i
  | PRemoveRange i => p_remove_range p i
  end.
Inductive vocab_op : Type :=
| VAddLabel (p : label_property) | VRemoveLabel (p : label_property)
| VAddClass (c : class) | VRemoveClass (c : class)
| VAddProperty (p : property) | VRemoveProperty (p : property).
Definition vocab_step (v : vocab) (o : vocab_op) : vocab :=
  match o with
  | VAddLabel p => v_add_label_property v p
  | VRemoveLabel p => v_remove_label_property v p
  | VAddClass c => v_add_class v c
  | VRemoveClass c => v_remove_class v c
  | VAddProperty p => v_add_property v p
  | VRemoveProperty p => v_remove_property v p
  end.
Definition class_run (c : class) (h : list class_op) : class := fold_left class_step h c.
Definition property_run (p : property) (h : list property_op) : property := fold_left property_step h p.
Definition vocab_run (u : str) (h : list vocab_op) : vocab := fold_left vocab_step h (vocab_new u).

(** rdfs/mod.rs:57-199 [rdf_schema]. *)
Definition rdf_schema : vocab :=
  let rdfs fn := term tb_rdfs fn in
  let rdf fn := term tb_rdf fn in
  let property u d r := VAddProperty (property_new_with u d r) in
  fold_left vocab_step
  [VAddLabel (LpIsDefinedBy $"https://www.w3.org/TR/rdf-schema");
   VAddClass (class_new (rdfs $"resource"));
   VAddClass (class_new (rdfs $"class"));
   VAddClass (class_new_subclass (rdfs $"literal") (rdfs $"resource"));
   VAddClass (class_new_subclass (rdfs $"data_type") (rdfs $"class"));
   VAddClass (class_new_instance_and_subclass (rdfs $"lang_string") (rdfs $"data_type") (rdfs $"literal"));
   VAddClass (class_new_instance_and_subclass (rdfs $"html_literal") (rdfs $"data_type") (rdfs $"literal"));
   VAddClass (class_new_instance_and_subclass (rdfs $"xml_literal") (rdfs $"data_type") (rdfs $"literal"));
   VAddClass (class_new_subclass (rdfs $"property") (rdfs $"class"));
   property (rdfs $"range") (rdfs $"property") (rdfs $"class");
   property (rdfs $"domain") (rdfs $"property") (rdfs $"class");
   property (rdf $"a_type") (rdfs $"resource") (rdfs $"class");
   property (rdfs $"subclass_of") (rdfs $"class") (rdfs $"class");
   property (rdfs $"subproperty_of") (rdfs $"property") (rdfs $"property");
   property (rdfs $"label") (rdfs $"resource") (rdfs $"literal");
   property (rdfs $"comment") (rdfs $"resource") (rdfs $"literal");
   VAddClass (class_new (rdfs $"container"));
   VAddClass (class_new_subclass (rdf $"bag") (rdfs $"container"));
   VAddClass (class_new_subclass (rdf $"seq") (rdfs $"container"));
   VAddClass (class_new_subclass (rdf $"alt") (rdfs $"container"));
   VAddClass (class_new (rdf $"list"));
   property (rdf $"first") (rdf $"list") (rdfs $"resource");
   property (rdf $"rest") (rdf $"list") (rdf $"list");
   VAddClass (class_new_instance (rdf $"nil") (rdf $"list"));
   VAddClass (class_new_subclass (rdfs $"container_membership_property") (rdfs $"property"));
   VAddClass (class_new (rdf $"statement"));
   property (rdf $"subject") (rdf $"statement") (rdfs $"resource");
   property (rdf $"predicate") (rdf $"statement") (rdfs $"resource");
   property (rdf $"object") (rdf $"statement") (rdfs $"resource");
   property (rdfs $"see_also") (rdfs $"resource") (rdfs $"resource");
   property (rdfs $"is_defined_by") (rdfs $"resource") (rdfs $"resource");
   property (rdf $"value") (rdfs $"resource") (rdfs $"resource");
   property (rdfs $"member") (rdfs $"resource") (rdfs $"resource")]
  (vocab_new (tb_ns tb_rdfs)).
