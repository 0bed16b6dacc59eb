(** What the data model for RDF Schema vocabularies should do, without reference to its
    functions. *)
From Verif Require Export Ontology.
From Coq Require Import Permutation.

(** A list with an add and a remove operation holds what was added last and not removed
    since. *)
Inductive change (A : Type) : Type := Adds (x : A) | Removes (x : A) | Leaves.
Arguments Adds {A}. Arguments Removes {A}. Arguments Leaves {A}.
Fixpoint holds_after {A} (start : A -> Prop) (h : list (change A)) (x : A) : Prop :=
  match h with
  | [] => start x
  | o :: r => holds_after (fun y => match o with
                                    | Adds z => y = z \/ start y
                                    | Removes z => y <> z /\ start y
                                    | Leaves => start y
                                    end) r x
  end.
Definition type_change (o : class_op) : change str :=
  match o with CAddType i => Adds i | CRemoveType i => Removes i | _ => Leaves end.
Definition parent_change (o : class_op) : change str :=
  match o with CAddParent i => Adds i | CRemoveParent i => Removes i | _ => Leaves end.
Definition label_change (o : class_op) : change label_property :=
  match o with CAddLabel i => Adds i | CRemoveLabel i => Removes i | _ => Leaves end.
Definition domain_change (o : property_op) : change str :=
  match o with PAddDomain i => Adds i | PRemoveDomain i => Removes i | _ => Leaves end.
Definition range_change (o : property_op) : change str :=
  match o with PAddRange i => Adds i | PRemoveRange i => Removes i | _ => Leaves end.

Definition vocab_label_change (o : vocab_op) : change label_property :=
  match o with VAddLabel p => Adds p | VRemoveLabel p => Removes p | _ => Leaves end.

(** The class (property) a vocabulary has for an IRI: the one added last for it, unless removed
    since. *)
Fixpoint class_after (now : option class) (h : list vocab_op) (u : str) : option class :=
  match h with
  | [] => now
  | VAddClass c :: r => class_after (if str_eqb (c_uri c) u then Some c else now) r u
  | VRemoveClass c :: r => class_after (if str_eqb (c_uri c) u then None else now) r u
  | _ :: r => class_after now r u
  end.
Fixpoint property_after (now : option property) (h : list vocab_op) (u : str) : option property :=
  match h with
  | [] => now
  | VAddProperty p :: r => property_after (if str_eqb (c_uri (p_class p)) u then Some p else now) r u
  | VRemoveProperty p :: r => property_after (if str_eqb (c_uri (p_class p)) u then None else now) r u
  | _ :: r => property_after now r u
  end.

(** Any order. *)
Definition reorders {A} (ord : list A -> list A) : Prop := forall l, Permutation (ord l) l.

(** What a vocabulary says, given the predicates for superclass and superproperty: labels,
    types, parents, domains and ranges.  The vocabulary of RDF Schema. *)
Definition rdfs (s : str) : str := $"http://www.w3.org/2000/01/rdf-schema#" ++ s.
Inductive labelled (u : str) : list label_property -> statement -> Prop :=
| said_label ls v : In (LpLabel v) ls -> labelled u ls (MkStmt (SRes u) (rdfs $"label") (OLit v))
| said_comment ls v : In (LpComment v) ls -> labelled u ls (MkStmt (SRes u) (rdfs $"comment") (OLit v))
| said_see_also ls i : In (LpSeeAlso i) ls -> labelled u ls (MkStmt (SRes u) (rdfs $"seeAlso") (ORes i))
| said_is_defined_by ls i : In (LpIsDefinedBy i) ls -> labelled u ls (MkStmt (SRes u) (rdfs $"isDefinedBy") (ORes i)).
Inductive class_says (parent : str) (c : class) : statement -> Prop :=
| says_labelled st : labelled (c_uri c) (c_labels c) st -> class_says parent c st
| says_type t : In t (c_types c) -> class_says parent c (MkStmt (SRes (c_uri c)) (rdf $"type") (ORes t))
| says_parent t : In t (c_parents c) -> class_says parent c (MkStmt (SRes (c_uri c)) parent (ORes t)).
Inductive vocab_says (superclass superproperty : str) (v : vocab) : statement -> Prop :=
| says_about st : labelled (v_uri v) (v_labels v) st -> vocab_says superclass superproperty v st
| says_class u c st : assoc u (v_classes v) = Some c -> class_says superclass c st -> vocab_says superclass superproperty v st
| says_property u p st : assoc u (v_properties v) = Some p -> class_says superproperty (p_class p) st ->
    vocab_says superclass superproperty v st
| says_domain u p d : assoc u (v_properties v) = Some p -> In d (p_domain p) ->
    vocab_says superclass superproperty v (MkStmt (SRes (c_uri (p_class p))) (rdfs $"domain") (ORes d))
| says_range u p d : assoc u (v_properties v) = Some p -> In d (p_range p) ->
    vocab_says superclass superproperty v (MkStmt (SRes (c_uri (p_class p))) (rdfs $"range") (ORes d)).
Definition sub_class_of : str := rdfs $"subClassOf".
Definition sub_property_of : str := rdfs $"subPropertyOf".

Definition no_parents (v : vocab) : Prop :=
  (forall u c, assoc u (v_classes v) = Some c -> c_parents c = []) /\
  (forall u p, assoc u (v_properties v) = Some p -> c_parents (p_class p) = []).

(** RDF Schema 1.1 (W3C Recommendation 25 February 2014), chapters 2, 3 and 5: for each class
    its class and superclass, for each property its domain and range; section 5.4.2. *)
Definition triple (s p o : str) : statement := MkStmt (SRes s) p (ORes o).
Definition rdf_schema_classes : list statement :=
  [triple (rdfs $"Resource") (rdf $"type") (rdfs $"Class");
   triple (rdfs $"Class") (rdf $"type") (rdfs $"Class");
   triple (rdfs $"Literal") (rdf $"type") (rdfs $"Class");
   triple (rdfs $"Literal") sub_class_of (rdfs $"Resource");
   triple (rdfs $"Datatype") (rdf $"type") (rdfs $"Class");
   triple (rdfs $"Datatype") sub_class_of (rdfs $"Class");
   triple (rdf $"langString") (rdf $"type") (rdfs $"Datatype");
   triple (rdf $"langString") sub_class_of (rdfs $"Literal");
   triple (rdf $"HTML") (rdf $"type") (rdfs $"Datatype");
   triple (rdf $"HTML") sub_class_of (rdfs $"Literal");
   triple (rdf $"XMLLiteral") (rdf $"type") (rdfs $"Datatype");
   triple (rdf $"XMLLiteral") sub_class_of (rdfs $"Literal");
   triple (rdf $"Property") (rdf $"type") (rdfs $"Class");
   triple (rdfs $"Container") (rdf $"type") (rdfs $"Class");
   triple (rdf $"Bag") (rdf $"type") (rdfs $"Class");
   triple (rdf $"Bag") sub_class_of (rdfs $"Container");
   triple (rdf $"Seq") (rdf $"type") (rdfs $"Class");
   triple (rdf $"Seq") sub_class_of (rdfs $"Container");
   triple (rdf $"Alt") (rdf $"type") (rdfs $"Class");
   triple (rdf $"Alt") sub_class_of (rdfs $"Container");
   triple (rdfs $"ContainerMembershipProperty") (rdf $"type") (rdfs $"Class");
   triple (rdfs $"ContainerMembershipProperty") sub_class_of (rdf $"Property");
   triple (rdf $"List") (rdf $"type") (rdfs $"Class");
   triple (rdf $"nil") (rdf $"type") (rdf $"List");
   triple (rdf $"Statement") (rdf $"type") (rdfs $"Class")].
(** Property, domain, range. *)
Definition rdf_schema_properties : list (str * str * str) :=
  [(rdfs $"range", rdf $"Property", rdfs $"Class");
   (rdfs $"domain", rdf $"Property", rdfs $"Class");
   (rdf $"type", rdfs $"Resource", rdfs $"Class");
   (rdfs $"subClassOf", rdfs $"Class", rdfs $"Class");
   (rdfs $"subPropertyOf", rdf $"Property", rdf $"Property");
   (rdfs $"label", rdfs $"Resource", rdfs $"Literal");
   (rdfs $"comment", rdfs $"Resource", rdfs $"Literal");
   (rdfs $"member", rdfs $"Resource", rdfs $"Resource");
   (rdf $"first", rdf $"List", rdfs $"Resource");
   (rdf $"rest", rdf $"List", rdf $"List");
   (rdf $"subject", rdf $"Statement", rdfs $"Resource");
   (rdf $"predicate", rdf $"Statement", rdfs $"Resource");
   (rdf $"object", rdf $"Statement", rdfs $"Resource");
   (rdfs $"seeAlso", rdfs $"Resource", rdfs $"Resource");
   (rdfs $"isDefinedBy", rdfs $"Resource", rdfs $"Resource");
   (rdf $"value", rdfs $"Resource", rdfs $"Resource")].
Definition rdf_schema_triples : list statement :=
  rdf_schema_classes ++
  flat_map (fun '(p, d, r) => [triple p (rdf $"type") (rdf $"Property"); triple p (rdfs $"domain") d; triple p (rdfs $"range") r])
    rdf_schema_properties.

(** The four names the module rdfs has in the wrong namespace. *)
Definition misplaced : list str := [$"Property"; $"langString"; $"HTML"; $"XMLLiteral"].
Definition mentions (l : list str) (st : statement) : Prop :=
  exists i, In i l /\ (st_subject st = SRes i \/ st_predicate st = i \/ st_object st = ORes i).
(** Each of them moved to the namespace of RDF. *)
Definition moved (i : str) : str :=
  match find (fun n => str_eqb i (rdfs n)) misplaced with Some n => rdf n | None => i end.
Definition moved_st (st : statement) : statement :=
  match st with
  | MkStmt (SRes s) p (ORes o) => MkStmt (SRes (moved s)) (moved p) (ORes (moved o))
  | _ => st
  end.
