(** Model of the comparisons of a node with a bare term
    (rdftk_core/src/model/statement/subject.rs:105-142, object.rs:141-196) and of the
    conversions of a bare term into a node or a collection (subject.rs:25-90,
    object.rs:29-118, collection.rs:49-115).  No proofs here.

    The conversions from a reference clone their argument, and [Arc<Statement>] is the
    statement it points to, so each pair of implementations is one definition. *)
From Verif Require Export Term.

(** What can be compared with, and converted into, a node: [BlankNode], [Iri], [Literal],
    [Collection], [Statement] or [Arc<Statement>]. *)
Inductive term : Type :=
| TBlank (b : str)
| TIri (i : str)
| TLit (l : literal)
| TColl (l : list object)
| TStmt (st : statement).

(** [PartialEq for Collection] (collection.rs:30), derived: the vectors compare item by
    item. *)
Fixpoint coll_eqb (x y : list object) : bool :=
  match x, y with
  | [], [] => true
  | u :: x', v :: y' => obj_eqb u v && coll_eqb x' y'
  | _, _ => false
  end.

(** object.rs:141-148 [PartialEq<BlankNode>], 150-157 [PartialEq<Iri>], 159-166
    [PartialEq<Literal>], 168-175 [PartialEq<Collection>], 177-186 [PartialEq<Statement>],
    188-195 [PartialEq<Arc<Statement>>] for [ObjectNode]. *)
Definition o_eq_blank (o : object) (b : str) : bool := match o with OBlank v => str_eqb v b | _ => false end.
Definition o_eq_iri (o : object) (i : str) : bool := match o with ORes v => str_eqb v i | _ => false end.
Definition o_eq_literal (o : object) (l : literal) : bool := match o with OLit v => lit_eqb v l | _ => false end.
Definition o_eq_collection (o : object) (l : list object) : bool :=
  match o with OColl v => coll_eqb v l | _ => false end.
Definition o_eq_statement (o : object) (st : statement) : bool :=
  match o with OStmt v => st_eqb v st | _ => false end.

(** subject.rs:105-112 [PartialEq<BlankNode>], 114-121 [PartialEq<Iri>], 123-132
    [PartialEq<Statement>], 134-141 [PartialEq<Arc<Statement>>] for [SubjectNode]. *)
Definition s_eq_blank (s : subject) (b : str) : bool := match s with SBlank v => str_eqb v b | _ => false end.
Definition s_eq_iri (s : subject) (i : str) : bool := match s with SRes v => str_eqb v i | _ => false end.
Definition s_eq_statement (s : subject) (st : statement) : bool :=
  match s with SStmt v => st_eqb v st | _ => false end.

(** [node == term] and [ObjectNode::from(term)] (object.rs:35-118), by the type of the
    term. *)
Definition o_eq (o : object) (t : term) : bool :=
  match t with
  | TBlank b => o_eq_blank o b
  | TIri i => o_eq_iri o i
  | TLit l => o_eq_literal o l
  | TColl l => o_eq_collection o l
  | TStmt st => o_eq_statement o st
  end.
Definition o_from (t : term) : object :=
  match t with
  | TBlank b => OBlank b
  | TIri i => ORes i
  | TLit l => OLit l
  | TColl l => OColl l
  | TStmt st => OStmt st
  end.

(** The same for [SubjectNode] (subject.rs:31-90); there is no implementation for a literal
    or a collection. *)
Definition s_eq (s : subject) (t : term) : option bool :=
  match t with
  | TBlank b => Some (s_eq_blank s b)
  | TIri i => Some (s_eq_iri s i)
  | TStmt st => Some (s_eq_statement s st)
  | TLit _ | TColl _ => None
  end.
Definition s_from (t : term) : option subject :=
  match t with
  | TBlank b => Some (SBlank b)
  | TIri i => Some (SRes i)
  | TStmt st => Some (SStmt st)
  | TLit _ | TColl _ => None
  end.

(** collection.rs:55-115 [Collection::from(term)]: one item; from a collection, itself. *)
Definition coll_from (t : term) : list object :=
  match t with
  | TBlank b => [OBlank b]
  | TIri i => [ORes i]
  | TLit l => [OLit l]
  | TColl l => l
  | TStmt st => [OStmt st]
  end.
