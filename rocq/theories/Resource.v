(** Model of rdftk_core/src/model/resource.rs.  No proofs here. *)
From Verif Require Export Term.

(** resource.rs:117-123 [ContainerKind]. *)
Inductive container_kind : Type := KAlt | KBag | KSeq | KOther (iri : str).

(** resource.rs:90-94 [Resource], 109-115 [ResourceObject], 125-129 [Container].  The
    [HashMap] is a list of entries with distinct keys; the order in which it is iterated
    is unspecified and handled by [reordered] in ResourceSpec.v. *)
Inductive resource : Type :=
| MkResource (r_subject : subject) (r_preds : list (str * list robject))
with robject : Type :=
| RRes (r : resource)
| RResources (k : container_kind) (rs : list resource)
| RLit (l : literal)
| RLits (k : container_kind) (ls : list literal).

Definition r_subject (r : resource) : subject := let 'MkResource s _ := r in s.
Definition r_preds (r : resource) : list (str * list robject) := let 'MkResource _ m := r in m.

(** resource.rs:99-103 [Predicate]. *)
Record predicate_b : Type := MkPredicate { pb_name : str; pb_objects : list robject }.

(** resource.rs:148-174 [new], [semi_anonymous], [individual]; [anonymous] is
    [semi_anonymous] of a generated label. *)
Definition r_new (s : subject) : resource := MkResource s [].
Definition r_anonymous (n : N) : resource * N := (r_new (SBlank (gen_label n)), n + 1).
Definition r_semi_anonymous (b : str) : resource := r_new (SBlank b).
Definition r_individual (iri : str) : resource := r_new (SRes iri).

(** resource.rs:182-193 [is_a_resource], [is_an_individual]. *)
Definition r_is_a_resource (r : resource) : bool := match r_subject r with SRes _ => true | _ => false end.
Definition r_is_an_individual (r : resource) : bool := existsb (fun e => str_eqb (fst e) (rdf $"type")) (r_preds r).

(** resource.rs:444-454 [insert] (private). *)
Fixpoint entry_push (m : list (str * list robject)) (p : str) (o : robject) : list (str * list robject) :=
  match m with
  | [] => [(p, [o])]
  | (q, os) :: r => if str_eqb q p then (q, os ++ [o]) :: r else (q, os) :: entry_push r p o
  end.
Definition r_insert (r : resource) (p : str) (o : robject) : resource :=
  MkResource (r_subject r) (entry_push (r_preds r) p o).

(** resource.rs:200-205 [predicate]. *)
Definition r_predicate (r : resource) (pb : predicate_b) : resource :=
  fold_left (fun r o => r_insert r (pb_name pb) o) (pb_objects pb) r.

(** The calls a user can make on a [Predicate]; resource.rs:477-620. *)
Inductive p_call : Type :=
| PProperty (l : literal)
| PPropertyAlternatives (vs : list literal)
| PPropertyBag (vs : list literal)
| PPropertySequence (vs : list literal)
| PPropertyContainer (vs : list literal) (kind : str)
| PResourceBlankNamed (b : str)
| PResourceNamed (iri : str)
| PResource (r : resource)
| PResourceAlternatives (rs : list resource)
| PResourceBag (rs : list resource)
| PResourceSequence (rs : list resource)
| PResourceContainer (rs : list resource) (kind : str).

Definition pb_new (name : str) : predicate_b := MkPredicate name [].
Definition pb_push (pb : predicate_b) (o : robject) : predicate_b := MkPredicate (pb_name pb) (pb_objects pb ++ [o]).
Definition pb_apply (pb : predicate_b) (c : p_call) : predicate_b :=
  match c with
  | PProperty l => pb_push pb (RLit l)
  | PPropertyAlternatives vs => pb_push pb (RLits KAlt vs)
  | PPropertyBag vs => pb_push pb (RLits KBag vs)
  | PPropertySequence vs => pb_push pb (RLits KSeq vs)
  | PPropertyContainer vs kind => pb_push pb (RLits (KOther kind) vs)
  | PResourceBlankNamed b => pb_push pb (RRes (r_semi_anonymous b))
  | PResourceNamed iri => pb_push pb (RRes (r_individual iri))
  | PResource r => pb_push pb (RRes r)
  | PResourceAlternatives rs => pb_push pb (RResources KAlt rs)
  | PResourceBag rs => pb_push pb (RResources KBag rs)
  | PResourceSequence rs => pb_push pb (RResources KSeq rs)
  | PResourceContainer rs kind => pb_push pb (RResources (KOther kind) rs)
  end.
Definition pb_run (name : str) (cs : list p_call) : predicate_b := fold_left pb_apply cs (pb_new name).

Section Literals.
Variables gext printable : chr -> bool.

(** The calls a user can make on a [Resource]; resource.rs:200-440. *)
Inductive r_call : Type :=
| CLiteral (p : str) (l : literal)                  (** [property], [value_of], [literal] *)
| CLiteralStr (p v : str)                           (** [literal_str] *)
| CLiteralTypedStr (p v : str) (d : data_type)      (** [literal_typed_str] *)
| CLiteralLanguageStr (p v lang : str)              (** [literal_language_str] *)
| CPropertyAlternatives (p : str) (vs : list literal)
| CPropertyBag (p : str) (vs : list literal)
| CPropertySequence (p : str) (vs : list literal)
| CPropertyContainer (p : str) (vs : list literal) (kind : str)
| CResourceBlankNamed (p b : str)
| CResourceNamed (p iri : str)
| CResource (p : str) (r : resource)
| CResourceAlternatives (p : str) (rs : list resource)
| CResourceBag (p : str) (rs : list resource)
| CResourceSequence (p : str) (rs : list resource)
| CResourceContainer (p : str) (rs : list resource) (kind : str)
| CInstanceOf (iri : str)
| CPredicate (name : str) (cs : list p_call).

Definition r_apply (r : resource) (c : r_call) : resource :=
  match c with
  | CLiteral p l => r_insert r p (RLit l)
  | CLiteralStr p v => r_insert r p (RLit (lit_plain gext printable v))
  | CLiteralTypedStr p v d => r_insert r p (RLit (lit_with_data_type gext printable v d))
  | CLiteralLanguageStr p v lang => r_insert r p (RLit (lit_with_language gext printable v lang))
  | CPropertyAlternatives p vs => r_insert r p (RLits KAlt vs)
  | CPropertyBag p vs => r_insert r p (RLits KBag vs)
  | CPropertySequence p vs => r_insert r p (RLits KSeq vs)
  | CPropertyContainer p vs kind => r_insert r p (RLits (KOther kind) vs)
  | CResourceBlankNamed p b => r_insert r p (RRes (r_semi_anonymous b))
  | CResourceNamed p iri => r_insert r p (RRes (r_individual iri))
  | CResource p r' => r_insert r p (RRes r')
  | CResourceAlternatives p rs => r_insert r p (RResources KAlt rs)
  | CResourceBag p rs => r_insert r p (RResources KBag rs)
  | CResourceSequence p rs => r_insert r p (RResources KSeq rs)
  | CResourceContainer p rs kind => r_insert r p (RResources (KOther kind) rs)
  | CInstanceOf iri => r_insert r (rdf $"type") (RRes (r_individual iri))
  | CPredicate name cs => r_predicate r (pb_run name cs)
  end.
Definition r_run (r : resource) (cs : list r_call) : resource := fold_left r_apply cs r.
End Literals.

(** rdftk_names/src/rdf.rs:40-42 [member]. *)
Definition rdf_member (index : N) : str := rdf ($"_" ++ dec_N index).

(** resource.rs:652-657. *)
Definition kind_iri (k : container_kind) : str :=
  match k with KAlt => rdf $"Alt" | KBag => rdf $"Bag" | KSeq => rdf $"Seq" | KOther iri => iri end.

(** The vector filled so far and the counter of the label generator. *)
Definition fstate : Type := list statement * N.
Definition push (st : fstate) (x : statement) : fstate := (fst st ++ [x], snd st).

(** resource.rs:671-679, the loop over literal members from [index]. *)
Fixpoint push_literals (container : subject) (index : N) (ls : list literal) (st : fstate) : fstate :=
  match ls with
  | [] => st
  | l :: r => push_literals container (index + 1) r (push st (MkStmt container (rdf_member index) (OLit l)))
  end.

(** resource.rs:627-699 [flatten].  Line 689: the object of the statement for a nested
    resource is [subject.to_object()], where [subject] is the outer one. *)
Fixpoint flatten (r : resource) (st : fstate) {struct r} : fstate :=
  let 'MkResource s preds := r in
  fold_left (fun st e =>
    let '(p, objects) := e in
    fold_left (fun st o => flatten_object s p o st) objects st) preds st
with flatten_object (s : subject) (p : str) (o : robject) (st : fstate) {struct o} : fstate :=
  match o with
  | RResources k rs =>
      let container := SBlank (gen_label (snd st)) in
      let st := (fst st, snd st + 1) in
      let st := push st (MkStmt s p (to_object container)) in
      let st := push st (MkStmt container (rdf $"type") (ORes (kind_iri k))) in
      snd (fold_left (fun (ist : N * fstate) r =>
             let '(index, st) := ist in
             (index + 1, push (flatten r st) (MkStmt container (rdf_member index) (to_object (r_subject r)))))
           rs (0, st))
  | RLits k ls =>
      let container := SBlank (gen_label (snd st)) in
      let st := (fst st, snd st + 1) in
      let st := push st (MkStmt s p (to_object container)) in
      let st := push st (MkStmt container (rdf $"type") (ORes (kind_iri k))) in
      push_literals container 0 ls st
  | RRes r => push (flatten r st) (MkStmt s p (to_object s))
  | RLit l => push st (MkStmt s p (OLit l))
  end.

(** resource.rs:135-141 [From<Resource> for Vec<Statement>]. *)
Definition r_statements (r : resource) (n : N) : list statement * N := flatten r ([], n).
