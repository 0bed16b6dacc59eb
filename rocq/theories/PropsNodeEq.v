(** Property theorems C93 (comparing a node with a bare term).  Statements only; proofs in
    NodeEqProofs.v. *)
From Verif Require Import Str StrFacts Literal Term TermProofs NodeEq NodeEqProofs.

(** C93: a node equals a bare blank node, IRI, literal, collection or statement exactly when
    it is what the term converts into. *)
Theorem C93_object_equals_what_it_is : forall o t, o_eq o t = true <-> o = o_from t.
Proof. exact o_eq_from. Qed.
Print Assumptions C93_object_equals_what_it_is.

(** C93: a node equals exactly one bare term, so no node equals both, say, an IRI and a blank
    node of the same text. *)
Theorem C93_one_term : forall o, exists! t, o_eq o t = true.
Proof. exact o_eq_one. Qed.
Print Assumptions C93_one_term.

(** C93: the comparison agrees with the accessors. *)
Theorem C93_accessors : forall o,
  (forall b, o_eq o (TBlank b) = true <-> o_as_blank o = Some b) /\
  (forall st, o_eq o (TStmt st) = true <-> o_as_statement o = Some st) /\
  (forall l, o_eq o (TColl l) = true <-> o_as_collection o = Some l) /\
  (forall i, o_eq o (TIri i) = true <-> o = ORes i) /\
  (forall l, o_eq o (TLit l) = true <-> o = OLit l).
Proof. exact o_eq_kinds. Qed.
Print Assumptions C93_accessors.

(** C93: for subjects the comparison exists for the terms that can be subjects; there it
    holds exactly when the subject is what the term converts into, and it agrees with the
    comparison of the subject as an object. *)
Theorem C93_subjects :
  (forall t, (forall s, s_eq s t = None) <-> to_subject (o_from t) = None) /\
  (forall s t, s_eq s t = Some true <-> s_from t = Some s) /\
  (forall s t b, s_eq s t = Some b -> o_eq (to_object s) t = b) /\
  (forall t, s_from t = to_subject (o_from t)).
Proof. exact (conj s_eq_defined (conj s_eq_from (conj s_eq_to_object s_from_to_subject))). Qed.
Print Assumptions C93_subjects.

(** C93: a collection made from a bare term that is not a collection has one item, which
    equals the term. *)
Theorem C93_collection_of_one : forall t,
  (forall l, t <> TColl l) -> exists o, coll_from t = [o] /\ o_eq o t = true.
Proof. exact coll_from_items. Qed.
Print Assumptions C93_collection_of_one.

Definition eq_st : statement := MkStmt (SRes $"http://e/s") $"http://e/p" (OBlank $"b").

Example C93_example :
  o_eq (OBlank $"a") (TBlank $"a") = true /\ o_eq (OBlank $"a") (TIri $"a") = false /\
  o_eq (OColl [OStmt eq_st]) (TColl [OStmt eq_st]) = true /\
  o_eq (OStmt eq_st) (TColl [OStmt eq_st]) = false /\
  s_eq (SStmt eq_st) (TStmt eq_st) = Some true /\ s_eq (SBlank $"a") (TLit (Lit $"a" None None)) = None /\
  coll_from (TIri $"http://e/s") = [ORes $"http://e/s"] /\ (forall l, TIri $"http://e/s" <> TColl l).
Proof. vm_compute. repeat split. discriminate. Qed.
