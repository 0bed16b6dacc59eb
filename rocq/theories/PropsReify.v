(** Property theorems C29 and C30 (reification).  Statements only; proofs in
    ReifyProofs.v.  The counter [n] of the label generator is part of the state;
    [describes] and [rdf_list] (ReifySpec.v) say how the output is to be read. *)
From Verif Require Import Str Literal Term ReifySpec ReifyProofs.

(** C29: provided the labels quoted in the statement are none that are yet to be generated,
    the output describes the statement and no other, is free of nested statements, each of
    its nodes has exactly one type, subject, predicate and object (that is part of
    [describes]), and none of its nodes occurs in the statement. *)
Theorem C29_statement_reify : forall st n,
  (forall b, In b (quoted_blanks st) -> not_generated_from n b) ->
  let '((node, sts), n') := reify n st in
  exists b, node = SBlank b /\ describes sts b st /\
  (forall st', describes sts b st' -> st' = st) /\
  (forall t, In t sts -> is_nested t = false) /\
  (forall t, In t sts -> exists c x, st_subject t = SBlank c /\ describes sts c x) /\
  (forall t, In t sts -> forall c, In c (quoted_blanks st) -> st_subject t <> SBlank c).
Proof. exact reify_alone. Qed.
Print Assumptions C29_statement_reify.

(** C29: what it is for a statement to be nested. *)
Theorem C29_nested : forall st,
  is_nested st = true <-> (exists t, st_subject st = SStmt t) \/ (exists t, st_object st = OStmt t).
Proof. exact nested_iff. Qed.
Print Assumptions C29_nested.

(** C29: the description stays readable inside any graph that does not speak about the
    generated nodes. *)
Theorem C29_statement_reify_in_graph : forall st n,
  let '((node, sts), n') := reify n st in
  node = SBlank (gen_label n) /\ n < n' /\
  (forall t, In t sts -> is_nested t = false /\ exists k, n <= k < n' /\ st_subject t = SBlank (gen_label k)) /\
  forall pre post,
  (forall t k, In t (pre ++ post) -> n <= k < n' -> st_subject t <> SBlank (gen_label k)) ->
  (forall b, In b (quoted_blanks st) -> ~ is_reification (pre ++ sts ++ post) b) ->
  describes (pre ++ sts ++ post) (gen_label n) st /\
  (forall st', describes (pre ++ sts ++ post) (gen_label n) st' -> st' = st) /\
  (forall t, In t sts -> exists b x, st_subject t = SBlank b /\ describes (pre ++ sts ++ post) b x).
Proof. exact reify_in_graph. Qed.
Print Assumptions C29_statement_reify_in_graph.

(** C29: without the proviso it fails: a label "B7" written by the user collides with the
    generated one, and the description reads differently. *)
Theorem C29_label_collision_refuted :
  exists st n, let '((node, sts), n') := reify n st in forall b, node = SBlank b -> ~ describes sts b st.
Proof. exists (MkStmt (SBlank $"B7") $"p" (ORes $"o")), 7. exact reify_collision. Qed.
Print Assumptions C29_label_collision_refuted.

Definition ex_inner : statement := MkStmt (SRes $"http://e/s") $"http://e/p" (OBlank $"x").
Definition ex_outer : statement := MkStmt (SStmt ex_inner) $"http://e/q" (OLit (Lit $"1" (Some DtInt) None)).

Example C29_example :
  (forall b, In b (quoted_blanks ex_outer) -> not_generated_from 1 b) /\
  reify 1 ex_outer = ((SBlank $"B1",
   [MkStmt (SBlank $"B1") (rdf $"type") (ORes (rdf $"Statement"));
    MkStmt (SBlank $"B2") (rdf $"type") (ORes (rdf $"Statement"));
    MkStmt (SBlank $"B2") (rdf $"subject") (ORes $"http://e/s");
    MkStmt (SBlank $"B2") (rdf $"predicate") (ORes $"http://e/p");
    MkStmt (SBlank $"B2") (rdf $"object") (OBlank $"x");
    MkStmt (SBlank $"B1") (rdf $"subject") (OBlank $"B2");
    MkStmt (SBlank $"B1") (rdf $"predicate") (ORes $"http://e/q");
    MkStmt (SBlank $"B1") (rdf $"object") (OLit (Lit $"1" (Some DtInt) None))]), 3).
Proof.
  split; [|vm_compute; reflexivity]. intros b [<-|[]] k _ H. discriminate H.
Qed.

(** C30: reading from the node gives exactly the items in order, in the output itself and in
    any graph that does not speak about the generated cells; the empty collection is
    rdf:nil; there are three statements per item. *)
Theorem C30_collection_reify : forall n items,
  let '((node, sts), n') := coll_reify n items in
  (items = [] <-> to_object node = ORes (rdf $"nil")) /\
  n' = n + N.of_nat (length items) /\ length sts = (3 * length items)%nat /\
  (forall t, In t sts -> exists k, n <= k < n' /\ st_subject t = SBlank (gen_label k)) /\
  forall pre post,
  (forall t k, In t (pre ++ post) -> n <= k < n' -> st_subject t <> SBlank (gen_label k)) ->
  rdf_list (pre ++ sts ++ post) (to_object node) items /\
  (forall l, rdf_list (pre ++ sts ++ post) (to_object node) l -> l = items).
Proof. exact coll_in_graph. Qed.
Print Assumptions C30_collection_reify.

Example C30_example :
  coll_reify 5 [OBlank $"x"; OBlank $"x"] = ((SBlank $"B5",
   [MkStmt (SBlank $"B5") (rdf $"type") (ORes (rdf $"List"));
    MkStmt (SBlank $"B5") (rdf $"first") (OBlank $"x");
    MkStmt (SBlank $"B5") (rdf $"rest") (OBlank $"B6");
    MkStmt (SBlank $"B6") (rdf $"type") (ORes (rdf $"List"));
    MkStmt (SBlank $"B6") (rdf $"first") (OBlank $"x");
    MkStmt (SBlank $"B6") (rdf $"rest") (ORes (rdf $"nil"))]), 7) /\
  coll_reify 5 [] = ((SRes (rdf $"nil"), []), 5).
Proof. vm_compute. repeat split. Qed.
