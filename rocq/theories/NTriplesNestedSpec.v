(** Graphs with quoted statements and collections in N-Triples.  No proofs here. *)
From Verif Require Export NTriplesWriteSpec GraphSpec.

(** The terms of a statement, at any depth of quotation, and the items of its collection. *)
Fixpoint all_terms (Ps : subject -> Prop) (Pp : str -> Prop) (Po : object -> Prop) (st : statement) : Prop :=
  let 'MkStmt s p o := st in
  match s with SStmt t => all_terms Ps Pp Po t | _ => Ps s end /\ Pp p /\
  match o with OStmt t => all_terms Ps Pp Po t | OColl items => Forall Po items | _ => Po o end.

(** The words a reader of simplified graphs has to know. *)
Definition reading_terms : list str :=
  [$"type"; $"Statement"; $"subject"; $"predicate"; $"object"; $"List"; $"first"; $"rest"; $"nil"].

(** A fact of a graph in which quoted statements and collections are described by
    statements of their own (see [restores] in GraphSpec.v). *)
Definition fact_of (G : list statement) (st : statement) : Prop :=
  exists x, In x G /\ is_description G x = false /\ restores G x st.

(** Statements whose terms can be written and come back unchanged. *)
Definition nested_writable iri_parse lang_parse label_ok gext printable (force : bool) (st : statement) : Prop :=
  all_terms (subject_writable iri_parse label_ok) (iri_writable iri_parse)
    (fun o => object_writable iri_parse lang_parse label_ok force o /\
       match o with OLit l => stable_literal gext printable l | _ => True end) st.

(** A data set of named graphs that can be written in this way, [n] being the next label. *)
Definition ds_nested_writable iri_parse lang_parse label_ok gext printable (n : N) (d : data_set) : Prop :=
  NoDup (map fst d) /\
  (forall k g, ds_graph d k = Some g -> g_name g = k /\
     Forall simplifiable (g_list g) /\ Forall (unencoded n) (g_list g) /\
     Forall (nested_writable iri_parse lang_parse label_ok gext printable false) (g_list g) /\
     match k with Some m => name_writable iri_parse label_ok m | None => True end).
