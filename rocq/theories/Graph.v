(** Model of rdftk_core/src/model/graph.rs and features.rs.  No proofs here.

    A [HashSet] is a list without repetitions.  The order in which a [HashSet] is
    iterated is unspecified: every operation whose effect could depend on it takes a
    function [ho] (hash order) that rearranges the elements; the theorems quantify over
    all rearrangements.  Queries that return a [HashSet] are modelled as lists without
    repetitions and only ever compared by membership. *)
From Verif Require Export Term.

(** ** [HashSet] *)
Section HashSet.
Context {A : Type} (eqb : A -> A -> bool).
Definition hs_mem (x : A) (l : list A) : bool := existsb (eqb x) l.
Definition hs_insert (l : list A) (x : A) : list A := if hs_mem x l then l else l ++ [x].
Definition hs_extend (l : list A) (xs : list A) : list A := fold_left hs_insert xs l.
Definition hs_from_iter (xs : list A) : list A := hs_extend [] xs.
Definition hs_remove (x : A) (l : list A) : list A := filter (fun y => negb (eqb x y)) l.
End HashSet.

(** graph.rs:37-41 [GraphName]. *)
Inductive graph_name : Type := GnBlank (b : str) | GnIri (iri : str).

Definition gn_eqb (a b : graph_name) : bool :=
  match a, b with
  | GnBlank x, GnBlank y => str_eqb x y
  | GnIri x, GnIri y => str_eqb x y
  | _, _ => false
  end.

(** graph.rs:77-88 [Display for GraphName]. *)
Definition gn_show (m : iri_mode) (n : graph_name) : str :=
  match n with
  | GnBlank b => $"_:" ++ b
  | GnIri i => [60] ++ show_iri m i ++ [62]
  end.

(** graph.rs:126-134 [From<SubjectNode> for GraphName]: [unreachable!] on a statement. *)
Definition gn_from_subject (s : subject) : outcome graph_name :=
  match s with
  | SBlank b => Ret (GnBlank b)
  | SRes i => Ret (GnIri i)
  | SStmt _ => Panic
  end.

(** graph.rs:61-65 [enum Statements]. *)
Inductive statements : Type :=
| Unique (vs : list statement)
| NonUnique (vs : list statement).

(** graph.rs:50-55 [struct Graph].  The prefix mappings are the listing of an
    [IriPrefixMap] (see PrefixMap.v); graph operations only store them. *)
Record graph : Type := Graph {
  g_name : option graph_name;
  g_statements : statements;
  g_mappings : list (str * str)
}.

(** rdftk_iri/src/map.rs:63-80 [IriPrefixMap::default]. *)
Definition default_mappings : list (str * str) :=
  [($"owl:", $"http://www.w3.org/2002/07/owl#");
   ($"rdf:", $"http://www.w3.org/1999/02/22-rdf-syntax-ns#");
   ($"rdfs:", $"http://www.w3.org/2000/01/rdf-schema#");
   ($"xsd:", $"http://www.w3.org/2001/XMLSchema#")].

(** graph.rs:50 derived [Default], 695-699 [Default for Statements]. *)
Definition g_default : graph := Graph None (NonUnique []) default_mappings.

(** graph.rs:207-226 [From<Statement>], [From<Vec<Statement>>], [FromIterator]. *)
Definition g_from_iter (l : list statement) : graph := Graph None (NonUnique l) default_mappings.
(** graph.rs:233-258 [named], [unique], [unique_named]. *)
Definition g_named (n : graph_name) : graph := Graph (Some n) (NonUnique []) default_mappings.
Definition g_unique : graph := Graph None (Unique []) default_mappings.
Definition g_unique_named (n : graph_name) : graph := Graph (Some n) (Unique []) default_mappings.
(** graph.rs:260-263 [with_mappings], 487-489 [set_prefix_mappings]. *)
Definition g_with_mappings (g : graph) (m : list (str * str)) : graph :=
  Graph (g_name g) (g_statements g) m.
(** graph.rs:265-273 [with_statements]. *)
Definition g_with_statements (g : graph) (l : list statement) : graph :=
  Graph (g_name g)
    (match g_statements g with
     | Unique _ => Unique (hs_from_iter st_eqb l)
     | NonUnique _ => NonUnique l
     end) (g_mappings g).

(** graph.rs:753-755 [Statements::is_unique]. *)
Definition g_is_unique (g : graph) : bool :=
  match g_statements g with Unique _ => true | NonUnique _ => false end.

(** The elements, in the representation's order. *)
Definition g_list (g : graph) : list statement :=
  match g_statements g with Unique vs => vs | NonUnique vs => vs end.

(** graph.rs:757-762 [Statements::iter], 391-393 [statements]: the order of a
    [HashSet] is [ho]. *)
Definition g_iter (ho : list statement -> list statement) (g : graph) : list statement :=
  match g_statements g with Unique vs => ho vs | NonUnique vs => vs end.

(** graph.rs:282-291 [is_empty], [len]. *)
Definition g_is_empty (g : graph) : bool := match g_list g with [] => true | _ => false end.
Definition g_len (g : graph) : nat := length (g_list g).

(** graph.rs:300-323 [is_named], [set_name], [unset_name]. *)
Definition g_is_named (g : graph) : bool := match g_name g with Some _ => true | None => false end.
Definition g_set_name (g : graph) (n : graph_name) : graph :=
  Graph (Some n) (g_statements g) (g_mappings g).
Definition g_unset_name (g : graph) : graph := Graph None (g_statements g) (g_mappings g).

(** graph.rs:332-334 [contains_subject]. *)
Definition g_contains_subject (g : graph) (s : subject) : bool :=
  existsb (fun st => subj_eqb (st_subject st) s) (g_list g).

(** graph.rs:368-382 [matches]. *)
Definition g_matches (g : graph) (s : option subject) (p : option str) (o : option object)
  : list statement :=
  hs_from_iter st_eqb
    (filter (fun st =>
       match s with Some x => subj_eqb (st_subject st) x | None => false end
       && match p with Some x => str_eqb (st_predicate st) x | None => false end
       && match o with Some x => obj_eqb (st_object st) x | None => false end) (g_list g)).

Definition is_nil {A} (l : list A) : bool := match l with [] => true | _ => false end.

(** graph.rs:339-347 [contains]. *)
Definition g_contains (g : graph) (st : statement) : bool :=
  negb (is_nil (g_matches g (Some (st_subject st)) (Some (st_predicate st)) (Some (st_object st)))).
(** graph.rs:353-362 [contains_all]. *)
Definition g_contains_all (g : graph) (s : subject) (p : str) (o : object) : bool :=
  negb (is_nil (g_matches g (Some s) (Some p) (Some o))).

(** graph.rs:399-421 [subjects], [node_subjects], [blank_node_subjects]. *)
Definition g_subjects (g : graph) : list subject :=
  hs_from_iter subj_eqb (map st_subject (g_list g)).
Definition g_node_subjects (g : graph) : list subject :=
  hs_from_iter subj_eqb (filter (fun s => negb (s_is_blank s)) (g_subjects g)).
Definition g_blank_node_subjects (g : graph) : list subject :=
  hs_from_iter subj_eqb (filter s_is_blank (g_subjects g)).
(** graph.rs:427-446 [predicates], [predicates_for]. *)
Definition g_predicates (g : graph) : list str :=
  hs_from_iter str_eqb (map st_predicate (g_list g)).
Definition g_predicates_for (g : graph) (s : subject) : list str :=
  hs_from_iter str_eqb
    (map st_predicate (filter (fun st => subj_eqb (st_subject st) s) (g_list g))).
(** graph.rs:452-471 [objects], [objects_for]. *)
Definition g_objects (g : graph) : list object :=
  hs_from_iter obj_eqb (map st_object (g_list g)).
Definition g_objects_for (g : graph) (s : subject) (p : str) : list object :=
  hs_from_iter obj_eqb
    (map st_object
       (filter (fun st => subj_eqb (st_subject st) s && str_eqb (st_predicate st) p) (g_list g))).

Definition g_set_statements (g : graph) (sts : statements) : graph :=
  Graph (g_name g) sts (g_mappings g).

(** graph.rs:498-500, 716-724 [insert]. *)
Definition g_insert (g : graph) (st : statement) : graph :=
  g_set_statements g
    (match g_statements g with
     | Unique vs => Unique (hs_insert st_eqb vs st)
     | NonUnique vs => NonUnique (vs ++ [st])
     end).
(** graph.rs:502-507, 726-734 [extend]. *)
Definition g_extend (g : graph) (l : list statement) : graph :=
  g_set_statements g
    (match g_statements g with
     | Unique vs => Unique (hs_extend st_eqb vs l)
     | NonUnique vs => NonUnique (vs ++ l)
     end).
(** graph.rs:513-515 [merge]. *)
Definition g_merge (ho : list statement -> list statement) (g other : graph) : graph :=
  fold_left g_insert (g_iter ho other) g.

(** graph.rs:528-538, the fold of [dedup]. *)
Definition dedup_fold (l : list statement) : list statement * list statement :=
  fold_left (fun acc st =>
    let '(keep, discard) := acc in
    if hs_mem st_eqb st keep then (keep, discard ++ [st]) else (hs_insert st_eqb keep st, discard))
    l ([], []).
(** graph.rs:524-542 [dedup]; [Vec::from_iter(keep)] takes the set in hash order. *)
Definition g_dedup (ho : list statement -> list statement) (g : graph) : graph * list statement :=
  match g_statements g with
  | Unique _ => (g, [])
  | NonUnique vs =>
      let '(keep, discard) := dedup_fold vs in
      (g_set_statements g (NonUnique (ho keep)), discard)
  end.

(** graph.rs:548-550, 736-744 [remove]. *)
Definition g_remove (g : graph) (st : statement) : graph :=
  g_set_statements g
    (match g_statements g with
     | Unique vs => Unique (hs_remove st_eqb st vs)
     | NonUnique vs => NonUnique (filter (fun e => negb (st_eqb e st)) vs)
     end).

(** graph.rs:555-574 [remove_all_for]. *)
Definition g_remove_all_for (ho : list statement -> list statement) (g : graph) (s : subject)
  : graph * list statement :=
  let '(keep, discard) :=
    fold_left (fun acc st =>
      let '(keep, discard) := acc in
      if subj_eqb (st_subject st) s then (keep ++ [st], discard) else (keep, discard ++ [st]))
      (g_iter ho g) ([], []) in
  (g_set_statements g
     (if g_is_unique g then Unique (hs_from_iter st_eqb keep) else NonUnique keep), discard).

(** graph.rs:579-581, 746-751 [clear]. *)
Definition g_clear (g : graph) : graph :=
  g_set_statements g
    (match g_statements g with Unique _ => Unique [] | NonUnique _ => NonUnique [] end).

(** graph.rs:200-205 [supports_feature]; features.rs:68-80. *)
Definition feature_duplicates : str := $"http://rust-rdftk.dev/feature/graph/duplicates".
Definition feature_rdf_star : str := $"http://rust-rdftk.dev/feature/graph/rdf_star".
Definition feature_object_collections : str :=
  $"http://rust-rdftk.dev/feature/statements/object_collections".
Definition g_supports_feature (g : graph) (f : str) : bool :=
  (str_eqb f feature_duplicates && g_is_unique g) || str_eqb f feature_rdf_star.
(** statement.rs:97-101, statement/subject.rs:169-173, statement/object.rs:243-247. *)
Definition st_supports_feature (f : str) : bool :=
  str_eqb f feature_rdf_star || str_eqb f feature_object_collections.
Definition subj_supports_feature (f : str) : bool := str_eqb f feature_rdf_star.
Definition obj_supports_feature (f : str) : bool :=
  str_eqb f feature_rdf_star || str_eqb f feature_object_collections.

(** ** Skolemization *)

Section Skolem.
(** [base.genid()] (rdftk_iri/src/iri.rs, see Iri.v): the result of the k-th call;
    [None] is an [Err]. *)
Variable genid : nat -> option str.

Fixpoint assoc_get (b : str) (m : list (str * str)) : option str :=
  match m with
  | [] => None
  | (k, v) :: r => if str_eqb k b then Some v else assoc_get b r
  end.

(** graph.rs:623-630 / 631-638: look the label up, make a new IRI if it is not there.
    The number of calls made so far is the length of the mapping. *)
Definition skolem_label (m : list (str * str)) (b : str) : option (str * list (str * str)) :=
  match assoc_get b m with
  | Some i => Some (i, m)
  | None =>
      match genid (length m) with
      | Some i => Some (i, m ++ [(b, i)])
      | None => None
      end
  end.

Definition skolem_statement (m : list (str * str)) (st : statement)
  : option (statement * list (str * str)) :=
  let r1 :=
    match s_as_blank (st_subject st) with
    | Some b =>
        match skolem_label m b with
        | Some (i, m') => Some (set_subject st (SRes i), m')
        | None => None
        end
    | None => Some (st, m)
    end in
  match r1 with
  | None => None
  | Some (st1, m1) =>
      match o_as_blank (st_object st1) with
      | Some b =>
          match skolem_label m1 b with
          | Some (i, m') => Some (set_object st1 (ORes i), m')
          | None => None
          end
      | None => Some (st1, m1)
      end
  end.

Fixpoint skolem_loop (m : list (str * str)) (new_graph : graph) (l : list statement)
  : option (graph * list (str * str)) :=
  match l with
  | [] => Some (new_graph, m)
  | st :: r =>
      match skolem_statement m st with
      | Some (st', m') => skolem_loop m' (g_insert new_graph st') r
      | None => None
      end
  end.

(** graph.rs:616-643 [skolemize]. *)
Definition g_skolemize (ho : list statement -> list statement) (g : graph) : option graph :=
  option_map fst (skolem_loop [] g_default (g_iter ho g)).
End Skolem.

(** ** Simplification *)

(** graph.rs:658-684, one statement: what is inserted, and the label counter. *)
Definition simplify_statement (n : N) (st : statement) : list statement * N :=
  match s_as_statement (st_subject st) with
  | Some t =>
      let '((node, sts), n') := reify n t in
      (MkStmt node (st_predicate st) (st_object st) :: sts, n')
  | None =>
      match o_as_statement (st_object st) with
      | Some t =>
          let '((node, sts), n') := reify n t in
          (MkStmt (st_subject st) (st_predicate st) (to_object node) :: sts, n')
      | None =>
          match o_as_collection (st_object st) with
          | Some items =>
              let '((node, sts), n') := coll_reify n items in
              (MkStmt (st_subject st) (st_predicate st) (to_object node) :: sts, n')
          | None => ([st], n)
          end
      end
  end.

Fixpoint simplify_loop (n : N) (new_graph : graph) (l : list statement) : graph * N :=
  match l with
  | [] => (new_graph, n)
  | st :: r =>
      let '(sts, n') := simplify_statement n st in
      simplify_loop n' (fold_left g_insert sts new_graph) r
  end.

(** graph.rs:652-688 [simplify].  ([extend] on the new, non-unique graph appends, as
    repeated [insert] does.) *)
Definition g_simplify (ho : list statement -> list statement) (n : N) (g : graph) : graph * N :=
  let g0 := match g_name g with Some m => g_set_name g_default m | None => g_default end in
  simplify_loop n g0 (g_iter ho g).

(** ** Histories of mutating operations *)
Inductive g_op : Type :=
| OpInsert (st : statement)
| OpExtend (l : list statement)
| OpMerge (ho : list statement -> list statement) (other : graph)
| OpDedup (ho : list statement -> list statement)
| OpRemove (st : statement)
| OpRemoveAllFor (ho : list statement -> list statement) (s : subject)
| OpClear
| OpWithStatements (l : list statement)
| OpSetName (n : graph_name)
| OpUnsetName
| OpSetMappings (m : list (str * str)).

Definition g_step (g : graph) (op : g_op) : graph :=
  match op with
  | OpInsert st => g_insert g st
  | OpExtend l => g_extend g l
  | OpMerge ho other => g_merge ho g other
  | OpDedup ho => fst (g_dedup ho g)
  | OpRemove st => g_remove g st
  | OpRemoveAllFor ho s => fst (g_remove_all_for ho g s)
  | OpClear => g_clear g
  | OpWithStatements l => g_with_statements g l
  | OpSetName n => g_set_name g n
  | OpUnsetName => g_unset_name g
  | OpSetMappings m => g_with_mappings g m
  end.
Definition g_run (g : graph) (ops : list g_op) : graph := fold_left g_step ops g.
