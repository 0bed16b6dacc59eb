(** Model of rdftk_core/src/simple/indexed.rs, a graph with an index for subjects, predicates
    and objects.  The file is in the crate's source but not declared as a module; its
    statements are taken to be those of model/statement.rs.  No proofs here. *)
From Verif Require Export Graph.

(** [HashMap<K, Vec<Statement>>] (std): an association list with distinct keys. *)
Section Index.
Context {K : Type} (keqb : K -> K -> bool).
Fixpoint ix_get (k : K) (m : list (K * list statement)) : option (list statement) :=
  match m with
  | [] => None
  | (k', l) :: r => if keqb k' k then Some l else ix_get k r
  end.
(** indexed.rs:222-254 [insert], for one of the indices: [get_mut], then [insert] or [push]. *)
Fixpoint ix_push (k : K) (st : statement) (m : list (K * list statement)) : list (K * list statement) :=
  match m with
  | [] => [(k, [st])]
  | (k', l) :: r => if keqb k' k then (k', l ++ [st]) :: r else (k', l) :: ix_push k st r
  end.
(** [Vec::remove] at the [position] of a statement. *)
Fixpoint remove_first (st : statement) (l : list statement) : list statement :=
  match l with
  | [] => []
  | x :: r => if st_eqb x st then r else x :: remove_first st r
  end.
(** indexed.rs:334-344 [remove_from_index]. *)
Fixpoint ix_remove (st : statement) (k : K) (m : list (K * list statement)) : list (K * list statement) :=
  match m with
  | [] => []
  | (k', l) :: r => if keqb k' k then (k', remove_first st l) :: r else (k', l) :: ix_remove st k r
  end.
End Index.

(** indexed.rs:29-37 [IndexedSimpleGraph]. *)
Record indexed : Type := Indexed {
  ix_name : option graph_name;
  ix_statements : list statement;
  ix_mappings : list (str * str);
  s_index : list (subject * list statement);
  p_index : list (str * list statement);
  o_index : list (object * list statement)
}.

(** indexed.rs:222-254 [insert]. *)
Definition ix_insert (g : indexed) (st : statement) : indexed :=
  Indexed (ix_name g) (ix_statements g ++ [st]) (ix_mappings g)
    (ix_push subj_eqb (st_subject st) st (s_index g))
    (ix_push str_eqb (st_predicate st) st (p_index g))
    (ix_push obj_eqb (st_object st) st (o_index g)).

(** indexed.rs:86-107 [create]. *)
Definition ix_create (name : option graph_name) (sts : list statement) (mappings : option (list (str * str))) : indexed :=
  fold_left ix_insert sts
    (Indexed name sts (match mappings with Some m => m | None => default_mappings end) [] [] []).
(** indexed.rs:59-82 [graph], [named_graph], [graph_from], [named_graph_from]. *)
Definition ix_graph : indexed := ix_create None [] None.
Definition ix_named_graph (name : option graph_name) : indexed := ix_create name [] None.
Definition ix_graph_from (sts : list statement) (mappings : option (list (str * str))) : indexed :=
  ix_create None sts mappings.

(** indexed.rs:125-135 [is_empty], [len], [contains_subject]. *)
Definition ix_is_empty (g : indexed) : bool := is_nil (ix_statements g).
Definition ix_len (g : indexed) : nat := length (ix_statements g).
Definition ix_contains_subject (g : indexed) (s : subject) : bool :=
  match ix_get subj_eqb s (s_index g) with Some _ => true | None => false end.

(** indexed.rs:137-174 [matches]: [map] and [unwrap_or_default] turn an absent criterion
    into the empty set. *)
Definition found {K} (keqb : K -> K -> bool) (k : option K) (m : list (K * list statement)) : list statement :=
  match k with
  | Some k => match ix_get keqb k m with Some l => hs_from_iter st_eqb l | None => [] end
  | None => []
  end.
Definition hs_intersection (a b : list statement) : list statement := filter (fun x => hs_mem st_eqb x b) a.
Definition ix_matches (g : indexed) (s : option subject) (p : option str) (o : option object) : list statement :=
  hs_intersection
    (hs_intersection (found subj_eqb s (s_index g)) (found str_eqb p (p_index g)))
    (found obj_eqb o (o_index g)).

(** indexed.rs:180-207 [subjects], [predicates], [predicates_for], [objects], [objects_for]. *)
Definition ix_subjects (g : indexed) : list subject := map fst (s_index g).
Definition ix_predicates (g : indexed) : list str := map fst (p_index g).
Definition ix_predicates_for (g : indexed) (s : subject) : list str :=
  match ix_get subj_eqb s (s_index g) with
  | Some sts => hs_from_iter str_eqb (map st_predicate sts)
  | None => []
  end.
Definition ix_objects (g : indexed) : list object := map fst (o_index g).
Definition ix_objects_for (g : indexed) (s : subject) (p : str) : list object :=
  hs_from_iter obj_eqb (map st_object (ix_matches g (Some s) (Some p) None)).

(** indexed.rs:256-261 [merge]. *)
Definition ix_merge (g other : indexed) : indexed := fold_left ix_insert (ix_statements other) g.

(** indexed.rs:328-332 [remove_indices_for]. *)
Definition ix_remove_indices (g : indexed) (st : statement) : indexed :=
  Indexed (ix_name g) (ix_statements g) (ix_mappings g)
    (ix_remove subj_eqb st (st_subject st) (s_index g))
    (ix_remove str_eqb st (st_predicate st) (p_index g))
    (ix_remove obj_eqb st (st_object st) (o_index g)).

Definition ix_with_statements (g : indexed) (l : list statement) : indexed :=
  Indexed (ix_name g) l (ix_mappings g) (s_index g) (p_index g) (o_index g).

(** indexed.rs:263-283 [dedup]; the set is turned into a vector in hash order [ho]. *)
Definition dedup_step (acc : list statement * list statement) (st : statement) : list statement * list statement :=
  if hs_mem st_eqb st (fst acc) then (fst acc, snd acc ++ [st]) else (hs_insert st_eqb (fst acc) st, snd acc).
Definition ix_dedup (ho : list statement -> list statement) (g : indexed) : indexed * list statement :=
  let '(keep, discard) := fold_left dedup_step (ix_statements g) ([], []) in
  (fold_left ix_remove_indices discard (ix_with_statements g (ho keep)), discard).

(** indexed.rs:285-293 [remove]. *)
Definition ix_remove_statement (g : indexed) (st : statement) : indexed :=
  if existsb (fun x => st_eqb x st) (ix_statements g)
  then ix_remove_indices (ix_with_statements g (remove_first st (ix_statements g))) st
  else g.

(** indexed.rs:295-305 [remove_all_for]. *)
Definition ix_remove_all_for (g : indexed) (s : subject) : indexed * list statement :=
  match ix_get subj_eqb s (s_index g) with
  | Some sts => (fold_left ix_remove_statement sts g, sts)
  | None => (g, [])
  end.

(** indexed.rs:307-312 [clear]. *)
Definition ix_clear (g : indexed) : indexed := Indexed (ix_name g) [] (ix_mappings g) [] [] [].

(** indexed.rs:214-216 [set_prefix_mappings], 318-324 [set_name], [unset_name]. *)
Definition ix_set_mappings (g : indexed) (m : list (str * str)) : indexed :=
  Indexed (ix_name g) (ix_statements g) m (s_index g) (p_index g) (o_index g).
Definition ix_set_name (g : indexed) (n : option graph_name) : indexed :=
  Indexed n (ix_statements g) (ix_mappings g) (s_index g) (p_index g) (o_index g).

(** indexed.rs:218-220 [statements_mut]: the caller may change any statement in place. *)
Definition ix_mutate (g : indexed) (f : nat -> statement -> statement) : indexed :=
  ix_with_statements g
    ((fix go (n : nat) (l : list statement) := match l with [] => [] | x :: r => f n x :: go (S n) r end)
       O (ix_statements g)).

(** The calls that change a graph, [statements_mut] apart. *)
Inductive ix_op : Type :=
| IxInsert (st : statement)
| IxMerge (other : indexed)
| IxDedup (ho : list statement -> list statement)
| IxRemove (st : statement)
| IxRemoveAllFor (s : subject)
| IxClear
| IxSetName (n : option graph_name)
| IxSetMappings (m : list (str * str)).
Definition ix_step (g : indexed) (op : ix_op) : indexed :=
  match op with
  | IxInsert st => ix_insert g st
  | IxMerge other => ix_merge g other
  | IxDedup ho => fst (ix_dedup ho g)
  | IxRemove st => ix_remove_statement g st
  | IxRemoveAllFor s => fst (ix_remove_all_for g s)
  | IxClear => ix_clear g
  | IxSetName n => ix_set_name g n
  | IxSetMappings m => ix_set_mappings g m
  end.
Definition ix_run (g : indexed) (h : list ix_op) : indexed := fold_left ix_step h g.
