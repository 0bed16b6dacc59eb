(** Vocabulary for the statements about graphs. *)
From Coq Require Export Permutation.
From Verif Require Export Graph ReifySpec.

(** A hash order rearranges the elements of a set and does nothing else. *)
Definition hash_order (ho : list statement -> list statement) : Prop :=
  forall l, Permutation (ho l) l.

(** The invariant of Rust's [HashSet]. *)
Definition g_wf (g : graph) : Prop :=
  match g_statements g with Unique vs => NoDup vs | NonUnique _ => True end.

(** Operations as a caller can perform them: graphs passed in are well formed, and the
    hash orders are rearrangements. *)
Definition g_op_ok (op : g_op) : Prop :=
  match op with
  | OpMerge ho other => hash_order ho /\ g_wf other
  | OpDedup ho => hash_order ho
  | OpRemoveAllFor ho _ => hash_order ho
  | _ => True
  end.

(** How often a statement occurs, decided by [==]. *)
Fixpoint occurs (x : statement) (l : list statement) : nat :=
  match l with
  | [] => 0
  | y :: r => ((if st_eqb x y then 1 else 0) + occurs x r)%nat
  end.

(** Abstract replay: a bag of statements is its multiplicity function; a unique graph is
    a set, i.e. multiplicities are capped at one. *)
Definition bag : Type := statement -> nat.
Definition cap (unique : bool) (k : nat) : nat := if unique then Nat.min k 1 else k.
Definition bag_step (unique : bool) (op : g_op) (c : bag) : bag :=
  fun x =>
    match op with
    | OpInsert st => cap unique (c x + occurs x [st])
    | OpExtend l => cap unique (c x + occurs x l)
    | OpMerge _ other => cap unique (c x + occurs x (g_list other))
    | OpDedup _ => Nat.min (c x) 1
    | OpRemove st => if st_eqb x st then 0 else c x
    | OpClear => 0
    | OpWithStatements l => cap unique (occurs x l)
    | _ => c x
    end%nat.
Definition bag_run (unique : bool) (ops : list g_op) (c : bag) : bag :=
  fold_left (fun c op => bag_step unique op c) ops c.
Definition not_remove_all_for (op : g_op) : Prop :=
  match op with OpRemoveAllFor _ _ => False | _ => True end.

(** The name and the mappings after a history: the last setter wins. *)
Definition name_run (ops : list g_op) (n : option graph_name) : option graph_name :=
  fold_left (fun n op => match op with OpSetName m => Some m | OpUnsetName => None | _ => n end) ops n.
Definition mappings_run (ops : list g_op) (m : list (str * str)) : list (str * str) :=
  fold_left (fun m op => match op with OpSetMappings m' => m' | _ => m end) ops m.

(** Pattern matching as documented: an absent component matches anything. *)
Definition agrees (s : option subject) (p : option str) (o : option object) (st : statement) : Prop :=
  (forall x, s = Some x -> st_subject st = x) /\
  (forall x, p = Some x -> st_predicate st = x) /\
  (forall x, o = Some x -> st_object st = x).

(** A renaming of labels applied to the subject and object of a statement. *)
Definition rename_subject (f : str -> str) (s : subject) : subject :=
  match s with SBlank b => SRes (f b) | _ => s end.
Definition rename_object (f : str -> str) (o : object) : object :=
  match o with OBlank b => ORes (f b) | _ => o end.
Definition rename_statement (f : str -> str) (st : statement) : statement :=
  MkStmt (rename_subject f (st_subject st)) (st_predicate st) (rename_object f (st_object st)).

Definition top_labels (st : statement) : list str :=
  match st_subject st with SBlank b => [b] | _ => [] end
  ++ match st_object st with OBlank b => [b] | _ => [] end.
Definition top_iris (st : statement) : list str :=
  match st_subject st with SRes i => [i] | _ => [] end
  ++ match st_object st with ORes i => [i] | _ => [] end.

(** ** Simplified graphs *)

(** Strict triple structure: no quoted statement, no collection. *)
Definition flat_object (o : object) : Prop :=
  match o with OStmt _ | OColl _ => False | _ => True end.
Definition flat (st : statement) : Prop :=
  s_is_statement (st_subject st) = false /\ flat_object (st_object st).

(** No collection as object, at any depth of quotation. *)
Fixpoint no_collection (st : statement) : Prop :=
  let 'MkStmt s _ o := st in
  match s with SStmt t => no_collection t | _ => True end /\
  match o with OStmt t => no_collection t | OColl _ => False | _ => True end.

(** The statements [simplify] turns into strict triples. *)
Definition simplifiable (st : statement) : Prop :=
  match st_subject st, st_object st with
  | SStmt t, o => no_collection t /\ flat_object o
  | _, OStmt t => no_collection t
  | _, OColl items => Forall flat_object items
  | _, _ => True
  end.

(** Reading a simplified graph back.  Statements which describe a node typed rdf:Statement
    or rdf:List are not facts of their own; in the others, a node described as a statement
    stands for the statement, and a node described as a list for the list. *)
Definition has_type (G : list statement) (b t : str) : bool :=
  existsb (obj_eqb (ORes (rdf t))) (values G (SBlank b) (rdf $"type")).
Definition is_description (G : list statement) (st : statement) : bool :=
  match st_subject st with
  | SBlank b =>
      (existsb (str_eqb (st_predicate st)) reify_props && has_type G b $"Statement")
      || (existsb (str_eqb (st_predicate st)) list_props && has_type G b $"List")
  | _ => false
  end.
Definition reads_object (G : list statement) (o' o : object) : Prop :=
  match o with
  | OColl items => rdf_list G o' items
  | _ => stands_o G o' o /\ forall items, ~ rdf_list G o' items
  end.
Definition restores (G : list statement) (x st : statement) : Prop :=
  stands_s G (to_object (st_subject x)) (st_subject st) /\
  st_predicate x = st_predicate st /\
  reads_object G (st_object x) (st_object st).

(** Statements that do not already use the vocabulary [simplify] writes: labels the
    generator has not handed out yet do not occur, no blank node is typed rdf:Statement or
    rdf:List, rdf:nil is not an object, and no fact about a quoted statement uses one of
    the four properties of a reification. *)
Definition unencoded (n : N) (st : statement) : Prop :=
  (forall b, In b (quoted_blanks st) -> not_generated_from n b) /\
  (forall b, st <> MkStmt (SBlank b) (rdf $"type") (ORes (rdf $"Statement"))) /\
  (forall b, st <> MkStmt (SBlank b) (rdf $"type") (ORes (rdf $"List"))) /\
  st_object st <> ORes (rdf $"nil") /\
  (forall t, st_subject st = SStmt t -> ~ In (st_predicate st) reify_props).

(** Replacing IRIs back by the labels they were made for. *)
Definition restore_subject (s : str -> option str) (x : subject) : subject :=
  match x with SRes i => match s i with Some b => SBlank b | None => x end | _ => x end.
Definition restore_object (s : str -> option str) (x : object) : object :=
  match x with ORes i => match s i with Some b => OBlank b | None => x end | _ => x end.
Definition restore_statement (s : str -> option str) (st : statement) : statement :=
  MkStmt (restore_subject s (st_subject st)) (st_predicate st) (restore_object s (st_object st)).

(** The labels of the blank nodes that are subject or object of a statement. *)
Definition graph_labels (g : graph) : list str := flat_map top_labels (g_list g).

(** The names of the features (features.rs), written out. *)
Definition feature (s : str) : str := $"http://rust-rdftk.dev/feature/" ++ s.
