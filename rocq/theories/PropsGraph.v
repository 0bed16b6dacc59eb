(** Property theorems C20-C28 and C39 (graphs).  Statements only; proofs in GraphProps.v
    and the files it builds on.  [g_wf] holds of every graph a caller can have
    ([C21_initial], [C21_invariant]); [hash_order ho] says that [ho], the iteration order
    of a hash set, is a rearrangement. *)
From Verif Require Import Str Literal Term ReifySpec Graph GraphSpec GraphProofs SimplifyProofs SkolemProofs GraphProps.

Definition ex_a : statement := MkStmt (SRes $"http://e/a") $"http://e/p" (OLit (Lit $"1" None None)).
Definition ex_b : statement := MkStmt (SBlank $"x") $"http://e/p" (ORes $"http://e/a").
Definition ex_c : statement := MkStmt (SRes $"http://e/a") $"http://e/q" (OBlank $"x").
Definition ex_bag : graph := g_from_iter [ex_a; ex_b; ex_a; ex_c].
Definition ex_set : graph := g_with_statements (g_unique_named (GnIri $"http://e/g")) [ex_a; ex_b; ex_a; ex_c].

(** C20: histories without [remove_all_for] (see C23) are histories of a bag, or of a set
    when the graph is unique. *)
Theorem C20_bag_refinement : forall g ops,
  g_wf g -> Forall g_op_ok ops -> Forall not_remove_all_for ops ->
  let g' := g_run g ops in
  let c := bag_run (g_is_unique g) ops (fun y => occurs y (g_list g)) in
  (forall ho x, hash_order ho -> occurs x (g_iter ho g') = c x) /\
  (forall st, g_contains g' st = true <-> (0 < c st)%nat) /\
  (g_is_empty g' = true <-> forall x, c x = 0%nat) /\
  (forall l, (forall x, occurs x l = c x) -> g_len g' = length l).
Proof. exact c20_refines. Qed.
Print Assumptions C20_bag_refinement.

Example C20_example :
  let ops := [OpInsert ex_a; OpMerge (fun l => rev l) ex_set; OpRemove ex_a; OpInsert ex_b] in
  g_wf ex_bag /\ Forall g_op_ok ops /\ Forall not_remove_all_for ops /\
  g_list (g_run ex_bag ops) = [ex_b; ex_c; ex_c; ex_b; ex_b] /\
  g_list (g_run ex_set ops) = [ex_b; ex_c] /\
  bag_run false ops (fun y => occurs y (g_list ex_bag)) ex_b = 3%nat.
Proof.
  split; [exact I|]. split.
  { constructor; [exact I|]. constructor; [|repeat constructor]. split.
    - intros l. apply Permutation.Permutation_sym, Permutation.Permutation_rev.
    - apply (hs_from_iter_NoDup _ TermProofs.st_eqb_eq). }
  split; [repeat constructor|]. vm_compute. repeat split.
Qed.

(** C21: over all histories. *)
Theorem C21_invariant : forall g ops, g_wf g -> Forall g_op_ok ops ->
  g_is_unique (g_run g ops) = g_is_unique g /\
  (g_is_unique g = true -> forall ho, hash_order ho -> NoDup (g_iter ho (g_run g ops))) /\
  g_name (g_run g ops) = name_run ops (g_name g) /\
  g_mappings (g_run g ops) = mappings_run ops (g_mappings g) /\
  g_wf (g_run g ops).
Proof. exact c21_invariant. Qed.
Print Assumptions C21_invariant.

(** C21: the constructors give graphs to start from. *)
Theorem C21_initial :
  g_wf g_default /\ g_wf g_unique /\ (forall n, g_wf (g_named n) /\ g_wf (g_unique_named n)) /\
  (forall l, g_wf (g_from_iter l)) /\
  g_is_unique g_default = false /\ g_is_unique g_unique = true /\
  (forall n, g_is_unique (g_named n) = false /\ g_is_unique (g_unique_named n) = true).
Proof. exact c21_initial. Qed.
Print Assumptions C21_initial.
Theorem C21_started : forall n l,
  (forall g, In g [g_default; g_unique; g_named n; g_unique_named n] -> g_list g = []) /\ g_list (g_from_iter l) = l /\
  (forall g, In g [g_default; g_unique; g_from_iter l] -> g_is_named g = false /\ g_name g = None) /\
  (forall g, In g [g_named n; g_unique_named n] -> g_is_named g = true /\ g_name g = Some n) /\
  (forall g, In g [g_default; g_unique; g_named n; g_unique_named n; g_from_iter l] -> forall p i, In (p, i) (g_mappings g) <->
     In (p, i) [($"rdf:", rdf []); ($"rdfs:", $"http://www.w3.org/2000/01/rdf-schema#");
                ($"xsd:", xsd []); ($"owl:", $"http://www.w3.org/2002/07/owl#")]).
Proof. exact c21_started. Qed.
Print Assumptions C21_started.
Theorem C21_named : forall g ops, g_wf g -> Forall g_op_ok ops ->
  (g_is_named (g_run g ops) = true <-> exists n, name_run ops (g_name g) = Some n).
Proof. exact c21_named. Qed.
Print Assumptions C21_named.

Example C21_example :
  let ops := [OpInsert ex_a; OpSetName (GnBlank $"n"); OpRemoveAllFor (fun l => l) (SRes $"http://e/a");
              OpClear; OpExtend [ex_b; ex_b]] in
  Forall g_op_ok ops /\ g_run ex_set ops = Graph (Some (GnBlank $"n")) (Unique [ex_b]) default_mappings /\
  g_run ex_bag ops = Graph (Some (GnBlank $"n")) (NonUnique [ex_b; ex_b]) default_mappings.
Proof.
  split; [|vm_compute; auto]. repeat (apply Forall_cons || apply Forall_nil); try exact I.
  exact (fun l => Permutation_refl l).
Qed.

(** C22 *)
Theorem C22_dedup : forall ho g g' d, hash_order ho -> g_wf g -> g_dedup ho g = (g', d) ->
  (forall x, occurs x (g_list g') = Nat.min (occurs x (g_list g)) 1) /\
  Permutation (g_list g' ++ d) (g_list g) /\
  (g_is_unique g = true -> g' = g /\ d = []) /\
  g_is_unique g' = g_is_unique g /\ g_name g' = g_name g /\ g_mappings g' = g_mappings g /\
  (forall ho', hash_order ho' -> snd (g_dedup ho' g') = [] /\ Permutation (g_list (fst (g_dedup ho' g'))) (g_list g')).
Proof. exact c22_dedup. Qed.
Print Assumptions C22_dedup.

Example C22_example :
  g_dedup (fun l => rev l) ex_bag = (Graph None (NonUnique [ex_c; ex_b; ex_a]) default_mappings, [ex_a]).
Proof. vm_compute. reflexivity. Qed.

(** C23 is false: it is the statements about the subject that are kept. *)
Theorem C23_remove_all_for_refuted : exists g s ho, hash_order ho /\ g_wf g /\
  exists st, In st (g_list (fst (g_remove_all_for ho g s))) /\ st_subject st = s.
Proof.
  exists ex_bag, (SBlank $"x"), (fun l => l). split; [exact (fun l => Permutation_refl l)|]. split; [exact I|].
  exists ex_b. vm_compute. auto.
Qed.
Print Assumptions C23_remove_all_for_refuted.

(** C23, exactly what happens: exactly the statements about [s] stay, all others are
    removed and returned. *)
Theorem C23_remove_all_for : forall ho g s g' d,
  hash_order ho -> g_wf g -> g_remove_all_for ho g s = (g', d) ->
  (forall st, In st (g_list g') <-> In st (g_list g) /\ st_subject st = s) /\
  (forall st, In st d <-> In st (g_list g) /\ st_subject st <> s) /\
  Permutation (g_list g' ++ d) (g_list g) /\
  g_is_unique g' = g_is_unique g /\ g_name g' = g_name g /\ g_mappings g' = g_mappings g.
Proof. exact c23_exact. Qed.
Print Assumptions C23_remove_all_for.

Example C23_example :
  g_remove_all_for (fun l => l) ex_bag (SBlank $"x") =
    (Graph None (NonUnique [ex_b]) default_mappings, [ex_a; ex_a; ex_c]).
Proof. vm_compute. reflexivity. Qed.

(** C24 is false: an absent component matches nothing. *)
Theorem C24_matches_refuted : exists g s, exists st,
  In st (g_list g) /\ agrees (Some s) None None st /\ g_matches g (Some s) None None = [].
Proof.
  exists ex_bag, (SBlank $"x"), ex_b. split; [vm_compute; auto|]. split; [|vm_compute; reflexivity].
  unfold agrees. split; [|split]; intros x H; [injection H as <-; reflexivity|discriminate H|discriminate H].
Qed.
Print Assumptions C24_matches_refuted.

(** C24, exactly what is returned. *)
Theorem C24_matches : forall g s p o,
  NoDup (g_matches g s p o) /\
  forall st, In st (g_matches g s p o) <->
    In st (g_list g) /\ agrees s p o st /\ s <> None /\ p <> None /\ o <> None.
Proof. exact c24_matches. Qed.
Print Assumptions C24_matches.

Theorem C24_absent_component : forall g s p o,
  s = None \/ p = None \/ o = None -> g_matches g s p o = [].
Proof. exact c24_absent. Qed.
Print Assumptions C24_absent_component.

Example C24_example :
  g_matches ex_bag (Some (SRes $"http://e/a")) (Some $"http://e/p") (Some (OLit (Lit $"1" None None))) = [ex_a] /\
  g_matches ex_bag None (Some $"http://e/p") None = [].
Proof. vm_compute. repeat split. Qed.

(** C25 *)
Theorem C25_projections : forall g,
  (forall s, In s (g_subjects g) <-> exists p o, In (MkStmt s p o) (g_list g)) /\
  (forall s, In s (g_node_subjects g) <-> (exists p o, In (MkStmt s p o) (g_list g)) /\ forall b, s <> SBlank b) /\
  (forall s, In s (g_blank_node_subjects g) <-> (exists p o, In (MkStmt s p o) (g_list g)) /\ exists b, s = SBlank b) /\
  (forall p, In p (g_predicates g) <-> exists s o, In (MkStmt s p o) (g_list g)) /\
  (forall s p, In p (g_predicates_for g s) <-> exists o, In (MkStmt s p o) (g_list g)) /\
  (forall o, In o (g_objects g) <-> exists s p, In (MkStmt s p o) (g_list g)) /\
  (forall s p o, In o (g_objects_for g s p) <-> In (MkStmt s p o) (g_list g)) /\
  (forall s, g_contains_subject g s = true <-> In s (g_subjects g)).
Proof. exact c25_projections. Qed.
Print Assumptions C25_projections.

Theorem C25_each_once : forall g s p,
  NoDup (g_subjects g) /\ NoDup (g_node_subjects g) /\ NoDup (g_blank_node_subjects g)
  /\ NoDup (g_predicates g) /\ NoDup (g_predicates_for g s) /\ NoDup (g_objects g) /\ NoDup (g_objects_for g s p).
Proof. exact projections_NoDup. Qed.
Print Assumptions C25_each_once.

Theorem C25_enumeration : forall g s p o,
  In (MkStmt s p o) (g_list g) <->
  In s (g_subjects g) /\ In p (g_predicates_for g s) /\ In o (g_objects_for g s p).
Proof. exact c25_enumerate. Qed.
Print Assumptions C25_enumeration.

Example C25_example :
  g_subjects ex_bag = [SRes $"http://e/a"; SBlank $"x"] /\ g_node_subjects ex_bag = [SRes $"http://e/a"] /\
  g_blank_node_subjects ex_bag = [SBlank $"x"] /\
  g_predicates_for ex_bag (SRes $"http://e/a") = [$"http://e/p"; $"http://e/q"] /\
  g_objects_for ex_bag (SRes $"http://e/a") $"http://e/q" = [OBlank $"x"].
Proof. vm_compute. repeat split. Qed.

(** C26 *)
Theorem C26_contains : forall g ho, hash_order ho ->
  (forall st, g_contains g st = true <-> In st (g_iter ho g)) /\
  (forall s p o, g_contains_all g s p o = true <-> In (MkStmt s p o) (g_iter ho g)).
Proof. exact c26_contains. Qed.
Print Assumptions C26_contains.

Example C26_example :
  g_contains ex_set ex_b = true /\ g_contains (g_remove ex_set ex_b) ex_b = false /\
  g_contains_all ex_set (SBlank $"x") $"http://e/p" (ORes $"http://e/a") = true.
Proof. vm_compute. repeat split. Qed.

(** C27 is false of blank nodes inside quoted statements: the same node is replaced outside
    the quotation and left in it. *)
Theorem C27_everywhere_refuted : exists g genid ho g' b i,
  hash_order ho /\ (forall j k x, genid j = Some x -> genid k = Some x -> j = k) /\
  g_skolemize genid ho g = Some g' /\
  g_list g = [MkStmt (SStmt (MkStmt (SBlank b) $"p" (ORes $"o"))) $"q" (OBlank b)] /\
  g_list g' = [MkStmt (SStmt (MkStmt (SBlank b) $"p" (ORes $"o"))) $"q" (ORes i)].
Proof.
  exists (g_from_iter [MkStmt (SStmt (MkStmt (SBlank $"b") $"p" (ORes $"o"))) $"q" (OBlank $"b")]).
  exists (fun k => Some (repeat 1 k)), (fun l => l). do 3 eexists.
  split; [exact (fun l => Permutation_refl l)|]. split; [|split; [vm_compute; reflexivity|split; reflexivity]].
  intros j k x H1 H2. rewrite <- (repeat_length 1 j), <- (repeat_length 1 k). congruence.
Qed.
Print Assumptions C27_everywhere_refuted.

(** C27 for blank nodes that are subject or object of a statement: with generated IRIs that
    do not repeat, one IRI per label, nothing else in the statements changes, and if the
    IRIs are new to the graph the replacement can be undone.  The result is an unnamed,
    non-unique graph with the default mappings. *)
Theorem C27_skolemize : forall genid ho g g', hash_order ho -> g_skolemize genid ho g = Some g' ->
  (forall j k i, genid j = Some i -> genid k = Some i -> j = k) ->
  exists r : str -> str,
    g' = Graph None (NonUnique (map (rename_statement r) (g_iter ho g))) default_mappings /\
    (forall b, In b (graph_labels g) -> exists k, genid k = Some (r b)) /\
    (forall a b, In a (graph_labels g) -> In b (graph_labels g) -> r a = r b -> a = b) /\
    ((forall k i st, genid k = Some i -> In st (g_list g) -> ~ In i (top_iris st)) ->
     exists s, map (restore_statement s) (g_list g') = g_iter ho g).
Proof. exact skolemize_spec. Qed.
Print Assumptions C27_skolemize.

(** C27: the number of statements is kept, no top-level blank node is left. *)
Theorem C27_skolemize_counts : forall genid ho g g', hash_order ho -> g_skolemize genid ho g = Some g' ->
  (forall j k i, genid j = Some i -> genid k = Some i -> j = k) ->
  g_len g' = g_len g /\ forall st, In st (g_list g') -> top_labels st = [].
Proof. exact c27_counts. Qed.
Print Assumptions C27_skolemize_counts.

(** C27: it fails exactly when one of the first calls of [genid], one per label, fails. *)
Theorem C27_skolemize_fails : forall genid ho g, hash_order ho ->
  g_skolemize genid ho g = None <->
  exists k, (k < length (nodup label_dec (graph_labels g)))%nat /\ genid k = None.
Proof. exact skolemize_fails_iff. Qed.
Print Assumptions C27_skolemize_fails.

Example C27_example :
  let genid k := Some ($"http://e/.well-known/genid/" ++ repeat 49 k) in
  (forall j k i, genid j = Some i -> genid k = Some i -> j = k) /\
  g_skolemize genid (fun l => l) ex_bag = Some (g_from_iter
    [ex_a; MkStmt (SRes $"http://e/.well-known/genid/") $"http://e/p" (ORes $"http://e/a"); ex_a;
     MkStmt (SRes $"http://e/a") $"http://e/q" (ORes $"http://e/.well-known/genid/")]) /\
  graph_labels ex_bag = [$"x"; $"x"].
Proof.
  split; [|split; vm_compute; reflexivity].
  intros j k i H1 H2. assert (E : repeat 49 j = repeat 49 k) by (apply (app_inv_head $"http://e/.well-known/genid/"); congruence).
  rewrite <- (repeat_length 49 j), <- (repeat_length 49 k). congruence.
Qed.

(** C28 is false: a statement whose subject and object are both quoted keeps the quoted
    object, and so does a collection inside a quoted statement. *)
Theorem C28_simplify_refuted : exists st1 st2, forall n,
  ~ Forall flat (g_list (fst (g_simplify (fun l => l) n (g_from_iter [st1])))) /\
  ~ Forall flat (g_list (fst (g_simplify (fun l => l) n (g_from_iter [st2])))).
Proof.
  exists (MkStmt (SStmt ex_a) $"http://e/q" (OStmt ex_b)),
         (MkStmt (SStmt (MkStmt (SRes $"s") $"p" (OColl []))) $"http://e/q" (ORes $"o")).
  intros n. split; rewrite (simplify_flat_iff _ _ _ (fun l => Permutation_refl l)); intros H; inversion H; subst;
    unfold simplifiable in *; cbn in *; intuition.
Qed.
Print Assumptions C28_simplify_refuted.

(** C28, exactly when the result is in strict triple form. *)
Theorem C28_simplify_flat : forall ho n g, hash_order ho ->
  Forall flat (g_list (fst (g_simplify ho n g))) <-> Forall simplifiable (g_list g).
Proof. exact simplify_flat_iff. Qed.
Print Assumptions C28_simplify_flat.

(** C28, nothing is lost for such graphs if they do not use the reification and list
    vocabulary themselves: the facts of the result, read back with [restores], are the
    original statements. *)
Theorem C28_simplify_reconstruct : forall ho n g, hash_order ho ->
  Forall simplifiable (g_list g) -> Forall (unencoded n) (g_list g) ->
  let R := g_list (fst (g_simplify ho n g)) in
  Forall2 (restores R) (filter (fun x => negb (is_description R x)) R) (g_iter ho g).
Proof. exact simplify_restores. Qed.
Print Assumptions C28_simplify_reconstruct.

(** C28: reading back has at most one result, so two such graphs with the same
    simplification have the same statements. *)
Theorem C28_reading_unique : forall G x a b, restores G x a -> restores G x b -> a = b.
Proof. exact restores_functional. Qed.
Print Assumptions C28_reading_unique.

Theorem C28_simplify_injective : forall ho ho' n n' g g', hash_order ho -> hash_order ho' ->
  Forall simplifiable (g_list g) -> Forall (unencoded n) (g_list g) ->
  Forall simplifiable (g_list g') -> Forall (unencoded n') (g_list g') ->
  fst (g_simplify ho n g) = fst (g_simplify ho' n' g') ->
  Permutation (g_list g) (g_list g').
Proof. exact simplify_injective. Qed.
Print Assumptions C28_simplify_injective.

(** C28 is also false of the remaining graphs: the empty collection and rdf:nil become the
    same, so which one was there cannot be told. *)
Theorem C28_reconstruct_refuted : exists st1 st2, st1 <> st2 /\ simplifiable st1 /\ simplifiable st2 /\
  forall n, g_simplify (fun l => l) n (g_from_iter [st1]) = g_simplify (fun l => l) n (g_from_iter [st2]).
Proof.
  exists (MkStmt (SRes $"s") $"p" (OColl [])), (MkStmt (SRes $"s") $"p" (ORes (rdf $"nil"))).
  split; [discriminate|]. split; [constructor|]. split; [exact I|]. intros n. reflexivity.
Qed.
Print Assumptions C28_reconstruct_refuted.

Example C28_example :
  let g := g_from_iter [MkStmt (SRes $"s") $"p" (OColl [ORes $"i"]); MkStmt (SStmt ex_c) $"p" (OBlank $"x")] in
  Forall simplifiable (g_list g) /\ Forall (unencoded 1) (g_list g) /\
  g_list (fst (g_simplify (fun l => l) 1 g)) =
   [MkStmt (SRes $"s") $"p" (OBlank $"B1");
    MkStmt (SBlank $"B1") (rdf $"type") (ORes (rdf $"List"));
    MkStmt (SBlank $"B1") (rdf $"first") (ORes $"i");
    MkStmt (SBlank $"B1") (rdf $"rest") (ORes (rdf $"nil"));
    MkStmt (SBlank $"B2") $"p" (OBlank $"x");
    MkStmt (SBlank $"B2") (rdf $"type") (ORes (rdf $"Statement"));
    MkStmt (SBlank $"B2") (rdf $"subject") (ORes $"http://e/a");
    MkStmt (SBlank $"B2") (rdf $"predicate") (ORes $"http://e/q");
    MkStmt (SBlank $"B2") (rdf $"object") (OBlank $"x")].
Proof.
  assert (NG : forall k, $"x" <> gen_label k) by (intros k H; discriminate H).
  split; [|split; [|vm_compute; reflexivity]].
  - repeat constructor.
  - constructor; [|constructor; [|constructor]].
    + split; [intros b []|]. split; [intros b H; discriminate H|]. split; [intros b H; discriminate H|].
      split; [discriminate|]. intros t H. discriminate H.
    + split; [|].
      * intros b [<-|[<-|[]]] k _; apply NG.
      * split; [intros b H; discriminate H|]. split; [intros b H; discriminate H|]. split; [discriminate|].
        intros t _. simpl. intuition discriminate.
Qed.

(** C39 is false: the feature "duplicates" is reported by exactly the graphs which do not
    keep duplicates. *)
Theorem C39_duplicates_refuted : forall g st, g_wf g ->
  (g_supports_feature g (feature $"graph/duplicates") = true <->
   g_len (g_insert (g_insert g st) st) <> S (S (g_len g))).
Proof. exact c39_inverted. Qed.
Print Assumptions C39_duplicates_refuted.

(** C39, exactly what is reported by graphs and terms. *)
Theorem C39_features : forall g f, g_supports_feature g f = true <->
  (f = feature $"graph/duplicates" /\ g_is_unique g = true) \/ f = feature $"graph/rdf_star".
Proof. exact c39_features. Qed.
Print Assumptions C39_features.

Theorem C39_term_features : forall f,
  (st_supports_feature f = true <-> f = feature $"graph/rdf_star" \/ f = feature $"statements/object_collections") /\
  (obj_supports_feature f = true <-> f = feature $"graph/rdf_star" \/ f = feature $"statements/object_collections") /\
  (subj_supports_feature f = true <-> f = feature $"graph/rdf_star").
Proof. exact c39_terms. Qed.
Print Assumptions C39_term_features.

Example C39_example :
  g_supports_feature ex_bag feature_duplicates = false /\ g_len (g_insert (g_insert ex_bag ex_a) ex_a) = 6%nat /\
  g_supports_feature ex_set feature_duplicates = true /\ g_len (g_insert (g_insert ex_set ex_a) ex_a) = 3%nat /\
  g_supports_feature ex_set $"http://e/other" = false.
Proof. vm_compute. repeat split. Qed.
