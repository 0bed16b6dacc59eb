(** Property theorems C75-C77 (the indexed graph).  Statements only; proofs in
    IndexedProofs.v.  [reachable h g] says that [g] is what the calls [h] make of an empty
    graph; [statements_mut] and construction from statements are treated apart. *)
From Coq Require Import Permutation.
From Verif Require Import Str Literal Term ReifySpec Graph GraphSpec Indexed IndexedSpec IndexedProofs.

Definition ix_a : statement := MkStmt (SRes $"http://e/a") $"http://e/p" (OLit (Lit $"1" None None)).
Definition ix_b : statement := MkStmt (SBlank $"x") $"http://e/p" (ORes $"http://e/a").
Definition ix_c : statement := MkStmt (SRes $"http://e/a") $"http://e/q" (OBlank $"x").
Definition ix_h : list ix_op :=
  [IxInsert ix_a; IxInsert ix_b; IxMerge (ix_run ix_graph [IxInsert ix_a; IxInsert ix_c]); IxInsert ix_a; IxRemove ix_b].
Definition ix_g : indexed := ix_run ix_graph ix_h.
Lemma ix_h_reaches : reachable ix_h ix_g.
Proof. split; [repeat constructor|]. exists None. reflexivity. Qed.

(** C75: the statements are the bag that the calls describe. *)
Theorem C75_history : forall h g, reachable h g ->
  (forall st, count st (ix_statements g) = ix_bag h st) /\
  (ix_is_empty g = true <-> forall st, ix_bag h st = O) /\
  (forall l, (forall st, count st l = ix_bag h st) -> ix_len g = length l).
Proof. exact c75_history. Qed.
Print Assumptions C75_history.

Example C75_example : reachable ix_h ix_g /\ ix_statements ix_g = [ix_a; ix_a; ix_c; ix_a] /\ ix_bag ix_h ix_a = 3%nat /\
  ix_bag ix_h ix_b = O.
Proof. split; [exact ix_h_reaches|]. vm_compute. repeat split. Qed.

(** C75: no other call touches the name or the mappings. *)
Theorem C75_header : forall h g,
  ix_name (ix_run g h) = ix_name_run h (ix_name g) /\
  ix_mappings (ix_run g h) = ix_mappings_run h (ix_mappings g).
Proof. exact c75_header. Qed.
Print Assumptions C75_header.

(** C75: and the constructors keep both. *)
Theorem C75_named : forall n sts m h,
  ix_name (ix_run (ix_named_graph n) h) = ix_name_run h n /\
  ix_name (ix_run (ix_create n sts m) h) = ix_name_run h n /\
  (forall m', m = Some m' -> ix_mappings (ix_run (ix_create n sts m) h) = ix_mappings_run h m') /\
  (m = None -> ix_mappings (ix_run (ix_create n sts m) h) = ix_mappings_run h default_mappings).
Proof. exact c75_named. Qed.
Print Assumptions C75_named.

(** C75: a graph built from statements does not hold them: it holds each of them twice. *)
Theorem C75_from_refuted : exists sts st,
  count st (ix_statements (ix_graph_from sts None)) <> count st sts /\ ix_len (ix_graph_from sts None) <> length sts.
Proof. exists [ix_a], ix_a. vm_compute. split; discriminate. Qed.
Print Assumptions C75_from_refuted.

Theorem C75_from : forall name sts m,
  let g := ix_create name sts m in
  (forall st, count st (ix_statements g) = 2 * count st sts)%nat /\ ix_len g = (2 * length sts)%nat /\
  (forall s p o st, In st (ix_matches g (Some s) (Some p) (Some o)) <-> st = MkStmt s p o /\ In st sts).
Proof. exact c75_from. Qed.
Print Assumptions C75_from.

(** C75: and removing a statement from such a graph makes it unfindable but leaves it there. *)
Theorem C75_from_split : forall name sts m s p o, let st := MkStmt s p o in
  count st sts = 1%nat ->
  let g := ix_remove_statement (ix_create name sts m) st in
  In st (ix_statements g) /\ ix_matches g (Some s) (Some p) (Some o) = [].
Proof. exact c75_from_split. Qed.
Print Assumptions C75_from_split.

Example C75_from_example :
  count ix_a [ix_a; ix_b] = 1%nat /\
  ix_statements (ix_graph_from [ix_a; ix_b] None) = [ix_a; ix_b; ix_a; ix_b] /\
  ix_statements (ix_remove_statement (ix_graph_from [ix_a; ix_b] None) ix_a) = [ix_b; ix_a; ix_b].
Proof. vm_compute. repeat split. Qed.

(** C75: a statement changed through [statements_mut] is not found, and the one it replaced is. *)
Theorem C75_mut_refuted : exists h g f s p o s' p' o', reachable h g /\
  let st := MkStmt s p o in let st' := MkStmt s' p' o' in
  ix_statements g = [st] /\ ix_statements (ix_mutate g f) = [st'] /\ st <> st' /\
  ix_matches (ix_mutate g f) (Some s) (Some p) (Some o) = [st] /\
  ix_matches (ix_mutate g f) (Some s') (Some p') (Some o') = [].
Proof.
  exists [IxInsert ix_a], (ix_run ix_graph [IxInsert ix_a]), (fun _ _ => ix_c),
    (st_subject ix_a), (st_predicate ix_a), (st_object ix_a), (st_subject ix_c), (st_predicate ix_c), (st_object ix_c).
  split; [split; [repeat constructor|exists None; reflexivity]|]. vm_compute. repeat split. discriminate.
Qed.
Print Assumptions C75_mut_refuted.

(** C75: every statement can be changed that way, in place; what is found stays as it was. *)
Theorem C75_mut : forall g f, let g' := ix_mutate g f in
  (forall k, nth_error (ix_statements g') k = option_map (f k) (nth_error (ix_statements g) k)) /\
  (forall s p o, ix_matches g' s p o = ix_matches g s p o) /\
  ix_name g' = ix_name g /\ ix_mappings g' = ix_mappings g.
Proof. exact c75_mut. Qed.
Print Assumptions C75_mut.

(** C76: a full pattern finds the statement, once, exactly when it is in the graph. *)
Theorem C76_matches : forall h g s p o st, reachable h g ->
  NoDup (ix_matches g (Some s) (Some p) (Some o)) /\
  (In st (ix_matches g (Some s) (Some p) (Some o)) <-> st = MkStmt s p o /\ In st (ix_statements g)).
Proof. exact c76_matches. Qed.
Print Assumptions C76_matches.

(** C76: an absent criterion is documented to match anything; it matches nothing. *)
Theorem C76_wildcard_refuted : exists h g s st, reachable h g /\
  In st (ix_statements g) /\ st_subject st = s /\ ~ In st (ix_matches g (Some s) None None).
Proof.
  exists ix_h, ix_g, (SRes $"http://e/a"), ix_a. split; [exact ix_h_reaches|]. split; [vm_compute; tauto|]. split; [reflexivity|].
  vm_compute. tauto.
Qed.
Print Assumptions C76_wildcard_refuted.

Theorem C76_wildcard : forall g s p o, s = None \/ p = None \/ o = None -> ix_matches g s p o = [].
Proof. exact matches_absent. Qed.
Print Assumptions C76_wildcard.

Theorem C76_predicates_for : forall h g s p, reachable h g ->
  NoDup (ix_predicates_for g s) /\
  (In p (ix_predicates_for g s) <-> exists o, In (MkStmt s p o) (ix_statements g)).
Proof. exact c76_predicates_for. Qed.
Print Assumptions C76_predicates_for.

(** C76: the objects of a subject and predicate are never found. *)
Theorem C76_objects_for_refuted : exists h g s p o, reachable h g /\ In (MkStmt s p o) (ix_statements g) /\
  ~ In o (ix_objects_for g s p).
Proof.
  exists ix_h, ix_g, (st_subject ix_a), (st_predicate ix_a), (st_object ix_a). split; [exact ix_h_reaches|].
  vm_compute. tauto.
Qed.
Print Assumptions C76_objects_for_refuted.

Theorem C76_objects_for : forall g s p, ix_objects_for g s p = [].
Proof. exact c76_objects_for. Qed.
Print Assumptions C76_objects_for.

(** C76: a subject is reported although no statement has it any more. *)
Theorem C76_stale_refuted : exists h g s, reachable h g /\
  ix_contains_subject g s = true /\ In s (ix_subjects g) /\
  forall st, In st (ix_statements g) -> st_subject st <> s.
Proof.
  exists ix_h, ix_g, (SBlank $"x"). split; [exact ix_h_reaches|]. split; [reflexivity|]. split; [vm_compute; tauto|].
  intros st H. vm_compute in H. repeat (destruct H as [<-|H]; [discriminate|]). destruct H.
Qed.
Print Assumptions C76_stale_refuted.

(** C76: what is reported is what has been inserted since the graph was last cleared. *)
Theorem C76_keys : forall h g, reachable h g ->
  (NoDup (ix_subjects g) /\ NoDup (ix_predicates g) /\ NoDup (ix_objects g)) /\
  (forall s, ix_contains_subject g s = true <-> exists st, In st (seen h) /\ st_subject st = s) /\
  (forall s, In s (ix_subjects g) <-> exists st, In st (seen h) /\ st_subject st = s) /\
  (forall p, In p (ix_predicates g) <-> exists st, In st (seen h) /\ st_predicate st = p) /\
  (forall o, In o (ix_objects g) <-> exists st, In st (seen h) /\ st_object st = o).
Proof. exact c76_keys. Qed.
Print Assumptions C76_keys.

(** C76: so nothing that is in the graph is missing. *)
Theorem C76_none_missing : forall h g st, reachable h g -> In st (ix_statements g) ->
  ix_contains_subject g (st_subject st) = true /\ In (st_subject st) (ix_subjects g) /\
  In (st_predicate st) (ix_predicates g) /\ In (st_object st) (ix_objects g).
Proof. exact c76_none_missing. Qed.
Print Assumptions C76_none_missing.

Example C76_example :
  reachable ix_h ix_g /\
  ix_matches ix_g (Some (SRes $"http://e/a")) (Some $"http://e/q") (Some (OBlank $"x")) = [ix_c] /\
  ix_predicates_for ix_g (SRes $"http://e/a") = [$"http://e/p"; $"http://e/q"] /\
  ix_subjects ix_g = [SRes $"http://e/a"; SBlank $"x"] /\ In ix_c (ix_statements ix_g).
Proof. split; [exact ix_h_reaches|]. vm_compute. tauto. Qed.

(** C77: [remove] takes one occurrence away. *)
Theorem C77_remove : forall h g st, reachable h g ->
  let g' := ix_remove_statement g st in
  (In st (ix_statements g) -> Permutation (ix_statements g) (st :: ix_statements g')) /\
  (~ In st (ix_statements g) -> g' = g) /\
  (ix_matches g' (Some (st_subject st)) (Some (st_predicate st)) (Some (st_object st)) = [] <-> (ix_bag h st <= 1)%nat).
Proof. exact c77_remove. Qed.
Print Assumptions C77_remove.

(** C77: [remove_all_for] returns what it removes, and keeps the rest. *)
Theorem C77_remove_all_for : forall h g s, reachable h g ->
  let r := ix_remove_all_for g s in
  Permutation (snd r) (filter (fun st => subj_eqb (st_subject st) s) (ix_statements g)) /\
  Permutation (ix_statements (fst r)) (filter (fun st => negb (subj_eqb (st_subject st) s)) (ix_statements g)).
Proof. exact c77_remove_all_for. Qed.
Print Assumptions C77_remove_all_for.

(** C77: [dedup] keeps one of each, and returns the others. *)
Theorem C77_dedup : forall h g ho, reachable h g -> hash_order ho ->
  let r := ix_dedup ho g in
  NoDup (ix_statements (fst r)) /\ (forall st, In st (ix_statements (fst r)) <-> In st (ix_statements g)) /\
  Permutation (ix_statements g) (ix_statements (fst r) ++ snd r).
Proof. exact c77_dedup. Qed.
Print Assumptions C77_dedup.

Example C77_example :
  reachable ix_h ix_g /\
  ix_statements (ix_remove_statement ix_g ix_a) = [ix_a; ix_c; ix_a] /\
  snd (ix_remove_all_for ix_g (SRes $"http://e/a")) = [ix_a; ix_a; ix_c; ix_a] /\
  ix_statements (fst (ix_dedup (fun l => rev l) ix_g)) = [ix_c; ix_a] /\
  snd (ix_dedup (fun l => rev l) ix_g) = [ix_a; ix_a].
Proof. split; [exact ix_h_reaches|]. vm_compute. repeat split. Qed.
