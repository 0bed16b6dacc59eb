(** The statements of PropsGraph.v, assembled from the lemmas. *)
From Verif Require Import StrFacts LiteralProofs TermProofs ReifyProofs GraphSpec GraphProofs SimplifyProofs SkolemProofs.

Lemma c20_refines g ops : g_wf g -> Forall g_op_ok ops -> Forall not_remove_all_for ops ->
  let g' := g_run g ops in
  let c := bag_run (g_is_unique g) ops (fun y => occurs y (g_list g)) in
  (forall ho x, hash_order ho -> occurs x (g_iter ho g') = c x) /\
  (forall st, g_contains g' st = true <-> (0 < c st)%nat) /\
  (g_is_empty g' = true <-> forall x, c x = 0%nat) /\
  (forall l, (forall x, occurs x l = c x) -> g_len g' = length l).
Proof.
  intros W K N g' c. destruct (g_run_spec ops g W K) as (_ & _ & _ & _ & F). specialize (F N). fold g' c in F.
  split; [|split; [|split]].
  - intros ho x Ho. rewrite <- F. apply occurs_perm, g_iter_perm, Ho.
  - intros st. rewrite contains_spec, <- occurs_In, F. reflexivity.
  - unfold g_is_empty. destruct (g_list g') as [|y l] eqn:E.
    + split; auto. intros _ x. rewrite <- F. reflexivity.
    + split; [discriminate|]. intros H. specialize (F y). rewrite H in F. cbn in F. rewrite st_eqb_refl in F. discriminate.
  - intros l H. unfold g_len. apply Permutation_length, occurs_perm. intros x. rewrite F, H. reflexivity.
Qed.

Lemma c21_invariant g ops : g_wf g -> Forall g_op_ok ops ->
  g_is_unique (g_run g ops) = g_is_unique g /\
  (g_is_unique g = true -> forall ho, hash_order ho -> NoDup (g_iter ho (g_run g ops))) /\
  g_name (g_run g ops) = name_run ops (g_name g) /\
  g_mappings (g_run g ops) = mappings_run ops (g_mappings g) /\
  g_wf (g_run g ops).
Proof.
  intros W K. destruct (g_run_spec ops g W K) as (A & B & C & D & _).
  split; auto. split; auto. intros U ho Ho.
  assert (N : NoDup (g_list (g_run g ops))).
  { rewrite <- B in U. unfold g_is_unique, g_wf, g_list in *. destruct (g_statements (g_run g ops)); auto. discriminate. }
  eapply Permutation_NoDup; [apply Permutation_sym, g_iter_perm, Ho|exact N].
Qed.

Lemma c21_initial : g_wf g_default /\ g_wf g_unique /\ (forall n, g_wf (g_named n) /\ g_wf (g_unique_named n)) /\
  (forall l, g_wf (g_from_iter l)) /\
  g_is_unique g_default = false /\ g_is_unique g_unique = true /\
  (forall n, g_is_unique (g_named n) = false /\ g_is_unique (g_unique_named n) = true).
Proof. repeat split; constructor. Qed.
Lemma c21_started n l :
  (forall g, In g [g_default; g_unique; g_named n; g_unique_named n] -> g_list g = []) /\ g_list (g_from_iter l) = l /\
  (forall g, In g [g_default; g_unique; g_from_iter l] -> g_is_named g = false /\ g_name g = None) /\
  (forall g, In g [g_named n; g_unique_named n] -> g_is_named g = true /\ g_name g = Some n) /\
  (forall g, In g [g_default; g_unique; g_named n; g_unique_named n; g_from_iter l] -> forall p i, In (p, i) (g_mappings g) <->
     In (p, i) [($"rdf:", rdf []); ($"rdfs:", $"http://www.w3.org/2000/01/rdf-schema#");
                ($"xsd:", xsd []); ($"owl:", $"http://www.w3.org/2002/07/owl#")]).
Proof.
  split; [intros g [<- | [<- | [<- | [<- | []]]]]; reflexivity|]. split; [reflexivity|].
  split; [intros g [<- | [<- | [<- | []]]]; split; reflexivity|]. split; [intros g [<- | [<- | []]]; split; reflexivity|].
  intros g H p i. assert (E : g_mappings g = default_mappings) by (destruct H as [<- | [<- | [<- | [<- | [<- | []]]]]]; reflexivity).
  rewrite E. change (rdf []) with $"http://www.w3.org/1999/02/22-rdf-syntax-ns#". change (xsd []) with $"http://www.w3.org/2001/XMLSchema#".
  unfold default_mappings. cbn [In]. tauto.
Qed.
Lemma c21_named g ops : g_wf g -> Forall g_op_ok ops -> (g_is_named (g_run g ops) = true <-> exists n, name_run ops (g_name g) = Some n).
Proof.
  intros W F. destruct (c21_invariant g ops W F) as (_ & _ & E & _). unfold g_is_named. rewrite E.
  destruct (name_run ops (g_name g)) as [n|]; split; intros H; try discriminate; eauto. destruct H. discriminate.
Qed.

Lemma c22_dedup ho g g' d : hash_order ho -> g_wf g -> g_dedup ho g = (g', d) ->
  (forall x, occurs x (g_list g') = Nat.min (occurs x (g_list g)) 1) /\
  Permutation (g_list g' ++ d) (g_list g) /\
  (g_is_unique g = true -> g' = g /\ d = []) /\
  g_is_unique g' = g_is_unique g /\ g_name g' = g_name g /\ g_mappings g' = g_mappings g /\
  (forall ho', hash_order ho' -> snd (g_dedup ho' g') = [] /\ Permutation (g_list (fst (g_dedup ho' g'))) (g_list g')).
Proof.
  intros Ho W E. unfold g_dedup in E. destruct (g_statements g) as [vs|vs] eqn:S.
  - injection E as <- <-. unfold g_list, g_wf, g_is_unique in *. rewrite S in *. rewrite app_nil_r.
    split; [intros x; pose proof (proj1 (occurs_NoDup vs) W x); lia|]. split; auto. split; auto. split; auto. split; auto. split; auto.
    intros ho' Ho'. unfold g_dedup. rewrite S. cbn [fst snd]. rewrite S. auto.
  - destruct (dedup_fold vs) as [k dd] eqn:D. injection E as <- <-.
    destruct (dedup_spec vs k dd D) as (A & B & C & F).
    unfold g_list, g_is_unique, g_set_statements. cbn [g_statements g_name g_mappings]. rewrite S.
    assert (OK : forall x, occurs x (ho k) = occurs x k) by (intros x; apply occurs_perm, Ho).
    split; [intros x; rewrite OK; apply F|].
    split; [transitivity (k ++ dd); [apply Permutation_app_tail, Ho|exact C]|].
    split; [discriminate|]. split; auto. split; auto. split; auto.
    intros ho' Ho'. unfold g_dedup. cbn [g_statements].
    destruct (dedup_fold (ho k)) as [k2 d2] eqn:D2. cbn [fst snd g_set_statements g_statements].
    destruct (dedup_spec _ _ _ D2) as (A2 & B2 & C2 & F2).
    assert (KK : Permutation k2 (ho k)).
    { apply occurs_perm. intros x. rewrite F2, OK. pose proof (proj1 (occurs_NoDup k) A x). lia. }
    split.
    + apply Permutation_length in C2. rewrite app_length, (Permutation_length KK) in C2. destruct d2; auto. cbn in C2. lia.
    + transitivity k2; auto.
Qed.

Lemma filter_perm {A} (f : A -> bool) l l' : Permutation l l' -> Permutation (filter f l) (filter f l').
Proof.
  induction 1; cbn; auto.
  - destruct (f x); auto.
  - destruct (f x), (f y); auto. constructor.
  - eapply perm_trans; eauto.
Qed.

Lemma c23_exact ho g s g' d : hash_order ho -> g_wf g -> g_remove_all_for ho g s = (g', d) ->
  (forall st, In st (g_list g') <-> In st (g_list g) /\ st_subject st = s) /\
  (forall st, In st d <-> In st (g_list g) /\ st_subject st <> s) /\
  Permutation (g_list g' ++ d) (g_list g) /\
  g_is_unique g' = g_is_unique g /\ g_name g' = g_name g /\ g_mappings g' = g_mappings g.
Proof.
  intros Ho W E. pose proof (remove_all_for_spec ho g s Ho W) as H. rewrite E in H.
  destruct H as (_ & U & N & M & P & Q).
  assert (IN : forall st l, In st (filter (fun st => subj_eqb (st_subject st) s) l) <-> In st l /\ st_subject st = s).
  { intros st l. rewrite filter_In, subj_eqb_eq. tauto. }
  assert (OUT : forall st l, In st (filter (fun st => negb (subj_eqb (st_subject st) s)) l) <-> In st l /\ st_subject st <> s).
  { intros st l. rewrite filter_In, negb_true_iff. rewrite <- (subj_eqb_eq (st_subject st) s).
    destruct (subj_eqb (st_subject st) s); intuition congruence. }
  split; [|split; [|split; [|auto]]].
  - intros st. rewrite <- IN. split; apply Permutation_in; auto using Permutation_sym.
  - intros st. rewrite <- OUT. split; apply Permutation_in; auto using Permutation_sym.
  - transitivity (filter (fun st => subj_eqb (st_subject st) s) (g_list g) ++
      filter (fun st => negb (subj_eqb (st_subject st) s)) (g_list g)); [apply Permutation_app; auto|].
    clear. induction (g_list g) as [|x l IH]; cbn; auto.
    destruct (subj_eqb (st_subject x) s); cbn.
    + constructor. exact IH.
    + apply Permutation_sym, Permutation_cons_app, Permutation_sym, IH.
Qed.

Lemma c24_matches g s p o :
  NoDup (g_matches g s p o) /\
  forall st, In st (g_matches g s p o) <->
    In st (g_list g) /\ agrees s p o st /\ s <> None /\ p <> None /\ o <> None.
Proof. split; [apply hs_from_iter_NoDup, st_eqb_eq|apply matches_spec]. Qed.

Lemma c24_absent g s p o : s = None \/ p = None \/ o = None -> g_matches g s p o = [].
Proof.
  intros H. destruct (g_matches g s p o) as [|x l] eqn:E; auto. exfalso.
  assert (K : In x (g_matches g s p o)) by (rewrite E; left; auto). apply matches_spec in K. intuition.
Qed.

Lemma c25_projections g :
  (forall s, In s (g_subjects g) <-> exists p o, In (MkStmt s p o) (g_list g)) /\
  (forall s, In s (g_node_subjects g) <-> (exists p o, In (MkStmt s p o) (g_list g)) /\ forall b, s <> SBlank b) /\
  (forall s, In s (g_blank_node_subjects g) <-> (exists p o, In (MkStmt s p o) (g_list g)) /\ exists b, s = SBlank b) /\
  (forall p, In p (g_predicates g) <-> exists s o, In (MkStmt s p o) (g_list g)) /\
  (forall s p, In p (g_predicates_for g s) <-> exists o, In (MkStmt s p o) (g_list g)) /\
  (forall o, In o (g_objects g) <-> exists s p, In (MkStmt s p o) (g_list g)) /\
  (forall s p o, In o (g_objects_for g s p) <-> In (MkStmt s p o) (g_list g)) /\
  (forall s, g_contains_subject g s = true <-> In s (g_subjects g)).
Proof.
  split; [apply subjects_spec|]. split; [apply node_subjects_spec|]. split; [apply blank_node_subjects_spec|].
  split; [apply predicates_spec|]. split; [apply predicates_for_spec|]. split; [apply objects_spec|].
  split; [apply objects_for_spec|]. intros s. rewrite contains_subject_spec, subjects_spec. reflexivity.
Qed.

Lemma c25_enumerate g s p o :
  In (MkStmt s p o) (g_list g) <->
  In s (g_subjects g) /\ In p (g_predicates_for g s) /\ In o (g_objects_for g s p).
Proof.
  rewrite subjects_spec, predicates_for_spec, objects_for_spec. split; [|tauto]. eauto 10.
Qed.

Lemma c26_contains g ho : hash_order ho ->
  (forall st, g_contains g st = true <-> In st (g_iter ho g)) /\
  (forall s p o, g_contains_all g s p o = true <-> In (MkStmt s p o) (g_iter ho g)).
Proof.
  intros Ho. split; intros; rewrite g_iter_In by auto; [apply contains_spec|apply contains_all_spec].
Qed.

Lemma c27_counts genid ho g g' : hash_order ho -> g_skolemize genid ho g = Some g' ->
  (forall j k i, genid j = Some i -> genid k = Some i -> j = k) ->
  g_len g' = g_len g /\ forall st, In st (g_list g') -> top_labels st = [].
Proof.
  intros Ho E I. destruct (skolemize_spec genid ho g g' Ho E I) as (r & -> & _ & _ & _).
  unfold g_len, g_list. cbn [g_statements]. split.
  - rewrite map_length. apply Permutation_length, g_iter_perm, Ho.
  - intros st H. apply in_map_iff in H as (x & <- & _). destruct x as [s p o]. destruct s, o; reflexivity.
Qed.

Lemma c39_features g f : g_supports_feature g f = true <->
  (f = feature_duplicates /\ g_is_unique g = true) \/ f = feature_rdf_star.
Proof. unfold g_supports_feature. rewrite orb_true_iff, andb_true_iff, !str_eqb_eq. tauto. Qed.

Lemma c39_keeps_duplicates g st : g_wf g ->
  (g_is_unique g = false <-> g_len (g_insert (g_insert g st) st) = S (S (g_len g))).
Proof.
  intros W. unfold g_is_unique, g_len, g_list, g_insert, g_set_statements, g_wf in *.
  destruct (g_statements g) as [vs|vs]; cbn.
  - split; [discriminate|]. intros H. exfalso.
    assert (K : forall l, (length (hs_insert st_eqb l st) <= S (length l))%nat).
    { intros l. unfold hs_insert. destruct (hs_mem st_eqb st l); [lia|]. rewrite app_length. cbn. lia. }
    pose proof (K vs). assert (M : hs_mem st_eqb st (hs_insert st_eqb vs st) = true).
    { apply (hs_mem_In _ st_eqb_eq), (hs_insert_In _ st_eqb_eq). auto. }
    unfold hs_insert at 1 in H. rewrite M in H. lia.
  - split; auto. intros _. rewrite !app_length. cbn. lia.
Qed.

Lemma c39_terms f : (st_supports_feature f = true <-> f = feature_rdf_star \/ f = feature_object_collections) /\
  (obj_supports_feature f = true <-> f = feature_rdf_star \/ f = feature_object_collections) /\
  (subj_supports_feature f = true <-> f = feature_rdf_star).
Proof.
  unfold st_supports_feature, obj_supports_feature, subj_supports_feature. rewrite !orb_true_iff, !str_eqb_eq. tauto.
Qed.

Lemma c39_inverted g st : g_wf g ->
  (g_supports_feature g feature_duplicates = true <->
   g_len (g_insert (g_insert g st) st) <> S (S (g_len g))).
Proof.
  intros W. rewrite <- c39_keeps_duplicates, c39_features by auto. split.
  - intros [[_ H]|H]; [congruence|discriminate H].
  - intros H. left. split; auto. destruct (g_is_unique g); congruence.
Qed.
