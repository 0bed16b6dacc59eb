From Verif Require Import StrFacts LiteralProofs TermProofs ReifyProofs GraphSpec.

(** ** HashSet facts *)

Section HS.
Context {A : Type} (eqb : A -> A -> bool).
Hypothesis E : forall a b, eqb a b = true <-> a = b.

Lemma hs_mem_In x l : hs_mem eqb x l = true <-> In x l.
Proof.
  unfold hs_mem. rewrite existsb_exists. split.
  - intros (y & H & K). apply E in K. subst. exact H.
  - intros H. exists x. split; auto. apply E. reflexivity.
Qed.
Lemma hs_mem_false x l : hs_mem eqb x l = false <-> ~ In x l.
Proof. rewrite <- hs_mem_In. destruct (hs_mem eqb x l); split; congruence. Qed.

Lemma hs_insert_In l x y : In y (hs_insert eqb l x) <-> y = x \/ In y l.
Proof.
  unfold hs_insert. destruct (hs_mem eqb x l) eqn:M.
  - apply hs_mem_In in M. split; auto. intros [->|H]; auto.
  - rewrite in_app_iff. cbn. intuition.
Qed.
Lemma NoDup_snoc (l : list A) x : NoDup l -> ~ In x l -> NoDup (l ++ [x]).
Proof.
  intros H N. apply NoDup_rev in H. rewrite <- (rev_involutive (l ++ [x])). apply NoDup_rev.
  rewrite rev_app_distr. cbn. constructor; auto. rewrite <- in_rev. exact N.
Qed.
Lemma hs_insert_NoDup l x : NoDup l -> NoDup (hs_insert eqb l x).
Proof.
  intros H. unfold hs_insert. destruct (hs_mem eqb x l) eqn:M; auto.
  apply NoDup_snoc; auto. apply hs_mem_false, M.
Qed.
Lemma hs_extend_In xs : forall l y, In y (hs_extend eqb l xs) <-> In y xs \/ In y l.
Proof.
  unfold hs_extend. induction xs as [|x xs IH]; intros l y; cbn; [tauto|].
  rewrite IH, hs_insert_In. intuition.
Qed.
Lemma hs_extend_NoDup xs : forall l, NoDup l -> NoDup (hs_extend eqb l xs).
Proof. unfold hs_extend. induction xs as [|x xs IH]; intros l H; cbn; auto. apply IH, hs_insert_NoDup, H. Qed.
Lemma hs_from_iter_In xs y : In y (hs_from_iter eqb xs) <-> In y xs.
Proof. unfold hs_from_iter. rewrite hs_extend_In. cbn. tauto. Qed.
Lemma hs_from_iter_NoDup xs : NoDup (hs_from_iter eqb xs).
Proof. apply hs_extend_NoDup. constructor. Qed.
Lemma hs_remove_In x l y : In y (hs_remove eqb x l) <-> In y l /\ y <> x.
Proof.
  unfold hs_remove. rewrite filter_In. destruct (eqb x y) eqn:K; cbn.
  - apply E in K. subst. intuition congruence.
  - split; intros [H1 H2]; split; auto. intros ->. assert (eqb x x = true) by (apply E; reflexivity). congruence.
Qed.
End HS.

(** ** Multiplicities *)

Lemma occurs_count x l : occurs x l = count_occ st_eq_dec l x.
Proof.
  induction l as [|y l IH]; auto. cbn [occurs count_occ]. rewrite IH.
  destruct (st_eqb x y) eqn:E.
  - apply st_eqb_eq in E. subst. destruct (st_eq_dec y y); [reflexivity|congruence].
  - destruct (st_eq_dec y x); [|reflexivity]. subst. rewrite st_eqb_refl in E. discriminate.
Qed.
Lemma occurs_app x a b : occurs x (a ++ b) = (occurs x a + occurs x b)%nat.
Proof. induction a as [|y a IH]; auto. cbn [occurs app]. rewrite IH. lia. Qed.
Lemma occurs_perm a b : Permutation a b <-> (forall x, occurs x a = occurs x b).
Proof.
  rewrite (Permutation_count_occ st_eq_dec). split; intros H x; specialize (H x); rewrite !occurs_count in *; auto.
Qed.
Lemma occurs_In x l : (0 < occurs x l)%nat <-> In x l.
Proof. rewrite occurs_count. symmetry. apply (count_occ_In st_eq_dec). Qed.
Lemma occurs_notin x l : occurs x l = 0%nat <-> ~ In x l.
Proof. rewrite <- occurs_In. lia. Qed.
Lemma occurs_NoDup l : NoDup l <-> (forall x, (occurs x l <= 1)%nat).
Proof.
  rewrite (NoDup_count_occ st_eq_dec). split; intros H x; specialize (H x); rewrite occurs_count in *; auto.
Qed.
Lemma occurs_nil l : l = [] <-> (forall x, occurs x l = 0%nat).
Proof.
  split; [intros -> x; reflexivity|]. destruct l as [|y l]; auto. intros H. specialize (H y). cbn in H.
  rewrite st_eqb_refl in H. discriminate.
Qed.
Lemma NoDup_occurs_In l x : NoDup l -> occurs x l = if hs_mem st_eqb x l then 1%nat else 0%nat.
Proof.
  intros H. destruct (hs_mem st_eqb x l) eqn:M.
  - apply (hs_mem_In _ st_eqb_eq) in M. apply occurs_In in M. apply (proj1 (occurs_NoDup l)) with (x := x) in H. lia.
  - apply (hs_mem_false _ st_eqb_eq) in M. apply occurs_notin, M.
Qed.

Lemma hs_insert_occurs l x y : NoDup l ->
  occurs y (hs_insert st_eqb l x) = Nat.min (occurs y l + occurs y [x]) 1.
Proof.
  intros H. pose proof (proj1 (occurs_NoDup l) H y). unfold hs_insert.
  destruct (hs_mem st_eqb x l) eqn:M.
  - cbn [occurs]. destruct (st_eqb y x) eqn:K; [|lia]. apply st_eqb_eq in K. subst.
    apply (hs_mem_In _ st_eqb_eq) in M. apply occurs_In in M. lia.
  - rewrite occurs_app. cbn [occurs]. destruct (st_eqb y x) eqn:K; [|lia]. apply st_eqb_eq in K. subst.
    apply (hs_mem_false _ st_eqb_eq) in M. apply occurs_notin in M. lia.
Qed.
Lemma hs_extend_occurs xs : forall l y, NoDup l ->
  occurs y (hs_extend st_eqb l xs) = Nat.min (occurs y l + occurs y xs) 1.
Proof.
  induction xs as [|x xs IH]; intros l y H.
  - cbn. pose proof (proj1 (occurs_NoDup l) H y). lia.
  - change (hs_extend st_eqb l (x :: xs)) with (hs_extend st_eqb (hs_insert st_eqb l x) xs).
    rewrite IH by (apply hs_insert_NoDup; auto using st_eqb_eq). rewrite hs_insert_occurs by auto.
    cbn [occurs]. lia.
Qed.
Lemma occurs_filter_neq st l x :
  occurs x (filter (fun e => negb (st_eqb e st)) l) = if st_eqb x st then 0%nat else occurs x l.
Proof.
  induction l as [|y l IH]; cbn [filter occurs]; [destruct (st_eqb x st); reflexivity|].
  destruct (st_eqb y st) eqn:K; cbn [negb].
  - apply st_eqb_eq in K. subst. rewrite IH. destruct (st_eqb x st); reflexivity.
  - cbn [occurs]. rewrite IH. destruct (st_eqb x st) eqn:K2; [|reflexivity].
    apply st_eqb_eq in K2. subst. destruct (st_eqb st y) eqn:K3; [|reflexivity].
    apply st_eqb_eq in K3. subst. rewrite st_eqb_refl in K. discriminate.
Qed.
Lemma st_eqb_sym a b : st_eqb a b = st_eqb b a.
Proof.
  destruct (st_eqb a b) eqn:K1, (st_eqb b a) eqn:K2; auto.
  - apply st_eqb_eq in K1. subst. rewrite st_eqb_refl in K2. discriminate.
  - apply st_eqb_eq in K2. subst. rewrite st_eqb_refl in K1. discriminate.
Qed.
Lemma hs_remove_filter st l : hs_remove st_eqb st l = filter (fun e => negb (st_eqb e st)) l.
Proof. unfold hs_remove. apply filter_ext. intros a. rewrite st_eqb_sym. reflexivity. Qed.
Lemma occurs_filter_le f x l : (occurs x (filter f l) <= occurs x l)%nat.
Proof. induction l as [|y l IH]; cbn [filter]; auto. destruct (f y); cbn [occurs]; lia. Qed.

(** ** One step *)

Lemma g_iter_perm ho g : hash_order ho -> Permutation (g_iter ho g) (g_list g).
Proof. intros H. unfold g_iter, g_list. destruct (g_statements g); auto. Qed.

Lemma g_iter_In ho g x : hash_order ho -> In x (g_iter ho g) <-> In x (g_list g).
Proof.
  intros H. pose proof (g_iter_perm ho g H) as P. split; intros K.
  - exact (Permutation_in x P K).
  - exact (Permutation_in x (Permutation_sym P) K).
Qed.

Lemma merge_fold l : forall g, g_wf g ->
  let g' := fold_left g_insert l g in
  g_wf g' /\ g_is_unique g' = g_is_unique g /\ g_name g' = g_name g /\ g_mappings g' = g_mappings g /\
  (forall x, occurs x (g_list g') = cap (g_is_unique g) (occurs x (g_list g) + occurs x l)).
Proof.
  induction l as [|st l IH]; intros g H; cbn [fold_left].
  - split; [|split; [|split; [|split]]]; auto. intros x. cbn. unfold g_wf, g_is_unique, g_list in *.
    destruct (g_statements g); cbn; [|lia]. pose proof (proj1 (occurs_NoDup vs) H x). lia.
  - assert (W : g_wf (g_insert g st)).
    { unfold g_wf, g_insert, g_set_statements in *. destruct (g_statements g); cbn; auto.
      apply hs_insert_NoDup; auto using st_eqb_eq. }
    destruct (IH _ W) as (A & B & C & D & F). split; [exact A|].
    assert (U : g_is_unique (g_insert g st) = g_is_unique g).
    { unfold g_is_unique, g_insert, g_set_statements. destruct (g_statements g); reflexivity. }
    split; [congruence|]. split; [rewrite C; reflexivity|]. split; [rewrite D; reflexivity|].
    intros x. rewrite F, U. unfold g_wf, g_is_unique, g_list, g_insert, g_set_statements in *.
    destruct (g_statements g); cbn [g_statements cap].
    + rewrite hs_insert_occurs by auto. cbn [occurs]. lia.
    + rewrite occurs_app. cbn [occurs]. lia.
Qed.

Lemma dedup_fold_spec l : forall keep discard k d,
  fold_left (fun acc st =>
    let '(keep, discard) := acc in
    if hs_mem st_eqb st keep then (keep, discard ++ [st]) else (hs_insert st_eqb keep st, discard))
    l (keep, discard) = (k, d) ->
  NoDup keep ->
  NoDup k /\ (forall x, In x k <-> In x keep \/ In x l) /\
  (forall x, (occurs x k + occurs x d = occurs x keep + occurs x discard + occurs x l)%nat).
Proof.
  induction l as [|st l IH]; intros keep discard k d H N; cbn [fold_left] in H.
  - injection H as <- <-. split; auto. split; [cbn; tauto|]. intros x. cbn. lia.
  - destruct (hs_mem st_eqb st keep) eqn:M.
    + destruct (IH _ _ _ _ H N) as (A & B & C). split; auto. apply (hs_mem_In _ st_eqb_eq) in M. split.
      * intros x. rewrite B. cbn. intuition congruence.
      * intros x. rewrite C, occurs_app. cbn [occurs]. lia.
    + apply IH in H; [|apply hs_insert_NoDup; auto using st_eqb_eq]. destruct H as (A & B & C). split; auto. split.
      * intros x. rewrite B, (hs_insert_In _ st_eqb_eq). cbn. intuition congruence.
      * intros x. rewrite C. unfold hs_insert. rewrite M, occurs_app. cbn [occurs]. lia.
Qed.

Lemma dedup_spec l k d : dedup_fold l = (k, d) ->
  NoDup k /\ (forall x, In x k <-> In x l) /\ Permutation (k ++ d) l /\
  (forall x, occurs x k = Nat.min (occurs x l) 1).
Proof.
  intros H. apply dedup_fold_spec in H; [|constructor]. destruct H as (A & B & C).
  assert (B' : forall x, In x k <-> In x l) by (intros x; rewrite B; cbn; tauto).
  split; auto. split; auto. split.
  - apply occurs_perm. intros x. rewrite occurs_app, C. cbn. lia.
  - intros x. pose proof (proj1 (occurs_NoDup k) A x).
    destruct (occurs x l) as [|m] eqn:K.
    + apply occurs_notin. rewrite B'. apply occurs_notin, K.
    + assert (Hin : In x l) by (apply occurs_In; lia). apply B', occurs_In in Hin. lia.
Qed.

Lemma rm_fold s l : forall keep discard,
  fold_left (fun acc st =>
      let '(keep, discard) := acc in
      if subj_eqb (st_subject st) s then (keep ++ [st], discard) else (keep, discard ++ [st]))
      l (keep, discard) =
  (keep ++ filter (fun st => subj_eqb (st_subject st) s) l,
   discard ++ filter (fun st => negb (subj_eqb (st_subject st) s)) l).
Proof.
  induction l as [|st l IH]; intros keep discard; cbn [fold_left filter]; [rewrite !app_nil_r; reflexivity|].
  destruct (subj_eqb (st_subject st) s); cbn [negb]; rewrite IH, <- app_assoc; reflexivity.
Qed.

Lemma hs_from_iter_NoDup_id l : NoDup l -> hs_from_iter st_eqb l = l.
Proof.
  unfold hs_from_iter. intros H.
  assert (G : forall acc, NoDup (acc ++ l) -> hs_extend st_eqb acc l = acc ++ l).
  { induction l as [|x l IH]; intros acc N; [cbn; rewrite app_nil_r; reflexivity|].
    cbn [hs_extend fold_left]. unfold hs_insert at 2. destruct (hs_mem st_eqb x acc) eqn:M.
    - exfalso. apply (hs_mem_In _ st_eqb_eq) in M. apply NoDup_remove_2 in N. apply N, in_or_app. auto.
    - inversion H; subst. specialize (IH H3 (acc ++ [x])). unfold hs_extend in IH. rewrite IH; rewrite <- app_assoc; auto. }
  apply (G [] H).
Qed.

Lemma remove_all_for_spec ho g s : hash_order ho -> g_wf g ->
  let '(g', discard) := g_remove_all_for ho g s in
  g_wf g' /\ g_is_unique g' = g_is_unique g /\ g_name g' = g_name g /\ g_mappings g' = g_mappings g /\
  Permutation (g_list g') (filter (fun st => subj_eqb (st_subject st) s) (g_list g)) /\
  Permutation discard (filter (fun st => negb (subj_eqb (st_subject st) s)) (g_list g)).
Proof.
  intros Ho W. unfold g_remove_all_for. rewrite rm_fold. cbn [app].
  pose proof (g_iter_perm ho g Ho) as P.
  assert (PF : forall f, Permutation (filter f (g_iter ho g)) (filter f (g_list g))).
  { intros f. clear -P. induction P; cbn [filter]; auto.
    - destruct (f x); auto.
    - destruct (f x), (f y); auto. constructor.
    - eapply perm_trans; eauto. }
  unfold g_wf, g_is_unique, g_list, g_set_statements in *. destruct (g_statements g) as [vs|vs] eqn:S; cbn.
  - assert (N : NoDup (filter (fun st => subj_eqb (st_subject st) s) (g_iter ho g))).
    { apply NoDup_filter. eapply Permutation_NoDup; [apply Permutation_sym, P|exact W]. }
    rewrite hs_from_iter_NoDup_id by auto. auto 10.
  - auto 10.
Qed.

Lemma g_step_spec g op : g_wf g -> g_op_ok op ->
  g_wf (g_step g op) /\ g_is_unique (g_step g op) = g_is_unique g /\
  g_name (g_step g op) = name_run [op] (g_name g) /\
  g_mappings (g_step g op) = mappings_run [op] (g_mappings g) /\
  (not_remove_all_for op -> forall x,
     occurs x (g_list (g_step g op)) = bag_step (g_is_unique g) op (fun y => occurs y (g_list g)) x).
Proof.
  intros W K. destruct op; cbn [g_step name_run mappings_run fold_left not_remove_all_for].
  - destruct (merge_fold [st] g W) as (A & B & C & D & F). cbn [fold_left] in *. auto 10.
  - assert (H : g_wf (g_extend g l) /\ forall x, occurs x (g_list (g_extend g l)) =
        cap (g_is_unique g) (occurs x (g_list g) + occurs x l)).
    { unfold g_wf, g_extend, g_is_unique, g_list, g_set_statements in *. destruct (g_statements g); cbn.
      - split; [apply hs_extend_NoDup; auto using st_eqb_eq|]. intros x. apply hs_extend_occurs, W.
      - split; auto. intros x. apply occurs_app. }
    destruct H as [H1 H2]. split; auto. split; [|split; [|split]]; auto.
    unfold g_extend, g_is_unique, g_set_statements. destruct (g_statements g); reflexivity.
  - destruct K as [Ho Wo]. unfold g_merge.
    destruct (merge_fold (g_iter ho other) g W) as (A & B & C & D & F).
    repeat (split; [assumption|]). intros _ x. rewrite F. cbn [bag_step]. f_equal. f_equal.
    apply occurs_perm, g_iter_perm, Ho.
  - unfold g_dedup. destruct (g_statements g) as [vs|vs] eqn:S.
    + cbn [fst]. repeat (split; [auto|]). intros _ x. cbn [bag_step].
      unfold g_wf, g_list in *. rewrite S in *. pose proof (proj1 (occurs_NoDup vs) W x). lia.
    + destruct (dedup_fold vs) as [k d] eqn:D. apply dedup_spec in D as (A & B & C & F). cbn [fst].
      unfold g_wf, g_is_unique, g_list, g_set_statements. rewrite S. cbn.
      repeat (split; [auto|]). intros _ x. rewrite <- F. apply occurs_perm, K.
  - assert (H : g_wf (g_remove g st) /\ forall x, occurs x (g_list (g_remove g st)) =
        if st_eqb x st then 0%nat else occurs x (g_list g)).
    { unfold g_wf, g_remove, g_is_unique, g_list, g_set_statements in *. destruct (g_statements g); cbn.
      - rewrite hs_remove_filter. split; [apply NoDup_filter, W|]. intros x. apply occurs_filter_neq.
      - split; auto. intros x. apply occurs_filter_neq. }
    destruct H as [H1 H2]. split; auto. split; [|split; [|split]]; auto.
    unfold g_remove, g_is_unique, g_set_statements. destruct (g_statements g); reflexivity.
  - pose proof (remove_all_for_spec ho g s K W) as H.
    destruct (g_remove_all_for ho g s) as [g' d]. cbn [fst]. destruct H as (A & B & C & D & _).
    repeat (split; [auto|]). contradiction.
  - unfold g_wf, g_clear, g_is_unique, g_list, g_set_statements in *. destruct (g_statements g); cbn;
      (split; [constructor|]); repeat (split; [auto|]); auto.
  - unfold g_wf, g_with_statements, g_is_unique, g_list in *. destruct (g_statements g); cbn.
    + split; [apply hs_from_iter_NoDup; auto using st_eqb_eq|]. repeat (split; [auto|]). intros _ x.
      unfold hs_from_iter. rewrite hs_extend_occurs by constructor. cbn. reflexivity.
    + repeat (split; [auto|]). auto.
  - repeat (split; [auto|]). intros _ x. reflexivity.
  - repeat (split; [auto|]). intros _ x. reflexivity.
  - repeat (split; [auto|]). intros _ x. reflexivity.
Qed.

Lemma bag_step_ext u op c d : (forall x, c x = d x) -> forall x, bag_step u op c x = bag_step u op d x.
Proof. intros H x. destruct op; cbn; rewrite ?H; reflexivity. Qed.
Lemma bag_run_ext u ops : forall c d, (forall x, c x = d x) -> forall x, bag_run u ops c x = bag_run u ops d x.
Proof.
  induction ops as [|op ops IH]; intros c d H x; auto. cbn [bag_run fold_left].
  apply (IH _ _ (bag_step_ext u op c d H)).
Qed.

Lemma g_run_spec ops : forall g, g_wf g -> Forall g_op_ok ops ->
  g_wf (g_run g ops) /\ g_is_unique (g_run g ops) = g_is_unique g /\
  g_name (g_run g ops) = name_run ops (g_name g) /\
  g_mappings (g_run g ops) = mappings_run ops (g_mappings g) /\
  (Forall not_remove_all_for ops -> forall x,
     occurs x (g_list (g_run g ops)) = bag_run (g_is_unique g) ops (fun y => occurs y (g_list g)) x).
Proof.
  induction ops as [|op ops IH]; intros g W K.
  - repeat (split; [auto|]). auto.
  - inversion K; subst. destruct (g_step_spec g op W H1) as (A & B & C & D & F).
    destruct (IH (g_step g op) A H2) as (A' & B' & C' & D' & F').
    change (g_run g (op :: ops)) with (g_run (g_step g op) ops).
    split; auto. split; [congruence|]. split; [rewrite C', C; reflexivity|]. split; [rewrite D', D; reflexivity|].
    intros N x. inversion N; subst. rewrite F' by auto. rewrite B. cbn [bag_run fold_left].
    apply bag_run_ext. intros y. apply F; auto.
Qed.

(** ** Queries *)

Lemma matches_all_given g s p o st :
  In st (g_matches g (Some s) (Some p) (Some o)) <-> st = MkStmt s p o /\ In st (g_list g).
Proof.
  unfold g_matches. rewrite (hs_from_iter_In _ st_eqb_eq), filter_In, !andb_true_iff, subj_eqb_eq, str_eqb_eq, obj_eqb_eq.
  destruct st as [s' p' o']. cbn. split.
  - intros (H & (-> & ->) & ->). auto.
  - intros [H K]. injection H as -> -> ->. auto.
Qed.

Lemma matches_spec g s p o st :
  In st (g_matches g s p o) <-> In st (g_list g) /\ agrees s p o st /\ s <> None /\ p <> None /\ o <> None.
Proof.
  destruct s as [s|]; [|].
  2:{ split; [|intros (_ & _ & H & _); congruence]. unfold g_matches. rewrite (hs_from_iter_In _ st_eqb_eq), filter_In.
      cbn. intros [_ H]. discriminate. }
  destruct p as [p|]; [|].
  2:{ split; [|intros (_ & _ & _ & H & _); congruence]. unfold g_matches. rewrite (hs_from_iter_In _ st_eqb_eq), filter_In.
      cbn. intros [_ H]. rewrite andb_false_r in H. discriminate. }
  destruct o as [o|]; [|].
  2:{ split; [|intros (_ & _ & _ & _ & H); congruence]. unfold g_matches. rewrite (hs_from_iter_In _ st_eqb_eq), filter_In.
      cbn. intros [_ H]. rewrite andb_false_r in H. discriminate. }
  rewrite matches_all_given. unfold agrees. destruct st as [s' p' o']; cbn. split.
  - intros [H K]. injection H as -> -> ->. repeat split; auto; try congruence.
  - intros (K & (H1 & H2 & H3) & _). split; auto. f_equal; auto.
Qed.

Lemma contains_spec g st : g_contains g st = true <-> In st (g_list g).
Proof.
  unfold g_contains. destruct st as [s p o]. cbn [st_subject st_predicate st_object].
  destruct (g_matches g (Some s) (Some p) (Some o)) as [|x l] eqn:M; cbn; split; intros H; try discriminate; auto.
  - exfalso. assert (K : In (MkStmt s p o) (g_matches g (Some s) (Some p) (Some o))) by (apply matches_all_given; auto).
    rewrite M in K. destruct K.
  - assert (K : In x (g_matches g (Some s) (Some p) (Some o))) by (rewrite M; left; auto).
    apply matches_all_given in K as [-> K]. exact K.
Qed.

Lemma contains_all_spec g s p o : g_contains_all g s p o = true <-> In (MkStmt s p o) (g_list g).
Proof. rewrite <- contains_spec. reflexivity. Qed.

Lemma contains_subject_spec g s : g_contains_subject g s = true <-> exists p o, In (MkStmt s p o) (g_list g).
Proof.
  unfold g_contains_subject. rewrite existsb_exists. split.
  - intros ([s' p o] & H & E). apply subj_eqb_eq in E. cbn in E. subst. eauto.
  - intros (p & o & H). exists (MkStmt s p o). split; auto. apply subj_eqb_eq. reflexivity.
Qed.

Lemma subjects_spec g s : In s (g_subjects g) <-> exists p o, In (MkStmt s p o) (g_list g).
Proof.
  unfold g_subjects. rewrite (hs_from_iter_In _ subj_eqb_eq), in_map_iff. split.
  - intros ([s' p o] & E & H). cbn in E. subst. eauto.
  - intros (p & o & H). exists (MkStmt s p o). auto.
Qed.
Lemma node_subjects_spec g s : In s (g_node_subjects g) <->
  (exists p o, In (MkStmt s p o) (g_list g)) /\ forall b, s <> SBlank b.
Proof.
  unfold g_node_subjects. rewrite (hs_from_iter_In _ subj_eqb_eq), filter_In, subjects_spec.
  destruct s; cbn; split; intros [H K]; split; auto; try discriminate. exfalso. eapply K. reflexivity.
Qed.
Lemma blank_node_subjects_spec g s : In s (g_blank_node_subjects g) <->
  (exists p o, In (MkStmt s p o) (g_list g)) /\ exists b, s = SBlank b.
Proof.
  unfold g_blank_node_subjects. rewrite (hs_from_iter_In _ subj_eqb_eq), filter_In, subjects_spec.
  destruct s; cbn; split; intros [H K]; split; auto; try discriminate; eauto; destruct K; discriminate.
Qed.
Lemma predicates_spec g p : In p (g_predicates g) <-> exists s o, In (MkStmt s p o) (g_list g).
Proof.
  unfold g_predicates. rewrite (hs_from_iter_In _ str_eqb_eq), in_map_iff. split.
  - intros ([s' p' o] & E & H). cbn in E. subst. eauto.
  - intros (s & o & H). exists (MkStmt s p o). auto.
Qed.
Lemma predicates_for_spec g s p : In p (g_predicates_for g s) <-> exists o, In (MkStmt s p o) (g_list g).
Proof.
  unfold g_predicates_for. rewrite (hs_from_iter_In _ str_eqb_eq), in_map_iff. split.
  - intros ([s' p' o] & E & H). apply filter_In in H as [H K]. apply subj_eqb_eq in K. cbn in *. subst. eauto.
  - intros (o & H). exists (MkStmt s p o). split; auto. apply filter_In. split; auto. apply subj_eqb_eq. reflexivity.
Qed.
Lemma objects_spec g o : In o (g_objects g) <-> exists s p, In (MkStmt s p o) (g_list g).
Proof.
  unfold g_objects. rewrite (hs_from_iter_In _ obj_eqb_eq), in_map_iff. split.
  - intros ([s' p' o'] & E & H). cbn in E. subst. eauto.
  - intros (s & p & H). exists (MkStmt s p o). auto.
Qed.
Lemma objects_for_spec g s p o : In o (g_objects_for g s p) <-> In (MkStmt s p o) (g_list g).
Proof.
  unfold g_objects_for. rewrite (hs_from_iter_In _ obj_eqb_eq), in_map_iff. split.
  - intros ([s' p' o'] & E & H). apply filter_In in H as [H K]. apply andb_true_iff in K as [K1 K2].
    apply subj_eqb_eq in K1. apply str_eqb_eq in K2. cbn in *. subst. auto.
  - intros H. exists (MkStmt s p o). split; auto. apply filter_In. split; auto. cbn.
    rewrite subj_eqb_refl, str_eqb_refl. reflexivity.
Qed.
Lemma projections_NoDup g s p : NoDup (g_subjects g) /\ NoDup (g_node_subjects g) /\ NoDup (g_blank_node_subjects g)
  /\ NoDup (g_predicates g) /\ NoDup (g_predicates_for g s) /\ NoDup (g_objects g) /\ NoDup (g_objects_for g s p).
Proof. repeat split; apply hs_from_iter_NoDup; first [apply subj_eqb_eq|apply obj_eqb_eq|apply str_eqb_eq]. Qed.
