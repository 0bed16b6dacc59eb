(** Proofs about the indexed graph (C75-C77). *)
From Coq Require Import Permutation Lia.
From Verif Require Import StrFacts GraphProofs.
From Verif Require Export IndexedSpec.

(** ** Counting *)
Lemma count_app x a b : count x (a ++ b) = (count x a + count x b)%nat.
Proof. apply count_occ_app. Qed.
Lemma count_cons x y l : count x (y :: l) = ((if st_eq_dec x y then 1 else 0) + count x l)%nat.
Proof. unfold count. cbn. destruct (st_eq_dec y x), (st_eq_dec x y); congruence || reflexivity. Qed.
Lemma count_In x l : (0 < count x l)%nat <-> In x l.
Proof. unfold count. rewrite (count_occ_In st_eq_dec). lia. Qed.
Lemma count_not_In x l : count x l = O <-> ~ In x l.
Proof. rewrite <- count_In. lia. Qed.
Lemma count_perm x a b : Permutation a b -> count x a = count x b.
Proof. intros H. apply (proj1 (Permutation_count_occ st_eq_dec a b)), H. Qed.
Lemma count_remove_first x st l :
  count x (remove_first st l) = if st_eq_dec x st then Nat.pred (count x l) else count x l.
Proof.
  induction l as [|y l IH]; cbn [remove_first]; [destruct (st_eq_dec x st); reflexivity|]. destruct (st_eqb y st) eqn:E.
  - apply st_eqb_eq in E. subst y. rewrite count_cons. destruct (st_eq_dec x st); reflexivity.
  - rewrite !count_cons, IH. destruct (st_eq_dec x st) as [->|]; [|reflexivity].
    destruct (st_eq_dec st y) as [<-|]; [rewrite st_eqb_refl in E; discriminate|]. reflexivity.
Qed.

(** ** One index *)
Section Index.
Context {K : Type} (keqb : K -> K -> bool) (key : statement -> K).
Hypothesis keqb_eq : forall a b, keqb a b = true <-> a = b.

Definition at_key (k : K) (m : list (K * list statement)) : list statement :=
  match ix_get keqb k m with Some l => l | None => [] end.
Lemma keqb_refl k : keqb k k = true. Proof. apply keqb_eq. reflexivity. Qed.
Lemma keqb_false a b : keqb a b = false <-> a <> b.
Proof. rewrite <- keqb_eq. destruct (keqb a b); intuition congruence. Qed.

Lemma get_push k k' st m : ix_get keqb k (ix_push keqb k' st m) =
  if keqb k' k then Some (at_key k m ++ [st]) else ix_get keqb k m.
Proof.
  unfold at_key. induction m as [|[k1 l] m IH]; cbn [ix_push ix_get]; [destruct (keqb k' k); reflexivity|].
  destruct (keqb k1 k') eqn:E1.
  - apply keqb_eq in E1. subst k1. cbn [ix_get]. destruct (keqb k' k); reflexivity.
  - cbn [ix_get]. destruct (keqb k1 k) eqn:E2; [|exact IH]. apply keqb_eq in E2. subst k1.
    replace (keqb k' k) with false; [reflexivity|]. symmetry. apply keqb_false. apply keqb_false in E1. congruence.
Qed.
Lemma get_remove k k' st m : ix_get keqb k (ix_remove keqb st k' m) =
  if keqb k' k then option_map (remove_first st) (ix_get keqb k m) else ix_get keqb k m.
Proof.
  induction m as [|[k1 l] m IH]; cbn [ix_remove ix_get]; [destruct (keqb k' k); reflexivity|].
  destruct (keqb k1 k') eqn:E1.
  - apply keqb_eq in E1. subst k1. cbn [ix_get]. destruct (keqb k' k); reflexivity.
  - cbn [ix_get]. destruct (keqb k1 k) eqn:E2; [|exact IH]. apply keqb_eq in E2. subst k1.
    replace (keqb k' k) with false; [reflexivity|]. symmetry. apply keqb_false. apply keqb_false in E1. congruence.
Qed.
Lemma keys_push k' st m k : In k (map fst (ix_push keqb k' st m)) <-> k = k' \/ In k (map fst m).
Proof.
  induction m as [|[k1 l] m IH]; cbn; [intuition congruence|]. destruct (keqb k1 k') eqn:E1; cbn.
  - apply keqb_eq in E1. subst k1. intuition congruence.
  - rewrite IH. intuition congruence.
Qed.
Lemma nodup_push k' st m : NoDup (map fst m) -> NoDup (map fst (ix_push keqb k' st m)).
Proof.
  induction m as [|[k1 l] m IH]; cbn; intros H; [constructor; [intros []|constructor]|]. inversion H as [|? ? H1 H2]; subst.
  destruct (keqb k1 k') eqn:E1; cbn; [constructor; auto|]. constructor; [|auto]. rewrite keys_push. intros [->|I]; [|auto].
  rewrite keqb_refl in E1. discriminate.
Qed.
Lemma keys_remove st k' m : map fst (ix_remove keqb st k' m) = map fst m.
Proof. induction m as [|[k1 l] m IH]; cbn; [reflexivity|]. destruct (keqb k1 k'); cbn; congruence. Qed.
Lemma get_keys k m : ix_get keqb k m <> None <-> In k (map fst m).
Proof.
  induction m as [|[k1 l] m IH]; cbn; [intuition congruence|]. destruct (keqb k1 k) eqn:E.
  - apply keqb_eq in E. split; [auto|discriminate].
  - rewrite IH. apply keqb_false in E. intuition congruence.
Qed.

(** What the index finds, as a function of a bag. *)
Definition finds_bag (m : list (K * list statement)) (c : statement -> nat) : Prop :=
  NoDup (map fst m) /\ forall k x, count x (at_key k m) = if keqb (key x) k then c x else O.
Lemma finds_iff m sts : finds keqb key m sts <-> finds_bag m (fun x => count x sts).
Proof. reflexivity. Qed.
Lemma finds_ext m c c' : (forall x, c x = c' x) -> finds_bag m c -> finds_bag m c'.
Proof. intros E [N H]. split; [exact N|]. intros k x. rewrite H, E. reflexivity. Qed.
Lemma finds_nil : finds_bag [] (fun _ => O).
Proof. split; [constructor|]. intros k x. cbn. destruct (keqb (key x) k); reflexivity. Qed.
Lemma finds_push m c st : finds_bag m c ->
  finds_bag (ix_push keqb (key st) st m) (fun x => ((if st_eq_dec x st then 1 else 0) + c x)%nat).
Proof.
  intros [N H]. split; [apply nodup_push, N|]. intros k x. unfold at_key. rewrite get_push.
  destruct (keqb (key st) k) eqn:E.
  - rewrite count_app, H, count_cons. destruct (st_eq_dec x st) as [->|]; [rewrite E; cbn; lia|]. cbn. destruct (keqb (key x) k); lia.
  - fold (at_key k m). rewrite H. destruct (st_eq_dec x st) as [->|]; [rewrite E; reflexivity|reflexivity].
Qed.
Lemma finds_remove m c st : finds_bag m c ->
  finds_bag (ix_remove keqb st (key st) m) (fun x => if st_eq_dec x st then Nat.pred (c x) else c x).
Proof.
  intros [N H]. split; [rewrite keys_remove; exact N|]. intros k x. unfold at_key. rewrite get_remove.
  destruct (keqb (key st) k) eqn:E.
  - assert (X := H k x). unfold at_key in X. destruct (ix_get keqb k m) as [l|]; cbn [option_map].
    + rewrite count_remove_first, X. destruct (st_eq_dec x st) as [->|]; [rewrite E; reflexivity|reflexivity].
    + cbn in X. cbn. destruct (st_eq_dec x st) as [->|]; [rewrite E in *; rewrite <- X; reflexivity|exact X].
  - fold (at_key k m). rewrite H. destruct (st_eq_dec x st) as [->|]; [rewrite E; reflexivity|reflexivity].
Qed.
Lemma finds_remove_all l : forall m c, finds_bag m c ->
  finds_bag (fold_left (fun m st => ix_remove keqb st (key st) m) l m) (fun x => (c x - count x l)%nat).
Proof.
  induction l as [|st l IH]; intros m c H; cbn [fold_left].
  - apply (finds_ext m c); [intros x; cbn; lia|exact H].
  - eapply finds_ext; [|exact (IH _ _ (finds_remove m c st H))]. intros x. cbn beta. rewrite count_cons. destruct (st_eq_dec x st); lia.
Qed.
Lemma keys_remove_all l : forall m, map fst (fold_left (fun m st => ix_remove keqb st (key st) m) l m) = map fst m.
Proof. induction l as [|st l IH]; intros m; cbn [fold_left]; [reflexivity|]. rewrite IH. apply keys_remove. Qed.
End Index.

Arguments count : simpl never.
Lemma count_nil x : count x [] = O. Proof. reflexivity. Qed.

(** ** The three indices *)
Definition indexed_bag (g : indexed) (c : statement -> nat) : Prop :=
  finds_bag subj_eqb st_subject (s_index g) c /\ finds_bag str_eqb st_predicate (p_index g) c /\
  finds_bag obj_eqb st_object (o_index g) c.
Lemma well_indexed_iff g : well_indexed g <-> indexed_bag g (fun x => count x (ix_statements g)).
Proof. reflexivity. Qed.
Lemma indexed_ext g c c' : (forall x, c x = c' x) -> indexed_bag g c -> indexed_bag g c'.
Proof. intros E (A & B & C). repeat split; eapply finds_ext; eauto. Qed.

Lemma indexed_insert g c st : indexed_bag g c ->
  indexed_bag (ix_insert g st) (fun x => ((if st_eq_dec x st then 1 else 0) + c x)%nat).
Proof.
  intros (A & B & C). split; [|split].
  - apply (finds_push subj_eqb st_subject subj_eqb_eq), A.
  - apply (finds_push str_eqb st_predicate str_eqb_eq), B.
  - apply (finds_push obj_eqb st_object obj_eqb_eq), C.
Qed.
Lemma indexed_remove g c st : indexed_bag g c ->
  indexed_bag (ix_remove_indices g st) (fun x => if st_eq_dec x st then Nat.pred (c x) else c x).
Proof.
  intros (A & B & C). split; [|split].
  - apply (finds_remove subj_eqb st_subject subj_eqb_eq), A.
  - apply (finds_remove str_eqb st_predicate str_eqb_eq), B.
  - apply (finds_remove obj_eqb st_object obj_eqb_eq), C.
Qed.
Lemma remove_indices_all l : forall g, let g' := fold_left ix_remove_indices l g in
  ix_name g' = ix_name g /\ ix_statements g' = ix_statements g /\ ix_mappings g' = ix_mappings g /\
  s_index g' = fold_left (fun m st => ix_remove subj_eqb st (st_subject st) m) l (s_index g) /\
  p_index g' = fold_left (fun m st => ix_remove str_eqb st (st_predicate st) m) l (p_index g) /\
  o_index g' = fold_left (fun m st => ix_remove obj_eqb st (st_object st) m) l (o_index g).
Proof.
  induction l as [|st l IH]; intros g; cbn [fold_left]; [repeat split|]. exact (IH (ix_remove_indices g st)).
Qed.
Lemma indexed_remove_all g c l : indexed_bag g c ->
  indexed_bag (fold_left ix_remove_indices l g) (fun x => (c x - count x l)%nat).
Proof.
  intros (A & B & C). destruct (remove_indices_all l g) as (_ & _ & _ & E1 & E2 & E3). unfold indexed_bag. rewrite E1, E2, E3. split; [|split].
  - apply (finds_remove_all subj_eqb st_subject subj_eqb_eq), A.
  - apply (finds_remove_all str_eqb st_predicate str_eqb_eq), B.
  - apply (finds_remove_all obj_eqb st_object obj_eqb_eq), C.
Qed.

(** ** Each operation *)
Lemma well_insert g st : well_indexed g -> well_indexed (ix_insert g st).
Proof.
  intros H. apply well_indexed_iff in H. apply well_indexed_iff. eapply indexed_ext; [|exact (indexed_insert _ _ st H)].
  intros x. cbn. rewrite count_app, count_cons; rewrite ?count_nil; lia.
Qed.
Lemma count_insert g st x : count x (ix_statements (ix_insert g st)) = ((if st_eq_dec x st then 1 else 0) + count x (ix_statements g))%nat.
Proof. cbn. rewrite count_app, count_cons. cbn; rewrite ?count_nil; lia. Qed.
Lemma insert_all l : forall g, well_indexed g -> well_indexed (fold_left ix_insert l g) /\
  (forall x, count x (ix_statements (fold_left ix_insert l g)) = (count x (ix_statements g) + count x l)%nat).
Proof.
  induction l as [|st l IH]; intros g H; cbn [fold_left]; [split; [exact H|intros x; cbn; rewrite ?count_nil; lia]|].
  destruct (IH _ (well_insert g st H)) as [A B]. split; [exact A|]. intros x. rewrite B, count_insert, count_cons. lia.
Qed.
Lemma statements_insert_all l : forall g, ix_statements (fold_left ix_insert l g) = ix_statements g ++ l.
Proof. induction l as [|st l IH]; intros g; cbn [fold_left]; [rewrite app_nil_r; reflexivity|]. rewrite IH. cbn. rewrite <- app_assoc. reflexivity. Qed.

Lemma remove_count g st x : count x (ix_statements (ix_remove_statement g st)) =
  if st_eq_dec x st then Nat.pred (count x (ix_statements g)) else count x (ix_statements g).
Proof.
  unfold ix_remove_statement. destruct (existsb _ _) eqn:E; [cbn; apply count_remove_first|].
  destruct (st_eq_dec x st) as [->|]; [|reflexivity]. replace (count st (ix_statements g)) with O; [reflexivity|].
  symmetry. apply count_not_In. intros I. rewrite <- not_true_iff_false in E. apply E, existsb_exists. exists st. split; [exact I|apply st_eqb_refl].
Qed.
Lemma well_remove g st : well_indexed g -> well_indexed (ix_remove_statement g st).
Proof.
  intros H. unfold ix_remove_statement. destruct (existsb _ _); [|exact H]. apply well_indexed_iff in H. apply well_indexed_iff.
  eapply indexed_ext; [|exact (indexed_remove (ix_with_statements g (remove_first st (ix_statements g))) _ st H)].
  intros x. cbn. rewrite count_remove_first. reflexivity.
Qed.
Lemma remove_list l : forall g, well_indexed g -> well_indexed (fold_left ix_remove_statement l g) /\
  (forall x, count x (ix_statements (fold_left ix_remove_statement l g)) = (count x (ix_statements g) - count x l)%nat).
Proof.
  induction l as [|st l IH]; intros g H; cbn [fold_left]; [split; [exact H|intros x; cbn; rewrite ?count_nil; lia]|].
  destruct (IH _ (well_remove g st H)) as [A B]. split; [exact A|]. intros x. rewrite B, remove_count, count_cons. destruct (st_eq_dec x st); lia.
Qed.

Lemma remove_all_for_spec g s : well_indexed g ->
  well_indexed (fst (ix_remove_all_for g s)) /\
  (forall x, count x (ix_statements (fst (ix_remove_all_for g s))) = if subj_eqb (st_subject x) s then O else count x (ix_statements g)) /\
  (forall x, count x (snd (ix_remove_all_for g s)) = if subj_eqb (st_subject x) s then count x (ix_statements g) else O).
Proof.
  intros H. assert (F : finds subj_eqb st_subject (s_index g) (ix_statements g)) by apply H. destruct F as [_ F].
  specialize (F s). unfold ix_remove_all_for. destruct (ix_get subj_eqb s (s_index g)) as [l|].
  - destruct (remove_list l g H) as [A B]. cbn [fst snd]. split; [exact A|]. split; [|exact F].
    intros x. rewrite B, F. destruct (subj_eqb (st_subject x) s); lia.
  - cbn [fst snd]. split; [exact H|]. split; [|exact F]. intros x. specialize (F x). rewrite count_nil in F. destruct (subj_eqb (st_subject x) s); congruence.
Qed.

Lemma st_mem_In x l : hs_mem st_eqb x l = true <-> In x l.
Proof. apply hs_mem_In, st_eqb_eq. Qed.
Lemma dedup_counts l : forall keep discard keep' discard', fold_left dedup_step l (keep, discard) = (keep', discard') ->
  NoDup keep ->
  NoDup keep' /\ (forall x, (count x keep' + count x discard' = count x keep + count x discard + count x l)%nat) /\
  (forall x, In x keep' <-> In x keep \/ In x l).
Proof.
  induction l as [|st l IH]; intros keep discard keep' discard' E N; cbn [fold_left] in E.
  - injection E as <- <-. split; [exact N|]. split; [intros x; cbn; rewrite ?count_nil; lia|intros x; cbn; tauto].
  - unfold dedup_step in E at 2. cbn [fst snd] in E. destruct (hs_mem st_eqb st keep) eqn:M.
    + destruct (IH _ _ _ _ E N) as (A & B & C). split; [exact A|]. split.
      * intros x. rewrite B, count_app, !count_cons. cbn; rewrite ?count_nil; lia.
      * intros x. rewrite C. apply st_mem_In in M. cbn. intuition congruence.
    + assert (I : ~ In st keep) by (rewrite <- st_mem_In; congruence).
      unfold hs_insert in E. unfold hs_mem in M, E. rewrite M in E.
      assert (N' : NoDup (keep ++ [st])).
      { apply (Permutation_NoDup (Permutation_cons_append keep st)). constructor; assumption. }
      destruct (IH _ _ _ _ E N') as (A & B & C). split; [exact A|]. split.
      * intros x. rewrite B, count_app, !count_cons. cbn; rewrite ?count_nil; lia.
      * intros x. rewrite C, in_app_iff. cbn. intuition congruence.
Qed.
Lemma dedup_spec ho g : hash_order ho -> well_indexed g ->
  well_indexed (fst (ix_dedup ho g)) /\
  (forall x, count x (ix_statements (fst (ix_dedup ho g))) = Nat.min 1 (count x (ix_statements g))) /\
  (forall x, count x (snd (ix_dedup ho g)) = Nat.pred (count x (ix_statements g))).
Proof.
  intros O W. unfold ix_dedup. destruct (fold_left dedup_step (ix_statements g) ([], [])) as [keep discard] eqn:E.
  destruct (dedup_counts _ _ _ _ _ E (NoDup_nil _)) as (N & B & C). cbn [fst snd].
  assert (K : forall x, count x keep = Nat.min 1 (count x (ix_statements g))).
  { intros x. destruct (count x (ix_statements g)) eqn:Z.
    - cbn. apply count_not_In. rewrite C. apply count_not_In in Z. cbn. tauto.
    - assert (I : In x keep). { apply C. right. apply count_In. lia. }
      assert (N1 := proj1 (NoDup_count_occ st_eq_dec keep) N x). apply count_In in I. unfold count in *. lia. }
  assert (D : forall x, count x discard = Nat.pred (count x (ix_statements g))).
  { intros x. specialize (B x). rewrite K, !count_nil in B. lia. }
  destruct (remove_indices_all discard (ix_with_statements g (ho keep))) as (_ & ES & _). 
  assert (K' : forall x, count x (ix_statements (fold_left ix_remove_indices discard (ix_with_statements g (ho keep)))) = Nat.min 1 (count x (ix_statements g))).
  { intros x. rewrite ES, <- K. apply count_perm, O. }
  split; [|split; assumption]. apply well_indexed_iff. apply well_indexed_iff in W.
  eapply indexed_ext; [|exact (indexed_remove_all (ix_with_statements g (ho keep)) _ discard W)].
  intros x. cbn beta. rewrite K', D. lia.
Qed.

(** ** Histories *)
Lemma step_spec g op : ix_op_ok op -> well_indexed g ->
  well_indexed (ix_step g op) /\
  (forall x, count x (ix_statements (ix_step g op)) = ix_bag_step (fun y => count y (ix_statements g)) op x).
Proof.
  intros O W. destruct op as [st|other|ho|st|s| |n|m]; cbn [ix_step ix_bag_step].
  - split; [apply well_insert, W|]. intros x. rewrite count_insert. destruct (st_eq_dec x st); reflexivity.
  - apply (insert_all (ix_statements other) g W).
  - destruct (dedup_spec ho g O W) as (A & B & _). split; assumption.
  - split; [apply well_remove, W|]. intros x. apply remove_count.
  - destruct (remove_all_for_spec g s W) as (A & B & _). split; assumption.
  - split; [|reflexivity]. apply well_indexed_iff. split; [|split]; exact (finds_nil _ _).
  - split; [exact W|reflexivity].
  - split; [exact W|reflexivity].
Qed.
Lemma bag_step_ext op b b' : (forall x, b x = b' x) -> forall x, ix_bag_step b op x = ix_bag_step b' op x.
Proof. intros E x. destruct op; cbn; rewrite ?E; reflexivity. Qed.
Lemma bag_fold_ext h : forall b b', (forall x, b x = b' x) -> forall x, fold_left ix_bag_step h b x = fold_left ix_bag_step h b' x.
Proof. induction h as [|op h IH]; intros b b' E x; cbn [fold_left]; [apply E|]. apply IH. apply bag_step_ext, E. Qed.
Lemma run_spec h : forall g, Forall ix_op_ok h -> well_indexed g ->
  well_indexed (ix_run g h) /\
  (forall x, count x (ix_statements (ix_run g h)) = fold_left ix_bag_step h (fun y => count y (ix_statements g)) x).
Proof.
  unfold ix_run. induction h as [|op h IH]; intros g F W; cbn [fold_left]; [split; [exact W|reflexivity]|].
  inversion F as [|? ? O F']; subst. destruct (step_spec g op O W) as [W' C]. destruct (IH _ F' W') as [A B]. split; [exact A|].
  intros x. rewrite B. apply bag_fold_ext, C.
Qed.
Lemma well_empty name : well_indexed (ix_named_graph name).
Proof. apply well_indexed_iff. split; [|split]; exact (finds_nil _ _). Qed.
Lemma reachable_well h g : reachable h g -> well_indexed g.
Proof. intros (F & name & ->). apply run_spec; [exact F|apply well_empty]. Qed.
Lemma reachable_count h g x : reachable h g -> count x (ix_statements g) = ix_bag h x.
Proof. intros (F & name & ->). apply (run_spec h (ix_named_graph name) F (well_empty name)). Qed.

Lemma length_counts l : forall k, (forall x, count x l = count x k) -> length l = length k.
Proof.
  intros k E. apply Permutation_length, (proj2 (Permutation_count_occ st_eq_dec l k)). intros x. apply (E x).
Qed.
Lemma c75_history h g : reachable h g ->
  (forall st, count st (ix_statements g) = ix_bag h st) /\
  (ix_is_empty g = true <-> forall st, ix_bag h st = O) /\
  (forall l, (forall st, count st l = ix_bag h st) -> ix_len g = length l).
Proof.
  intros R. assert (C := fun x => reachable_count h g x R). split; [exact C|]. split.
  - unfold ix_is_empty. destruct (ix_statements g) as [|y l]; cbn; split; try reflexivity; try discriminate.
    + intros _ st. rewrite <- C. reflexivity.
    + intros Z. specialize (Z y). rewrite <- C, count_cons in Z. destruct (st_eq_dec y y); [discriminate|congruence].
  - intros l E. apply length_counts. intros x. rewrite E. apply C.
Qed.

Lemma step_header g op : ix_name (ix_step g op) = ix_name_run [op] (ix_name g) /\
  ix_mappings (ix_step g op) = ix_mappings_run [op] (ix_mappings g).
Proof.
  assert (I : forall l g, ix_name (fold_left ix_insert l g) = ix_name g /\ ix_mappings (fold_left ix_insert l g) = ix_mappings g).
  { induction l as [|st l IH]; intros g0; cbn [fold_left]; [split; reflexivity|]. exact (IH (ix_insert g0 st)). }
  assert (R1 : forall g st, ix_name (ix_remove_statement g st) = ix_name g /\ ix_mappings (ix_remove_statement g st) = ix_mappings g).
  { intros g0 st. unfold ix_remove_statement. destruct (existsb _ _); split; reflexivity. }
  assert (R : forall l g, ix_name (fold_left ix_remove_statement l g) = ix_name g /\ ix_mappings (fold_left ix_remove_statement l g) = ix_mappings g).
  { induction l as [|st l IH]; intros g0; cbn [fold_left]; [split; reflexivity|]. destruct (IH (ix_remove_statement g0 st)) as [-> ->]. apply R1. }
  destruct op as [st|other|ho|st|s| |n|m]; cbn [ix_step]; try (split; reflexivity).
  - apply I.
  - unfold ix_dedup. destruct (fold_left dedup_step _ _) as [keep discard]. cbn [fst].
    destruct (remove_indices_all discard (ix_with_statements g (ho keep))) as (E1 & _ & E2 & _). split; assumption.
  - apply R1.
  - unfold ix_remove_all_for. destruct (ix_get _ _ _); [apply R|split; reflexivity].
Qed.
Lemma c75_header h : forall g, ix_name (ix_run g h) = ix_name_run h (ix_name g) /\ ix_mappings (ix_run g h) = ix_mappings_run h (ix_mappings g).
Proof.
  unfold ix_run, ix_name_run, ix_mappings_run. induction h as [|op h IH]; intros g; cbn [fold_left]; [split; reflexivity|].
  destruct (IH (ix_step g op)) as [-> ->]. destruct (step_header g op) as [-> ->]. split; reflexivity.
Qed.

(** ** Construction from statements *)
Lemma indexed_insert_all l : forall g c, indexed_bag g c -> indexed_bag (fold_left ix_insert l g) (fun x => (c x + count x l)%nat).
Proof.
  induction l as [|st l IH]; intros g c H; cbn [fold_left].
  - apply (indexed_ext g c); [intros x; rewrite count_nil; lia|exact H].
  - eapply indexed_ext; [|exact (IH _ _ (indexed_insert g c st H))]. intros x. cbn beta. rewrite count_cons. lia.
Qed.
Lemma create_index name sts m : indexed_bag (ix_create name sts m) (fun x => count x sts).
Proof.
  unfold ix_create. eapply indexed_ext; [|apply (indexed_insert_all sts _ (fun _ => O))]; [intros x; reflexivity|].
  split; [|split]; exact (finds_nil _ _).
Qed.
Lemma create_statements name sts m : ix_statements (ix_create name sts m) = sts ++ sts.
Proof. unfold ix_create. rewrite statements_insert_all. reflexivity. Qed.

(** ** Lookups *)
Lemma found_In {K} (keqb : K -> K -> bool) key (Q : forall a b, keqb a b = true <-> a = b) m c k x :
  finds_bag keqb key m c -> (In x (found keqb (Some k) m) <-> key x = k /\ (0 < c x)%nat).
Proof.
  intros [_ H]. specialize (H k x). unfold found, at_key in *. 
  assert (E : In x (match ix_get keqb k m with Some l => hs_from_iter st_eqb l | None => [] end) <->
              In x (match ix_get keqb k m with Some l => l | None => [] end)).
  { destruct (ix_get keqb k m); [|tauto]. apply (hs_from_iter_In _ st_eqb_eq). }
  rewrite E, <- count_In, H. destruct (keqb (key x) k) eqn:B.
  - apply Q in B. tauto.
  - split; [lia|]. intros [B' _]. apply Q in B'. congruence.
Qed.
Lemma inter_In x a b : In x (hs_intersection a b) <-> In x a /\ In x b.
Proof. unfold hs_intersection. rewrite filter_In, st_mem_In. tauto. Qed.
Lemma inter_NoDup a b : NoDup a -> NoDup (hs_intersection a b).
Proof. apply NoDup_filter. Qed.
Lemma found_NoDup {K} (keqb : K -> K -> bool) k m : NoDup (found keqb k m).
Proof.
  unfold found. destruct k as [k|]; [|constructor]. destruct (ix_get keqb k m); [|constructor]. apply (hs_from_iter_NoDup _ st_eqb_eq).
Qed.
Lemma matches_NoDup g s p o : NoDup (ix_matches g s p o).
Proof. apply inter_NoDup, inter_NoDup, found_NoDup. Qed.
Lemma matches_In g c s p o x : indexed_bag g c ->
  (In x (ix_matches g (Some s) (Some p) (Some o)) <-> x = MkStmt s p o /\ (0 < c x)%nat).
Proof.
  intros (A & B & C). unfold ix_matches. rewrite !inter_In, (found_In _ _ subj_eqb_eq _ _ s x A), (found_In _ _ str_eqb_eq _ _ p x B),
    (found_In _ _ obj_eqb_eq _ _ o x C). destruct x as [s' p' o']. cbn [st_subject st_predicate st_object]. split.
  - intros [[[-> H] [-> _]] [-> _]]. split; [reflexivity|exact H].
  - intros [E H]. injection E as -> -> ->. tauto.
Qed.
Lemma inter_nil_l b : hs_intersection [] b = []. Proof. reflexivity. Qed.
Lemma inter_nil_r a : hs_intersection a [] = [].
Proof. unfold hs_intersection. induction a as [|x a IH]; [reflexivity|]. cbn. exact IH. Qed.
Lemma matches_absent g s p o : s = None \/ p = None \/ o = None -> ix_matches g s p o = [].
Proof.
  unfold ix_matches. intros [-> | [-> | ->]].
  - reflexivity.
  - cbn [found]. rewrite inter_nil_r. reflexivity.
  - cbn [found]. apply inter_nil_r.
Qed.
Lemma predicates_for_In g c s p : indexed_bag g c ->
  (In p (ix_predicates_for g s) <-> exists o, (0 < c (MkStmt s p o))%nat).
Proof.
  intros (A & _ & _). unfold ix_predicates_for.
  assert (E : In p (match ix_get subj_eqb s (s_index g) with Some sts => hs_from_iter str_eqb (map st_predicate sts) | None => [] end) <->
              exists x, In x (at_key subj_eqb s (s_index g)) /\ st_predicate x = p).
  { unfold at_key. destruct (ix_get subj_eqb s (s_index g)) as [l|].
    - rewrite (hs_from_iter_In _ str_eqb_eq), in_map_iff. split; intros (x & ? & ?); exists x; tauto.
    - split; [intros []|intros (x & [] & _)]. }
  rewrite E. split.
  - intros (x & I & <-). apply count_In in I. destruct A as [_ A]. rewrite A in I. destruct (subj_eqb (st_subject x) s) eqn:S'; [|lia].
    apply subj_eqb_eq in S'. subst s. exists (st_object x). destruct x; exact I.
  - intros (o & I). exists (MkStmt s p o). split; [|reflexivity]. apply count_In. destruct A as [_ A]. rewrite A. cbn [st_subject].
    rewrite subj_eqb_refl. exact I.
Qed.
Lemma predicates_for_NoDup g s : NoDup (ix_predicates_for g s).
Proof.
  unfold ix_predicates_for. destruct (ix_get _ _ _); [|constructor]. apply (hs_from_iter_NoDup _ str_eqb_eq).
Qed.

(** ** The keys of the indices *)
Definition keys_are (g : indexed) (l : list statement) : Prop :=
  (forall s, In s (ix_subjects g) <-> In s (map st_subject l)) /\
  (forall p, In p (ix_predicates g) <-> In p (map st_predicate l)) /\
  (forall o, In o (ix_objects g) <-> In o (map st_object l)).
Lemma keys_insert g l st : keys_are g l -> keys_are (ix_insert g st) (l ++ [st]).
Proof.
  intros (A & B & C). unfold ix_subjects, ix_predicates, ix_objects in *. split; [|split]; intros k; cbn [ix_insert s_index p_index o_index];
    rewrite map_app, in_app_iff; cbn [map In].
  - unfold ix_subjects. cbn [ix_insert s_index]. rewrite (keys_push _ st_subject subj_eqb_eq), A. intuition congruence.
  - unfold ix_predicates. cbn [ix_insert p_index]. rewrite (keys_push _ st_predicate str_eqb_eq), B. intuition congruence.
  - unfold ix_objects. cbn [ix_insert o_index]. rewrite (keys_push _ st_object obj_eqb_eq), C. intuition congruence.
Qed.
Lemma keys_insert_all k : forall g l, keys_are g l -> keys_are (fold_left ix_insert k g) (l ++ k).
Proof.
  induction k as [|st k IH]; intros g l H; cbn [fold_left]; [rewrite app_nil_r; exact H|].
  replace (l ++ st :: k) with ((l ++ [st]) ++ k) by (rewrite <- app_assoc; reflexivity). apply IH, keys_insert, H.
Qed.
Lemma keys_same g g' l : ix_subjects g' = ix_subjects g -> ix_predicates g' = ix_predicates g -> ix_objects g' = ix_objects g ->
  keys_are g l -> keys_are g' l.
Proof. intros E1 E2 E3 H. unfold keys_are. rewrite E1, E2, E3. exact H. Qed.
Lemma keys_remove_indices g l st : keys_are g l -> keys_are (ix_remove_indices g st) l.
Proof. apply keys_same; unfold ix_subjects, ix_predicates, ix_objects; cbn; apply keys_remove. Qed.
Lemma keys_remove_statement g l st : keys_are g l -> keys_are (ix_remove_statement g st) l.
Proof.
  intros H. unfold ix_remove_statement. destruct (existsb _ _); [|exact H]. apply keys_remove_indices, H.
Qed.
Lemma keys_step g l op : keys_are g l -> keys_are (ix_step g op) (seen_step l op).
Proof.
  intros H. destruct op as [st|other|ho|st|s| |n|m]; cbn [ix_step seen_step]; try exact H.
  - apply keys_insert, H.
  - apply keys_insert_all, H.
  - unfold ix_dedup. destruct (fold_left dedup_step _ _) as [keep discard]. cbn [fst].
    assert (X : keys_are (ix_with_statements g (ho keep)) l) by exact H. revert X. generalize (ix_with_statements g (ho keep)).
    induction discard as [|st d IH]; intros g0 X; cbn [fold_left]; [exact X|]. apply IH, keys_remove_indices, X.
  - apply keys_remove_statement, H.
  - unfold ix_remove_all_for. destruct (ix_get _ _ _) as [sts|]; [|exact H]. cbn [fst]. revert g H.
    induction sts as [|st d IH]; intros g H; cbn [fold_left]; [exact H|]. apply IH, keys_remove_statement, H.
  - split; [|split]; intros k; cbn; tauto.
Qed.
Lemma keys_run h : forall g l, keys_are g l -> keys_are (ix_run g h) (fold_left seen_step h l).
Proof. unfold ix_run. induction h as [|op h IH]; intros g l H; cbn [fold_left]; [exact H|]. apply IH, keys_step, H. Qed.
Lemma reachable_keys h g : reachable h g -> keys_are g (seen h).
Proof. intros (_ & name & ->). apply keys_run. split; [|split]; intros k; cbn; tauto. Qed.

Lemma contains_subject_keys g s : ix_contains_subject g s = true <-> In s (ix_subjects g).
Proof.
  unfold ix_contains_subject, ix_subjects. rewrite <- (get_keys _ subj_eqb_eq). destruct (ix_get _ _ _); intuition congruence.
Qed.
Lemma keys_complete g x : well_indexed g -> In x (ix_statements g) ->
  In (st_subject x) (ix_subjects g) /\ In (st_predicate x) (ix_predicates g) /\ In (st_object x) (ix_objects g).
Proof.
  intros W I. apply count_In in I. destruct W as ((_ & A) & (_ & B) & (_ & C)).
  specialize (A (st_subject x) x). specialize (B (st_predicate x) x). specialize (C (st_object x) x).
  rewrite subj_eqb_refl in A. rewrite (proj2 (str_eqb_eq _ _) eq_refl) in B. rewrite obj_eqb_refl in C.
  split; [|split].
  - apply (get_keys _ subj_eqb_eq). intros E. rewrite E, count_nil in A. lia.
  - apply (get_keys _ str_eqb_eq). intros E. rewrite E, count_nil in B. lia.
  - apply (get_keys _ obj_eqb_eq). intros E. rewrite E, count_nil in C. lia.
Qed.
Lemma keys_nodup g : well_indexed g -> NoDup (ix_subjects g) /\ NoDup (ix_predicates g) /\ NoDup (ix_objects g).
Proof. intros ((A & _) & (B & _) & (C & _)). repeat split; assumption. Qed.

(** ** The properties *)
Lemma perm_counts a b : (forall x, count x a = count x b) -> Permutation a b.
Proof. intros E. apply (proj2 (Permutation_count_occ st_eq_dec a b)), E. Qed.
Lemma count_filter f x l : count x (filter f l) = if f x then count x l else O.
Proof.
  induction l as [|y l IH]; cbn [filter]; [destruct (f x); reflexivity|]. destruct (f y) eqn:F.
  - rewrite !count_cons, IH. destruct (st_eq_dec x y) as [->|]; [rewrite F; reflexivity|]. destruct (f x); reflexivity.
  - rewrite count_cons, IH. destruct (st_eq_dec x y) as [->|]; [rewrite F; reflexivity|]. destruct (f x); reflexivity.
Qed.

Lemma c75_from name sts m :
  let g := ix_create name sts m in
  (forall st, count st (ix_statements g) = 2 * count st sts)%nat /\ ix_len g = (2 * length sts)%nat /\
  (forall s p o st, In st (ix_matches g (Some s) (Some p) (Some o)) <-> st = MkStmt s p o /\ In st sts).
Proof.
  cbn zeta. unfold ix_len. rewrite create_statements, app_length. split; [intros st; rewrite count_app; lia|]. split; [lia|].
  intros s p o st. rewrite (matches_In _ _ s p o st (create_index name sts m)), count_In. reflexivity.
Qed.
Lemma c75_from_split name sts m s p o : let st := MkStmt s p o in
  count st sts = 1%nat ->
  let g := ix_remove_statement (ix_create name sts m) st in
  In st (ix_statements g) /\ ix_matches g (Some s) (Some p) (Some o) = [].
Proof.
  cbn zeta. intros H. split.
  - apply count_In. rewrite remove_count, create_statements, count_app. destruct (st_eq_dec _ _); [lia|congruence].
  - assert (X : indexed_bag (ix_remove_statement (ix_create name sts m) (MkStmt s p o))
                 (fun x => if st_eq_dec x (MkStmt s p o) then Nat.pred (count x sts) else count x sts)).
    { unfold ix_remove_statement. replace (existsb _ _) with true.
      - apply (indexed_remove (ix_with_statements (ix_create name sts m) _)). exact (create_index name sts m).
      - symmetry. apply existsb_exists. exists (MkStmt s p o). split; [|apply st_eqb_refl].
        rewrite create_statements. apply in_or_app. left. apply count_In. lia. }
    destruct (ix_matches _ _ _ _) as [|x l] eqn:E; [reflexivity|exfalso].
    assert (I : In x (ix_matches (ix_remove_statement (ix_create name sts m) (MkStmt s p o)) (Some s) (Some p) (Some o))) by (rewrite E; left; reflexivity).
    apply (matches_In _ _ s p o x X) in I. destruct I as [-> I]. destruct (st_eq_dec (MkStmt s p o) (MkStmt s p o)); [rewrite H in I; cbn in I; lia|congruence].
Qed.

Lemma c76_matches h g s p o st : reachable h g ->
  NoDup (ix_matches g (Some s) (Some p) (Some o)) /\
  (In st (ix_matches g (Some s) (Some p) (Some o)) <-> st = MkStmt s p o /\ In st (ix_statements g)).
Proof.
  intros R. apply reachable_well in R. split; [apply matches_NoDup|].
  rewrite (matches_In g _ s p o st (proj1 (well_indexed_iff g) R)), count_In. reflexivity.
Qed.
Lemma c76_predicates_for h g s p : reachable h g ->
  NoDup (ix_predicates_for g s) /\
  (In p (ix_predicates_for g s) <-> exists o, In (MkStmt s p o) (ix_statements g)).
Proof.
  intros R. apply reachable_well in R. split; [apply predicates_for_NoDup|].
  rewrite (predicates_for_In g _ s p (proj1 (well_indexed_iff g) R)). split; intros (o & I); exists o; apply count_In; exact I.
Qed.
Lemma c76_keys h g : reachable h g ->
  (NoDup (ix_subjects g) /\ NoDup (ix_predicates g) /\ NoDup (ix_objects g)) /\
  (forall s, ix_contains_subject g s = true <-> exists st, In st (seen h) /\ st_subject st = s) /\
  (forall s, In s (ix_subjects g) <-> exists st, In st (seen h) /\ st_subject st = s) /\
  (forall p, In p (ix_predicates g) <-> exists st, In st (seen h) /\ st_predicate st = p) /\
  (forall o, In o (ix_objects g) <-> exists st, In st (seen h) /\ st_object st = o).
Proof.
  intros R. assert (W := reachable_well _ _ R). destruct (reachable_keys _ _ R) as (A & B & C).
  assert (M : forall {K} (key : statement -> K) k l, In k (map key l) <-> exists st, In st l /\ key st = k).
  { intros. rewrite in_map_iff. split; intros (x & ? & ?); exists x; tauto. }
  split; [apply keys_nodup, W|]. split; [intros s; rewrite contains_subject_keys, A; apply M|].
  split; [intros s; rewrite A; apply M|]. split; [intros p; rewrite B; apply M|]. intros o. rewrite C. apply M.
Qed.
Lemma c76_none_missing h g st : reachable h g -> In st (ix_statements g) ->
  ix_contains_subject g (st_subject st) = true /\ In (st_subject st) (ix_subjects g) /\
  In (st_predicate st) (ix_predicates g) /\ In (st_object st) (ix_objects g).
Proof.
  intros R I. destruct (keys_complete g st (reachable_well _ _ R) I) as (A & B & C).
  rewrite contains_subject_keys. repeat split; assumption.
Qed.
Lemma c76_objects_for g s p : ix_objects_for g s p = [].
Proof. unfold ix_objects_for. rewrite matches_absent by auto. reflexivity. Qed.

Lemma c77_remove h g st : reachable h g ->
  let g' := ix_remove_statement g st in
  (In st (ix_statements g) -> Permutation (ix_statements g) (st :: ix_statements g')) /\
  (~ In st (ix_statements g) -> g' = g) /\
  (ix_matches g' (Some (st_subject st)) (Some (st_predicate st)) (Some (st_object st)) = [] <-> (ix_bag h st <= 1)%nat).
Proof.
  intros R. cbn zeta. split; [|split].
  - intros I. apply perm_counts. intros x. rewrite count_cons, remove_count. apply count_In in I. destruct (st_eq_dec x st) as [->|]; lia.
  - intros I. unfold ix_remove_statement. replace (existsb _ _) with false; [reflexivity|]. symmetry. apply not_true_iff_false.
    rewrite existsb_exists. intros (y & J & E). apply st_eqb_eq in E. subst. exact (I J).
  - assert (W := well_remove g st (reachable_well _ _ R)). apply well_indexed_iff in W.
    assert (X := matches_In _ _ (st_subject st) (st_predicate st) (st_object st) st W). cbn beta in X.
    assert (E : st = MkStmt (st_subject st) (st_predicate st) (st_object st)) by (destruct st; reflexivity).
    rewrite remove_count in X. destruct (st_eq_dec st st) as [_|]; [|congruence]. rewrite (reachable_count h g st R) in X.
    destruct (ix_matches _ _ _ _) as [|y l] eqn:Q.
    + split; [|reflexivity]. intros _. destruct (Nat.le_gt_cases (ix_bag h st) 1) as [|G]; [assumption|]. exfalso. apply (proj2 X). split; [exact E|lia].
    + split; [discriminate|]. intros L. exfalso.
      assert (Y : In y (ix_matches (ix_remove_statement g st) (Some (st_subject st)) (Some (st_predicate st)) (Some (st_object st)))) by (rewrite Q; left; reflexivity).
      apply (matches_In _ _ _ _ _ _ W) in Y. destruct Y as [-> _]. rewrite <- E in X. destruct X as [X _]. specialize (X (or_introl eq_refl)). lia.
Qed.
Lemma c77_remove_all_for h g s : reachable h g ->
  let r := ix_remove_all_for g s in
  Permutation (snd r) (filter (fun st => subj_eqb (st_subject st) s) (ix_statements g)) /\
  Permutation (ix_statements (fst r)) (filter (fun st => negb (subj_eqb (st_subject st) s)) (ix_statements g)).
Proof.
  intros R. destruct (remove_all_for_spec g s (reachable_well _ _ R)) as (_ & A & B). cbn zeta. split; apply perm_counts; intros x; rewrite count_filter.
  - apply B.
  - rewrite A. destruct (subj_eqb (st_subject x) s); reflexivity.
Qed.
Lemma c77_dedup h g ho : reachable h g -> hash_order ho ->
  let r := ix_dedup ho g in
  NoDup (ix_statements (fst r)) /\ (forall st, In st (ix_statements (fst r)) <-> In st (ix_statements g)) /\
  Permutation (ix_statements g) (ix_statements (fst r) ++ snd r).
Proof.
  intros R O. destruct (dedup_spec ho g O (reachable_well _ _ R)) as (_ & A & B). cbn zeta. split; [|split].
  - apply (NoDup_count_occ st_eq_dec). intros x. specialize (A x). unfold count in A. rewrite A. lia.
  - intros st. rewrite <- !count_In, A. lia.
  - apply perm_counts. intros x. rewrite count_app, A, B. lia.
Qed.

Lemma create_header sts : forall g, ix_name (fold_left ix_insert sts g) = ix_name g /\
  ix_mappings (fold_left ix_insert sts g) = ix_mappings g.
Proof.
  induction sts as [|st sts IH]; intros g; [auto|]. cbn [fold_left]. destruct (IH (ix_insert g st)) as [-> ->]. auto.
Qed.
Lemma c75_named n sts m h :
  ix_name (ix_run (ix_named_graph n) h) = ix_name_run h n /\
  ix_name (ix_run (ix_create n sts m) h) = ix_name_run h n /\
  (forall m', m = Some m' -> ix_mappings (ix_run (ix_create n sts m) h) = ix_mappings_run h m') /\
  (m = None -> ix_mappings (ix_run (ix_create n sts m) h) = ix_mappings_run h default_mappings).
Proof.
  assert (N : ix_name (ix_create n sts m) = n) by (unfold ix_create; rewrite (proj1 (create_header _ _)); reflexivity).
  assert (M : ix_mappings (ix_create n sts m) = match m with Some m' => m' | None => default_mappings end)
    by (unfold ix_create; rewrite (proj2 (create_header _ _)); reflexivity).
  split; [rewrite (proj1 (c75_header h _)); reflexivity|]. split; [rewrite (proj1 (c75_header h _)), N; reflexivity|].
  split; [intros m' ->|intros ->]; rewrite (proj2 (c75_header h _)), M; reflexivity.
Qed.
Lemma c75_mut g f : let g' := ix_mutate g f in
  (forall k, nth_error (ix_statements g') k = option_map (f k) (nth_error (ix_statements g) k)) /\
  (forall s p o, ix_matches g' s p o = ix_matches g s p o) /\
  ix_name g' = ix_name g /\ ix_mappings g' = ix_mappings g.
Proof.
  cbv zeta. split; [|auto]. unfold ix_mutate. cbn [ix_with_statements ix_statements].
  assert (G : forall l n k, nth_error ((fix go (n : nat) (l : list statement) := match l with [] => [] | x :: r => f n x :: go (S n) r end) n l) k
    = option_map (f (n + k)%nat) (nth_error l k)).
  { induction l as [|x l IH]; intros n [|k]; try reflexivity; [cbn; rewrite Nat.add_0_r; reflexivity|].
    cbn [nth_error]. rewrite IH. do 2 f_equal. lia. }
  intros k. rewrite G. reflexivity.
Qed.
