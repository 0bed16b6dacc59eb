From Verif Require Import StrFacts LiteralProofs TermProofs ReifyProofs GraphSpec GraphProofs SimplifyProofs.

Section Skolem.
Variable genid : nat -> option str.

Definition inv (m : list (str * str)) : Prop :=
  NoDup (map fst m) /\ forall k b i, nth_error m k = Some (b, i) -> genid k = Some i.

Definition rho (m : list (str * str)) (b : str) : str :=
  match assoc_get b m with Some i => i | None => [] end.

Lemma assoc_get_In m b i : assoc_get b m = Some i -> In (b, i) m.
Proof.
  induction m as [|[k v] r IH]; cbn; [discriminate|]. destruct (str_eqb k b) eqn:E.
  - apply str_eqb_eq in E. intros H. injection H as ->. subst. auto.
  - auto.
Qed.
Lemma assoc_get_None m b : assoc_get b m = None <-> ~ In b (map fst m).
Proof.
  induction m as [|[k v] r IH]; cbn; [tauto|]. destruct (str_eqb k b) eqn:E.
  - apply str_eqb_eq in E. split; [discriminate|tauto].
  - rewrite IH. split; [|tauto]. intros H [->|K]; auto. rewrite str_eqb_refl in E. discriminate.
Qed.
Lemma assoc_get_app m e b i : assoc_get b m = Some i -> assoc_get b (m ++ e) = Some i.
Proof. induction m as [|[k v] r IH]; cbn; [discriminate|]. destruct (str_eqb k b); auto. Qed.
Lemma assoc_get_key m b : In b (map fst m) -> exists i, assoc_get b m = Some i.
Proof.
  intros H. destruct (assoc_get b m) eqn:E; eauto. apply assoc_get_None in E. contradiction.
Qed.

Lemma skolem_label_spec m b i m' : inv m -> skolem_label genid m b = Some (i, m') ->
  inv m' /\ assoc_get b m' = Some i /\ (exists e, m' = m ++ e) /\
  (forall c, In c (map fst m') <-> In c (map fst m) \/ c = b).
Proof.
  intros [I1 I2]. unfold skolem_label. destruct (assoc_get b m) as [j|] eqn:E.
  - intros H. injection H as <- <-. split; [split; auto|]. split; auto.
    split; [exists []; rewrite app_nil_r; auto|]. intros c. split; auto. intros [H| ->]; auto.
    apply assoc_get_In in E. apply in_map_iff. exists (b, j). auto.
  - destruct (genid (length m)) as [j|] eqn:G; [|discriminate]. intros H. injection H as <- <-.
    apply assoc_get_None in E. split; [|split; [|split]].
    + split.
      * rewrite map_app. cbn. apply NoDup_snoc; auto.
      * intros k b' i' H. destruct (Nat.lt_ge_cases k (length m)) as [L|L].
        -- rewrite nth_error_app1 in H by auto. eauto.
        -- rewrite nth_error_app2 in H by auto. destruct (k - length m)%nat eqn:D.
           ++ cbn in H. injection H as <- <-. replace k with (length m) by lia. exact G.
           ++ destruct n; discriminate H.
    + clear -E. induction m as [|[k v] r IH]; cbn in *; [rewrite str_eqb_refl; auto|].
      destruct (str_eqb k b) eqn:K; [apply str_eqb_eq in K; tauto|]. apply IH. tauto.
    + eauto.
    + intros c. rewrite map_app, in_app_iff. cbn. intuition.
Qed.

Lemma skolem_statement_spec m st st' m' : inv m -> skolem_statement genid m st = Some (st', m') ->
  inv m' /\ (exists e, m' = m ++ e) /\
  (forall c, In c (map fst m') <-> In c (map fst m) \/ In c (top_labels st)) /\
  (forall e, st' = rename_statement (rho (m' ++ e)) st).
Proof.
  intros I. destruct st as [s p o]. unfold skolem_statement, top_labels, rename_statement.
  cbn [st_subject st_object st_predicate].
  assert (P1 : forall st1 m1,
    match s_as_blank s with
    | Some b => match skolem_label genid m b with
                | Some (i, m') => Some (set_subject (MkStmt s p o) (SRes i), m') | None => None end
    | None => Some (MkStmt s p o, m)
    end = Some (st1, m1) ->
    inv m1 /\ (exists e, m1 = m ++ e) /\
    (forall c, In c (map fst m1) <-> In c (map fst m) \/ In c (match s with SBlank b => [b] | _ => [] end)) /\
    (forall e, st1 = MkStmt (rename_subject (rho (m1 ++ e)) s) p o)).
  { intros st1 m1. destruct s as [b|i|t]; cbn [s_as_blank].
    - destruct (skolem_label genid m b) as [[i m2]|] eqn:L; [|discriminate]. intros H. injection H as <- <-.
      apply skolem_label_spec in L as (A & B & C & D); auto. split; auto. split; auto. split.
      + intros c. rewrite D. cbn. intuition.
      + intros e. cbn. unfold rho. rewrite (assoc_get_app _ _ _ _ B). reflexivity.
    - intros H. injection H as <- <-. split; auto. split; [exists []; rewrite app_nil_r; auto|]. cbn. split; [tauto|auto].
    - intros H. injection H as <- <-. split; auto. split; [exists []; rewrite app_nil_r; auto|]. cbn. split; [tauto|auto]. }
  destruct (match s_as_blank s with
    | Some b => match skolem_label genid m b with
                | Some (i, m') => Some (set_subject (MkStmt s p o) (SRes i), m') | None => None end
    | None => Some (MkStmt s p o, m)
    end) as [[st1 m1]|]; [|discriminate].
  destruct (P1 _ _ eq_refl) as (I1 & [e1 E1] & K1 & R1).
  assert (Ho : st_object st1 = o) by (rewrite (R1 []); reflexivity).
  rewrite Ho. destruct o as [b|i|l|l|t]; cbn [o_as_blank].
  1:{ destruct (skolem_label genid m1 b) as [[i m2]|] eqn:L; [|discriminate]. intros H. injection H as <- <-.
      apply skolem_label_spec in L as (A & B & [e2 C] & D); auto. split; auto.
      split; [exists (e1 ++ e2); rewrite app_assoc, <- E1; auto|]. split.
      - intros c. rewrite D, K1, in_app_iff. cbn. intuition.
      - intros e. rewrite (R1 (e2 ++ e)). rewrite app_assoc, <- C. cbn [rename_object set_object].
        replace (rho (m2 ++ e) b) with i; [reflexivity|]. unfold rho. rewrite (assoc_get_app _ _ _ _ B). reflexivity. }
  all: intros H; injection H as <- <-; split; auto; split; eauto;
    split; [intros c; rewrite K1, app_nil_r; tauto | intros e; rewrite (R1 e); reflexivity].
Qed.

Lemma skolem_loop_spec l : forall m g vs g' M, inv m -> g_statements g = NonUnique vs ->
  skolem_loop genid m g l = Some (g', M) ->
  inv M /\ (exists e, M = m ++ e) /\
  (forall c, In c (map fst M) <-> In c (map fst m) \/ In c (flat_map top_labels l)) /\
  g' = Graph (g_name g) (NonUnique (vs ++ map (rename_statement (rho M)) l)) (g_mappings g).
Proof.
  induction l as [|st l IH]; intros m g vs g' M I Hg; cbn [skolem_loop flat_map map].
  - intros H. injection H as <- <-. split; auto. split; [exists []; rewrite app_nil_r; auto|].
    split; [cbn; tauto|]. rewrite app_nil_r, <- Hg. destruct g; reflexivity.
  - destruct (skolem_statement genid m st) as [[st' m']|] eqn:S; [|discriminate]. intros H.
    apply skolem_statement_spec in S as (A & [e1 B] & C & D); auto.
    apply (IH m' _ (vs ++ [st'])) in H; auto.
    2:{ unfold g_insert. rewrite Hg. reflexivity. }
    destruct H as (A' & [e2 B'] & C' & D'). split; auto.
    split; [exists (e1 ++ e2); rewrite app_assoc, <- B; auto|]. split.
    + intros c. rewrite C', C, in_app_iff. tauto.
    + rewrite D'. rewrite <- app_assoc. cbn [app]. rewrite (D e2), <- B'. reflexivity.
Qed.

Lemma inv_nil : inv [].
Proof. split; [constructor|]. intros k b i H. destruct k; discriminate H. Qed.

(** Failure: some label finds no IRI. *)
Lemma skolem_label_fail m b : skolem_label genid m b = None ->
  ~ In b (map fst m) /\ genid (length m) = None.
Proof.
  unfold skolem_label. destruct (assoc_get b m) eqn:E; [discriminate|].
  destruct (genid (length m)) eqn:G; [discriminate|]. intros _. split; auto. apply assoc_get_None, E.
Qed.

Lemma skolem_statement_fail m st : inv m -> skolem_statement genid m st = None ->
  exists (m1 : list (str * str)) b, NoDup (map fst m1) /\ (forall c, In c (map fst m1) -> In c (map fst m) \/ In c (top_labels st)) /\
    In b (top_labels st) /\ ~ In b (map fst m1) /\ genid (length m1) = None.
Proof.
  intros I. destruct st as [s p o]. unfold skolem_statement, top_labels. cbn [st_subject st_object st_predicate].
  assert (OBJ : forall m1 st1, st_object st1 = o -> inv m1 ->
     (forall c, In c (map fst m1) -> In c (map fst m) \/ In c (match s with SBlank b => [b] | _ => [] end)) ->
     match o_as_blank (st_object st1) with
      | Some b => match skolem_label genid m1 b with Some (i, m') => Some (set_object st1 (ORes i), m') | None => None end
      | None => Some (st1, m1) end = None ->
     exists (m1 : list (str * str)) b, NoDup (map fst m1) /\ (forall c, In c (map fst m1) -> In c (map fst m) \/ In c (match s with SBlank b => [b] | _ => [] end ++ match o with OBlank b => [b] | _ => [] end)) /\
      In b (match s with SBlank b => [b] | _ => [] end ++ match o with OBlank b => [b] | _ => [] end) /\ ~ In b (map fst m1) /\ genid (length m1) = None).
  { intros m1 st1 -> I1 K. destruct o as [b|i|l|l|t]; cbn [o_as_blank]; try discriminate.
    destruct (skolem_label genid m1 b) as [[i m2]|] eqn:L; [discriminate|]. intros _.
    apply skolem_label_fail in L as [L1 L2]. exists m1, b. split; [apply I1|]. split; [|split; [|auto]].
    - intros c Hc. destruct (K c Hc); auto. right. apply in_or_app. auto.
    - apply in_or_app. right. left. auto. }
  destruct s as [b|i|t]; cbn [s_as_blank].
  - destruct (skolem_label genid m b) as [[i m2]|] eqn:L.
    + apply skolem_label_spec in L as (A & B & C & D); auto. apply (OBJ m2); auto.
      intros c Hc. apply D in Hc as [Hc| ->]; auto. right. left; auto.
    + intros _. apply skolem_label_fail in L as [L1 L2]. exists m, b. split; [apply I|]. split; auto.
      split; auto. cbn. auto.
  - apply (OBJ m (MkStmt (SRes i) p o)); auto.
  - apply (OBJ m (MkStmt (SStmt t) p o)); auto.
Qed.

Lemma skolem_loop_fail l : forall m g, inv m -> skolem_loop genid m g l = None ->
  exists (m1 : list (str * str)) b, NoDup (map fst m1) /\
    (forall c, In c (map fst m1) -> In c (map fst m) \/ In c (flat_map top_labels l)) /\
    In b (flat_map top_labels l) /\ ~ In b (map fst m1) /\ genid (length m1) = None.
Proof.
  induction l as [|st l IH]; intros m g I; cbn [skolem_loop flat_map]; [discriminate|].
  destruct (skolem_statement genid m st) as [[st' m']|] eqn:S.
  - intros H. apply skolem_statement_spec in S as (A & _ & C & _); auto.
    apply IH in H as (m1 & b & H1 & H2 & H3 & H4); auto. exists m1, b. split; auto. split; [|split; auto].
    + intros c Hc. rewrite in_app_iff. destruct (H2 c Hc) as [K|K]; auto. apply C in K. tauto.
    + apply in_or_app; auto.
  - intros _. apply skolem_statement_fail in S as (m1 & b & H1 & H2 & H3 & H4); auto.
    exists m1, b. split; auto. split; [|split; auto].
    + intros c Hc. rewrite in_app_iff. destruct (H2 c Hc); auto.
    + apply in_or_app; auto.
Qed.
End Skolem.

Definition label_dec : forall a b : str, {a = b} + {a <> b} := list_eq_dec N.eq_dec.

Lemma skolemize_fails_iff genid ho g : hash_order ho ->
  g_skolemize genid ho g = None <->
  exists k, (k < length (nodup label_dec (graph_labels g)))%nat /\ genid k = None.
Proof.
  intros Ho.
  assert (P : forall c, In c (flat_map top_labels (g_iter ho g)) <-> In c (graph_labels g)).
  { intros c. unfold graph_labels. rewrite !in_flat_map.
    split; intros (x & H & K); exists x; split; auto; apply (g_iter_In ho g x Ho); exact H. }
  unfold g_skolemize. destruct (skolem_loop genid [] g_default (g_iter ho g)) as [[g' M]|] eqn:E; cbn [option_map].
  - split; [discriminate|]. intros (k & L & K). exfalso.
    apply (skolem_loop_spec genid _ [] g_default []) in E; [|apply inv_nil|reflexivity].
    destruct E as ([N1 N2] & _ & C & _).
    assert (LEN : (length (nodup label_dec (graph_labels g)) <= length (map fst M))%nat).
    { apply NoDup_incl_length; [apply NoDup_nodup|]. intros c Hc. apply nodup_In in Hc. apply C. right. apply P, Hc. }
    rewrite map_length in LEN. destruct (nth_error M k) as [[b i]|] eqn:EN.
    + apply N2 in EN. congruence.
    + apply nth_error_None in EN. lia.
  - split; auto. intros _. apply skolem_loop_fail in E as (m1 & b & H1 & H2 & H3 & H4 & H5); [|apply inv_nil].
    exists (length m1). split; auto.
    assert (LEN : (length (b :: map fst m1) <= length (nodup label_dec (graph_labels g)))%nat).
    { apply NoDup_incl_length; [constructor; auto|]. intros c [<-|Hc]; apply nodup_In, P; auto.
      destruct (H2 c Hc) as [[]|]; auto. }
    cbn in LEN. rewrite map_length in LEN. lia.
Qed.

Fixpoint inverse (m : list (str * str)) (i : str) : option str :=
  match m with
  | [] => None
  | (b, j) :: r => if str_eqb j i then Some b else inverse r i
  end.

Lemma skolemize_spec genid ho g g' : hash_order ho -> g_skolemize genid ho g = Some g' ->
  (forall j k i, genid j = Some i -> genid k = Some i -> j = k) ->
  exists r : str -> str,
    g' = Graph None (NonUnique (map (rename_statement r) (g_iter ho g))) default_mappings /\
    (forall b, In b (graph_labels g) -> exists k, genid k = Some (r b)) /\
    (forall a b, In a (graph_labels g) -> In b (graph_labels g) -> r a = r b -> a = b) /\
    ((forall k i st, genid k = Some i -> In st (g_list g) -> ~ In i (top_iris st)) ->
     exists s, map (restore_statement s) (g_list g') = g_iter ho g).
Proof.
  intros Ho E INJ.
  assert (P : forall c, In c (flat_map top_labels (g_iter ho g)) <-> In c (graph_labels g)).
  { intros c. unfold graph_labels. rewrite !in_flat_map.
    split; intros (x & H & K); exists x; split; auto; apply (g_iter_In ho g x Ho); exact H. }
  unfold g_skolemize in E. destruct (skolem_loop genid [] g_default (g_iter ho g)) as [[g1 M]|] eqn:L; [|discriminate].
  cbn in E. injection E as <-. apply (skolem_loop_spec genid _ [] g_default []) in L; [|apply inv_nil|reflexivity].
  destruct L as ([N1 N2] & _ & C & ->). cbn [app].
  assert (KEY : forall b, In b (graph_labels g) -> exists i k, assoc_get b M = Some i /\ nth_error M k = Some (b, i) /\ genid k = Some i).
  { intros b Hb. apply P in Hb. destruct (assoc_get_key M b) as [i Hi]; [apply C; auto|].
    pose proof (assoc_get_In _ _ _ Hi) as Hin. apply In_nth_error in Hin as [k Hk]. exists i, k. eauto. }
  exists (rho M). split; [reflexivity|]. split; [|split].
  - intros b Hb. destruct (KEY b Hb) as (i & k & A & B & D). exists k. unfold rho. rewrite A. exact D.
  - intros a b Ha Hb. destruct (KEY a Ha) as (i & k & A & B & D), (KEY b Hb) as (i' & k' & A' & B' & D').
    unfold rho. rewrite A, A'. intros ->. pose proof (INJ _ _ _ D D') as ->. rewrite B in B'. congruence.
  - intros FR. exists (inverse M). cbn [g_list g_statements]. unfold g_list. cbn [g_statements].
    assert (IK : forall b, In b (graph_labels g) -> inverse M (rho M b) = Some b).
    { intros b Hb. destruct (KEY b Hb) as (i & k & A & B & D). unfold rho. rewrite A.
      assert (G : forall m o, (forall j x y, nth_error m j = Some (x, y) -> genid (o + j)%nat = Some y) ->
         forall k, nth_error m k = Some (b, i) -> inverse m i = Some b).
      { induction m as [|[x y] m IH]; intros o Hm k0 Hk0; [destruct k0; discriminate|]. cbn.
        destruct (str_eqb y i) eqn:Ey.
        - apply str_eqb_eq in Ey. subst y. destruct k0; [cbn in Hk0; congruence|]. exfalso.
          pose proof (Hm 0%nat x i eq_refl) as Q1. pose proof (Hm _ _ _ Hk0) as Q2.
          pose proof (INJ _ _ _ Q1 Q2). lia.
        - destruct k0; cbn in Hk0.
          + injection Hk0 as -> ->. rewrite str_eqb_refl in Ey. discriminate.
          + apply (IH (S o)) with k0; auto. intros j x' y' Hj. specialize (Hm (S j) x' y' Hj).
            replace (S o + j)%nat with (o + S j)%nat by lia. exact Hm. }
      apply (G M 0%nat) with k; auto. }
    assert (IN : forall i st, In st (g_list g) -> In i (top_iris st) -> inverse M i = None).
    { intros i st Hst Hi. destruct (inverse M i) as [b|] eqn:Q; auto. exfalso.
      assert (Hin : In (b, i) M).
      { clear -Q. induction M as [|[x y] m IH]; [discriminate|]. cbn in Q. destruct (str_eqb y i) eqn:Ey.
        - apply str_eqb_eq in Ey. injection Q as ->. subst. left; auto.
        - right; auto. }
      apply In_nth_error in Hin as [k Hk]. apply N2 in Hk. apply (FR k i st Hk Hst Hi). }
    rewrite map_map. rewrite <- map_id. apply map_ext_in. intros st Hst.
    assert (Hst' : In st (g_list g)) by (eapply Permutation_in; [apply g_iter_perm; exact Ho|exact Hst]).
    assert (LB : forall b, In b (top_labels st) -> In b (graph_labels g)).
    { intros b Hb. unfold graph_labels. apply in_flat_map. eauto. }
    specialize (IN). destruct st as [s p o]. unfold restore_statement, rename_statement, top_labels, top_iris in *.
    cbn [st_subject st_predicate st_object] in *. f_equal.
    + destruct s as [b|i|t]; cbn [rename_subject restore_subject].
      * rewrite IK by (apply LB; apply in_or_app; left; left; auto). reflexivity.
      * rewrite (IN i _ Hst'); auto. cbn. auto.
      * reflexivity.
    + destruct o as [b|i|l|l|t]; cbn [rename_object restore_object]; try reflexivity.
      * rewrite IK by (apply LB; apply in_or_app; right; left; auto). reflexivity.
      * rewrite (IN i _ Hst'); auto. cbn. apply in_or_app. right; left; auto.
Qed.
