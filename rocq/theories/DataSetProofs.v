From Verif Require Import StrFacts TermProofs DataSetSpec.

Lemma gn_eqb_eq a b : gn_eqb a b = true <-> a = b.
Proof. destruct a, b; cbn; rewrite ?str_eqb_eq; split; congruence. Qed.
Lemma key_eqb_eq a b : key_eqb a b = true <-> a = b.
Proof. destruct a, b; cbn; rewrite ?gn_eqb_eq; split; congruence. Qed.
Lemma key_eqb_refl a : key_eqb a a = true.
Proof. apply key_eqb_eq. reflexivity. Qed.
Lemma key_eqb_neq a b : key_eqb a b = false <-> a <> b.
Proof. rewrite <- key_eqb_eq. destruct (key_eqb a b); split; congruence. Qed.

Lemma hm_insert_get d k g k' : hm_get (hm_insert d k g) k' = if key_eqb k k' then Some g else hm_get d k'.
Proof.
  induction d as [|[k1 g1] d IH]; cbn.
  - reflexivity.
  - destruct (key_eqb k1 k) eqn:E; cbn.
    + apply key_eqb_eq in E. subst. destruct (key_eqb k k'); auto.
    + rewrite IH. destruct (key_eqb k1 k') eqn:E1; auto. destruct (key_eqb k k') eqn:E2; auto.
      apply key_eqb_eq in E1, E2. subst. rewrite key_eqb_refl in E. discriminate.
Qed.
Lemma hm_insert_keys d k g x : In x (map fst (hm_insert d k g)) <-> In x (map fst d) \/ x = k.
Proof.
  induction d as [|[k1 g1] d IH]; cbn; [intuition|]. destruct (key_eqb k1 k) eqn:E; cbn.
  - apply key_eqb_eq in E. subst. intuition.
  - rewrite IH. intuition.
Qed.
Lemma hm_insert_NoDup d k g : NoDup (map fst d) -> NoDup (map fst (hm_insert d k g)).
Proof.
  induction d as [|[k1 g1] d IH]; cbn; intros H.
  - constructor; auto.
  - inversion H; subst. destruct (key_eqb k1 k) eqn:E; cbn; constructor; auto.
    rewrite hm_insert_keys. intros [K| ->]; auto. rewrite key_eqb_refl in E. discriminate.
Qed.
Lemma hm_get_In d k g : NoDup (map fst d) -> hm_get d k = Some g <-> In (k, g) d.
Proof.
  induction d as [|[k1 g1] d IH]; cbn; intros H.
  - split; [discriminate|tauto].
  - inversion H; subst. destruct (key_eqb k1 k) eqn:E.
    + apply key_eqb_eq in E. subst. split; [left; congruence|]. intros [K|K]; [congruence|].
      exfalso. apply H2. apply in_map_iff. exists (k, g). auto.
    + apply key_eqb_neq in E. rewrite IH by auto. split; auto. intros [K|K]; [congruence|auto].
Qed.
Lemma hm_get_none d k : hm_get d k = None <-> ~ In k (map fst d).
Proof.
  induction d as [|[k1 g1] d IH]; cbn; [tauto|]. destruct (key_eqb k1 k) eqn:E.
  - apply key_eqb_eq in E. split; [discriminate|tauto].
  - apply key_eqb_neq in E. rewrite IH. tauto.
Qed.
Lemma hm_remove_keys d k x : In x (map fst (hm_remove d k)) -> In x (map fst d).
Proof.
  induction d as [|[k1 g1] d IH]; cbn; auto. destruct (key_eqb k1 k); cbn; tauto.
Qed.
Lemma hm_remove_NoDup d k : NoDup (map fst d) -> NoDup (map fst (hm_remove d k)).
Proof.
  induction d as [|[k1 g1] d IH]; cbn; intros H; auto. inversion H; subst.
  destruct (key_eqb k1 k); cbn; auto. constructor; auto. intros K. apply H2. eapply hm_remove_keys; eauto.
Qed.
Lemma hm_remove_get d k k' : NoDup (map fst d) -> hm_get (hm_remove d k) k' = if key_eqb k k' then None else hm_get d k'.
Proof.
  induction d as [|[k1 g1] d IH]; cbn; intros H.
  - destruct (key_eqb k k'); auto.
  - inversion H; subst. destruct (key_eqb k1 k) eqn:E; cbn.
    + apply key_eqb_eq in E. subst. destruct (key_eqb k k') eqn:E1; auto. apply key_eqb_eq in E1. subst.
      apply hm_get_none, H2.
    + rewrite IH by auto. destruct (key_eqb k1 k') eqn:E1; auto. destruct (key_eqb k k') eqn:E2; auto.
      apply key_eqb_eq in E1, E2. subst. rewrite key_eqb_refl in E. discriminate.
Qed.
Lemma ds_graph_mut_keys d k f : map fst (ds_graph_mut d k f) = map fst d.
Proof. induction d as [|[k1 g1] d IH]; cbn; auto. destruct (key_eqb k1 k); cbn; congruence. Qed.
Lemma ds_graph_mut_get d k f k' : hm_get (ds_graph_mut d k f) k' =
  if key_eqb k k' then option_map f (hm_get d k) else hm_get d k'.
Proof.
  induction d as [|[k1 g1] d IH]; cbn.
  - destruct (key_eqb k k'); auto.
  - destruct (key_eqb k1 k) eqn:E; cbn.
    + apply key_eqb_eq in E. subst. destruct (key_eqb k k'); auto.
    + rewrite IH. destruct (key_eqb k1 k') eqn:E1; auto. destruct (key_eqb k k') eqn:E2; auto.
      apply key_eqb_eq in E1, E2. subst. rewrite key_eqb_refl in E. discriminate.
Qed.

Definition ds_wf (d : data_set) : Prop := NoDup (map fst d).

Lemma ds_extend_spec l : forall d, ds_wf d -> ds_wf (ds_extend d l) /\
  (forall c, (forall k, hm_get d k = c k) ->
   forall k, hm_get (ds_extend d l) k = fold_left (fun c g => file c (g_name g) (Some g)) l c k).
Proof.
  induction l as [|g l IH]; cbn; intros d W; [auto|].
  destruct (IH (ds_insert d g)) as [A B]; [apply hm_insert_NoDup, W|]. split; auto. intros c H. apply B.
  intros k. unfold ds_insert, file. rewrite hm_insert_get, H. reflexivity.
Qed.

Lemma ds_step_spec d op c : ds_wf d -> (forall k, ds_graph d k = c k) ->
  ds_wf (ds_step d op) /\ forall k, ds_graph (ds_step d op) k = cat_step c op k.
Proof.
  unfold ds_graph. intros W H. destruct op; cbn [ds_step cat_step].
  - split; [apply hm_insert_NoDup, W|]. intros k. unfold ds_insert, file. rewrite hm_insert_get, H. reflexivity.
  - split; [apply ds_extend_spec, W|]. apply ds_extend_spec; auto.
  - split; [apply hm_remove_NoDup, W|]. intros k'. unfold ds_remove, file. rewrite hm_remove_get, H by auto. reflexivity.
  - split; [constructor|reflexivity].
  - split; [unfold ds_wf; rewrite ds_graph_mut_keys; exact W|]. intros k'. rewrite ds_graph_mut_get. unfold file.
    rewrite !H. reflexivity.
Qed.

Lemma ds_run_spec ops : forall d c, ds_wf d -> (forall k, ds_graph d k = c k) ->
  ds_wf (ds_run d ops) /\ forall k, ds_graph (ds_run d ops) k = cat_run c ops k.
Proof.
  induction ops as [|op ops IH]; cbn; intros d c W H; [auto|].
  destruct (ds_step_spec d op c W H). apply IH; auto.
Qed.

Lemma ds_from_iter_extend l : ds_from_iter l = ds_extend [] l.
Proof.
  unfold ds_from_iter, ds_extend, ds_insert. generalize (@nil (option graph_name * graph)) as d.
  induction l; cbn; auto.
Qed.

Lemma fold_file l : forall c k, fold_left (fun c g => file c (g_name g) (Some g)) l c k =
  match latest l k with Some g => Some g | None => c k end.
Proof.
  unfold latest. induction l as [|g l IH] using rev_ind; intros c k; [reflexivity|].
  rewrite fold_left_app, rev_unit. cbn. unfold file at 1. rewrite IH. destruct (key_eqb (g_name g) k); reflexivity.
Qed.

Lemma ds_start_spec d : ds_start d -> ds_wf d /\
  exists l, (forall k, ds_graph d k = latest l k).
Proof.
  intros [->|[l ->]].
  - split; [constructor|]. exists []. reflexivity.
  - rewrite ds_from_iter_extend. destruct (ds_extend_spec l [] (NoDup_nil _)) as [A B]. split; auto. exists l. intros k.
    unfold ds_graph. rewrite (B (fun _ => None)) by reflexivity. rewrite fold_file. destruct (latest l k); reflexivity.
Qed.

Lemma latest_name l k g : latest l k = Some g -> g_name g = k.
Proof. unfold latest. intros H. apply find_some in H as [_ H]. apply key_eqb_eq, H. Qed.

Lemma g_run_name ops : forall g, Forall (fun o => renames o = false) ops -> g_name (g_run g ops) = g_name g.
Proof.
  induction ops as [|op ops IH]; intros g H; [reflexivity|]. inversion H; subst. cbn. unfold g_run in IH. rewrite IH by auto.
  destruct op; try discriminate; cbn; try reflexivity.
  - unfold g_merge. generalize (g_iter ho other). intros l. revert g. clear. induction l as [|x l IH]; intros g; cbn; auto. rewrite IH. reflexivity.
  - unfold g_dedup. destruct (g_statements g); auto. destruct (dedup_fold vs). reflexivity.
  - unfold g_remove_all_for. match goal with |- context [let '(_, _) := ?x in _] => destruct x end. destruct (g_statements g); reflexivity.
Qed.

Lemma cat_step_names c op : keeps_names op -> (forall k g, c k = Some g -> g_name g = k) ->
  forall k g, cat_step c op k = Some g -> g_name g = k.
Proof.
  intros K H k g. destruct op; cbn in *.
  - unfold file. destruct (key_eqb (g_name g0) k) eqn:E; [|apply H]. apply key_eqb_eq in E. congruence.
  - rewrite fold_file. destruct (latest l k) eqn:E; [|apply H]. intros X. injection X as <-. eapply latest_name; eauto.
  - unfold file. destruct (key_eqb k0 k); [discriminate|apply H].
  - discriminate.
  - unfold file. destruct (key_eqb k0 k) eqn:E; [|apply H]. apply key_eqb_eq in E. subst.
    destruct (c k) as [g0|] eqn:C; [|discriminate]. cbn. intros X. injection X as <-. rewrite g_run_name by auto. apply H, C.
Qed.
Lemma cat_run_names ops : forall c, Forall keeps_names ops -> (forall k g, c k = Some g -> g_name g = k) ->
  forall k g, cat_run c ops k = Some g -> g_name g = k.
Proof.
  induction ops as [|op ops IH]; cbn; intros c F H; auto. inversion F; subst. apply IH; auto. apply cat_step_names; auto.
Qed.

Lemma c32_refines d ops : ds_start d ->
  (forall k, ds_graph (ds_run d ops) k = cat_run (ds_graph d) ops k).
Proof. intros S. destruct (ds_start_spec d S) as [W _]. apply ds_run_spec; auto. Qed.

Lemma c32_start l k : ds_graph (ds_from_iter l) k = latest l k /\ ds_graph (ds_from_vec l) k = latest l k /\
  ds_graph ds_default k = None /\
  forall g, ds_graph (ds_from_graph g) k = if key_eqb (g_name g) k then Some g else None.
Proof.
  assert (H : forall l, ds_graph (ds_from_iter l) k = latest l k).
  { intros m. rewrite ds_from_iter_extend. destruct (ds_extend_spec m [] (NoDup_nil _)) as [A B].
    unfold ds_graph. rewrite (B (fun _ => None)) by reflexivity. rewrite fold_file. destruct (latest m k); reflexivity. }
  split; [apply H|]. split; [apply H|]. split; [reflexivity|]. intros g. unfold ds_from_graph. rewrite H. reflexivity.
Qed.

Lemma c32_names d ops : ds_start d -> Forall keeps_names ops ->
  forall k g, ds_graph (ds_run d ops) k = Some g -> g_name g = k.
Proof.
  intros S F k g. destruct (ds_start_spec d S) as [W [l L]]. rewrite c32_refines by auto.
  apply cat_run_names; auto. intros k' g'. rewrite L. apply latest_name.
Qed.

Lemma In_get_names d : NoDup (map fst d) -> (forall k g, hm_get d k = Some g -> g_name g = k) ->
  map g_name (map snd d) = map fst d.
Proof.
  intros W H. rewrite map_map. apply map_ext_in. intros [k g] I. cbn. apply H, hm_get_In; auto.
Qed.

Lemma c32_listing d ops ho : ds_start d -> (forall l, Permutation (ho l) l) ->
  let d' := ds_run d ops in
  (forall g, In g (ds_graphs ho d') <-> exists k, ds_graph d' k = Some g) /\
  ds_len d' = length (ds_graphs ho d') /\
  (ds_is_empty d' = true <-> forall k, ds_graph d' k = None) /\
  (forall k, ds_contains_graph d' k = true <-> ds_graph d' k <> None) /\
  ds_has_default_graph d' = ds_contains_graph d' None /\ ds_default_graph d' = ds_graph d' None /\
  (forall n, ds_has_graph_named d' n = ds_contains_graph d' (Some n) /\ ds_graph_named d' n = ds_graph d' (Some n)) /\
  (Forall keeps_names ops -> NoDup (map g_name (ds_graphs ho d')) /\
     forall g, In g (ds_graphs ho d') <-> ds_graph d' (g_name g) = Some g).
Proof.
  intros S Ho d'. assert (W : NoDup (map fst d')).
  { destruct (ds_start_spec d S) as [W [l L]]. apply (ds_run_spec ops d (ds_graph d) W (fun _ => eq_refl)). }
  assert (IN : forall g, In g (ds_graphs ho d') <-> exists k, ds_graph d' k = Some g).
  { intros g. unfold ds_graphs. split.
    - intros H. apply (Permutation_in g (Ho _)) in H. apply in_map_iff in H as ([k g'] & E & H). cbn in E. subst. exists k.
      apply hm_get_In; auto.
    - intros (k & H). apply hm_get_In in H; auto. apply (Permutation_in g (Permutation_sym (Ho _))).
      apply in_map_iff. exists (k, g). auto. }
  split; [exact IN|]. split; [|split; [|split; [|split; [|split; [|split]]]]]; try reflexivity.
  - unfold ds_len, ds_graphs. rewrite (Permutation_length (Ho _)), map_length. reflexivity.
  - unfold ds_is_empty. destruct d' as [|[k g] r] eqn:E; split; intros H; auto; try discriminate.
    specialize (H k). unfold ds_graph in H. cbn in H. rewrite key_eqb_refl in H. discriminate.
  - intros k. unfold ds_contains_graph, ds_graph. destruct (hm_get d' k); split; congruence.
  - split; reflexivity.
  - intros F. assert (N : forall k g, hm_get d' k = Some g -> g_name g = k) by (apply c32_names; auto). split.
    + unfold ds_graphs. eapply Permutation_NoDup; [apply Permutation_map, Permutation_sym, Ho|].
      rewrite In_get_names; auto.
    + intros g. rewrite IN. split; [|eauto]. intros (k & H). rewrite (N k g H). exact H.
Qed.

Lemma c39_data_set (d : data_set) f : ds_supports_feature d f = false /\
  forall k g, In (k, g) d -> g_supports_feature g feature_rdf_star = true.
Proof.
  split; [reflexivity|]. intros k g _. unfold g_supports_feature. rewrite str_eqb_refl. apply orb_true_r.
Qed.
