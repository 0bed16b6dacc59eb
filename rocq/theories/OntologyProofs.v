(** Proofs about vocabularies of RDF Schema. *)
From Verif Require Import OntologySpec NamesProofs LiteralProofs TermProofs StrFacts.
From Coq Require Import Permutation.

(** ** Lists with add and remove *)
Lemma drop_all_In {A} (eqb : A -> A -> bool) (E : forall a b, eqb a b = true <-> a = b) x y l :
  In y (drop_all eqb x l) <-> y <> x /\ In y l.
Proof.
  unfold drop_all. rewrite filter_In, negb_true_iff. split.
  - intros [I N]. split; [|exact I]. intros ->. assert (eqb x x = true) by (apply E; reflexivity). congruence.
  - intros [N I]. split; [exact I|]. destruct (eqb y x) eqn:B; [apply E in B; contradiction|reflexivity].
Qed.
Lemma holds_after_ext {A} (p q : A -> Prop) h x : (forall y, p y <-> q y) -> holds_after p h x <-> holds_after q h x.
Proof.
  revert p q. induction h as [|o h IH]; intros p q H; cbn; [apply H|]. apply IH. intros y.
  destruct o; rewrite ?(H y); reflexivity.
Qed.
Lemma str_eqb_iff a b : str_eqb a b = true <-> a = b.
Proof. apply str_eqb_eq. Qed.
Lemma lp_eqb_iff a b : lp_eqb a b = true <-> a = b.
Proof.
  destruct a, b; cbn; try (split; [discriminate|congruence]); rewrite ?lit_eqb_eq, ?str_eqb_eq; split; congruence.
Qed.

Section Field.
Context {X O A : Type} (step : X -> O -> X) (field : X -> list A) (ch : O -> change A) (eqb : A -> A -> bool).
Hypothesis E : forall a b, eqb a b = true <-> a = b.
Hypothesis S : forall x o, field (step x o) =
  match ch o with Adds a => field x ++ [a] | Removes a => drop_all eqb a (field x) | Leaves => field x end.
Lemma field_after h : forall x a, In a (field (fold_left step h x)) <-> holds_after (fun a => In a (field x)) (map ch h) a.
Proof.
  induction h as [|o h IH]; intros x a; cbn; [reflexivity|]. rewrite IH. apply holds_after_ext. intros y. rewrite S.
  destruct (ch o) as [z|z|].
  - rewrite in_app_iff. cbn. intuition.
  - apply drop_all_In, E.
  - reflexivity.
Qed.
End Field.

Lemma existsb_str l i : existsb (fun p => str_eqb p i) l = true <-> In i l.
Proof.
  rewrite existsb_exists. split; [intros (y & I & B); apply str_eqb_eq in B; subst; exact I|].
  intros I. exists i. split; [exact I|apply str_eqb_eq; reflexivity].
Qed.

Lemma c83_class c h : c_uri (class_run c h) = c_uri c /\
  (forall i, c_is_instance_of (class_run c h) i = true <-> holds_after (fun i => In i (c_types c)) (map type_change h) i) /\
  (forall i, c_is_child_of (class_run c h) i = true <-> holds_after (fun i => In i (c_parents c)) (map parent_change h) i) /\
  (forall p, In p (c_labels (class_run c h)) <-> holds_after (fun p => In p (c_labels c)) (map label_change h) p).
Proof.
  split; [|split; [|split]].
  - unfold class_run. revert c. induction h as [|o h IH]; intros c; cbn; [reflexivity|]. rewrite IH. destruct o; reflexivity.
  - intros i. unfold c_is_instance_of, class_run. rewrite existsb_str. apply field_after with (eqb := str_eqb); [apply str_eqb_iff|].
    intros x o. destruct o; reflexivity.
  - intros i. unfold c_is_child_of, class_run. rewrite existsb_str. apply field_after with (eqb := str_eqb); [apply str_eqb_iff|].
    intros x o. destruct o; reflexivity.
  - intros p. unfold class_run. apply field_after with (eqb := lp_eqb); [apply lp_eqb_iff|].
    intros x o. destruct o; reflexivity.
Qed.
Definition class_ops (h : list property_op) : list class_op := flat_map (fun o => match o with PClass o => [o] | _ => [] end) h.
Lemma c83_property p h : p_class (property_run p h) = class_run (p_class p) (class_ops h) /\
  (forall i, In i (p_domain (property_run p h)) <-> holds_after (fun i => In i (p_domain p)) (map domain_change h) i) /\
  (forall i, In i (p_range (property_run p h)) <-> holds_after (fun i => In i (p_range p)) (map range_change h) i).
Proof.
  split; [|split].
  - unfold property_run, class_run. revert p. induction h as [|o h IH]; intros p; cbn; [reflexivity|]. rewrite IH, fold_left_app.
    destruct o; reflexivity.
  - intros i. unfold property_run. apply field_after with (eqb := str_eqb); [apply str_eqb_iff|]. intros x o. destruct o; reflexivity.
  - intros i. unfold property_run. apply field_after with (eqb := str_eqb); [apply str_eqb_iff|]. intros x o. destruct o; reflexivity.
Qed.

(** ** The maps of a vocabulary *)
Section Map.
Context {A : Type} (key : A -> str).
Definition keyed (m : list (str * A)) : Prop := NoDup (map fst m) /\ forall k v, In (k, v) m -> key v = k.
Lemma assoc_insert_get k v m u : assoc u (assoc_insert (A := A) k v m) = if str_eqb k u then Some v else assoc u m.
Proof.
  induction m as [|[k' v'] m IH]; cbn; [reflexivity|]. destruct (str_eqb k' k) eqn:B.
  - apply str_eqb_eq in B. subst k'. cbn. destruct (str_eqb k u); reflexivity.
  - cbn. destruct (str_eqb k' u) eqn:C; [|exact IH]. apply str_eqb_eq in C. subst k'.
    destruct (str_eqb k u) eqn:D; [|reflexivity]. apply str_eqb_eq in D. subst.
    assert (str_eqb u u = true) by (apply str_eqb_eq; reflexivity). congruence.
Qed.
Lemma assoc_none k (m : list (str * A)) : assoc k m = None <-> ~ In k (map fst m).
Proof.
  induction m as [|[k' v] m IH]; cbn; [tauto|]. destruct (str_eqb k' k) eqn:B.
  - apply str_eqb_eq in B. split; [discriminate|]. intros N. exfalso. auto.
  - rewrite IH. split; intros N; [intros [->|I]|]; auto. assert (str_eqb k k = true) by (apply str_eqb_eq; reflexivity). congruence.
Qed.
Lemma assoc_remove_get k (m : list (str * A)) u : NoDup (map fst m) ->
  assoc u (assoc_remove k m) = if str_eqb k u then None else assoc u m.
Proof.
  induction m as [|[k' v'] m IH]; cbn; intros N; [destruct (str_eqb k u); reflexivity|]. inversion N as [|? ? NI N']; subst.
  destruct (str_eqb k' k) eqn:B.
  - apply str_eqb_eq in B. subst k'. destruct (str_eqb k u) eqn:C; [|reflexivity]. apply str_eqb_eq in C. subst. apply assoc_none, NI.
  - cbn. destruct (str_eqb k' u) eqn:C; [|apply IH, N']. apply str_eqb_eq in C. subst k'.
    destruct (str_eqb k u) eqn:D; [|reflexivity]. apply str_eqb_eq in D. subst.
    assert (str_eqb u u = true) by (apply str_eqb_eq; reflexivity). congruence.
Qed.
Lemma assoc_insert_In k v m k' v' : In (k', v') (assoc_insert (A := A) k v m) -> (k', v') = (k, v) \/ In (k', v') m.
Proof.
  induction m as [|[x y] m IH]; cbn; [intros [<-|[]]; auto|]. destruct (str_eqb x k) eqn:B; cbn.
  - apply str_eqb_eq in B. subst. intros [<-|I]; auto.
  - intros [<-|I]; [auto|]. destruct (IH I); auto.
Qed.
Lemma assoc_remove_In k (m : list (str * A)) e : In e (assoc_remove k m) -> In e m.
Proof. induction m as [|[x y] m IH]; cbn; [tauto|]. destruct (str_eqb x k); cbn; tauto. Qed.
Lemma keyed_insert v m : keyed m -> keyed (assoc_insert (key v) v m).
Proof.
  intros [N K]. split.
  - clear K. induction m as [|[x y] m IH]; cbn; [constructor; [intros []|constructor]|]. inversion N as [|? ? NI N']; subst.
    destruct (str_eqb x (key v)) eqn:B; cbn; [apply str_eqb_eq in B; subst; exact N|]. constructor; [|apply IH, N'].
    intros I. apply in_map_iff in I as ([k' v'] & Ek & I). cbn in Ek. subst k'. apply assoc_insert_In in I as [I|I].
    + injection I as -> ->. assert (str_eqb (key v) (key v) = true) by (apply str_eqb_eq; reflexivity). congruence.
    + apply NI, in_map_iff. exists (x, v'). auto.
  - intros k w I. apply assoc_insert_In in I as [I|I]; [injection I as -> ->; reflexivity|apply K, I].
Qed.
Lemma keyed_remove k m : keyed m -> keyed (assoc_remove k m).
Proof.
  intros [N K]. split; [|intros x w I; apply K, (assoc_remove_In k), I]. clear K.
  induction m as [|[x y] m IH]; cbn; [constructor|]. inversion N as [|? ? NI N']; subst. destruct (str_eqb x k); [exact N'|]. cbn.
  constructor; [|apply IH, N']. intros I. apply NI. apply in_map_iff in I as ([k' v'] & Ek & I). apply in_map_iff. exists (k', v').
  split; [exact Ek|]. eapply assoc_remove_In, I.
Qed.
Lemma keyed_get m u v : keyed m -> (assoc u m = Some v <-> In v (map snd m) /\ key v = u).
Proof.
  intros [N K]. split.
  - intros G. apply assoc_In in G. split; [apply in_map_iff; exists (u, v); auto|apply K, G].
  - intros [I E]. apply in_map_iff in I as ([k w] & Ew & I). cbn in Ew. subst w. pose proof (K _ _ I) as Ek. rewrite E in Ek. subst k.
    clear K E. induction m as [|[x y] m IH]; [destruct I|]. cbn. inversion N as [|? ? NI N']; subst. destruct I as [I|I].
    + injection I as -> ->. assert (str_eqb u u = true) as -> by (apply str_eqb_eq; reflexivity). reflexivity.
    + destruct (str_eqb x u) eqn:B; [|apply IH; assumption]. apply str_eqb_eq in B. subst. exfalso. apply NI, in_map_iff. exists (u, v). auto.
Qed.
Lemma keyed_nodup m : keyed m -> NoDup (map snd m).
Proof.
  intros [N K]. induction m as [|[x y] m IH]; cbn; [constructor|]. inversion N as [|? ? NI N']; subst. constructor.
  - intros I. apply in_map_iff in I as ([k w] & Ew & I). cbn in Ew. subst w. apply NI.
    rewrite <- (K x y) by (left; reflexivity). rewrite (K k y) by (right; exact I). apply in_map_iff. exists (k, y). auto.
  - apply IH; [exact N'|]. intros k v I. apply K. right. exact I.
Qed.
End Map.
Definition p_uri (p : property) : str := c_uri (p_class p).
Definition wf (v : vocab) : Prop := keyed c_uri (v_classes v) /\ keyed p_uri (v_properties v).
Lemma wf_new u : wf (vocab_new u).
Proof. split; (split; [constructor|intros ? ? []]). Qed.
Lemma wf_step v o : wf v -> wf (vocab_step v o).
Proof.
  intros [C P]. destruct o; cbn; (split; cbn; [|]); try assumption;
    first [apply keyed_remove; assumption | apply (keyed_insert c_uri); assumption | apply (keyed_insert p_uri); assumption].
Qed.
Lemma wf_fold h : forall v, wf v -> wf (fold_left vocab_step h v).
Proof. induction h as [|o h IH]; intros v W; cbn; [exact W|apply IH, wf_step, W]. Qed.
Lemma wf_run u h : wf (vocab_run u h).
Proof. apply wf_fold, wf_new. Qed.
Lemma class_after_fold h : forall v u, wf v -> assoc u (v_classes (fold_left vocab_step h v)) = class_after (assoc u (v_classes v)) h u.
Proof.
  induction h as [|o h IH]; intros v u W; [reflexivity|]. cbn [fold_left class_after]. rewrite IH by (apply wf_step, W).
  destruct W as [[C _] [P _]].
  destruct o; cbn; try reflexivity; [rewrite assoc_insert_get|rewrite assoc_remove_get by assumption]; reflexivity.
Qed.
Lemma property_after_fold h : forall v u, wf v -> assoc u (v_properties (fold_left vocab_step h v)) = property_after (assoc u (v_properties v)) h u.
Proof.
  induction h as [|o h IH]; intros v u W; [reflexivity|]. cbn [fold_left property_after]. rewrite IH by (apply wf_step, W).
  destruct W as [[C _] [P _]].
  destruct o; cbn; try reflexivity; [rewrite assoc_insert_get|rewrite assoc_remove_get by assumption]; reflexivity.
Qed.
Lemma c83_vocab u h ord_c ord_p : reorders ord_c -> reorders ord_p -> v_uri (vocab_run u h) = u /\
  (forall c, In c (v_class_list ord_c (vocab_run u h)) <-> class_after None h (c_uri c) = Some c) /\
  (forall p, In p (v_property_list ord_p (vocab_run u h)) <-> property_after None h (c_uri (p_class p)) = Some p) /\
  NoDup (v_class_list ord_c (vocab_run u h)) /\ NoDup (v_property_list ord_p (vocab_run u h)) /\
  (forall p, In p (v_labels (vocab_run u h)) <-> holds_after (fun _ => False) (map vocab_label_change h) p).
Proof.
  intros OC OP. pose proof (wf_run u h) as [C P]. split; [|split; [|split; [|split; [|split]]]].
  - unfold vocab_run. assert (X : forall v, v_uri (fold_left vocab_step h v) = v_uri v); [|apply (X (vocab_new u))].
    induction h as [|o h IH]; intros v; cbn; [reflexivity|]. rewrite IH; [destruct o; reflexivity|apply wf_run|apply wf_run].
  - intros c. unfold v_class_list. pose proof (class_after_fold h (vocab_new u) (c_uri c) (wf_new u)) as F. change (assoc (c_uri c) (v_classes (vocab_new u))) with (@None class) in F. change (fold_left vocab_step h (vocab_new u)) with (vocab_run u h) in F. rewrite <- F.
    rewrite (keyed_get c_uri _ _ _ C). split; [intros I; split; [|reflexivity]|intros [I _]].
    + eapply Permutation_in; [apply OC|exact I].
    + eapply Permutation_in; [apply Permutation_sym, OC|exact I].
  - intros p. unfold v_property_list. pose proof (property_after_fold h (vocab_new u) (c_uri (p_class p)) (wf_new u)) as F. change (assoc (c_uri (p_class p)) (v_properties (vocab_new u))) with (@None property) in F. change (fold_left vocab_step h (vocab_new u)) with (vocab_run u h) in F. rewrite <- F.
    rewrite (keyed_get p_uri _ _ _ P). split; [intros I; split; [|reflexivity]|intros [I _]].
    + eapply Permutation_in; [apply OP|exact I].
    + eapply Permutation_in; [apply Permutation_sym, OP|exact I].
  - eapply Permutation_NoDup; [apply Permutation_sym, OC|]. apply (keyed_nodup c_uri), C.
  - eapply Permutation_NoDup; [apply Permutation_sym, OP|]. apply (keyed_nodup p_uri), P.
  - intros p. unfold vocab_run. change (fun _ : label_property => False) with (fun p => In p (v_labels (vocab_new u))).
    apply field_after with (eqb := lp_eqb); [apply lp_eqb_iff|]. intros x o. destruct o; reflexivity.
Qed.

(** ** Statements *)
Lemma t_label : term tb_rdfs $"label" = rdfs $"label". Proof. reflexivity. Qed.
Lemma t_comment : term tb_rdfs $"comment" = rdfs $"comment". Proof. reflexivity. Qed.
Lemma t_see : term tb_rdfs $"see_also" = rdfs $"seeAlso". Proof. reflexivity. Qed.
Lemma t_def : term tb_rdfs $"is_defined_by" = rdfs $"isDefinedBy". Proof. reflexivity. Qed.
Lemma t_dom : term tb_rdfs $"domain" = rdfs $"domain". Proof. reflexivity. Qed.
Lemma t_rng : term tb_rdfs $"range" = rdfs $"range". Proof. reflexivity. Qed.
Lemma t_type : term tb_rdf $"a_type" = rdf $"type". Proof. reflexivity. Qed.
Lemma labelled_iff u ls st : In st (to_label_statements u ls) <-> labelled u ls st.
Proof.
  unfold to_label_statements. rewrite in_map_iff. split.
  - intros (p & <- & I). destruct p; unfold label_statement;
      [rewrite t_label|rewrite t_comment|rewrite t_see|rewrite t_def]; constructor; exact I.
  - intros L. destruct L as [ls v I|ls v I|ls v I|ls v I]; eexists; (split; [|exact I]); unfold label_statement;
      [rewrite t_label|rewrite t_comment|rewrite t_see|rewrite t_def]; reflexivity.
Qed.
Lemma class_says_iff c st : In st (to_label_statements (c_uri c) (c_labels c) ++ to_statements c) <-> class_says (rdf $"type") c st.
Proof.
  unfold to_statements. rewrite !in_app_iff, labelled_iff, !in_map_iff, t_type. split.
  - intros [L|[(t & <- & I)|(t & <- & I)]]; [apply says_labelled, L|apply says_type, I|apply says_parent, I].
  - intros [st' L|t I|t I]; [left; exact L|right; left; exists t; auto|right; right; exists t; auto].
Qed.
Lemma c84_exact ord_c ord_p v st : reorders ord_c -> reorders ord_p -> wf v ->
  In st (v_to_statements ord_c ord_p v) <-> vocab_says (rdf $"type") (rdf $"type") v st.
Proof.
  intros OC OP [C P]. unfold v_to_statements. rewrite !in_app_iff, labelled_iff, !in_flat_map.
  assert (HC : forall c, In c (v_class_list ord_c v) <-> exists u, assoc u (v_classes v) = Some c).
  { intros c. unfold v_class_list. split.
    - intros I. exists (c_uri c). apply (keyed_get c_uri _ _ _ C). split; [|reflexivity]. eapply Permutation_in; [apply OC|exact I].
    - intros (u & G). apply (keyed_get c_uri _ _ _ C) in G as [I _]. eapply Permutation_in; [apply Permutation_sym, OC|exact I]. }
  assert (HP : forall p, In p (v_property_list ord_p v) <-> exists u, assoc u (v_properties v) = Some p).
  { intros p. unfold v_property_list. split.
    - intros I. exists (p_uri p). apply (keyed_get p_uri _ _ _ P). split; [|reflexivity]. eapply Permutation_in; [apply OP|exact I].
    - intros (u & G). apply (keyed_get p_uri _ _ _ P) in G as [I _]. eapply Permutation_in; [apply Permutation_sym, OP|exact I]. }
  split.
  - intros [L|[(c & I & J)|(p & I & J)]].
    + apply says_about, L.
    + apply HC in I as (u & G). apply class_says_iff in J. eapply says_class; eassumption.
    + apply HP in I as (u & G). rewrite !in_app_iff in J. destruct J as [J|[J|[J|J]]].
      * eapply says_property; [exact G|]. apply class_says_iff, in_app_iff. auto.
      * eapply says_property; [exact G|]. apply class_says_iff, in_app_iff. auto.
      * rewrite t_dom in J. apply in_map_iff in J as (d & <- & J). eapply says_domain; eassumption.
      * rewrite t_rng in J. apply in_map_iff in J as (d & <- & J). eapply says_range; eassumption.
  - intros S. destruct S as [st L|u c st G J|u p st G J|u p d G J|u p d G J].
    + left. exact L.
    + right. left. exists c. split; [apply HC; eauto|apply class_says_iff, J].
    + right. right. exists p. split; [apply HP; eauto|]. apply class_says_iff, in_app_iff in J. rewrite !in_app_iff. tauto.
    + right. right. exists p. split; [apply HP; eauto|]. rewrite !in_app_iff, t_dom, !in_map_iff. right. right. left. eauto.
    + right. right. exists p. split; [apply HP; eauto|]. rewrite !in_app_iff, t_rng, !in_map_iff. right. right. right. eauto.
Qed.
Lemma class_says_flat a b c st : c_parents c = [] -> class_says a c st <-> class_says b c st.
Proof.
  intros N. split; intros [st' L|t I|t I]; try (apply says_labelled; exact L); try (apply says_type; exact I); rewrite N in I; destruct I.
Qed.
Lemma c84_flat ord_c ord_p u h st : reorders ord_c -> reorders ord_p -> no_parents (vocab_run u h) ->
  In st (v_to_statements ord_c ord_p (vocab_run u h)) <-> vocab_says sub_class_of sub_property_of (vocab_run u h) st.
Proof.
  intros OC OP [NC NP]. rewrite c84_exact by (try assumption; apply wf_run). split.
  - intros S. destruct S as [st L|k c st G J|k p st G J|k p d G J|k p d G J].
    + apply says_about, L.
    + eapply says_class; [exact G|]. eapply class_says_flat; [eapply NC, G|exact J].
    + eapply says_property; [exact G|]. eapply class_says_flat; [eapply NP, G|exact J].
    + eapply says_domain; eassumption.
    + eapply says_range; eassumption.
  - intros S. destruct S as [st L|k c st G J|k p st G J|k p d G J|k p d G J].
    + apply says_about, L.
    + eapply says_class; [exact G|]. eapply class_says_flat; [eapply NC, G|exact J].
    + eapply says_property; [exact G|]. eapply class_says_flat; [eapply NP, G|exact J].
    + eapply says_domain; eassumption.
    + eapply says_range; eassumption.
Qed.
Definition written_predicates : list str :=
  [rdf $"type"; rdfs $"label"; rdfs $"comment"; rdfs $"seeAlso"; rdfs $"isDefinedBy"; rdfs $"domain"; rdfs $"range"].
Lemma labelled_pred u ls st : labelled u ls st -> In (st_predicate st) written_predicates.
Proof. unfold written_predicates. intros L. destruct L; cbn [st_predicate In]; tauto. Qed.
Lemma says_pred v st : vocab_says (rdf $"type") (rdf $"type") v st -> In (st_predicate st) written_predicates.
Proof.
  intros S. destruct S as [st L|k c st G J|k p st G J|k p d G J|k p d G J].
  - eapply labelled_pred, L.
  - destruct J as [st L|t I|t I]; [eapply labelled_pred, L| |]; unfold written_predicates; cbn [st_predicate In]; tauto.
  - destruct J as [st L|t I|t I]; [eapply labelled_pred, L| |]; unfold written_predicates; cbn [st_predicate In]; tauto.
  - unfold written_predicates; cbn [st_predicate In]; tauto.
  - unfold written_predicates; cbn [st_predicate In]; tauto.
Qed.
Lemma c84_never ord_c ord_p u h st : reorders ord_c -> reorders ord_p ->
  In st (v_to_statements ord_c ord_p (vocab_run u h)) -> st_predicate st <> sub_class_of /\ st_predicate st <> sub_property_of.
Proof.
  intros OC OP I. apply c84_exact in I; [|assumption|assumption|apply wf_run]. apply says_pred in I. clear OC OP h.
  revert I. generalize (st_predicate st). intros p I.
  assert (B : existsb (str_eqb p) written_predicates = true).
  { apply existsb_exists. exists p. split; [exact I|apply str_eqb_eq; reflexivity]. }
  split; intros ->; vm_compute in B; discriminate B.
Qed.
Lemma c84_parents ord_c ord_p u h : reorders ord_c -> reorders ord_p ->
  (forall k c t, assoc k (v_classes (vocab_run u h)) = Some c -> In t (c_parents c) ->
    In (MkStmt (SRes k) (rdf $"type") (ORes t)) (v_to_statements ord_c ord_p (vocab_run u h)) /\
    vocab_says sub_class_of sub_property_of (vocab_run u h) (MkStmt (SRes k) sub_class_of (ORes t)) /\
    ~ In (MkStmt (SRes k) sub_class_of (ORes t)) (v_to_statements ord_c ord_p (vocab_run u h))) /\
  (forall k p t, assoc k (v_properties (vocab_run u h)) = Some p -> In t (c_parents (p_class p)) ->
    In (MkStmt (SRes k) (rdf $"type") (ORes t)) (v_to_statements ord_c ord_p (vocab_run u h)) /\
    vocab_says sub_class_of sub_property_of (vocab_run u h) (MkStmt (SRes k) sub_property_of (ORes t)) /\
    ~ In (MkStmt (SRes k) sub_property_of (ORes t)) (v_to_statements ord_c ord_p (vocab_run u h))).
Proof.
  intros OC OP. pose proof (wf_run u h) as [C P]. split; intros k c t G I.
  - assert (K : c_uri c = k) by (apply (keyed_get c_uri _ _ _ C) in G as [_ G]; exact G). subst k. split; [|split].
    + apply c84_exact; [assumption|assumption|apply wf_run|]. eapply says_class; [exact G|]. apply says_parent, I.
    + eapply says_class; [exact G|]. apply says_parent, I.
    + intros J. eapply c84_never in J as [J _]; [|assumption|assumption]. apply J. reflexivity.
  - assert (K : c_uri (p_class c) = k) by (apply (keyed_get p_uri _ _ _ P) in G as [_ G]; exact G). subst k. split; [|split].
    + apply c84_exact; [assumption|assumption|apply wf_run|]. eapply says_property; [exact G|]. apply says_parent, I.
    + eapply says_property; [exact G|]. apply says_parent, I.
    + intros J. eapply c84_never in J as [_ J]; [|assumption|assumption]. apply J. reflexivity.
Qed.
Lemma c84_orders ord_c ord_p ord_c' ord_p' v : reorders ord_c -> reorders ord_p -> reorders ord_c' -> reorders ord_p' ->
  Permutation (v_to_statements ord_c ord_p v) (v_to_statements ord_c' ord_p' v).
Proof.
  intros A B A' B'. unfold v_to_statements, v_class_list, v_property_list. apply Permutation_app_head. apply Permutation_app.
  - apply Permutation_flat_map. eapply perm_trans; [apply A|apply Permutation_sym, A'].
  - apply Permutation_flat_map. eapply perm_trans; [apply B|apply Permutation_sym, B'].
Qed.

(** ** The vocabulary of RDF Schema *)
Definition mem_st (l : list statement) (st : statement) : bool := existsb (st_eqb st) l.
Lemma mem_st_iff l st : mem_st l st = true <-> In st l.
Proof.
  unfold mem_st. rewrite existsb_exists. split.
  - intros (x & I & E). apply st_eqb_eq in E. subst. exact I.
  - intros I. exists st. split; [exact I|]. apply st_eqb_eq. reflexivity.
Qed.
Definition schema_written : list statement := v_to_statements (fun l => l) (fun l => l) rdf_schema.
Lemma written_any ord_c ord_p st : reorders ord_c -> reorders ord_p ->
  In st (v_to_statements ord_c ord_p rdf_schema) <-> In st schema_written.
Proof.
  intros A B. assert (P : Permutation (v_to_statements ord_c ord_p rdf_schema) schema_written).
  { apply c84_orders; try assumption; intros l; apply Permutation_refl. }
  split; apply Permutation_in; [exact P|apply Permutation_sym, P].
Qed.
Definition mentions_b (l : list str) (st : statement) : bool :=
  existsb (fun i => match st_subject st with SRes s => str_eqb s i | _ => false end || str_eqb (st_predicate st) i ||
                    match st_object st with ORes o => str_eqb o i | _ => false end) l.
Lemma mentions_iff l st : mentions_b l st = true <-> mentions l st.
Proof.
  unfold mentions_b, mentions. rewrite existsb_exists. split; intros (i & I & H); exists i; (split; [exact I|]).
  - rewrite !orb_true_iff in H. destruct st as [s p o]. cbn [st_subject st_predicate st_object] in *. destruct H as [[H|H]|H].
    + destruct s; try discriminate. apply str_eqb_eq in H. subst. auto.
    + apply str_eqb_eq in H. subst. auto.
    + destruct o; try discriminate. apply str_eqb_eq in H. subst. auto.
  - rewrite !orb_true_iff. destruct H as [->|[->| ->]]; rewrite ?str_eqb_refl; auto.
Qed.
Definition lost (st : statement) : bool := str_eqb (st_predicate st) sub_class_of || mentions_b (map rdf misplaced) st.
Lemma c85_written ord_c ord_p st : reorders ord_c -> reorders ord_p -> In st rdf_schema_triples ->
  In st (v_to_statements ord_c ord_p rdf_schema) <-> st_predicate st <> sub_class_of /\ ~ mentions (map rdf misplaced) st.
Proof.
  intros A B I. rewrite (written_any ord_c ord_p st A B), <- mem_st_iff, <- mentions_iff.
  assert (K : forallb (fun st => Bool.eqb (mem_st schema_written st) (negb (lost st))) rdf_schema_triples = true) by (vm_compute; reflexivity).
  rewrite forallb_forall in K. specialize (K _ I). apply eqb_prop in K. rewrite K. unfold lost. rewrite negb_true_iff, orb_false_iff.
  rewrite <- not_true_iff_false, str_eqb_eq. split; intros [X Y]; (split; [exact X|]).
  - rewrite Y. discriminate.
  - apply not_true_iff_false, Y.
Qed.
Lemma c85_moved ord_c ord_p st : reorders ord_c -> reorders ord_p -> In st rdf_schema_triples -> st_predicate st <> sub_class_of ->
  exists st', In st' (v_to_statements ord_c ord_p rdf_schema) /\ moved_st st' = st.
Proof.
  intros A B I N.
  assert (K : forallb (fun st => str_eqb (st_predicate st) sub_class_of || existsb (fun st' => st_eqb (moved_st st') st) schema_written)
                rdf_schema_triples = true) by (vm_compute; reflexivity).
  rewrite forallb_forall in K. specialize (K _ I). apply orb_true_iff in K as [K|K]; [apply str_eqb_eq in K; contradiction|].
  apply existsb_exists in K as (st' & J & E). apply st_eqb_eq in E. exists st'. split; [apply written_any; assumption|exact E].
Qed.
Lemma c85_superclasses ord_c ord_p s o : reorders ord_c -> reorders ord_p -> In (triple s sub_class_of o) rdf_schema_triples ->
  exists st', In st' (v_to_statements ord_c ord_p rdf_schema) /\ moved_st st' = triple s (rdf $"type") o.
Proof.
  intros A B I.
  pose (typed := fun st => match st with MkStmt (SRes s) _ (ORes o) => triple s (rdf $"type") o | _ => st end).
  assert (K : forallb (fun st => negb (str_eqb (st_predicate st) sub_class_of) || existsb (fun st' => st_eqb (moved_st st') (typed st)) schema_written)
                rdf_schema_triples = true) by (vm_compute; reflexivity).
  rewrite forallb_forall in K. specialize (K _ I). apply orb_true_iff in K as [K|K].
  - change (st_predicate (triple s sub_class_of o)) with sub_class_of in K. rewrite str_eqb_refl in K. discriminate K.
  - apply existsb_exists in K as (st' & J & E). apply st_eqb_eq in E. exists st'. split; [apply written_any; assumption|exact E].
Qed.
Lemma c85_extra ord_c ord_p st : reorders ord_c -> reorders ord_p -> In st (v_to_statements ord_c ord_p rdf_schema) ->
  In st rdf_schema_triples \/ mentions (map rdfs misplaced) st \/
  (exists s o, st = triple s (rdf $"type") o /\ In (triple s sub_class_of o) rdf_schema_triples) \/
  st = triple $"http://www.w3.org/2000/01/rdf-schema#" (rdfs $"isDefinedBy") $"https://www.w3.org/TR/rdf-schema".
Proof.
  intros A B I. apply written_any in I; [|assumption|assumption].
  pose (as_type := fun st => match st with
     | MkStmt (SRes s) p (ORes o) => str_eqb p (rdf $"type") && mem_st rdf_schema_triples (triple s sub_class_of o) | _ => false end).
  assert (K : forallb (fun st => mem_st rdf_schema_triples st || mentions_b (map rdfs misplaced) st || as_type st ||
     st_eqb st (triple $"http://www.w3.org/2000/01/rdf-schema#" (rdfs $"isDefinedBy") $"https://www.w3.org/TR/rdf-schema")) schema_written = true)
    by (vm_compute; reflexivity).
  rewrite forallb_forall in K. specialize (K _ I). rewrite !orb_true_iff, mem_st_iff, mentions_iff, st_eqb_eq in K.
  destruct K as [[[K|K]|K]|K]; [auto|auto| |auto]. right. right. left. subst as_type. cbv beta in K.
  destruct st as [[| s|] p [|o| | |]]; try discriminate. apply andb_true_iff in K as [K L]. apply str_eqb_eq in K. subst p.
  exists s, o. split; [reflexivity|apply mem_st_iff, L].
Qed.

(** ** Constructors *)
Lemma one_str a i : existsb (fun p => str_eqb p i) [a] = true <-> i = a.
Proof. rewrite existsb_str. cbn. split; [intros [->|[]]; reflexivity|intros ->; auto]. Qed.
Lemma c83_made c u : let k := class_subclass c u in let n := class_instance c u in
  c_uri k = u /\ (forall i, c_is_child_of k i = true <-> i = c_uri c) /\ (forall i, c_is_instance_of k i = true <-> i = rdfs $"Class") /\
  c_uri n = u /\ (forall i, c_is_child_of n i = true <-> False) /\ (forall i, c_is_instance_of n i = true <-> i = c_uri c).
Proof.
  cbv zeta. change (rdfs $"Class") with (term tb_rdfs $"class"). unfold class_subclass, class_instance, c_is_child_of, c_is_instance_of.
  cbn [c_uri c_parents c_types]. split; [reflexivity|]. split; [intros i; apply one_str|]. split; [intros i; apply one_str|].
  split; [reflexivity|]. split; [intros i; cbn; split; [discriminate|intros []]|intros i; apply one_str].
Qed.
Lemma c83_made_property q u : let k := property_sub_property q u in let n := property_instance q u in
  c_uri (p_class k) = u /\ (forall i, c_is_child_of (p_class k) i = true <-> i = c_uri (p_class q)) /\
  (forall i, c_is_instance_of (p_class k) i = true <-> i = rdfs $"Property") /\
  c_uri (p_class n) = u /\ (forall i, c_is_child_of (p_class n) i = true <-> False) /\
  (forall i, c_is_instance_of (p_class n) i = true <-> i = c_uri (p_class q)) /\
  p_domain k = [] /\ p_range k = [] /\ p_domain n = [] /\ p_range n = [].
Proof.
  cbv zeta. change (rdfs $"Property") with (term tb_rdfs $"property").
  unfold property_sub_property, property_instance, c_is_child_of, c_is_instance_of. cbn [p_class c_uri c_parents c_types].
  split; [reflexivity|]. split; [intros i; apply one_str|]. split; [intros i; apply one_str|].
  split; [reflexivity|]. split; [intros i; cbn; split; [discriminate|intros []]|split; [intros i; apply one_str|auto]].
Qed.
Lemma c83_new u t p i :
  (forall c, In c [class_new u; class_new_instance u t; class_new_subclass u p; class_new_instance_and_subclass u t p] ->
     c_uri c = u /\ c_labels c = []) /\
  (c_is_instance_of (class_new u) i = true <-> i = rdfs $"Class") /\ c_is_child_of (class_new u) i = false /\
  (c_is_instance_of (class_new_instance u t) i = true <-> i = t) /\ c_is_child_of (class_new_instance u t) i = false /\
  (c_is_instance_of (class_new_subclass u p) i = true <-> i = rdfs $"Class") /\ (c_is_child_of (class_new_subclass u p) i = true <-> i = p) /\
  (c_is_instance_of (class_new_instance_and_subclass u t p) i = true <-> i = t) /\
  (c_is_child_of (class_new_instance_and_subclass u t p) i = true <-> i = p).
Proof.
  change (rdfs $"Class") with (term tb_rdfs $"class"). split; [intros c [<-|[<-|[<-|[<-|[]]]]]; auto|].
  unfold c_is_child_of, c_is_instance_of. repeat split; try reflexivity; apply one_str.
Qed.

Lemma c83_new_property u d r t : 
  (forall q, In q [property_new u; property_new_with u d r; property_new_sub_property u t] ->
     c_uri (p_class q) = u /\ (forall i, c_is_instance_of (p_class q) i = true <-> i = rdfs $"Property")) /\
  (c_uri (p_class (property_new_instance u t)) = u /\ forall i, c_is_instance_of (p_class (property_new_instance u t)) i = true <-> i = t) /\
  (forall i, c_is_child_of (p_class (property_new_sub_property u t)) i = true <-> i = t) /\
  (forall q i, In q [property_new u; property_new_with u d r; property_new_instance u t] -> c_is_child_of (p_class q) i = false) /\
  (p_domain (property_new_with u d r) = [d] /\ p_range (property_new_with u d r) = [r]) /\
  (forall q, In q [property_new u; property_new_instance u t; property_new_sub_property u t] -> p_domain q = [] /\ p_range q = []).
Proof.
  change (rdfs $"Property") with (term tb_rdfs $"property"). unfold c_is_child_of, c_is_instance_of.
  split; [intros q [<- | [<- | [<- | []]]]; (split; [reflexivity|]); intros i; apply one_str|].
  split; [split; [reflexivity|intros i; apply one_str]|]. split; [intros i; apply one_str|].
  split; [intros q i [<- | [<- | [<- | []]]]; reflexivity|]. split; [split; reflexivity|].
  intros q [<- | [<- | [<- | []]]]; split; reflexivity.
Qed.
