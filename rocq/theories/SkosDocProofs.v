(** Lemmas about the document of a scheme: what becomes of the concepts, equality and [dedup],
    sorting. *)
From Verif Require Import Str StrFacts LiteralProofs Skos SkosSpec SkosProofs SkosMore Turtle TurtleProofs SkosDoc SkosDocSpec.
From Coq Require Import Arith Lia Relations.

(** ** The inverse relations *)
Definition rels_at (w : world) (k : nat) : list (concept_relation * nat) :=
  match nth_error (w_concepts w) k with Some c => kc_concepts c | None => [] end.
Definition with_more (c : concept) (l : list (concept_relation * nat)) : concept :=
  MkConcept (kc_uri c) (kc_concepts c ++ l) (kc_external c) (kc_labels c) (kc_properties c).
Definition grown (w w' : world) (add : nat -> list (concept_relation * nat)) : Prop :=
  w_collections w' = w_collections w /\ w_scheme w' = w_scheme w /\
  forall k, nth_error (w_concepts w') k = option_map (fun c => with_more c (add k)) (nth_error (w_concepts w) k).
Definition inv_of (k : nat) (rels : list (concept_relation * nat)) (k' : nat) : list (concept_relation * nat) :=
  flat_map (fun rj => if is_related_one_way (fst rj) && Nat.eqb (snd rj) k' then [(rel_inverse (fst rj), k)] else []) rels.

Lemma with_more_nil c : with_more c [] = c.
Proof. destruct c. unfold with_more. cbn. rewrite app_nil_r. reflexivity. Qed.
Lemma with_more_app c a b : with_more (with_more c a) b = with_more c (a ++ b).
Proof. unfold with_more. cbn. rewrite app_assoc. reflexivity. Qed.

Lemma grown_refl w : grown w w (fun _ => []).
Proof.
  repeat split. intros k. destruct (nth_error (w_concepts w) k) as [c|]; cbn; [rewrite with_more_nil|]; reflexivity.
Qed.
Lemma grown_trans w w1 w2 a b : grown w w1 a -> grown w1 w2 b -> grown w w2 (fun k => a k ++ b k).
Proof.
  intros (A1 & A2 & A3) (B1 & B2 & B3). split; [congruence|]. split; [congruence|]. intros k. rewrite B3, A3.
  destruct (nth_error (w_concepts w) k) as [c|]; cbn; [rewrite with_more_app|]; reflexivity.
Qed.
Lemma grown_ext w w' a b : (forall k, a k = b k) -> grown w w' a -> grown w w' b.
Proof.
  intros E (A1 & A2 & A3). split; [exact A1|]. split; [exact A2|]. intros k. rewrite A3, E. reflexivity.
Qed.

Lemma relate_all_grown k rels : forall w w', relate_all k rels w = Ret w' -> grown w w' (inv_of k rels).
Proof.
  induction rels as [|[r j] rels IH]; intros w w' H; cbn in H.
  - injection H as <-. apply grown_refl.
  - unfold inv_of. cbn [flat_map fst snd]. destruct (is_related_one_way r) eqn:O; cbn [andb].
    + destruct (Nat.eqb j k) eqn:J; [discriminate|]. apply IH in H.
      eapply grown_trans; [|exact H].
      split; [reflexivity|]. split; [reflexivity|]. intros i. cbn [w_on_concepts w_concepts]. rewrite update_nth.
      destruct (Nat.eqb_spec i j) as [->|N].
      * rewrite Nat.eqb_refl. destruct (nth_error (w_concepts w) j); reflexivity.
      * replace (Nat.eqb j i) with false by (symmetry; apply Nat.eqb_neq; congruence).
        destruct (nth_error (w_concepts w) i) as [c|]; cbn; [rewrite with_more_nil|]; reflexivity.
    + apply IH in H. exact H.
Qed.

Lemma relate_all_panic k rels : forall w, relate_all k rels w = Panic <-> exists r, In (r, k) rels /\ is_related_one_way r = true.
Proof.
  induction rels as [|[r j] rels IH]; intros w; cbn.
  - split; [discriminate|]. intros (r & [] & _).
  - destruct (is_related_one_way r) eqn:O.
    + destruct (Nat.eqb_spec j k) as [->|N].
      * split; [|reflexivity]. intros _. exists r. auto.
      * rewrite IH. split; intros (r' & I & O'); exists r'; [auto|]. destruct I as [E|I]; [congruence|auto].
    + rewrite IH. split; intros (r' & I & O'); exists r'; [auto|]. destruct I as [E|I]; [congruence|auto].
Qed.

Lemma inverse_not_one_way r : is_related_one_way r = true -> is_related_one_way (rel_inverse r) = false.
Proof. destruct r; cbn; congruence. Qed.
Lemma inv_of_none k rels k' : Forall (fun rj => is_related_one_way (fst rj) = false) (inv_of k rels k').
Proof.
  unfold inv_of. apply Forall_flat_map, Forall_forall. intros [r j] _. cbn.
  destruct (is_related_one_way r) eqn:O; cbn; [|constructor]. destruct (Nat.eqb j k'); repeat constructor. cbn.
  apply inverse_not_one_way, O.
Qed.
Lemma inv_of_app k a b k' : inv_of k (a ++ b) k' = inv_of k a k' ++ inv_of k b k'.
Proof. apply flat_map_app. Qed.
Lemma inv_of_idle k a k' : Forall (fun rj => is_related_one_way (fst rj) = false) a -> inv_of k a k' = [].
Proof.
  unfold inv_of. induction 1 as [|[r j] l H _ IH]; cbn in *; [reflexivity|]. rewrite H. exact IH.
Qed.
Definition idle (add : nat -> list (concept_relation * nat)) : Prop :=
  forall k, Forall (fun rj => is_related_one_way (fst rj) = false) (add k).

Lemma grown_rels w w' a k : grown w w' a -> (k < length (w_concepts w))%nat -> rels_at w' k = rels_at w k ++ a k.
Proof.
  intros (_ & _ & G) L. unfold rels_at. rewrite G. apply nth_error_Some in L. destruct (nth_error (w_concepts w) k); [reflexivity|congruence].
Qed.
Lemma grown_inv w w' a k j : grown w w' a -> idle a -> inv_of k (rels_at w' k) j = inv_of k (rels_at w k) j.
Proof.
  intros G I. destruct (Nat.lt_ge_cases k (length (w_concepts w))) as [L|L].
  - rewrite (grown_rels _ _ _ _ G L), inv_of_app, (inv_of_idle k (a k)), app_nil_r; [reflexivity|apply I].
  - destruct G as (_ & _ & G). unfold rels_at. rewrite G. apply nth_error_None in L. rewrite L. reflexivity.
Qed.

Definition inverses (w : world) (ks : list nat) (k' : nat) : list (concept_relation * nat) :=
  flat_map (fun k => inv_of k (rels_at w k) k') ks.
Lemma inverses_idle w ks : idle (inverses w ks).
Proof. intros k. apply Forall_flat_map, Forall_forall. intros j _. apply inv_of_none. Qed.

Lemma relate_grown_gen ks : forall w0 w a w', grown w0 w a -> idle a -> relate ks w = Ret w' ->
  grown w w' (inverses w0 ks).
Proof.
  induction ks as [|k ks IH]; intros w0 w a w' G I H; cbn in H.
  - injection H as <-. apply grown_refl.
  - unfold inverses. cbn [flat_map].
    assert (E : forall j, inv_of k (rels_at w k) j = inv_of k (rels_at w0 k) j) by (intros j; apply (grown_inv _ _ _ _ _ G I)).
    destruct (nth_error (w_concepts w) k) as [c|] eqn:N.
    + destruct (relate_all k (kc_concepts c) w) as [w1|] eqn:R; [|discriminate].
      apply relate_all_grown in R.
      assert (R' : grown w w1 (inv_of k (rels_at w0 k))).
      { apply (grown_ext _ _ (inv_of k (kc_concepts c))); [|exact R]. intros j. rewrite <- E. unfold rels_at. rewrite N. reflexivity. }
      eapply grown_trans; [exact R'|].
      apply (IH w0 w1 (fun j => a j ++ inv_of k (rels_at w0 k) j)); [eapply grown_trans; eassumption| |exact H].
      intros j. apply Forall_app. split; [apply I|apply inv_of_none].
    + apply (grown_ext _ _ (inverses w0 ks)).
      * intros j. rewrite <- E. unfold rels_at. rewrite N. reflexivity.
      * apply (IH w0 w a); assumption.
Qed.
Lemma relate_grown ks w w' : relate ks w = Ret w' -> grown w w' (inverses w ks).
Proof. apply (relate_grown_gen ks w w (fun _ => [])); [apply grown_refl|intros k; constructor]. Qed.

Lemma relate_panic_gen ks : forall w0 w a, grown w0 w a -> idle a ->
  relate ks w = Panic <-> exists k r, In k ks /\ In (r, k) (rels_at w0 k) /\ is_related_one_way r = true.
Proof.
  induction ks as [|k ks IH]; intros w0 w a G I; cbn.
  - split; [discriminate|]. intros (k & r & [] & _).
  - assert (P : (exists r, In (r, k) (rels_at w k) /\ is_related_one_way r = true) <-> (exists r, In (r, k) (rels_at w0 k) /\ is_related_one_way r = true)).
    { destruct (Nat.lt_ge_cases k (length (w_concepts w0))) as [L|L].
      - rewrite (grown_rels _ _ _ _ G L). split; intros (r & J & O); exists r; (split; [|exact O]).
        + apply in_app_or in J as [J|J]; [exact J|]. specialize (I k). rewrite Forall_forall in I. apply I in J. cbn in J. congruence.
        + apply in_or_app. auto.
      - destruct G as (_ & _ & G). unfold rels_at. rewrite G. apply nth_error_None in L. rewrite L. reflexivity. }
    destruct (nth_error (w_concepts w) k) as [c|] eqn:N.
    + assert (RW : rels_at w k = kc_concepts c) by (unfold rels_at; rewrite N; reflexivity). rewrite RW in P.
      destruct (relate_all k (kc_concepts c) w) as [w1|] eqn:R.
      * assert (NP : ~ exists r, In (r, k) (kc_concepts c) /\ is_related_one_way r = true).
        { intros X. apply (relate_all_panic k (kc_concepts c) w) in X. congruence. }
        apply relate_all_grown in R.
        rewrite (IH w0 w1 (fun j => a j ++ inv_of k (kc_concepts c) j)).
        -- split; intros (j & r & J & K & O); exists j, r; [auto|]. destruct J as [<-|J]; [|auto].
           destruct NP. apply P. eauto.
        -- eapply grown_trans; eassumption.
        -- intros j. apply Forall_app. split; [apply I|apply inv_of_none].
      * split; [|reflexivity]. intros _. apply relate_all_panic in R. apply P in R as (r & J & O). exists k, r. auto.
    + rewrite (IH w0 w a G I). split; intros (j & r & J & K & O); exists j, r; [auto|]. destruct J as [<-|J]; [|auto].
      assert (X : exists r, In (r, k) (rels_at w k) /\ is_related_one_way r = true) by (apply P; eauto).
      unfold rels_at in X. rewrite N in X. destruct X as (? & [] & _).
Qed.
Lemma relate_panic ks w : relate ks w = Panic <-> exists k r, In k ks /\ In (r, k) (rels_at w k) /\ is_related_one_way r = true.
Proof. apply (relate_panic_gen ks w w (fun _ => [])); [apply grown_refl|intros k; constructor]. Qed.

(** What is in the relations added to a concept. *)
Lemma inverses_in w ks k r' j : In (r', j) (inverses w ks k) <->
  In j ks /\ exists r, In (r, k) (rels_at w j) /\ is_related_one_way r = true /\ r' = rel_inverse r.
Proof.
  unfold inverses, inv_of. rewrite in_flat_map. split.
  - intros (i & I & X). apply in_flat_map in X as ([r i'] & J & X). cbn in X.
    destruct (is_related_one_way r) eqn:O; cbn in X; [|destruct X].
    destruct (Nat.eqb_spec i' k) as [->|]; [|destruct X]. destruct X as [X|[]]. injection X as <- <-. split; [exact I|]. eauto.
  - intros (I & r & J & O & ->). exists j. split; [exact I|]. apply in_flat_map. exists (r, k). split; [exact J|]. cbn.
    rewrite O, Nat.eqb_refl. left. reflexivity.
Qed.

(** Nothing else changes, in particular not what is below a concept. *)
Lemma grown_length w w' a : grown w w' a -> length (w_concepts w') = length (w_concepts w).
Proof.
  intros (_ & _ & G). apply Nat.le_antisymm.
  - apply nth_error_None. rewrite G. rewrite (proj2 (nth_error_None (w_concepts w) _) (le_n _)). reflexivity.
  - apply nth_error_None. specialize (G (length (w_concepts w'))). rewrite (proj2 (nth_error_None (w_concepts w') _) (le_n _)) in G.
    destruct (nth_error (w_concepts w) (length (w_concepts w'))); [discriminate|reflexivity].
Qed.
Lemma not_one_way_narrower r : is_related_one_way r = false -> rel_is_narrower r = false.
Proof. destruct r; cbn; congruence. Qed.
Lemma grown_below w w' a : grown w w' a -> idle a -> forall k, below_c w' k = below_c w k.
Proof.
  intros (_ & _ & G) I k. unfold below_c. rewrite G. destruct (nth_error (w_concepts w) k) as [c|]; [|reflexivity]. cbn.
  rewrite filter_app, map_app. replace (filter (fun rk => rel_is_narrower (fst rk)) (a k)) with (@nil (concept_relation * nat)).
  - apply app_nil_r.
  - specialize (I k). induction I as [|[r j] l H _ IH]; cbn in *; [reflexivity|]. rewrite (not_one_way_narrower _ H). exact IH.
Qed.
Lemma grown_uri w w' a k : grown w w' a -> uri_of w' k = uri_of w k.
Proof. intros (_ & _ & G). unfold uri_of. rewrite G. destruct (nth_error (w_concepts w) k); reflexivity. Qed.
Lemma grown_label lang w w' a k : grown w w' a -> label_of lang w' k = label_of lang w k.
Proof. intros (_ & _ & G). unfold label_of. rewrite G. destruct (nth_error (w_concepts w) k); reflexivity. Qed.
Lemma grown_label_l lang w w' a k : grown w w' a -> label_of_collection lang w' k = label_of_collection lang w k.
Proof. intros (G & _ & _). unfold label_of_collection. rewrite G. reflexivity. Qed.

(** ** Equality of concepts *)
Definition exists_at (w : world) (k : nat) : Prop := (k < length (w_concepts w))%nat.
Definition closed (w : world) : Prop := forall k r j, In (r, j) (rels_at w k) -> exists_at w j.
Lemma wf_closed w : wf w -> closed w.
Proof.
  intros (A & _) k r j. unfold rels_at. destruct (nth_error (w_concepts w) k) as [c|] eqn:E; [|intros []].
  apply nth_error_In in E. rewrite Forall_forall in A. intros I. exact (A _ E r j I).
Qed.
Lemma rel_eqb_eq a b : rel_eqb a b = true <-> a = b.
Proof. destruct a, b; cbn; split; congruence. Qed.
Lemma list_eqb_eq {A} (e : A -> A -> bool) (H : forall a b, e a b = true <-> a = b) x y : list_eqb e x y = true <-> x = y.
Proof.
  revert y. induction x as [|a x IH]; intros [|b y]; cbn; split; try congruence.
  - intros E. apply andb_prop in E as [E1 E2]. apply H in E1 as ->. apply IH in E2 as ->. reflexivity.
  - injection 1 as -> ->. rewrite (proj2 (H b b) eq_refl). apply IH. reflexivity.
Qed.
Lemma dt_opt_eqb_eq a b : dt_opt_eqb a b = true <-> a = b.
Proof. destruct a as [a|], b as [b|]; cbn; try (split; congruence). rewrite dt_eqb_eq. split; congruence. Qed.
Lemma slabel_eqb_eq a b : slabel_eqb a b = true <-> a = b.
Proof.
  destruct a as [k t g], b as [k' t' g']. unfold slabel_eqb. cbn. rewrite !andb_true_iff, lk_eqb_eq, str_eqb_eq, lang_eqb_eq.
  split; [intros [[-> ->] ->]; reflexivity|]. injection 1 as -> -> ->. auto.
Qed.
Lemma lprop_eqb_eq a b : lprop_eqb a b = true <-> a = b.
Proof.
  destruct a as [k t d g], b as [k' t' d' g']. unfold lprop_eqb. cbn. rewrite !andb_true_iff, !str_eqb_eq, dt_opt_eqb_eq, lang_eqb_eq.
  split; [intros [[[-> ->] ->] ->]; reflexivity|]. injection 1 as -> -> -> ->. auto.
Qed.
Lemma pair_eqb_eq (p q : str * str) : str_eqb (fst p) (fst q) && str_eqb (snd p) (snd q) = true <-> p = q.
Proof.
  destruct p, q. cbn. rewrite andb_true_iff, !str_eqb_eq. split; [intros [-> ->]; reflexivity|]. injection 1 as -> ->. auto.
Qed.

Lemma related_eqb_each e x : forall y, related_eqb e x y = Some true -> forall r k, In (r, k) x -> exists k', In (r, k') y /\ e k k' = Some true.
Proof.
  induction x as [|[r k] x IH]; intros [|[r' k'] y] H; cbn in H; try discriminate; [intros r0 k0 []|].
  destruct (rel_eqb r r') eqn:R; [|discriminate]. apply rel_eqb_eq in R as <-.
  destruct (e k k') as [[]|] eqn:E; try discriminate.
  intros r0 k0 [X|I].
  - injection X as <- <-. exists k'. cbn. auto.
  - destruct (IH _ H _ _ I) as (k1 & I1 & E1). exists k1. cbn. auto.
Qed.
Lemma related_eqb_self e x : (forall r k, In (r, k) x -> e k k <> Some false) -> related_eqb e x x <> Some false.
Proof.
  induction x as [|[r k] x IH]; intros H; cbn; [discriminate|].
  rewrite (proj2 (rel_eqb_eq r r) eq_refl). destruct (e k k) as [[]|] eqn:E; [|destruct (H r k (or_introl eq_refl) E)|discriminate].
  apply IH. intros r' k' I. apply (H r' k'). right. exact I.
Qed.
Lemma related_eqb_some e x : (forall r k, In (r, k) x -> forall j, e k j <> None) -> forall y, related_eqb e x y <> None.
Proof.
  induction x as [|[r k] x IH]; intros H [|[r' k'] y]; cbn; try discriminate.
  destruct (rel_eqb r r'); [|discriminate]. destruct (e k k') as [[]|] eqn:E; [|discriminate|destruct (H r k (or_introl eq_refl) _ E)].
  apply IH. intros r0 k0 I. apply (H r0 k0). right. exact I.
Qed.

Lemma concept_eqb_true f w a b : concept_eqb f w a b = Some true ->
  exists_at w a /\ exists_at w b /\ uri_of w a = uri_of w b /\
  forall r k, In (r, k) (rels_at w a) -> exists k' f', In (r, k') (rels_at w b) /\ f = S f' /\ concept_eqb f' w k k' = Some true.
Proof.
  destruct f as [|f]; cbn; [discriminate|]. unfold exists_at, uri_of, rels_at.
  destruct (nth_error (w_concepts w) a) as [x|] eqn:A; [|discriminate].
  destruct (nth_error (w_concepts w) b) as [y|] eqn:B; [|discriminate].
  destruct (str_eqb (kc_uri x) (kc_uri y)) eqn:U; cbn; [|discriminate].
  destruct (Nat.eqb _ _); cbn; [|discriminate].
  destruct (related_eqb (concept_eqb f w) (kc_concepts x) (kc_concepts y)) as [[]|] eqn:R; try discriminate.
  intros _. apply str_eqb_eq in U. split; [apply nth_error_Some; congruence|]. split; [apply nth_error_Some; congruence|].
  split; [exact U|]. intros r k I. destruct (related_eqb_each _ _ _ R _ _ I) as (k' & I' & E). exists k', f. auto.
Qed.
Lemma concept_eqb_self f w : closed w -> forall a, exists_at w a -> concept_eqb f w a a <> Some false.
Proof.
  intros C. induction f as [|f IH]; intros a L; cbn; [discriminate|]. apply nth_error_Some in L.
  destruct (nth_error (w_concepts w) a) as [x|] eqn:A; [|congruence].
  rewrite str_eqb_refl, Nat.eqb_refl. cbn.
  destruct (related_eqb (concept_eqb f w) (kc_concepts x) (kc_concepts x)) as [[]|] eqn:R; [| |discriminate].
  - rewrite (proj2 (list_eqb_eq _ pair_eqb_eq _ _) eq_refl), (proj2 (list_eqb_eq _ slabel_eqb_eq _ _) eq_refl),
      (proj2 (list_eqb_eq _ lprop_eqb_eq _ _) eq_refl). discriminate.
  - apply related_eqb_self in R; [destruct R|]. intros r k I. apply IH. apply (C a r). unfold rels_at. rewrite A. exact I.
Qed.
(** A concept related to itself equals nothing. *)
Lemma concept_eqb_loop f w k r : In (r, k) (rels_at w k) -> forall j, concept_eqb f w k j <> Some true.
Proof.
  intros I. induction f as [|f IH]; intros j E; [discriminate E|].
  apply concept_eqb_true in E as (_ & _ & _ & H). destruct (H r k I) as (k' & f' & _ & F & E). injection F as <-. exact (IH _ E).
Qed.
Definition all_rels (w : world) (k : nat) : list nat := map snd (rels_at w k).
Lemma concept_eqb_ends w f : forall k l, flatten (all_rels w) f k = Some l -> forall j, concept_eqb f w k j <> None.
Proof.
  induction f as [|f IH]; intros k l E j; [discriminate E|]. cbn.
  destruct (nth_error (w_concepts w) k) as [x|] eqn:A; [|discriminate].
  destruct (nth_error (w_concepts w) j) as [y|]; [|discriminate].
  destruct (str_eqb _ _ && Nat.eqb _ _); [|discriminate].
  destruct (related_eqb (concept_eqb f w) (kc_concepts x) (kc_concepts y)) as [[]|] eqn:R; try discriminate.
  apply related_eqb_some in R; [destruct R|]. intros r i I i'.
  destruct (flatten_child_some _ _ _ _ i E) as (l' & E').
  - unfold child, all_rels, rels_at. rewrite A. apply in_map_iff. exists (r, i). auto.
  - apply (IH _ _ E').
Qed.

Lemma related_eqb_mono (e e' : nat -> nat -> option bool) : (forall k j b, e k j = Some b -> e' k j = Some b) ->
  forall x y b, related_eqb e x y = Some b -> related_eqb e' x y = Some b.
Proof.
  intros M. induction x as [|[r k] x IH]; intros [|[r' k'] y] b H; cbn in *; try exact H.
  destruct (rel_eqb r r'); [|exact H]. destruct (e k k') as [[]|] eqn:E; [| |discriminate]; rewrite (M _ _ _ E); auto.
Qed.
Lemma concept_eqb_more f w : forall k j b, concept_eqb f w k j = Some b -> concept_eqb (S f) w k j = Some b.
Proof.
  induction f as [|f IH]; intros k j b H; [discriminate H|].
  cbn [concept_eqb] in H. change (concept_eqb (S (S f)) w k j) with
    (match nth_error (w_concepts w) k, nth_error (w_concepts w) j with
      | Some x, Some y =>
          if str_eqb (kc_uri x) (kc_uri y) && Nat.eqb (length (kc_concepts x)) (length (kc_concepts y)) then
            match related_eqb (concept_eqb (S f) w) (kc_concepts x) (kc_concepts y) with
            | Some true =>
                Some (list_eqb (fun p q => str_eqb (fst p) (fst q) && str_eqb (snd p) (snd q)) (kc_external x) (kc_external y) &&
                      list_eqb slabel_eqb (kc_labels x) (kc_labels y) &&
                      list_eqb lprop_eqb (kc_properties x) (kc_properties y))
            | o => o
            end
          else Some false
      | _, _ => Some false
      end).
  destruct (nth_error (w_concepts w) k) as [x|]; [|exact H].
  destruct (nth_error (w_concepts w) j) as [y|]; [|exact H].
  destruct (str_eqb _ _ && Nat.eqb _ _); [|exact H].
  destruct (related_eqb (concept_eqb f w) (kc_concepts x) (kc_concepts y)) as [t|] eqn:R; [|discriminate].
  rewrite (related_eqb_mono _ _ IH _ _ _ R). exact H.
Qed.
Lemma concept_eqb_mono f f' w k j b : (f <= f')%nat -> concept_eqb f w k j = Some b -> concept_eqb f' w k j = Some b.
Proof. induction 1; intros E; [exact E|]. apply concept_eqb_more, IHle, E. Qed.

(** ** [dedup] *)
Lemma dedup_from_spec e l : forall last ks, dedup_from e last l = Some ks ->
  (exists r, ks = last :: r) /\
  (forall x, In x ks -> x = last \/ In x l) /\
  (forall x, In x l -> In x ks \/ exists y, In y ks /\ e x y = Some true) /\
  Sorted (fun a b => e b a = Some false) ks /\
  (forall R, StronglySorted R (last :: l) -> StronglySorted R ks).
Proof.
  induction l as [|k l IH]; intros last ks H; cbn in H.
  - injection H as <-. split; [eauto|]. split; [intros x [->|[]]; auto|]. split; [intros x []|]. split; [repeat constructor|auto].
  - destruct (e k last) as [[]|] eqn:E; [| |discriminate].
    + destruct (IH _ _ H) as ((r & ->) & A & B & C & D). split; [eauto|]. split; [intros x I; destruct (A x I); cbn; auto|].
      split; [|split; [exact C|]].
      * intros x [<-|I]; [|apply B, I]. right. exists last. cbn. auto.
      * intros R S. apply D. inversion_clear S as [|? ? S' F]. inversion_clear S'. inversion_clear F. constructor; assumption.
    + destruct (dedup_from e k l) as [ks'|] eqn:G; [|discriminate]. cbn in H. injection H as <-.
      destruct (IH _ _ G) as ((r & ->) & A & B & C & D). split; [eauto|]. split; [|split; [|split]].
      * intros x [<-|I]; [auto|]. destruct (A x I); cbn; auto.
      * intros x [<-|I]; [cbn; auto|]. destruct (B x I) as [J|(y & J & K)]; [cbn; auto|]. right. exists y. cbn. auto.
      * constructor; [exact C|]. constructor. exact E.
      * intros R S. inversion_clear S as [|? ? S' F]. constructor; [apply D, S'|].
        rewrite Forall_forall in *. intros x I. apply F. destruct (A x I) as [->|J]; cbn; auto.
Qed.
Lemma dedup_spec e l ks : dedup e l = Some ks ->
  (forall x, In x ks -> In x l) /\
  (forall x, In x l -> In x ks \/ exists y, In y ks /\ e x y = Some true) /\
  Sorted (fun a b => e b a = Some false) ks /\
  (forall R, StronglySorted R l -> StronglySorted R ks).
Proof.
  destruct l as [|k l]; cbn; intros H.
  - injection H as <-. split; [auto|]. split; [intros x []|]. split; [constructor|auto].
  - apply dedup_from_spec in H as ((r & ->) & A & B & C & D). split; [intros x I; destruct (A x I); auto|].
    split; [|split; [exact C|exact D]]. intros x [<-|I]; [cbn; auto|apply B, I].
Qed.
Lemma dedup_ends e l : (forall k j, In k l -> e k j <> None) -> dedup e l <> None.
Proof.
  destruct l as [|k l]; cbn; [discriminate|]. intros H.
  assert (G : forall k', In k' l -> forall j, e k' j <> None) by (intros k' I j; apply H; auto). clear H. revert k.
  induction l as [|a l IH]; intros k; cbn; [discriminate|].
  destruct (e a k) as [[]|] eqn:E.
  - apply IH. intros k' I. apply G. cbn. auto.
  - specialize (IH (fun k' I => G k' (or_intror I)) a). destruct (dedup_from e a l); [discriminate|congruence].
  - apply G in E; [destruct E|cbn; auto].
Qed.
Lemma dedup_mono (e e' : nat -> nat -> option bool) l ks : (forall k j b, e k j = Some b -> e' k j = Some b) ->
  dedup e l = Some ks -> dedup e' l = Some ks.
Proof.
  intros M. destruct l as [|k l]; cbn; [auto|]. revert k ks. induction l as [|a l IH]; intros k ks; cbn; [auto|].
  destruct (e a k) as [[]|] eqn:E; [| |discriminate]; rewrite (M _ _ _ E).
  - apply IH.
  - destruct (dedup_from e a l) as [r|] eqn:G; [|discriminate]. rewrite (IH _ _ G). auto.
Qed.

(** ** Sorting by a key *)
Lemma sort_by_key_perm {A K} cmp (key : A -> K) l : Permutation (sort_by_key cmp key l) l.
Proof. apply stable_sort_perm. Qed.
Lemma sort_by_key_in {A K} cmp (key : A -> K) l x : In x (sort_by_key cmp key l) <-> In x l.
Proof. split; apply Permutation_in; [|apply Permutation_sym]; apply sort_by_key_perm. Qed.
Lemma sort_by_key_sorted {A K} cmp (key : A -> K) l : total_order cmp ->
  StronglySorted (fun a b => cmp (key a) (key b) <> Gt) (sort_by_key cmp key l).
Proof.
  intros [E S T]. pose proof (stable_sort_sorted (fun a b => match cmp (key a) (key b) with Gt => false | _ => true end) l) as H.
  assert (G : StronglySorted (fun a b => match cmp (key a) (key b) with Gt => false | _ => true end = true)
    (stable_sort (fun a b => match cmp (key a) (key b) with Gt => false | _ => true end) l)).
  { apply H.
    - intros a b. rewrite (S (key a) (key b)). destruct (cmp (key a) (key b)); cbn; congruence.
    - intros a b c. destruct (cmp (key a) (key b)) eqn:X, (cmp (key b) (key c)) eqn:Y; try discriminate; intros _ _.
      + apply E in X. rewrite X, Y. reflexivity.
      + apply E in X. rewrite X, Y. reflexivity.
      + apply E in Y. rewrite <- Y, X. reflexivity.
      + rewrite (T _ _ _ X Y). reflexivity. }
  clear H. unfold sort_by_key. induction G as [|a r G IH F]; constructor; [exact IH|].
  eapply Forall_impl; [|exact F]. cbn. intros b Hb E'. rewrite E' in Hb. discriminate.
Qed.

(** ** The concepts that are written *)
Section Written.
Variable lang : option str.
Definition written (fuel : nat) (w : world) : option (list nat) :=
  match scheme_concepts_flattened fuel w with
  | None => None
  | Some flat => dedup (concept_eqb fuel w) (sort_by_key str_cmp (label_of lang w) flat)
  end.
Definition tree_iris (w : world) : Prop :=
  forall a b, in_tree w a -> in_tree w b -> uri_of w a = uri_of w b -> a = b.
Definition tree_labels (w : world) : Prop :=
  forall a b, in_tree w a -> in_tree w b -> label_of lang w a = label_of lang w b -> a = b.

Lemma in_tree_exists w k : wf w -> in_tree w k -> exists_at w k.
Proof.
  intros W (t & I & T). pose proof (wf_closed w W) as C. destruct W as (_ & _ & K & _). rewrite Forall_forall in K. specialize (K _ I).
  apply clos_rt_rtn1 in T. destruct T as [|y z U T]; [exact K|]. destruct U as (c & r & E & J & _). apply (C y r). unfold rels_at. rewrite E. exact J.
Qed.

Lemma written_sub fuel w ks : written fuel w = Some ks -> forall k, In k ks -> in_tree w k.
Proof.
  unfold written. destruct (scheme_concepts_flattened fuel w) as [flat|] eqn:F; [|discriminate]. intros D k I.
  apply dedup_spec in D as (A & _). apply A in I. apply sort_by_key_in in I. apply (c_in_tree _ _ _ F), I.
Qed.
Lemma written_all fuel w ks : written fuel w = Some ks -> forall k, in_tree w k ->
  In k ks \/ exists j, In j ks /\ concept_eqb fuel w k j = Some true.
Proof.
  unfold written. destruct (scheme_concepts_flattened fuel w) as [flat|] eqn:F; [|discriminate]. intros D k I.
  apply dedup_spec in D as (_ & B & _). apply B. apply sort_by_key_in. apply (c_in_tree _ _ _ F), I.
Qed.
Lemma written_iff fuel w ks : tree_iris w -> written fuel w = Some ks -> forall k, In k ks <-> in_tree w k.
Proof.
  intros T E k. split; [apply (written_sub _ _ _ E)|]. intros I. destruct (written_all _ _ _ E _ I) as [J|(j & J & Q)]; [exact J|].
  apply concept_eqb_true in Q as (_ & _ & U & _). apply T in U; [congruence|exact I|]. apply (written_sub _ _ _ E), J.
Qed.
Lemma written_sorted fuel w ks : written fuel w = Some ks ->
  StronglySorted (fun a b => str_cmp (label_of lang w a) (label_of lang w b) <> Gt) ks.
Proof.
  unfold written. destruct (scheme_concepts_flattened fuel w) as [flat|] eqn:F; [|discriminate]. intros D.
  apply dedup_spec in D as (_ & _ & _ & S). apply S. apply sort_by_key_sorted, str_total.
Qed.
Lemma written_nodup fuel w ks : wf w -> tree_labels w -> written fuel w = Some ks -> NoDup ks.
Proof.
  intros W L E. pose proof (written_sorted _ _ _ E) as S. pose proof (written_sub _ _ _ E) as I.
  assert (C : Sorted (fun a b => concept_eqb fuel w b a = Some false) ks).
  { unfold written in E. destruct (scheme_concepts_flattened fuel w); [|discriminate]. apply dedup_spec in E as (_ & _ & C & _). exact C. }
  clear E. assert (G : StronglySorted (fun a b => str_cmp (label_of lang w a) (label_of lang w b) = Lt) ks).
  { apply Sorted_StronglySorted; [intros a b c; apply (to_trans _ str_total)|].
    induction ks as [|a ks IH]; constructor.
    - apply IH; [inversion_clear S; assumption|intros k J; apply I; right; exact J|inversion_clear C; assumption].
    - inversion_clear C as [|? ? C' H]. inversion_clear S as [|? ? S' F]. destruct ks as [|b ks]; constructor.
      inversion_clear H as [|? ? N]. inversion_clear F as [|? ? N' _].
      destruct (str_cmp (label_of lang w a) (label_of lang w b)) eqn:X; [|reflexivity|congruence].
      apply (to_eq _ str_total) in X. assert (a = b) as -> by (apply L; [apply I; left; reflexivity|apply I; right; left; reflexivity|exact X]).
      apply concept_eqb_self in N; [destruct N|apply wf_closed, W|apply in_tree_exists; [exact W|apply I; left; reflexivity]]. }
  clear - G. induction G as [|a ks G IH F]; constructor; [|exact IH]. intros J. rewrite Forall_forall in F. apply F in J.
  apply (to_lt_irrefl _ str_total) in J. exact J.
Qed.
(** A concept related to itself is among them. *)
Lemma written_loop fuel w ks k r : written fuel w = Some ks -> in_tree w k -> In (r, k) (rels_at w k) -> In k ks.
Proof.
  intros E T I. destruct (written_all _ _ _ E _ T) as [J|(j & _ & Q)]; [exact J|]. apply (concept_eqb_loop _ _ _ _ I) in Q. destruct Q.
Qed.
End Written.
