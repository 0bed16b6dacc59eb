(** When making the document ends, and where its links go. *)
From Verif Require Import Str StrFacts LiteralProofs Skos SkosSpec SkosProofs SkosMain SkosMore Turtle TurtleProofs SkosDoc SkosDocSpec
  SkosDocProofs SkosDocMain SkosDocMore SkosDocWhole SkosDocFinal.
From Coq Require Import Arith Lia Relations.

Section Ends.
Variable anchor : str -> str -> str.
Variable lang : option str.

Lemma sequence_some {A B} (F : A -> option (list B)) xs : (forall x, In x xs -> F x <> None) -> sequence (map F xs) <> None.
Proof.
  induction xs as [|x xs IH]; intros H; cbn; [discriminate|]. destruct (F x) as [y|] eqn:E; [|destruct (H x (or_introl eq_refl) E)].
  destruct (sequence (map F xs)); [discriminate|]. exfalso. apply IH; [|reflexivity]. intros z I. apply H. right. exact I.
Qed.
Lemma sequence_mono {A B} (F G : A -> option (list B)) xs l : (forall x y, In x xs -> F x = Some y -> G x = Some y) ->
  sequence (map F xs) = Some l -> sequence (map G xs) = Some l.
Proof.
  revert l. induction xs as [|x xs IH]; intros l H E; cbn in *; [exact E|]. destruct (F x) as [y|] eqn:Q; [|discriminate].
  rewrite (H x y (or_introl eq_refl) Q). destruct (sequence (map F xs)) as [r|]; [|discriminate]. rewrite (IH r); [exact E| |reflexivity].
  intros z y' I. apply H. right. exact I.
Qed.

Lemma tree_inner_ends w f : forall k l, flatten (below_c w) f k = Some l -> tree_inner anchor lang f w (rels_at w k) <> None.
Proof.
  induction f as [|f IH]; intros k l E; [discriminate E|]. cbn [tree_inner]. apply sequence_some. intros [r j] I. cbn [fst snd].
  apply filter_In in I as [I Nr]. apply sort_by_key_in in I.
  destruct (flatten_child_some _ _ _ _ j E) as (l' & E'); [apply child_under; apply has_relation_iff in I as (c & Ec & I); exists c, r; split; [exact Ec|]; split; [exact I|apply narrower_iff, Nr]|].
  specialize (IH j l' E'). unfold rels_at in IH. destruct (nth_error (w_concepts w) j) as [c|]; [|discriminate].
  destruct (kc_concepts c) as [|x more]; [discriminate|]. destruct (tree_inner anchor lang f w (x :: more)); [discriminate|congruence].
Qed.
Lemma tree_inner_more w f : forall rels l, tree_inner anchor lang f w rels = Some l -> tree_inner anchor lang (S f) w rels = Some l.
Proof.
  induction f as [|f IH]; intros rels l E; [discriminate E|]. cbn [tree_inner] in E.
  match goal with |- tree_inner _ _ (S (S f)) _ _ = _ => change (tree_inner anchor lang (S (S f)) w rels) with
    (sequence (map (fun rk =>
          let item := DItem [concept_link anchor (match fst rk with RNarrowerPartitive | RNarrowerInstantial => Italic | _ => Normal end)
                               (label_of lang w (snd rk))] in
          match nth_error (w_concepts w) (snd rk) with
          | Some c =>
              match kc_concepts c with
              | [] => Some [item]
              | more => option_map (fun sub => [item; DSub sub]) (tree_inner anchor lang (S f) w more)
              end
          | None => Some [item]
          end)
        (filter (fun rk => rel_is_narrower (fst rk)) (sort_by_key str_cmp (fun rk => label_of lang w (snd rk)) rels)))) end.
  revert E. apply sequence_mono. intros rk y _. cbv zeta. destruct (nth_error (w_concepts w) (snd rk)) as [c|]; [|auto].
  destruct (kc_concepts c) as [|x more]; [auto|]. destruct (tree_inner anchor lang f w (x :: more)) as [sub|] eqn:T; [|discriminate].
  rewrite (IH _ _ T). auto.
Qed.
Lemma tree_inner_mono w f f' rels l : (f <= f')%nat -> tree_inner anchor lang f w rels = Some l -> tree_inner anchor lang f' w rels = Some l.
Proof. induction 1; intros E; [exact E|]. apply tree_inner_more, IHle, E. Qed.
Lemma write_tree_mono w f f' t : (f <= f')%nat -> write_concept_tree anchor lang f w = Some t -> write_concept_tree anchor lang f' w = Some t.
Proof.
  intros L. unfold write_concept_tree. destruct (sequence (map (tree_of anchor lang f w) _)) as [x|] eqn:E; [|discriminate]. injection 1 as <-.
  rewrite (sequence_mono (tree_of anchor lang f w) (tree_of anchor lang f' w) _ x); [reflexivity| |exact E].
  intros k y _. unfold tree_of. destruct (nth_error (w_concepts w) k) as [c|]; [|auto]. destruct (kc_concepts c) as [|z more]; [auto|].
  destruct (tree_inner anchor lang f w (z :: more)) as [sub|] eqn:T; [|discriminate]. rewrite (tree_inner_mono _ _ _ _ _ L T). auto.
Qed.

Lemma relates_child w a b : child (all_rels w) a b <-> relates w a b.
Proof.
  unfold child, all_rels, relates. rewrite in_map_iff. split.
  - intros ([r k] & <- & I). exists r. apply has_relation_iff, I.
  - intros (r & R). exists (r, b). split; [reflexivity|apply has_relation_iff, R].
Qed.
Lemma under_relates w a b : under w a b -> relates w a b.
Proof. intros (c & r & E & I & _). exists r, c. auto. Qed.
Lemma tree_relates w k : in_tree w k -> exists t, In t (ks_concepts (w_scheme w)) /\ clos_refl_trans nat (relates w) t k.
Proof.
  intros (t & I & R). exists t. split; [exact I|]. clear I. induction R as [a b U| |a b c _ IH1 _ IH2]; [apply rt_step, under_relates, U|apply rt_refl|eapply rt_trans; eassumption].
Qed.
Lemma reaches_ends w k : wf w -> exists_at w k -> ~ reaches_cycle w k -> exists l, flatten (all_rels w) (length (w_concepts w)) k = Some l.
Proof.
  intros W X N. apply flatten_ends; [|exact X|].
  - intros a b C. unfold child, all_rels in C. apply in_map_iff in C as ([r j] & <- & I). apply (wf_closed w W a r), I.
  - intros (x & R & Y). apply N. exists x. split; [apply (rt_ext _ _ (relates_child w)), R|apply (t_ext _ _ (relates_child w)), Y].
Qed.
Lemma tree_reaches w k : in_tree w k -> reaches_cycle w k -> relation_cycle w.
Proof.
  intros T (x & R & Y). destruct (tree_relates w k T) as (t & I & R'). exists t. split; [exact I|]. exists x. split; [eapply rt_trans; eassumption|exact Y].
Qed.
Lemma no_narrower_cycle w : ~ relation_cycle w -> ~ narrower_cycle w.
Proof.
  intros N (k & T & C). apply N. apply (tree_reaches w k T). exists k. split; [apply rt_refl|].
  assert (X : forall a b, clos_trans nat (under w) a b -> clos_trans nat (relates w) a b).
  { clear. intros a b C. induction C as [a b U|a b c _ IH1 _ IH2]; [apply t_step, under_relates, U|eapply t_trans; eassumption]. }
  apply X, C.
Qed.

(** A concept on a cycle cannot be compared with itself. *)
Lemma related_eqb_each_self e x : related_eqb e x x = Some true -> forall r k, In (r, k) x -> e k k = Some true.
Proof.
  induction x as [|[r k] x IH]; cbn; intros H r0 k0 I; [destruct I|]. rewrite (proj2 (rel_eqb_eq r r) eq_refl) in H.
  destruct (e k k) as [[]|] eqn:E; try discriminate. destruct I as [I|I]; [injection I as <- <-; exact E|apply (IH H _ _ I)].
Qed.
Lemma concept_eqb_cycle f w : forall k, clos_trans nat (relates w) k k -> concept_eqb f w k k <> Some true.
Proof.
  induction f as [|f IH]; intros k T E; [discriminate E|]. cbn [concept_eqb] in E.
  assert (X : exists y, relates w k y /\ clos_trans nat (relates w) y y).
  { pose proof T as T0. apply clos_trans_t1n in T. inversion T as [y C E1|y z C T' E1]; subst; [exists k; auto|].
    exists y. split; [exact C|]. eapply t_trans; [apply clos_t1n_trans, T'|apply t_step, C]. }
  destruct X as (y & (r & R) & Ty). apply has_relation_iff in R. unfold rels_at in R. destruct (nth_error (w_concepts w) k) as [c|]; [|destruct R].
  rewrite str_eqb_refl, Nat.eqb_refl in E. cbn [andb] in E. destruct (related_eqb _ _ _) as [[]|] eqn:Q; try discriminate E.
  apply (IH y Ty). apply (related_eqb_each_self _ _ Q r y R).
Qed.
Lemma concept_eqb_reach w k x : clos_refl_trans nat (relates w) k x -> forall f, concept_eqb f w k k = Some true -> exists f', concept_eqb f' w x x = Some true.
Proof.
  intros R. apply clos_rt_rt1n in R. induction R as [k|k y x C _ IH]; intros f E; [eauto|]. destruct f as [|f]; [discriminate E|]. cbn [concept_eqb] in E.
  destruct C as (r & C). apply has_relation_iff in C. unfold rels_at in C. destruct (nth_error (w_concepts w) k) as [c|]; [|destruct C].
  rewrite str_eqb_refl, Nat.eqb_refl in E. cbn [andb] in E. destruct (related_eqb _ _ _) as [[]|] eqn:Q; try discriminate E.
  apply (IH f). apply (related_eqb_each_self _ _ Q r y C).
Qed.
Lemma concept_eqb_no_cycle f w k b : wf w -> exists_at w k -> concept_eqb f w k k = Some b -> ~ reaches_cycle w k.
Proof.
  intros W X E (x & R & Y). destruct b; [|apply (concept_eqb_self f w (wf_closed w W) k X E)].
  destruct (concept_eqb_reach w k x R f E) as (f' & E'). apply (concept_eqb_cycle f' w x Y E').
Qed.

(** [dedup] compares an element with an earlier one. *)
Lemma dedup_ends_pairs e l : ForallOrdPairs (fun a b => e b a <> None) l -> dedup e l <> None.
Proof.
  destruct l as [|k l]; cbn; [discriminate|]. revert k. induction l as [|a l IH]; intros k P; cbn; [discriminate|].
  inversion_clear P as [|? ? F P']. inversion_clear F as [|? ? Fa F']. inversion_clear P' as [|? ? Fa' P''].
  destruct (e a k) as [[]|] eqn:E; [| |congruence].
  - apply IH. constructor; assumption.
  - specialize (IH a). destruct (dedup_from e a l); [discriminate|]. exfalso. apply IH; [constructor; assumption|reflexivity].
Qed.
Lemma pairs_of (R : nat -> nat -> Prop) l : (forall a b, In a l -> In b l -> a <> b -> R a b) ->
  (forall a, (2 <= count_occ Nat.eq_dec l a)%nat -> R a a) -> ForallOrdPairs R l.
Proof.
  induction l as [|x l IH]; intros A B; constructor.
  - apply Forall_forall. intros y I. destruct (Nat.eq_dec x y) as [<-|N]; [|apply A; cbn; auto]. apply B. cbn. destruct (Nat.eq_dec x x); [|congruence].
    apply (count_occ_In Nat.eq_dec) in I. lia.
  - apply IH; [intros a b I J; apply A; cbn; auto|]. intros a C. apply B. cbn. destruct (Nat.eq_dec x a); lia.
Qed.
Lemma count_two (l : list nat) a : (2 <= count_occ Nat.eq_dec l a)%nat <-> exists p q r, l = p ++ a :: q ++ a :: r.
Proof.
  split.
  - intros C. destruct (in_split a l) as (p & r & E); [apply (count_occ_In Nat.eq_dec); lia|]. subst l. rewrite count_occ_app in C. cbn in C.
    destruct (Nat.eq_dec a a); [|congruence]. destruct (in_dec Nat.eq_dec a r) as [I|I].
    + destruct (in_split a r I) as (q & r' & ->). exists p, q, r'. reflexivity.
    + rewrite (proj1 (count_occ_not_In Nat.eq_dec r a) I) in C. destruct (in_split a p) as (p1 & p2 & ->); [apply (count_occ_In Nat.eq_dec); lia|].
      exists p1, p2, r. rewrite <- app_assoc. reflexivity.
  - intros (p & q & r & ->). rewrite count_occ_app. cbn. destruct (Nat.eq_dec a a); [|congruence]. rewrite count_occ_app. cbn. destruct (Nat.eq_dec a a); [lia|congruence].
Qed.
Lemma dedup_from_adjacent e k post : forall pre last ks, dedup_from e last (pre ++ k :: k :: post) = Some ks ->
  exists b, e k k = Some b \/ exists j, (j = last \/ In j pre) /\ e k j = Some true.
Proof.
  induction pre as [|a pre IH]; intros last ks E; cbn in E.
  - destruct (e k last) as [[]|] eqn:Q; [exists true; right; exists last; auto| |discriminate].
    destruct (e k k) as [b|] eqn:S; [exists b; left; reflexivity|discriminate].
  - destruct (e a last) as [[]|]; [| |discriminate].
    + destruct (IH _ _ E) as (b & [S|(j & J & Q)]); exists b; [left; exact S|right; exists j; split; [destruct J; cbn; auto|exact Q]].
    + destruct (dedup_from e a (pre ++ k :: k :: post)) as [r|] eqn:D; [|discriminate].
      destruct (IH _ _ D) as (b & [S|(j & J & Q)]); exists b; [left; exact S|right; exists j; split; [destruct J as [->|J]; cbn; auto|exact Q]].
Qed.
Lemma dedup_adjacent e k post pre ks : dedup e (pre ++ k :: k :: post) = Some ks ->
  exists b, e k k = Some b \/ exists j, In j pre /\ e k j = Some true.
Proof.
  destruct pre as [|a pre]; cbn.
  - destruct (e k k) as [b|]; [exists b; auto|discriminate].
  - intros E. destruct (dedup_from_adjacent e k post pre a ks E) as (b & [S|(j & [->|J] & Q)]); exists b; [left; exact S| |]; right; eexists; (split; [|exact Q]); auto.
Qed.
Lemma sorted_between {A} (R : A -> A -> Prop) p a q b r : StronglySorted R (p ++ a :: q ++ b :: r) -> forall x, In x q -> R a x /\ R x b.
Proof.
  induction p as [|y p IH]; cbn; intros S x I; inversion_clear S as [|? ? S' F]; [|apply (IH S' x I)].
  rewrite Forall_forall in F. split; [apply F, in_or_app; left; exact I|].
  clear F. induction q as [|z q IHq]; [destruct I|]. cbn in S'. inversion_clear S' as [|? ? S'' F']. destruct I as [<-|I]; [|apply (IHq I S'')].
  rewrite Forall_forall in F'. apply F', in_or_app. right. left. reflexivity.
Qed.
End Ends.

Section Whole.
Variables gext printable : N -> bool.
Variable anchor : str -> str -> str.
Variable short : str -> option str.
Variable mappings : list (str * str).
Variable turtle : graph -> wres str.
Variable lang : option str.
Notation doc := (make_document gext printable anchor short mappings turtle lang).

Lemma c96_fuel w n f f' r : (f <= f')%nat -> doc f n w = r -> r <> OutOfFuel -> doc f' n w = r.
Proof.
  intros L <-. unfold make_document. rewrite !scheme_flat_l.
  destruct (flatten_all (below_l w) f _) as [flat|] eqn:F; [|congruence]. rewrite (flatten_all_mono _ _ _ _ _ L F). cbv zeta.
  set (ls := sort_by_key str_cmp (label_of_collection lang w) flat). intros N.
  assert (C : concepts_part anchor short lang f w ls <> OutOfFuel).
  { intros C. rewrite C in N. apply N. reflexivity. }
  assert (E : concepts_part anchor short lang f' w ls = concepts_part anchor short lang f w ls).
  { unfold concepts_part in *. destruct (ks_concepts (w_scheme w)) as [|k0 kr] eqn:K; [reflexivity|].
    destruct (write_concept_tree anchor lang f w) as [tree|] eqn:T; [|congruence]. rewrite (write_tree_mono _ _ _ _ _ _ L T).
    rewrite !scheme_flat_c in *. destruct (flatten_all (below_c w) f _) as [cf|] eqn:Cf; [|congruence]. rewrite (flatten_all_mono _ _ _ _ _ L Cf).
    destruct (dedup (concept_eqb f w) _) as [ks|] eqn:D; [|congruence].
    rewrite (dedup_mono (concept_eqb f w) (concept_eqb f' w) _ ks (fun k j b => concept_eqb_mono f f' w k j b L) D). reflexivity. }
  rewrite E. destruct (concepts_part anchor short lang f w ls) as [[b w']| | |]; cbn [wbind] in *; try reflexivity. rewrite !c86_graph in *.
  destruct (scheme_statements gext printable f n w') as [[sts n1]|] eqn:S; [|congruence]. rewrite (c86_fuel _ _ _ _ _ _ _ L S). reflexivity.
Qed.

Lemma doc_ends w m n cf lf : scheme_concepts_flattened m w = Some cf -> scheme_collections_flattened m w = Some lf ->
  (forall g, turtle g <> OutOfFuel) -> dedup (concept_eqb m w) (sort_by_key str_cmp (label_of lang w) cf) <> None -> doc m n w <> OutOfFuel.
Proof.
  intros Cf Lf T Dd. unfold make_document. rewrite Lf. cbv zeta. rewrite scheme_flat_c in Cf. rewrite scheme_flat_l in Lf.
  set (ls := sort_by_key str_cmp (label_of_collection lang w) lf).
  assert (C : concepts_part anchor short lang m w ls <> OutOfFuel).
  { unfold concepts_part. destruct (ks_concepts (w_scheme w)) as [|k0 kr] eqn:K; [discriminate|]. rewrite <- K in *.
    destruct (write_concept_tree anchor lang m w) as [tree|] eqn:Tr.
    - rewrite scheme_flat_c, Cf. destruct (dedup _ _) as [ks|] eqn:D; [destruct (relate ks w); discriminate|congruence].
    - exfalso. unfold write_concept_tree in Tr. destruct (sequence _) as [x|] eqn:S; [discriminate|]. revert S. apply sequence_some. intros k I.
      destruct (flatten_all_each _ _ _ _ Cf k I) as (l0 & E). pose proof (tree_inner_ends anchor lang _ _ _ _ E) as G.
      unfold tree_of, rels_at in *. destruct (nth_error (w_concepts w) k) as [c|]; [|discriminate]. destruct (kc_concepts c) as [|x more]; [discriminate|].
      destruct (tree_inner anchor lang m w (x :: more)); [discriminate|congruence]. }
  destruct (concepts_part anchor short lang m w ls) as [[b w']| | |] eqn:E; cbn [wbind]; try discriminate; [|congruence].
  assert (G : exists ks, grown w w' (inverses w ks)).
  { clear Dd. unfold concepts_part in E. destruct (ks_concepts (w_scheme w)) as [|k0 kr]; [injection E as _ <-; exists []; apply (relate_grown [] w w); reflexivity|].
    destruct (write_concept_tree anchor lang m w); [|discriminate]. destruct (scheme_concepts_flattened m w); [|discriminate].
    destruct (dedup _ _) as [ks|]; [|discriminate]. destruct (relate ks w) as [w1|] eqn:R; [|discriminate]. injection E as _ <-. exists ks. apply relate_grown, R. }
  destruct G as (ks & G). rewrite c86_graph. pose proof (grown_below _ _ _ G (inverses_idle w ks)) as B. destruct G as (G1 & G2 & _).
  unfold scheme_statements. rewrite scheme_flat_c, scheme_flat_l, G2.
  assert (B1 : flatten_all (below_c w') m (ks_concepts (w_scheme w)) = Some cf).
  { rewrite <- Cf. assert (X : forall f0 k, flatten (below_c w') f0 k = flatten (below_c w) f0 k).
    { induction f0 as [|f0 IH]; intros k; [reflexivity|]. cbn [flatten]. rewrite B. f_equal. apply map_ext. intros k'. rewrite IH. reflexivity. }
    unfold flatten_all. f_equal. apply map_ext. intros k. rewrite X. reflexivity. }
  assert (B2 : flatten_all (below_l w') m (ks_collections (w_scheme w)) = Some lf).
  { rewrite <- Lf. assert (X : forall f0 k, flatten (below_l w') f0 k = flatten (below_l w) f0 k).
    { induction f0 as [|f0 IH]; intros k; [reflexivity|]. cbn [flatten]. unfold below_l at 2 4. rewrite G1. f_equal. apply map_ext. intros k'. rewrite IH. reflexivity. }
    unfold flatten_all. f_equal. apply map_ext. intros k. rewrite X. reflexivity. }
  rewrite B1, B2. destruct (collection_parts gext printable w' n lf) as [p n1]. cbn [option_map]. cbv zeta.
  match goal with |- wbind (turtle ?g) _ <> _ => specialize (T g); destruct (turtle g); cbn; congruence end.
Qed.
Lemma fuel_for u l h : let w := skos_run (world_new u l) h in ~ narrower_cycle w ->
  exists m cf lf, (length (w_concepts w) <= m)%nat /\ scheme_concepts_flattened m w = Some cf /\ scheme_collections_flattened m w = Some lf.
Proof.
  intros w N. pose proof (wf_run u l h) as W. pose proof (once_run u l h) as O. fold w in W, O.
  destruct (c_ends w W N) as (cf & Cf). destruct O as (f & lf & Lf & _). exists (max (length (w_concepts w)) f), cf, lf.
  split; [apply Nat.le_max_l|]. rewrite scheme_flat_c, scheme_flat_l in *.
  split; [apply (flatten_all_mono _ _ _ _ _ (Nat.le_max_l _ _) Cf)|apply (flatten_all_mono _ _ _ _ _ (Nat.le_max_r _ _) Lf)].
Qed.
Lemma c96_acyclic u l h n : let w := skos_run (world_new u l) h in (forall g, turtle g <> OutOfFuel) -> ~ relation_cycle w ->
  exists fuel, doc fuel n w <> OutOfFuel.
Proof.
  intros w T N. pose proof (wf_run u l h) as W. fold w in W. destruct (fuel_for u l h (no_narrower_cycle w N)) as (m & cf & lf & L & Cf & Lf). fold w in L, Cf, Lf.
  exists m. apply (doc_ends w m n cf lf Cf Lf T). apply dedup_ends. intros k j I. apply sort_by_key_in in I. apply (c_in_tree _ _ _ Cf) in I.
  destruct (reaches_ends w k W (in_tree_exists _ _ W I)) as (l0 & E); [intros R; apply N, (tree_reaches w k I R)|].
  apply (concept_eqb_ends w m k l0). apply (flatten_mono _ _ _ _ _ L E).
Qed.
Lemma c96_ends u l h n : let w := skos_run (world_new u l) h in (forall g, turtle g <> OutOfFuel) -> distinct_iris w ->
  ~ narrower_cycle w -> (forall k, listed_twice w k -> ~ reaches_cycle w k) -> exists fuel, doc fuel n w <> OutOfFuel.
Proof.
  intros w T D N A. pose proof (wf_run u l h) as W. fold w in W. destruct (fuel_for u l h N) as (m & cf & lf & L & Cf & Lf). fold w in L, Cf, Lf.
  exists (S m). assert (Cf' : scheme_concepts_flattened (S m) w = Some cf) by (rewrite scheme_flat_c in *; apply (flatten_all_mono _ m _ _ _ (Nat.le_succ_diag_r m) Cf)).
  assert (Lf' : scheme_collections_flattened (S m) w = Some lf) by (rewrite scheme_flat_l in *; apply (flatten_all_mono _ m _ _ _ (Nat.le_succ_diag_r m) Lf)).
  apply (doc_ends w (S m) n cf lf Cf' Lf' T). apply dedup_ends_pairs, pairs_of.
  - intros a b Ia Ib Nab. apply sort_by_key_in in Ia, Ib. apply (c_in_tree _ _ _ Cf) in Ia, Ib. cbn [concept_eqb].
    destruct (nth_error (w_concepts w) b) as [y|] eqn:Ey; [|discriminate]. destruct (nth_error (w_concepts w) a) as [x|] eqn:Ex; [|discriminate].
    destruct (str_eqb (kc_uri y) (kc_uri x)) eqn:U; [|discriminate]. apply str_eqb_eq in U. destruct Nab. symmetry. apply (D b a y x Ib Ia Ey Ex U).
  - intros a C. rewrite (proj1 (Permutation_count_occ Nat.eq_dec _ _) (sort_by_key_perm str_cmp (label_of lang w) cf)) in C.
    assert (Ia : in_tree w a) by (apply (c_in_tree _ _ _ Cf), (count_occ_In Nat.eq_dec); lia).
    apply count_two in C as (p & q & r & C).
    destruct (reaches_ends w a W (in_tree_exists _ _ W Ia)) as (l0 & E); [apply A; exists m, cf, p, q, r; auto|].
    apply (concept_eqb_ends w (S m) a l0). apply (flatten_mono _ _ (S m) _ _ (Nat.le_trans _ _ _ L (Nat.le_succ_diag_r m)) E).
Qed.
Lemma c96_loops u l h fuel n : let w := skos_run (world_new u l) h in distinct_labels lang w ->
  narrower_cycle w \/ (exists k, listed_twice w k /\ reaches_cycle w k) -> doc fuel n w = OutOfFuel.
Proof.
  intros w D A. pose proof (wf_run u l h) as W. fold w in W. unfold make_document.
  destruct (scheme_collections_flattened fuel w) as [lf|]; [|reflexivity]. cbv zeta.
  assert (X : concepts_part anchor short lang fuel w (sort_by_key str_cmp (label_of_collection lang w) lf) = OutOfFuel); [|rewrite X; reflexivity].
  unfold concepts_part. destruct (ks_concepts (w_scheme w)) as [|k0 kr] eqn:K.
  { exfalso. destruct A as [(k & (t & I & _) & _)|(k & (f & flat & p & q & r & F & E) & _)]; [rewrite K in I; destruct I|].
    unfold scheme_concepts_flattened in F. rewrite K in F. injection F as <-. destruct p; discriminate. }
  destruct (write_concept_tree anchor lang fuel w); [|reflexivity]. destruct (scheme_concepts_flattened fuel w) as [cf|] eqn:Cf; [|reflexivity].
  destruct (dedup _ _) as [ks|] eqn:Dd; [|reflexivity]. exfalso. destruct A as [A|(k & (f & flat & p & q & r & F & E) & C)]; [apply (c_cycle _ _ _ Cf A)|].
  assert (flat = cf) as ->.
  { rewrite scheme_flat_c in *. apply (flatten_all_mono _ _ (max f fuel) _ _ (Nat.le_max_l _ _)) in F.
    apply (flatten_all_mono _ _ (max f fuel) _ _ (Nat.le_max_r _ _)) in Cf. congruence. }
  assert (Ik : In k cf) by (rewrite E; apply in_or_app; right; left; reflexivity). apply (c_in_tree _ _ _ Cf) in Ik.
  set (srt := sort_by_key str_cmp (label_of lang w) cf) in *.
  assert (S : exists p' q' r', srt = p' ++ k :: q' ++ k :: r').
  { apply count_two. unfold srt. rewrite (proj1 (Permutation_count_occ Nat.eq_dec _ _) (sort_by_key_perm str_cmp (label_of lang w) cf)). apply count_two. eauto. }
  destruct S as (p' & q' & r' & S). pose proof (sort_by_key_sorted str_cmp (label_of lang w) cf str_total) as So. fold srt in So.
  assert (Tr : forall j, In j srt -> in_tree w j) by (intros j J; apply sort_by_key_in in J; apply (c_in_tree _ _ _ Cf), J).
  assert (Same : forall j, in_tree w j -> label_of lang w j = label_of lang w k -> j = k) by (intros j J E'; apply (distinct_tree_labels lang w W D); assumption).
  assert (Q : exists r'', srt = p' ++ k :: k :: r'').
  { destruct q' as [|x q']; [exists r'; exact S|]. exists (q' ++ k :: r'). rewrite S. f_equal. f_equal.
    assert (x = k) as ->; [|reflexivity]. rewrite S in So. destruct (sorted_between _ _ _ _ _ _ So x (or_introl eq_refl)) as (A1 & A2).
    apply Same; [apply Tr; rewrite S; apply in_or_app; right; right; left; reflexivity|].
    destruct str_total as [TE TS _]. rewrite (TS (label_of lang w x) (label_of lang w k)) in A1.
    destruct (str_cmp (label_of lang w x) (label_of lang w k)) eqn:Z; [apply TE, Z|cbn in A1; congruence|congruence]. }
  destruct Q as (r'' & Q). rewrite Q in Dd. pose proof (in_tree_exists _ _ W Ik) as Xk.
  destruct (dedup_adjacent _ _ _ _ _ Dd) as (b & [B|(j & J & B)]); [apply (concept_eqb_no_cycle fuel w k b W Xk B C)|].
  assert (Ij : in_tree w j) by (apply Tr; rewrite Q; apply in_or_app; left; exact J).
  assert (j = k) as ->; [|apply (concept_eqb_no_cycle fuel w k true W Xk B C)].
  apply Same; [exact Ij|]. pose proof (in_tree_exists _ _ W Ij) as Xj. unfold exists_at in Xj, Xk. apply nth_error_Some in Xj, Xk. unfold label_of.
  destruct (nth_error (w_concepts w) j) as [y|] eqn:Ey; [|congruence]. destruct (nth_error (w_concepts w) k) as [x|] eqn:Ex; [|congruence].
  destruct (concept_eqb_same _ _ _ _ _ _ B Ex Ey) as (A1 & _ & A3 & _). rewrite A1, A3. reflexivity.
Qed.

(** The scheme afterwards is the scheme after some calls of [add_related_concept]. *)
Lemma relate_all_run k rels : forall w w', exists_at w k -> relate_all k rels w = Ret w' ->
  w' = skos_run w (flat_map (fun rj => if is_related_one_way (fst rj) then [Relate (snd rj) (rel_inverse (fst rj)) k] else []) rels).
Proof.
  induction rels as [|[r j] rels IH]; intros w w' X E; cbn in E; [injection E as <-; reflexivity|]. cbn [flat_map fst snd].
  destruct (is_related_one_way r); [|apply IH; assumption]. destruct (Nat.eqb j k); [discriminate|]. cbn [app skos_run fold_left skos_step].
  unfold exists_at in X. rewrite (proj2 (Nat.ltb_lt _ _) X). apply IH; [|exact E]. unfold exists_at. cbn [w_on_concepts w_concepts].
  assert (U : forall i (g : concept -> concept) l, length (update i g l) = length l) by (clear; intros i g l; revert i; induction l as [|x l IH]; intros [|i]; cbn; congruence).
  rewrite U. exact X.
Qed.
Lemma relate_run ks : forall w w', relate ks w = Ret w' -> exists ops, w' = skos_run w ops /\
  forall o, In o ops -> exists k r j, o = Relate k (rel_inverse r) j /\ is_related_one_way r = true /\ In j ks.
Proof.
  induction ks as [|k ks IH]; intros w w' E; cbn in E; [injection E as <-; exists []; split; [reflexivity|intros o []]|].
  destruct (nth_error (w_concepts w) k) as [c|] eqn:N.
  - destruct (relate_all k (kc_concepts c) w) as [w1|] eqn:R; [|discriminate]. apply relate_all_run in R; [|apply nth_error_Some; congruence].
    destruct (IH _ _ E) as (ops & -> & F). rewrite R. eexists (_ ++ ops). split; [unfold skos_run; rewrite fold_left_app; reflexivity|].
    intros o I. apply in_app_or in I as [I|I].
    + apply in_flat_map in I as ([r j] & _ & I). cbn [fst snd] in I. destruct (is_related_one_way r) eqn:O; [|destruct I]. destruct I as [<-|[]].
      exists j, r, k. cbn. auto.
    + destruct (F o I) as (k' & r & j & -> & O & J). exists k', r, j. cbn. auto.
  - destruct (IH _ _ E) as (ops & -> & F). exists ops. split; [reflexivity|]. intros o I. destruct (F o I) as (k' & r & j & -> & O & J). exists k', r, j. cbn. auto.
Qed.
Lemma c95_run u l h fuel n d w' n' : let w := skos_run (world_new u l) h in doc fuel n w = Done (d, w', n') ->
  exists ops, w' = skos_run (world_new u l) (h ++ ops) /\
    forall o, In o ops -> exists k r j, o = Relate k (inverse_of r) j /\ one_way r /\ in_tree w j.
Proof.
  intros w H. apply doc_done in H as (ls & ks & tree & code & P).
  destruct (relate_run _ _ _ (p_related _ _ _ _ _ _ _ _ _ _ _ _ _ _ _ _ _ P)) as (ops & E & F).
  exists ops. split; [unfold skos_run; rewrite fold_left_app; exact E|]. intros o I. destruct (F o I) as (k & r & j & -> & O & J). apply one_way_iff in O.
  exists k, r, j. split; [rewrite inverse_is by exact O; reflexivity|]. split; [exact O|].
  apply (written_sub _ _ _ _ (p_written _ _ _ _ _ _ _ _ _ _ _ _ _ _ _ _ _ P)), J.
Qed.
End Whole.
