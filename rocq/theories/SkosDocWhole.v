(** The document of a scheme as a whole: sections, hierarchy, headings. *)
From Verif Require Import Str StrFacts LiteralProofs Skos SkosSpec SkosProofs SkosMain SkosMore Turtle TurtleProofs SkosDoc SkosDocSpec
  SkosDocProofs SkosDocMain SkosDocMore.
From Coq Require Import Arith Lia Relations.

Section Whole.
Variables gext printable : N -> bool.
Variable anchor : str -> str -> str.
Variable short : str -> option str.
Variable mappings : list (str * str).
Variable turtle : graph -> wres str.
Variable lang : option str.
Notation doc := (make_document gext printable anchor short mappings turtle lang).
Notation written := (written lang).
Notation concept_body := (concept_body anchor short lang).
Notation collection_body := (collection_body anchor short lang).

Definition sorted_places (w : world) (flat : list nat) : list nat := sort_by_key str_cmp (label_of_collection lang w) flat.
Definition c_part (w w' : world) (ls ks : list nat) (tree : list block) : list block :=
  match ks_concepts (w_scheme w) with
  | [] => []
  | _ => [jump_links (match ks_collections (w_scheme w) with [] => false | _ => true end)] ++ tree ++
         [DHeading 2 $"Concepts" (Some $"Concepts")] ++ flat_map (write_concept anchor short lang w' ls) ks
  end.
Definition l_part (w w' : world) (ls : list nat) : list block :=
  match ks_collections (w_scheme w) with
  | [] => []
  | _ => [DHeading 2 $"Collections" None] ++ flat_map (write_collection anchor short lang w' ls) ls
  end.
Definition scheme_label_of (w : world) : str := preferred_label_for (ks_uri (w_scheme w)) (ks_labels (w_scheme w)) lang.
Definition s_body (w : world) : list block :=
  header_body short lang (ks_uri (w_scheme w)) (ks_labels (w_scheme w)) (ks_properties (w_scheme w)) 1.
Definition appendix (code : str) : list block := [DHeading 2 $"Appendix - RDF" (Some $"Appendix-RDF"); DCode code].

Record parts (fuel : nat) (n : N) (w : world) (d : list block) (w' : world) (n' : N) (ls ks : list nat) (tree : list block) (code : str) : Prop := MkParts {
  p_places : exists flat, scheme_collections_flattened fuel w = Some flat /\ ls = sorted_places w flat;
  p_written : written fuel w = Some ks;
  p_related : relate ks w = Ret w';
  p_tree : ks_concepts (w_scheme w) <> [] -> write_concept_tree anchor lang fuel w = Some tree;
  p_code : exists sts, scheme_statements gext printable fuel n w' = Some (sts, n') /\ turtle (Graph None (NonUnique sts) mappings) = Done code;
  p_doc : d = DHeading 1 ($"Scheme: " ++ scheme_label_of w) (Some (anchor (scheme_label_of w) $"scheme")) ::
    s_body w ++ c_part w w' ls ks tree ++ l_part w w' ls ++ appendix code
}.

Lemma doc_done fuel n w d w' n' : doc fuel n w = Done (d, w', n') -> exists ls ks tree code, parts fuel n w d w' n' ls ks tree code.
Proof.
  unfold make_document. destruct (scheme_collections_flattened fuel w) as [flat|] eqn:F; [|discriminate].
  cbv zeta. fold (sorted_places w flat). set (ls := sorted_places w flat). intros H.
  assert (P : exists concepts, concepts_part anchor short lang fuel w ls = Done (concepts, w') /\
    exists sts, scheme_statements gext printable fuel n w' = Some (sts, n') /\ exists code, turtle (Graph None (NonUnique sts) mappings) = Done code /\
    d = DHeading 1 ($"Scheme: " ++ scheme_label_of w) (Some (anchor (scheme_label_of w) $"scheme")) ::
      s_body w ++ concepts ++ l_part w w' ls ++ appendix code).
  { destruct (concepts_part anchor short lang fuel w ls) as [[concepts w1]| | |]; try discriminate. cbn [wbind] in H.
    rewrite c86_graph in H. destruct (scheme_statements gext printable fuel n w1) as [[sts n1]|] eqn:S; [|discriminate].
    destruct (turtle _) as [code| | |] eqn:T; try discriminate. cbn [wbind] in H. rewrite header_is in H. injection H as <- <- <-.
    exists concepts. split; [reflexivity|]. exists sts. split; [exact S|]. exists code. split; [exact T|reflexivity]. }
  destruct P as (concepts & C & sts & S & code & T & ->). unfold concepts_part in C.
  destruct (ks_concepts (w_scheme w)) as [|k0 kr] eqn:K.
  - injection C as <- <-. exists ls, [], [], code. constructor.
    + exists flat. auto.
    + unfold SkosDocProofs.written, scheme_concepts_flattened. rewrite K. reflexivity.
    + reflexivity.
    + congruence.
    + eauto.
    + unfold c_part. rewrite K. reflexivity.
  - destruct (write_concept_tree anchor lang fuel w) as [tree|] eqn:Tr; [|discriminate].
    destruct (scheme_concepts_flattened fuel w) as [cflat|] eqn:Cf; [|discriminate].
    destruct (dedup _ _) as [ks|] eqn:D; [|discriminate].
    destruct (relate ks w) as [w1|] eqn:R; [|discriminate]. injection C as <- <-.
    exists ls, ks, tree, code. constructor.
    + exists flat. auto.
    + unfold SkosDocProofs.written. rewrite Cf. exact D.
    + exact R.
    + intros _. exact Tr.
    + eauto.
    + unfold c_part. rewrite K. reflexivity.
Qed.

Lemma headings_below n d : Forall (below_heading n) d -> headings n d = [].
Proof.
  unfold headings. induction 1 as [|b d L _ IHB]; [reflexivity|]. cbn [flat_map]. rewrite IHB.
  destruct b; try reflexivity. cbn in L. replace (Nat.eqb level n) with false by (symmetry; apply Nat.eqb_neq; intros ->; apply (Nat.lt_irrefl _ L)). reflexivity.
Qed.
Lemma below_weaken n m d : (n <= m)%nat -> Forall (below_heading m) d -> Forall (below_heading n) d.
Proof. intros L. apply Forall_impl. intros [l t a| | | |]; cbn; try exact (fun x => x). intros H. exact (Nat.le_lt_trans _ _ _ L H). Qed.

Section Given.
Variables (fuel : nat) (n : N) (w : world) (d : list block) (w' : world) (n' : N) (ls ks : list nat) (tree : list block) (code : str).
Hypothesis W : wf w.
Hypothesis O : once w.
Hypothesis P : parts fuel n w d w' n' ls ks tree code.

Lemma g_grown : grown w w' (inverses w ks).
Proof. apply relate_grown, (p_related _ _ _ _ _ _ _ _ _ _ P). Qed.
Lemma g_places : Permutation ls (seq 0 (length (w_collections w))).
Proof.
  destruct (p_places _ _ _ _ _ _ _ _ _ _ P) as (flat & F & ->). eapply Permutation_trans; [apply sort_by_key_perm|]. apply (l_perm _ _ _ O F).
Qed.
Lemma g_exists k : In k ks -> exists_at w k.
Proof. intros I. apply in_tree_exists; [exact W|]. apply (written_sub _ _ _ _ (p_written _ _ _ _ _ _ _ _ _ _ P)), I. Qed.

Definition grown_concept (k : nat) : concept :=
  match nth_error (w_concepts w) k with Some c => with_more c (inverses w ks k) | None => MkConcept [] [] [] [] [] end.
Lemma g_concept k : In k ks -> write_concept anchor short lang w' ls k =
  DHeading 3 ($"Concept: " ++ label_of lang w k) (Some (anchor (label_of lang w k) $"concept")) :: concept_body w ls (grown_concept k).
Proof.
  intros I. apply g_exists, nth_error_Some in I. destruct g_grown as (_ & _ & G). unfold grown_concept.
  rewrite <- (grown_label lang _ _ _ k g_grown).
  specialize (G k). destruct (nth_error (w_concepts w) k) as [c|]; [|congruence]. cbn in G.
  rewrite (write_concept_is anchor short lang w' ls k _ G). rewrite (grown_body anchor short lang _ _ _ ls _ g_grown). reflexivity.
Qed.
Definition the_collection (k : nat) : collection :=
  match nth_error (w_collections w) k with Some c => c | None => MkCollection [] false [] [] [] end.
Lemma g_collection k : In k ls -> write_collection anchor short lang w' ls k =
  DHeading 3 ($"Collection: " ++ label_of_collection lang w k) (Some (anchor (label_of_collection lang w k) $"collection")) ::
  collection_body w ls (the_collection k).
Proof.
  intros I. apply (Permutation_in _ g_places), in_seq in I as (_ & I). cbn in I. apply nth_error_Some in I.
  pose proof g_grown as (G & _ & _). unfold the_collection. rewrite <- (grown_label_l lang _ _ _ k g_grown).
  destruct (nth_error (w_collections w) k) as [c|] eqn:E; [|congruence]. rewrite <- G in E.
  rewrite (write_collection_is anchor short lang w' ls k _ E). rewrite (grown_collection_body anchor short lang _ _ _ ls _ g_grown). reflexivity.
Qed.

Lemma g_concepts_level : Forall (below_heading 2) (flat_map (write_concept anchor short lang w' ls) ks).
Proof.
  apply Forall_flat_map, Forall_forall. intros k I. rewrite g_concept by exact I. constructor; [cbn; lia|].
  eapply below_weaken; [|apply concept_body_level]. lia.
Qed.
Lemma g_collections_level : Forall (below_heading 2) (flat_map (write_collection anchor short lang w' ls) ls).
Proof.
  apply Forall_flat_map, Forall_forall. intros k I. rewrite g_collection by exact I. constructor; [cbn; lia|].
  eapply below_weaken; [|apply collection_body_level]. lia.
Qed.
Lemma g_tree : ks_concepts (w_scheme w) <> [] ->
  exists lists, tree = DHeading 2 $"Concepts Hierarchy" (Some $"ConceptsHierarchy") :: lists /\
  Forall2 (fun k b => exists l, b = DList l /\
      (forall p, way_down l p <-> exists ks, narrower_chain w (k :: ks) /\ Forall2 (concept_label lang w) (k :: ks) p) /\
      lists_top anchor lang w k l)
    (ks_concepts (w_scheme w)) lists.
Proof. intros N. apply (tree_lists anchor lang fuel w tree W), (p_tree _ _ _ _ _ _ _ _ _ _ P N). Qed.
Lemma lists_level {A} (R : A -> list ditem -> Prop) xs lists m : Forall2 (fun x b => exists l, b = DList l /\ R x l) xs lists ->
  Forall (below_heading m) lists.
Proof. induction 1 as [|x b xs r (l & -> & _) _ IH]; constructor; [exact I|exact IH]. Qed.

Lemma l_part_level : Forall (below_heading 1) (l_part w w' ls).
Proof.
  unfold l_part. destruct (ks_collections (w_scheme w)); [constructor|]. constructor; [cbn; lia|].
  eapply below_weaken; [|apply g_collections_level]. lia.
Qed.
Lemma c_part_level : Forall (below_heading 1) (c_part w w' ls ks tree).
Proof.
  unfold c_part. destruct (ks_concepts (w_scheme w)) as [|k kr] eqn:K; [constructor|]. constructor; [exact I|].
  destruct g_tree as (lists & Et & F); [congruence|]. rewrite Et. cbn [app]. constructor; [cbn; lia|]. apply Forall_app. split; [eapply lists_level, F|].
  constructor; [cbn; lia|]. eapply below_weaken; [|apply g_concepts_level]. lia.
Qed.
Lemma l_part_headings : headings 2 (l_part w w' ls) = match ks_collections (w_scheme w) with [] => [] | _ => [$"Collections"] end.
Proof.
  unfold l_part. destruct (ks_collections (w_scheme w)); [reflexivity|]. rewrite headings_app, (headings_below _ _ g_collections_level). reflexivity.
Qed.
Lemma c_part_headings : headings 2 (c_part w w' ls ks tree) =
  match ks_concepts (w_scheme w) with [] => [] | _ => [$"Concepts Hierarchy"; $"Concepts"] end.
Proof.
  unfold c_part. destruct (ks_concepts (w_scheme w)) as [|k kr] eqn:K; [reflexivity|].
  destruct g_tree as (lists & Et & F); [congruence|]. rewrite Et.
  rewrite headings_app. change (headings 2 [jump_links ?b]) with (@nil str). cbn [app].
  match goal with |- headings 2 (?x :: lists ++ ?y :: ?r) = _ => change (x :: lists ++ y :: r) with ([x] ++ lists ++ [y] ++ r) end.
  rewrite !headings_app, (headings_below 2 lists), (headings_below _ _ g_concepts_level) by (eapply lists_level, F). reflexivity.
Qed.

Lemma stops_end m r : (2 <= m)%nat -> stops m (l_part w w' ls ++ appendix code ++ r).
Proof.
  intros L. unfold l_part, appendix. destruct (ks_collections (w_scheme w)); cbn; lia.
Qed.

(** The scheme. *)
Lemma g_scheme : exists body, section_of d 1 ($"Scheme: " ++ scheme_label_of w) (Some (anchor (scheme_label_of w) $"scheme")) body /\
  shows_resource short lang 1 (ks_uri (w_scheme w)) (ks_labels (w_scheme w)) (ks_properties (w_scheme w)) body.
Proof.
  exists (s_body w ++ c_part w w' ls ks tree ++ l_part w w' ls ++ appendix code). split.
  - rewrite (p_doc _ _ _ _ _ _ _ _ _ _ P).
    match goal with |- section_of (?x :: ?b) _ _ _ _ => replace (x :: b) with ([] ++ x :: b ++ []) by (rewrite app_nil_r; reflexivity) end.
    apply section_here; [|exact I]. 
    apply Forall_app. split; [eapply below_weaken; [|apply (header_body_level anchor)]; lia|]. apply Forall_app. split; [apply c_part_level|].
    apply Forall_app. split; [apply l_part_level|]. repeat constructor.
  - assert (N : forall t, t <> $"Concepts Hierarchy" -> t <> $"Concepts" -> t <> $"Collections" -> t <> $"Appendix - RDF" ->
      ~ In t (headings 2 (c_part w w' ls ks tree ++ l_part w w' ls ++ appendix code))).
    { intros t A B C D. rewrite !headings_app, c_part_headings, l_part_headings. intros I.
      apply in_app_or in I as [I|I]; [|apply in_app_or in I as [I|I]].
      - destruct (ks_concepts (w_scheme w)); [destruct I|]. destruct I as [I|[I|[]]]; congruence.
      - destruct (ks_collections (w_scheme w)); [destruct I|]. destruct I as [I|[]]; congruence.
      - destruct I as [I|[]]; congruence. }
    unfold s_body. destruct (ks_concepts (w_scheme w)) as [|k kr] eqn:K.
    + apply (entity_shows anchor short lang 1 _ _ _ []); [left; reflexivity| | |].
      * unfold c_part. rewrite K. cbn [app]. rewrite <- (app_nil_r (appendix code)). apply stops_end. lia.
      * apply N; discriminate.
      * apply N; discriminate.
    + destruct g_tree as (lists & Et & _); [congruence|].
      assert (E : c_part w w' ls ks tree = [jump_links (match ks_collections (w_scheme w) with [] => false | _ => true end)] ++
        DHeading 2 $"Concepts Hierarchy" (Some $"ConceptsHierarchy") :: lists ++ DHeading 2 $"Concepts" (Some $"Concepts") :: flat_map (write_concept anchor short lang w' ls) ks).
      { unfold c_part. rewrite K, Et. reflexivity. }
      assert (N' : forall t, t <> $"Concepts Hierarchy" -> t <> $"Concepts" -> t <> $"Collections" -> t <> $"Appendix - RDF" ->
        ~ In t (headings 2 ((DHeading 2 $"Concepts Hierarchy" (Some $"ConceptsHierarchy") :: lists ++ DHeading 2 $"Concepts" (Some $"Concepts") :: flat_map (write_concept anchor short lang w' ls) ks) ++ l_part w w' ls ++ appendix code))).
      { intros t A B C D I. apply (N t A B C D). rewrite E, <- app_assoc, (headings_app 2 [_]). apply in_or_app. right. exact I. }
      rewrite E, <- app_assoc.
      apply (entity_shows anchor short lang 1); [right; eexists; reflexivity|apply stops_heading| |]; apply N'; discriminate.
Qed.

(** Concepts and collections. *)
Lemma g_around : exists before after, d = before ++ flat_map (write_concept anchor short lang w' ls) ks ++ after /\ stops 3 after.
Proof.
  rewrite (p_doc _ _ _ _ _ _ _ _ _ _ P). unfold c_part. destruct (ks_concepts (w_scheme w)) as [|k kr] eqn:K.
  - pose proof (p_written _ _ _ _ _ _ _ _ _ _ P) as Q. unfold SkosDocProofs.written, scheme_concepts_flattened in Q. rewrite K in Q.
    injection Q as <-. cbn [flat_map app]. match goal with |- context[?x :: s_body w ++ ?r] => exists (x :: s_body w), r end.
    split; [reflexivity|]. rewrite <- (app_nil_r (appendix code)). apply stops_end. lia.
  - match goal with |- context[?x :: s_body w ++ ([?j] ++ tree ++ [?h] ++ ?c) ++ ?r] => exists (x :: s_body w ++ [j] ++ tree ++ [h]), r end.
    split; [cbn [app]; rewrite <- !app_assoc; cbn [app]; rewrite <- !app_assoc; reflexivity|].
    rewrite <- (app_nil_r (appendix code)). apply stops_end. lia.
Qed.
Lemma g_around_l : exists before after, d = before ++ flat_map (write_collection anchor short lang w' ls) ls ++ after /\ stops 3 after.
Proof.
  rewrite (p_doc _ _ _ _ _ _ _ _ _ _ P). unfold l_part. destruct (ks_collections (w_scheme w)) as [|k kr] eqn:K.
  - destruct (p_places _ _ _ _ _ _ _ _ _ _ P) as (flat & Q & E). unfold scheme_collections_flattened in Q. rewrite K in Q. injection Q as <-.
    subst ls. cbn [sorted_places sort_by_key stable_sort fold_right flat_map app]. match goal with |- context[?x :: s_body w ++ ?c ++ ?r] => exists (x :: s_body w ++ c), r end.
    split; [cbn [app]; rewrite <- app_assoc; reflexivity|cbn; lia].
  - match goal with |- context[?x :: s_body w ++ ?c ++ ([?h] ++ ?l) ++ ?r] => exists (x :: s_body w ++ c ++ [h]), r end.
    split; [cbn [app]; rewrite <- !app_assoc; reflexivity|cbn; lia].
Qed.

Lemma g_shows k c : In k ks -> nth_error (w_concepts w) k = Some c ->
  shows_concept anchor short lang w (kc_concepts c ++ inverses w ks k) c d.
Proof.
  intros I E. destruct g_around as (before & after & Ed & S).
  assert (GC : grown_concept k = with_more c (inverses w ks k)) by (unfold grown_concept; rewrite E; reflexivity).
  exists (label_of lang w k), (concept_body w ls (grown_concept k)). split; [|split; [|split; [|split]]].
  - apply label_is. unfold label_of. rewrite E. reflexivity.
  - rewrite Ed. apply (sections_in (write_concept anchor short lang w' ls) (fun k => $"Concept: " ++ label_of lang w k) (fun k => Some (anchor (label_of lang w k) $"concept"))
      (fun k => concept_body w ls (grown_concept k))); [apply g_concept| |exact S|exact I]. intros x _. apply concept_body_level.
  - rewrite GC. apply (concept_body_shows anchor short lang w ls (with_more c (inverses w ks k))).
  - rewrite GC. apply (concept_body_relations anchor short lang w ls (with_more c (inverses w ks k))). cbn. apply Forall_forall. intros [r j] J. cbn.
    apply in_app_or in J as [J|J]; [apply (wf_closed w W k r); unfold rels_at; rewrite E; exact J|].
    apply inverses_in in J as (J & _). apply g_exists, J.
  - rewrite GC. apply (concept_body_membership anchor short lang w ls (with_more c (inverses w ks k)) W g_places).
Qed.
Lemma g_shows_l k c : nth_error (w_collections w) k = Some c -> shows_collection_section anchor short lang w c d.
Proof.
  intros E. assert (I : In k ls).
  { apply (Permutation_in _ (Permutation_sym g_places)), in_seq. split; [lia|]. cbn. apply nth_error_Some. congruence. }
  destruct g_around_l as (before & after & Ed & S).
  assert (GC : the_collection k = c) by (unfold the_collection; rewrite E; reflexivity).
  exists (label_of_collection lang w k), (collection_body w ls (the_collection k)). split; [|split; [|split; [|split]]].
  - apply label_is. unfold label_of_collection. rewrite E. reflexivity.
  - rewrite Ed. apply (sections_in (write_collection anchor short lang w' ls) (fun k => $"Collection: " ++ label_of_collection lang w k) (fun k => Some (anchor (label_of_collection lang w k) $"collection"))
      (fun k => collection_body w ls (the_collection k))); [apply g_collection| |exact S|exact I]. intros x _. apply collection_body_level.
  - rewrite GC. apply collection_body_shows.
  - rewrite GC. apply collection_body_members. destruct W as (_ & B & _). rewrite Forall_forall in B. apply B, (nth_error_In _ _ E).
  - rewrite GC. apply (collection_body_membership anchor short lang w ls c W g_places).
Qed.

(** The headings. *)
Lemma s_body_headings : headings 3 (s_body w) = [].
Proof.
  unfold s_body. rewrite headings_body, (headings_labels anchor), headings_properties.
  destruct (ks_labels (w_scheme w)), (ks_properties (w_scheme w)); reflexivity.
Qed.
Lemma g_headings : headings 3 d = map (fun k => $"Concept: " ++ label_of lang w k) ks ++ map (fun k => $"Collection: " ++ label_of_collection lang w k) ls.
Proof.
  assert (C : headings 3 (flat_map (write_concept anchor short lang w' ls) ks) = map (fun k => $"Concept: " ++ label_of lang w k) ks).
  { apply (sections_headings anchor short) with (a := fun k => Some (anchor (label_of lang w k) $"concept")) (body := fun k => concept_body w ls (grown_concept k)); [apply g_concept|].
    intros x _. apply concept_body_level. }
  assert (L : headings 3 (flat_map (write_collection anchor short lang w' ls) ls) = map (fun k => $"Collection: " ++ label_of_collection lang w k) ls).
  { apply (sections_headings anchor short) with (a := fun k => Some (anchor (label_of_collection lang w k) $"collection")) (body := fun k => collection_body w ls (the_collection k)); [apply g_collection|].
    intros x _. apply collection_body_level. }
  rewrite (p_doc _ _ _ _ _ _ _ _ _ _ P).
  match goal with |- headings 3 (?x :: ?r) = _ => change (headings 3 (x :: r)) with (headings 3 r) end.
  rewrite !headings_app, s_body_headings. cbn [app]. rewrite app_nil_r. f_equal.
  - unfold c_part. destruct (ks_concepts (w_scheme w)) as [|k kr] eqn:K.
    + pose proof (p_written _ _ _ _ _ _ _ _ _ _ P) as Q. unfold SkosDocProofs.written, scheme_concepts_flattened in Q. rewrite K in Q.
      injection Q as <-. reflexivity.
    + destruct g_tree as (lists & Et & F); [congruence|]. rewrite Et. rewrite !headings_app, C.
      match goal with |- context[headings 3 (?x :: lists)] => change (headings 3 (x :: lists)) with (headings 3 lists) end.
      rewrite (headings_below 3 lists) by (eapply lists_level, F). reflexivity.
  - unfold l_part. destruct (ks_collections (w_scheme w)) as [|k kr] eqn:K.
    + destruct (p_places _ _ _ _ _ _ _ _ _ _ P) as (flat & Q & E). unfold scheme_collections_flattened in Q. rewrite K in Q. injection Q as <-.
      subst ls. reflexivity.
    + rewrite headings_app, L. reflexivity.
Qed.
Lemma g_hierarchy : ks_concepts (w_scheme w) <> [] -> shows_hierarchy anchor lang w d.
Proof.
  intros N. destruct (g_tree N) as (lists & E & F). exists lists. split; [|exact F].
  rewrite (p_doc _ _ _ _ _ _ _ _ _ _ P), E. unfold c_part. destruct (ks_concepts (w_scheme w)) as [|k kr]; [congruence|].
  match goal with |- section_of (?x :: s_body w ++ ([?j] ++ (?h :: lists) ++ ?c) ++ ?r) _ _ _ _ =>
    replace (x :: s_body w ++ ([j] ++ (h :: lists) ++ c) ++ r) with ((x :: s_body w ++ [j]) ++ h :: lists ++ c ++ r)
      by (cbn [app]; rewrite <- !app_assoc; reflexivity) end.
  apply section_here; [eapply lists_level, F|]. apply stops_heading.
Qed.
End Given.
End Whole.
