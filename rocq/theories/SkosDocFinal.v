(** Lemmas for the properties of the document of a scheme. *)
From Verif Require Import Str StrFacts LiteralProofs Skos SkosSpec SkosProofs SkosMain SkosMore Turtle TurtleProofs SkosDoc SkosDocSpec
  SkosDocProofs SkosDocMain SkosDocMore SkosDocWhole.
From Coq Require Import Arith Lia Relations.

Lemma one_way_iff r : is_related_one_way r = true <-> one_way r.
Proof.
  unfold one_way, narrower. destruct r; cbn; split; intros H; try reflexivity; try discriminate; auto;
    destruct H as [[H|[H|H]]|H]; discriminate H.
Qed.
Lemma inverse_is r : one_way r -> rel_inverse r = inverse_of r.
Proof. intros [[-> | [-> | ->]] | ->]; reflexivity. Qed.
Lemma has_relation_iff w j r k : has_relation w j r k <-> In (r, k) (rels_at w j).
Proof.
  unfold has_relation, rels_at. split.
  - intros (c & -> & I). exact I.
  - destruct (nth_error (w_concepts w) j) as [c|]; [|intros []]. intros I. exists c. auto.
Qed.
Lemma is_inverse_iff w ks k rj : (forall j, In j ks <-> in_tree w j) -> In rj (inverses w ks k) <-> is_inverse w k rj.
Proof.
  intros H. destruct rj as [r' j]. rewrite inverses_in. unfold is_inverse. cbn [fst snd]. rewrite H. split.
  - intros (T & r & I & O & ->). apply one_way_iff in O. exists r. split; [exact T|]. split; [apply has_relation_iff, I|]. split; [exact O|apply inverse_is, O].
  - intros (r & T & R & O & ->). split; [exact T|]. exists r. split; [apply has_relation_iff, R|]. split; [apply one_way_iff, O|]. symmetry. apply inverse_is, O.
Qed.
Lemma inverse_sub w ks k rj : (forall j, In j ks -> in_tree w j) -> In rj (inverses w ks k) -> is_inverse w k rj.
Proof.
  intros H. destruct rj as [r' j]. rewrite inverses_in. unfold is_inverse. cbn [fst snd].
  intros (T & r & I & O & ->). apply one_way_iff in O. exists r. split; [apply H, T|]. split; [apply has_relation_iff, I|]. split; [exact O|apply inverse_is, O].
Qed.
Lemma distinct_tree w : wf w -> distinct_iris w -> tree_iris w.
Proof.
  intros W D a b A B E. pose proof (in_tree_exists w a W A) as X. pose proof (in_tree_exists w b W B) as Y. apply nth_error_Some in X, Y.
  unfold uri_of in E. destruct (nth_error (w_concepts w) a) as [x|] eqn:Ea; [|congruence]. destruct (nth_error (w_concepts w) b) as [y|] eqn:Eb; [|congruence].
  apply (D a b x y); assumption.
Qed.
Lemma distinct_tree_labels lang w : wf w -> distinct_labels lang w -> tree_labels lang w.
Proof.
  intros W D a b A B E. apply (D a b (label_of lang w a) A B); apply concept_label_iff; (split; [apply in_tree_exists; assumption|]); [reflexivity|exact E].
Qed.

Lemma concept_eqb_same f w a b x y : concept_eqb f w a b = Some true -> nth_error (w_concepts w) a = Some x -> nth_error (w_concepts w) b = Some y ->
  kc_uri x = kc_uri y /\ kc_external x = kc_external y /\ kc_labels x = kc_labels y /\ kc_properties x = kc_properties y.
Proof.
  destruct f as [|f]; [discriminate|]. cbn [concept_eqb]. intros E A B. rewrite A, B in E.
  destruct (str_eqb (kc_uri x) (kc_uri y)) eqn:U; [|discriminate E]. cbn [andb] in E. destruct (Nat.eqb _ _); [|discriminate E].
  destruct (related_eqb _ _ _) as [[]|]; try discriminate E. injection E as E. apply andb_prop in E as [E P]. apply andb_prop in E as [E L].
  apply str_eqb_eq in U. apply (list_eqb_eq _ pair_eqb_eq) in E. apply (list_eqb_eq _ slabel_eqb_eq) in L. apply (list_eqb_eq _ lprop_eqb_eq) in P. auto.
Qed.

(** The grown world is well-formed. *)
Lemma grown_wf w w' ks : wf w -> (forall k, In k ks -> exists_at w k) -> grown w w' (inverses w ks) -> wf w'.
Proof.
  intros W K G. pose proof (grown_length _ _ _ G) as L. pose proof W as (A & B & C & D). destruct G as (G1 & G2 & G3). unfold wf. rewrite L, G1, G2.
  split; [|auto]. apply Forall_forall. intros c I. apply In_nth_error in I as (k & E). rewrite G3 in E.
  destruct (nth_error (w_concepts w) k) as [c0|] eqn:Q; [|discriminate]. injection E as <-. intros r j J. cbn in J.
  apply in_app_or in J as [J|J]; [apply (wf_closed w W k r); unfold rels_at; rewrite Q; exact J|]. apply inverses_in in J as (J & _). apply K, J.
Qed.
Lemma grown_once w w' a : wf w -> grown w w' a -> once w -> once w'.
Proof.
  intros W (G1 & G2 & G3). apply once_same; [exact W|rewrite G1; reflexivity|rewrite G2; reflexivity|]. intros j. unfold below_l. rewrite G1. reflexivity.
Qed.
Lemma grown_under w w' a : grown w w' a -> idle a -> forall i j, under w' i j <-> under w i j.
Proof. intros G I i j. rewrite <- !child_under. unfold child. rewrite (grown_below _ _ _ G I). reflexivity. Qed.
Lemma grown_in_tree w w' a k : grown w w' a -> idle a -> in_tree w' k <-> in_tree w k.
Proof.
  intros G I. pose proof (grown_under _ _ _ G I) as U. destruct G as (_ & G2 & _). unfold in_tree. rewrite G2.
  split; intros (t & J & R); exists t; (split; [exact J|]); apply (rt_ext _ _ U); exact R.
Qed.
Lemma relate_nothing w ks : ks_concepts (w_scheme w) = [] -> forall lang fuel, written lang fuel w = Some ks -> ks = [].
Proof. intros K lang fuel. unfold written, scheme_concepts_flattened. rewrite K. injection 1 as <-. reflexivity. Qed.

Section Final.
Variables gext printable : N -> bool.
Variable anchor : str -> str -> str.
Variable short : str -> option str.
Variable mappings : list (str * str).
Variable turtle : graph -> wres str.
Variable lang : option str.
Notation doc := (make_document gext printable anchor short mappings turtle lang).
Notation parts := (parts gext printable anchor short mappings turtle lang).

Section Run.
Variables (u : str) (l : list slabel) (h : list skos_op).
Let w := skos_run (world_new u l) h.
Variables (fuel : nat) (n : N) (d : list block) (w' : world) (n' : N).
Hypothesis H : doc fuel n w = Done (d, w', n').
Let W : wf w := wf_run u l h.
Let O : once w := once_run u l h.

Lemma c94_scheme : exists t body, is_label lang (ks_uri (w_scheme w)) (ks_labels (w_scheme w)) t /\
  section_of d 1 ($"Scheme: " ++ t) (Some (anchor t $"scheme")) body /\
  shows_resource short lang 1 (ks_uri (w_scheme w)) (ks_labels (w_scheme w)) (ks_properties (w_scheme w)) body.
Proof.
  apply doc_done in H as (ls & ks & tree & code & P). destruct (g_scheme _ _ _ _ _ _ _ _ _ _ _ _ _ _ _ _ _ W O P) as (body & A & B).
  exists (scheme_label_of lang w), body. split; [apply label_is; reflexivity|auto].
Qed.
Lemma c94_collections k c : nth_error (w_collections w) k = Some c -> shows_collection_section anchor short lang w c d.
Proof. apply doc_done in H as (ls & ks & tree & code & P). apply (g_shows_l _ _ _ _ _ _ _ _ _ _ _ _ _ _ _ _ _ W O P). Qed.
Lemma c94_hierarchy : ks_concepts (w_scheme w) <> [] -> shows_hierarchy anchor lang w d.
Proof. apply doc_done in H as (ls & ks & tree & code & P). apply (g_hierarchy _ _ _ _ _ _ _ _ _ _ _ _ _ _ _ _ _ W P). Qed.

Lemma written_distinct ks : distinct_iris w -> written lang fuel w = Some ks -> forall j, In j ks <-> in_tree w j.
Proof. intros D. apply written_iff, distinct_tree; assumption. Qed.
Lemma c94_concepts k c : distinct_iris w -> in_tree w k -> nth_error (w_concepts w) k = Some c ->
  exists more, (forall rj, In rj more <-> is_inverse w k rj) /\ shows_concept anchor short lang w (kc_concepts c ++ more) c d.
Proof.
  intros D T E. apply doc_done in H as (ls & ks & tree & code & P). pose proof (written_distinct ks D (p_written _ _ _ _ _ _ _ _ _ _ _ _ _ _ _ _ _ P)) as K.
  exists (inverses w ks k). split; [intros rj; apply is_inverse_iff, K|].
  apply (g_shows _ _ _ _ _ _ _ _ _ _ _ _ _ _ _ _ _ W O P); [apply K, T|exact E].
Qed.
Lemma c94_any k c : in_tree w k -> nth_error (w_concepts w) k = Some c ->
  exists j c' more, in_tree w j /\ nth_error (w_concepts w) j = Some c' /\
    kc_uri c' = kc_uri c /\ kc_labels c' = kc_labels c /\ kc_properties c' = kc_properties c /\ kc_external c' = kc_external c /\
    (forall rj, In rj more -> is_inverse w j rj) /\ shows_concept anchor short lang w (kc_concepts c' ++ more) c' d.
Proof.
  intros T E. apply doc_done in H as (ls & ks & tree & code & P). pose proof (p_written _ _ _ _ _ _ _ _ _ _ _ _ _ _ _ _ _ P) as Q.
  pose proof (written_sub _ _ _ _ Q) as S.
  assert (X : exists j c', In j ks /\ nth_error (w_concepts w) j = Some c' /\
    kc_uri c' = kc_uri c /\ kc_labels c' = kc_labels c /\ kc_properties c' = kc_properties c /\ kc_external c' = kc_external c).
  { destruct (written_all _ _ _ _ Q k T) as [I|(j & I & J)]; [exists k, c; auto 10|].
    pose proof (g_exists _ _ _ _ _ _ _ _ _ _ _ _ _ _ _ _ _ W P j I) as Y. apply nth_error_Some in Y.
    destruct (nth_error (w_concepts w) j) as [c'|] eqn:E'; [|congruence]. exists j, c'.
    destruct (concept_eqb_same _ _ _ _ _ _ J E E') as (A1 & A2 & A3 & A4). repeat (split; [auto; fail|]). auto. }
  destruct X as (j & c' & I & E' & A1 & A2 & A3 & A4). exists j, c', (inverses w ks j). repeat (split; [auto; fail|]).
  split; [intros rj; apply inverse_sub, S|]. apply (g_shows _ _ _ _ _ _ _ _ _ _ _ _ _ _ _ _ _ W O P); assumption.
Qed.

(** The order of the sections. *)
Lemma Forall2_labels ks : Forall (exists_at w) ks -> Forall2 (concept_label lang w) ks (map (label_of lang w) ks).
Proof. induction 1 as [|k ks K _ IH]; constructor; [apply concept_label_iff; auto|exact IH]. Qed.
Lemma Forall2_labels_l ks : Forall (fun k => (k < length (w_collections w))%nat) ks -> Forall2 (collection_label lang w) ks (map (label_of_collection lang w) ks).
Proof. induction 1 as [|k ks K _ IH]; constructor; [apply collection_label_iff; auto|exact IH]. Qed.
Lemma sorted_map {A B} (f : A -> B) (R : B -> B -> Prop) l0 : StronglySorted (fun a b => R (f a) (f b)) l0 -> StronglySorted R (map f l0).
Proof.
  induction 1 as [|a r S IH F]; cbn; constructor; [exact IH|]. apply Forall_forall. intros x I. apply in_map_iff in I as (y & <- & I).
  rewrite Forall_forall in F. apply F, I.
Qed.
Lemma c94_order : exists ks ts ls ts', headings 3 d = map (app $"Concept: ") ts ++ map (app $"Collection: ") ts' /\
  (forall k, In k ks -> in_tree w k) /\ Forall2 (concept_label lang w) ks ts /\ StronglySorted (fun a b => str_cmp a b <> Gt) ts /\
  Permutation ls (seq 0 (length (w_collections w))) /\ Forall2 (collection_label lang w) ls ts' /\ StronglySorted (fun a b => str_cmp a b <> Gt) ts' /\
  (distinct_iris w -> forall k, in_tree w k -> In k ks) /\ (distinct_labels lang w -> NoDup ks).
Proof.
  apply doc_done in H as (ls & ks & tree & code & P). pose proof (p_written _ _ _ _ _ _ _ _ _ _ _ _ _ _ _ _ _ P) as Q.
  pose proof (g_places _ _ _ _ _ _ _ _ _ _ _ _ _ _ _ _ _ O P) as L.
  exists ks, (map (label_of lang w) ks), ls, (map (label_of_collection lang w) ls).
  split; [rewrite (g_headings _ _ _ _ _ _ _ _ _ _ _ _ _ _ _ _ _ W O P), !map_map; reflexivity|].
  split; [apply (written_sub _ _ _ _ Q)|].
  split; [apply Forall2_labels, Forall_forall, (g_exists _ _ _ _ _ _ _ _ _ _ _ _ _ _ _ _ _ W P)|].
  split; [apply sorted_map, (written_sorted _ _ _ _ Q)|].
  split; [exact L|].
  split; [apply Forall2_labels_l, Forall_forall; intros k I; apply (Permutation_in _ L), in_seq in I; lia|].
  split; [|split].
  - destruct (p_places _ _ _ _ _ _ _ _ _ _ _ _ _ _ _ _ _ P) as (flat & _ & ->). apply sorted_map. unfold sorted_places. apply sort_by_key_sorted, str_total.
  - intros D k. apply (written_distinct ks D Q).
  - intros D. apply (written_nodup lang fuel w ks W); [apply distinct_tree_labels; assumption|exact Q].
Qed.

(** What becomes of the scheme. *)
Lemma c95_change : w_collections w' = w_collections w /\ w_scheme w' = w_scheme w /\ length (w_concepts w') = length (w_concepts w) /\
  forall k c, nth_error (w_concepts w) k = Some c -> exists more,
    nth_error (w_concepts w') k = Some (MkConcept (kc_uri c) (kc_concepts c ++ more) (kc_external c) (kc_labels c) (kc_properties c)) /\
    (forall rj, In rj more -> is_inverse w k rj) /\ (distinct_iris w -> forall rj, is_inverse w k rj -> In rj more).
Proof.
  apply doc_done in H as (ls & ks & tree & code & P). pose proof (p_written _ _ _ _ _ _ _ _ _ _ _ _ _ _ _ _ _ P) as Q.
  pose proof (g_grown _ _ _ _ _ _ _ _ _ _ _ _ _ _ _ _ _ P) as G. pose proof (grown_length _ _ _ G) as L. destruct G as (G1 & G2 & G3).
  split; [exact G1|]. split; [exact G2|]. split; [exact L|]. intros k c E. exists (inverses w ks k). split; [rewrite G3, E; reflexivity|].
  split; [intros rj; apply inverse_sub, (written_sub _ _ _ _ Q)|]. intros D rj. apply is_inverse_iff, (written_distinct ks D Q).
Qed.
Lemma c95_same : w' = w <-> forall j r k, in_tree w j -> has_relation w j r k -> ~ one_way r.
Proof.
  apply doc_done in H as (ls & ks & tree & code & P). pose proof (p_written _ _ _ _ _ _ _ _ _ _ _ _ _ _ _ _ _ P) as Q.
  pose proof (g_grown _ _ _ _ _ _ _ _ _ _ _ _ _ _ _ _ _ P) as G. pose proof (grown_length _ _ _ G) as L. destruct G as (G1 & G2 & G3). split.
  - intros E j r k T R N. apply has_relation_iff in R. apply one_way_iff in N.
    assert (X : exists j' k', In j' ks /\ In (r, k') (rels_at w j')).
    { destruct (written_all _ _ _ _ Q j T) as [I|(j' & I & J)]; [eauto|]. apply concept_eqb_true in J as (_ & _ & _ & J).
      destruct (J r k R) as (k' & f' & I' & _). eauto. }
    destruct X as (j' & k' & I & R'). pose proof (wf_closed w W j' r k' R') as X. apply nth_error_Some in X.
    specialize (G3 k'). rewrite E in G3. destruct (nth_error (w_concepts w) k') as [c|]; [|congruence]. injection G3 as G3.
    apply (f_equal kc_concepts) in G3. cbn in G3. rewrite <- (app_nil_r (kc_concepts c)) in G3 at 1. apply app_inv_head in G3.
    assert (Y : In (rel_inverse r, j') (inverses w ks k')) by (apply inverses_in; split; [exact I|]; exists r; auto). rewrite <- G3 in Y. exact Y.
  - intros N.
    assert (Z : forall k, inverses w ks k = []).
    { intros k. destruct (inverses w ks k) as [|[r' j] rest] eqn:E; [reflexivity|]. exfalso.
      assert (I : In (r', j) (inverses w ks k)) by (rewrite E; left; reflexivity). apply inverses_in in I as (I & r & R & X & _).
      apply (N j r k); [apply (written_sub _ _ _ _ Q), I|apply has_relation_iff, R|apply one_way_iff, X]. }
    assert (C : w_concepts w' = w_concepts w).
    { apply nth_ext with (d := MkConcept [] [] [] [] []) (d' := MkConcept [] [] [] [] []); [exact L|]. intros k _.
      assert (X : nth_error (w_concepts w') k = nth_error (w_concepts w) k).
      { rewrite G3, Z. destruct (nth_error (w_concepts w) k); cbn; [rewrite with_more_nil|]; reflexivity. }
      rewrite <- !nth_default_eq. unfold nth_default. rewrite X. reflexivity. }
    revert C G1 G2. clear. clearbody w. clear. destruct w, w'. cbn. congruence.
Qed.

(** The appendix. *)
Lemma c95_appendix : exists sts code, section_of d 2 $"Appendix - RDF" (Some $"Appendix-RDF") [DCode code] /\
  turtle (Graph None (NonUnique sts) mappings) = Done code /\
  (forall st, (forall b, st_subject st <> SBlank b) -> In st sts <-> scheme_says gext printable w' st) /\
  (distinct_iris w -> forall st, scheme_says gext printable w' st <-> scheme_says gext printable w st \/
     exists j r k x y, in_tree w j /\ in_tree w k /\ has_relation w j r k /\ one_way r /\
       nth_error (w_concepts w) j = Some x /\ nth_error (w_concepts w) k = Some y /\
       st = link (kc_uri y) (relation_name (inverse_of r)) (kc_uri x)).
Proof.
  apply doc_done in H as (ls & ks & tree & code & P). pose proof (p_written _ _ _ _ _ _ _ _ _ _ _ _ _ _ _ _ _ P) as Q.
  pose proof (g_grown _ _ _ _ _ _ _ _ _ _ _ _ _ _ _ _ _ P) as G. pose proof (g_exists _ _ _ _ _ _ _ _ _ _ _ _ _ _ _ _ _ W P) as X.
  destruct (p_code _ _ _ _ _ _ _ _ _ _ _ _ _ _ _ _ _ P) as (sts & S & T). exists sts, code. split; [|split; [exact T|split]].
  - rewrite (p_doc _ _ _ _ _ _ _ _ _ _ _ _ _ _ _ _ _ P). unfold appendix.
    match goal with |- section_of (?x :: ?a ++ ?b ++ ?c ++ [?h; ?k]) _ _ _ _ =>
      replace (x :: a ++ b ++ c ++ [h; k]) with ((x :: a ++ b ++ c) ++ h :: [k] ++ []) by (cbn [app]; rewrite <- !app_assoc; reflexivity) end.
    apply section_here; [repeat constructor|exact I].
  - intros st N. apply (c86_says gext printable w' fuel n sts n' st); [eapply grown_wf; eassumption|eapply grown_once; eassumption|exact S|exact N].
  - intros D st. pose proof (written_distinct ks D Q) as K.
    pose proof (fun k => grown_in_tree _ _ _ k G (inverses_idle w ks)) as GT. pose proof (fun k => grown_uri _ _ _ k G) as GU.
    pose proof G as (G1 & G2 & G3).
    assert (up : forall k c, nth_error (w_concepts w) k = Some c -> nth_error (w_concepts w') k = Some (with_more c (inverses w ks k)))
      by (intros k c E; rewrite G3, E; reflexivity).
    assert (down : forall k c', nth_error (w_concepts w') k = Some c' -> exists c, nth_error (w_concepts w) k = Some c /\ c' = with_more c (inverses w ks k)).
    { intros k c' E. rewrite G3 in E. destruct (nth_error (w_concepts w) k) as [c|]; [|discriminate]. injection E as <-. eauto. }
    assert (coll : forall c, forall st', collection_says gext printable w' (ks_uri (w_scheme w)) c st' <-> collection_says gext printable w (ks_uri (w_scheme w)) c st').
    { intros c st'. split; intros S'; (destruct S' as [| |v o M|s r]; [apply ls_type|apply ls_scheme| |apply ls_resource, r]);
        apply ls_member; try assumption; destruct M as [k c' M E ->|k c' M E ->].
      - apply down in E as (c0 & E & ->). apply (im_concept _ _ _ k c0 M E). reflexivity.
      - rewrite G1 in E. apply (im_collection _ _ _ k c' M E). reflexivity.
      - apply (im_concept _ _ _ k _ M (up _ _ E)). reflexivity.
      - rewrite <- G1 in E. apply (im_collection _ _ _ k c' M E). reflexivity. }
    split.
    + intros S'. destruct S' as [|s r|k c I E|k c I E|k c s I E S'|c s I S']; rewrite ?G2 in *.
      * left. rewrite <- G2. rewrite G2. apply ss_type.
      * left. apply ss_resource, r.
      * left. apply down in E as (c0 & E & ->). apply (ss_top _ _ w k c0 I E).
      * left. apply down in E as (c0 & E & ->). apply (ss_has_top _ _ w k c0 I E).
      * apply GT in I. apply down in E as (c0 & E & ->). destruct S' as [| |r j c' J E'|p i J|s r].
        -- left. apply (ss_concept _ _ w k c0 _ I E). exact (cs_type _ _ w _ c0).
        -- left. apply (ss_concept _ _ w k c0 _ I E). exact (cs_scheme _ _ w _ c0).
        -- apply down in E' as (c1 & E' & ->). cbn in J. apply in_app_or in J as [J|J].
           ++ left. apply (ss_concept _ _ w k c0 _ I E). apply (cs_relation _ _ w _ c0 r j c1 J E').
           ++ right. apply inverses_in in J as (J & r0 & J' & Y & ->). apply one_way_iff in Y.
              exists j, r0, k, c1, c0. split; [apply K, J|]. split; [exact I|]. split; [apply has_relation_iff, J'|]. split; [exact Y|].
              split; [exact E'|]. split; [exact E|]. rewrite <- inverse_is by exact Y. reflexivity.
        -- left. apply (ss_concept _ _ w k c0 _ I E). exact (cs_external _ _ w _ c0 p i J).
        -- left. apply (ss_concept _ _ w k c0 _ I E). exact (cs_resource _ _ w _ c0 s r).
      * left. rewrite G1 in I. apply (ss_collection _ _ w c s I). apply coll, S'.
    + intros [S'|(j & r & k & x & y & Tj & Tk & R & Y & Ej & Ek & ->)].
      * destruct S' as [|s r|k c I E|k c I E|k c s I E S'|c s I S']; rewrite <- ?G2 in *.
        -- apply ss_type.
        -- apply ss_resource, r.
        -- apply (ss_top _ _ w' k (with_more c (inverses w ks k))); [exact I|apply up, E].
        -- apply (ss_has_top _ _ w' k (with_more c (inverses w ks k))); [exact I|apply up, E].
        -- apply (ss_concept _ _ w' k (with_more c (inverses w ks k))); [apply GT, I|apply up, E|].
           destruct S' as [| |r j c' J E'|p i J|s r].
           ++ exact (cs_type _ _ w' _ (with_more c (inverses w ks k))).
           ++ exact (cs_scheme _ _ w' _ (with_more c (inverses w ks k))).
           ++ apply (cs_relation _ _ w' _ (with_more c (inverses w ks k)) r j (with_more c' (inverses w ks j))); [apply in_or_app; left; exact J|apply up, E'].
           ++ exact (cs_external _ _ w' _ (with_more c (inverses w ks k)) p i J).
           ++ exact (cs_resource _ _ w' _ (with_more c (inverses w ks k)) s r).
        -- apply (ss_collection _ _ w' c s); [rewrite G1; exact I|]. rewrite G2 in *. apply coll, S'.
      * apply (ss_concept _ _ w' k (with_more y (inverses w ks k))); [apply GT, Tk|apply up, Ek|].
        apply (cs_relation _ _ w' _ (with_more y (inverses w ks k)) (inverse_of r) j (with_more x (inverses w ks j))); [|apply up, Ej].
        apply in_or_app. right. apply (is_inverse_iff w ks k (inverse_of r, j) K). exists r. auto.
Qed.
End Run.

Lemma c95_panics u l h fuel n : let w := skos_run (world_new u l) h in (forall g, turtle g <> Crashed) -> doc fuel n w = Crashed ->
  exists k, in_tree w k /\ has_relation w k RRelated k.
Proof.
  intros w T. unfold make_document. destruct (scheme_collections_flattened fuel w) as [flat|]; [|discriminate]. cbv zeta.
  destruct (concepts_part anchor short lang fuel w _) as [[b w1]| | |] eqn:C; cbn [wbind]; try discriminate.
  - destruct (to_rdf_graph_with_mappings _ _ _ _ _ _) as [[g n1]|]; [|discriminate]. specialize (T g). destruct (turtle g); cbn; congruence.
  - intros _. unfold concepts_part in C. destruct (ks_concepts (w_scheme w)) as [|k0 kr]; [discriminate|].
    destruct (write_concept_tree _ _ _ _); [|discriminate]. destruct (scheme_concepts_flattened fuel w) as [cflat|] eqn:Cf; [|discriminate].
    destruct (dedup _ _) as [ks|] eqn:D; [|discriminate]. destruct (relate ks w) as [w1|] eqn:R; [discriminate|].
    apply relate_panic in R as (k & r & I & J & X). apply one_way_iff in X.
    assert (Q : written lang fuel w = Some ks) by (unfold written; rewrite Cf; exact D). pose proof (written_sub _ _ _ _ Q k I) as Tk.
    exists k. split; [exact Tk|]. apply has_relation_iff in J. destruct X as [X|X]; [|subst r; exact J].
    exfalso. apply (c_cycle _ _ _ Cf). exists k. split; [exact Tk|]. apply t_step. destruct J as (c & E & J). exists c, r. auto.
Qed.
Lemma c95_self u l h fuel n k r : let w := skos_run (world_new u l) h in in_tree w k -> has_relation w k r k -> one_way r ->
  forall d, doc fuel n w <> Done d.
Proof.
  intros w T R X [[d w'] n'] E. apply doc_done in E as (ls & ks & tree & code & P). apply has_relation_iff in R.
  pose proof (written_loop _ _ _ _ _ _ (p_written _ _ _ _ _ _ _ _ _ _ _ _ _ _ _ _ _ P) T R) as I.
  assert (Y : relate ks w = Panic) by (apply relate_panic; exists k, r; split; [exact I|]; split; [exact R|apply one_way_iff, X]).
  rewrite (p_related _ _ _ _ _ _ _ _ _ _ _ _ _ _ _ _ _ P) in Y. discriminate.
Qed.
End Final.
