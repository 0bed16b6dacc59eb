From Coq Require Import Lia Arith.
From Verif Require Import StrFacts ReifySpec ReifyProofs GraphProofs SimplifyProofs SkolemProofs TermProofs NTriplesWrite JsonProofs XmlProofs.
From Verif Require Export XmlSpec.

Notation in_state out := (XState out 0) (only parsing).

(** ** Flat documents *)
Lemma xml_write_done m style ord_s ord_p ord_o ho n fuel g doc :
  (forall l, Permutation (ord_s l) l) -> any_order ord_p -> any_order ord_o ->
  xml_write m style ord_s ord_p ord_o ho n fuel g = Done doc ->
  exists subjects, NoDup subjects /\
    (forall s, In s subjects <-> (exists p o, In (MkStmt s p o) (g_list (fst (g_simplify ho n g)))) /\
       (style = XStriped -> s_is_resource s = true)) /\
    shows_document m (fst (g_simplify ho n g)) (match style with XFlat => true | XStriped => false end) subjects doc.
Proof.
  intros HS HP HO. unfold xml_write. set (G := fst (g_simplify ho n g)). cbv zeta.
  destruct (write_subjects _ _ _ _ _ _ _ _) as [st| | |] eqn:W; cbn [wbind]; try discriminate. intros E. injection E as <-.
  apply write_subjects_done in W as (blocks & A & F); try assumption. cbn [x_out] in A.
  assert (N : NoDup (ord_s (g_subjects G))) by (eapply perm_NoDup; [apply HS|apply (projections_NoDup G (SBlank []) [])]).
  assert (I : forall s, In s (ord_s (g_subjects G)) <-> exists p o, In (MkStmt s p o) (g_list G)).
  { intros s. rewrite (perm_In _ _ _ (HS _)). apply subjects_spec. }
  eexists. split; [|split]; [| |exists blocks; split; [exact F|rewrite A, <- app_assoc; reflexivity]].
  - destruct style; [exact N|]. apply NoDup_filter, N.
  - intros s. destruct style; [|rewrite filter_In]; rewrite I; intuition discriminate.
Qed.

Lemma simplified_subjects ho n g s p o : In (MkStmt s p o) (g_list (fst (g_simplify ho n g))) -> s_is_statement s = false.
Proof.
  rewrite simplify_chunks. unfold g_list. cbn [fst g_statements]. intros I. pose proof (chunks_subjects (g_iter ho g) n) as C.
  destruct (chunks n (g_iter ho g)) as [sts n']. destruct C as [_ C]. destruct (C _ I) as [(k & _ & E)|(st & _ & E & S & _)]; cbn [st_subject] in E; subst; [reflexivity|congruence].
Qed.

(** The predicates of simplified graphs. *)
Definition rdf_predicates : list str := reify_props ++ [rdf $"type"; rdf $"first"; rdf $"rest"].
Lemma coll_cells_predicates items : forall n s x, In x (fst (coll_cells n s items)) -> In (st_predicate x) rdf_predicates.
Proof.
  induction items as [|o items IH]; intros n s x; cbn [coll_cells]; [intros []|].
  assert (T : In (rdf $"type") rdf_predicates /\ In (rdf $"first") rdf_predicates /\ In (rdf $"rest") rdf_predicates)
    by (unfold rdf_predicates; rewrite !in_app_iff; cbn [In]; tauto).
  destruct T as (T1 & T2 & T3).
  destruct items as [|o' items]; [intros [<-|[<-|[<-|[]]]]; assumption|].
  specialize (IH (n + 1) (SBlank (gen_label n))). destruct (coll_cells (n + 1) _ _) as [more n'].
  intros [<-|[<-|[<-|I]]]; try assumption. apply IH. exact I.
Qed.
Lemma simplified_predicates ho n g x : hash_order ho -> In x (g_list (fst (g_simplify ho n g))) ->
  In (st_predicate x) rdf_predicates \/ exists st, In st (g_list g) /\ st_predicate st = st_predicate x.
Proof.
  intros Ho. rewrite simplify_chunks. unfold g_list at 1. cbn [fst g_statements].
  intros I. enough (E : In (st_predicate x) rdf_predicates \/ exists st, In st (g_iter ho g) /\ st_predicate st = st_predicate x).
  { destruct E as [E|(st & J & E)]; [left; exact E|right; exists st; split; [apply (g_iter_In ho) in J; [exact J|exact Ho]|exact E]]. }
  revert n I. induction (g_iter ho g) as [|st l IH]; intros n; cbn [chunks]; [intros []|].
  assert (C : forall y, In y (fst (simplify_statement n st)) -> In (st_predicate y) rdf_predicates \/ st_predicate y = st_predicate st).
  { destruct st as [s p o]. intros y. unfold simplify_statement. cbn [st_subject st_object st_predicate].
    assert (R : forall t q, In q (snd (fst (reify n t))) -> In (st_predicate q) rdf_predicates).
    { intros t q. pose proof (proj2 (proj2 reify_desc_all) t n) as D. destruct (reify n t) as [[node sts] n']. cbn [fst snd].
      intros J. apply D in J as [J _]. apply in_app_iff. left. exact J. }
    destruct (s_as_statement s) as [t|]; [|destruct (o_as_statement o) as [t|]; [|destruct (o_as_collection o) as [items|]]].
    - specialize (R t). destruct (reify n t) as [[node sts] n']. intros [<-|J]; [right; reflexivity|left; apply R; exact J].
    - specialize (R t). destruct (reify n t) as [[node sts] n']. intros [<-|J]; [right; reflexivity|left; apply R; exact J].
    - unfold coll_reify. destruct items as [|o1 items].
      + intros [<-|[]]. right. reflexivity.
      + pose proof (coll_cells_predicates (o1 :: items) (n + 1) (SBlank (gen_label n))) as D.
        destruct (coll_cells (n + 1) _ _) as [sts n']. intros [<-|J]; [right; reflexivity|left; apply D; exact J].
    - intros [<-|[]]. right. reflexivity. }
  destruct (simplify_statement n st) as [sts n']. specialize (IH n'). destruct (chunks n' l) as [more n'']. cbn [fst] in *.
  intros I. apply in_app_or in I as [I|I].
  - destruct (C _ I) as [K|K]; [left; exact K|right; exists st; split; [left; reflexivity|symmetry; exact K]].
  - destruct (IH I) as [K|(st' & J & K)]; [left; exact K|right; exists st'; split; [right; exact J|exact K]].
Qed.
Definition divides (m : iri_mode) (p : str) : bool :=
  match split_uri (show_iri m p) with Ret _ => true | Panic => false end.
Lemma divides_iff m p : divides m p = true <-> exists ns local, divided (show_iri m p) ns local.
Proof.
  unfold divides. destruct (split_uri (show_iri m p)) as [[ns local]|] eqn:S.
  - split; [|reflexivity]. intros _. exists ns, local. apply split_uri_spec, S.
  - split; [discriminate|]. intros (ns & local & D). apply split_uri_spec in D. congruence.
Qed.
Lemma simplified_divisible m ho n g : hash_order ho ->
  divisible m (g_list g) -> divisible m (g_list (fst (g_simplify ho n g))).
Proof.
  intros Ho D x I. apply simplified_predicates in I as [I|(st & J & E)]; [|rewrite <- E; apply D; exact J|exact Ho].
  apply divides_iff. assert (A : forallb (divides m) rdf_predicates = true) by (destruct m; vm_compute; reflexivity).
  rewrite forallb_forall in A. apply A, I.
Qed.

Lemma c66_done m ord_s ord_p ord_o ho n fuel g :
  (forall l, Permutation (ord_s l) l) -> any_order ord_p -> any_order ord_o -> hash_order ho ->
  Forall simplifiable (g_list g) -> divisible m (g_list g) ->
  exists doc, xml_write m XFlat ord_s ord_p ord_o ho n (S fuel) g = Done doc.
Proof.
  intros HS HP HO Ho S D. unfold xml_write. cbv zeta.
  destruct (write_subjects_flat m (fst (g_simplify ho n g)) ord_p ord_o fuel (ord_s (g_subjects (fst (g_simplify ho n g)))) HP HO) with
    (st := XState [XStart RDF_RDF [($"rdf", rdf [])] []] 0) as [st ->].
  - apply simplify_flat_iff; assumption.
  - apply simplified_divisible; assumption.
  - intros s I. apply (Permutation_in _ (HS _)) in I. apply subjects_spec in I as (p & o & I). eapply simplified_subjects, I.
  - cbn [wbind]. eexists. reflexivity.
Qed.
Lemma c66 m ord_s ord_p ord_o ho n fuel g :
  (forall l, Permutation (ord_s l) l) -> any_order ord_p -> any_order ord_o -> hash_order ho ->
  Forall simplifiable (g_list g) -> divisible m (g_list g) ->
  exists doc subjects, xml_write m XFlat ord_s ord_p ord_o ho n (S fuel) g = Done doc /\ NoDup subjects /\
    (forall s, In s subjects <-> exists p o, In (MkStmt s p o) (g_list (fst (g_simplify ho n g)))) /\
    shows_document m (fst (g_simplify ho n g)) true subjects doc.
Proof.
  intros HS HP HO Ho S D. destruct (c66_done m ord_s ord_p ord_o ho n fuel g HS HP HO Ho S D) as [doc W].
  destruct (xml_write_done m XFlat ord_s ord_p ord_o ho n _ g doc HS HP HO W) as (subjects & N & I & SD).
  exists doc, subjects. split; [exact W|]. split; [exact N|]. split; [|exact SD].
  intros s. rewrite I. intuition discriminate.
Qed.

(** ** Errors and panics *)
Section Bad.
Variable m : iri_mode.
Variable g : graph.
Variable ord_p : nat -> list str -> list str.
Variable ord_o : nat -> list object -> list object.
Hypothesis HP : any_order ord_p.
Hypothesis HO : any_order ord_o.

Lemma properties_failed wb ns l : forall name st, (exists o, In o l /\ ~ flat_object o) ->
  write_properties m wb true ns name l st = Failed RdfStarNotSupported.
Proof.
  induction l as [|o l IH]; intros name st (x & I & F); [destruct I|]. cbn [write_properties].
  assert (X : forall nm decl, xseq (write_property m wb true nm decl o) (write_properties m wb true ns nm l) st = Failed RdfStarNotSupported).
  { intros nm decl. unfold xseq, write_property, xemit, xfail. destruct o as [b|i|lt|it|t]; cbn [wbind]; try reflexivity;
    apply IH; destruct I as [<-|I]; try (exfalso; apply F; exact Logic.I); eauto. }
  destruct (assoc_get ns (xml_mappings m)); apply X.
Qed.
Lemma properties_done_or wb ns name l st :
  (exists st', write_properties m wb true ns name l st = Done st') \/ (exists o, In o l /\ ~ flat_object o).
Proof.
  destruct (Forall_dec flat_object (fun o => ltac:(destruct o; cbn; auto)) l) as [F|F].
  - left. apply (write_properties_progress m true); [discriminate|]. rewrite Forall_forall in F. exact F.
  - right. apply neg_Forall_Exists_neg in F; [|intros o; destruct o; cbn; auto]. apply Exists_exists in F. exact F.
Qed.

Definition flat_about (s : subject) : Prop := forall p o, In (MkStmt s p o) (g_list g) -> flat_object o.
Lemma predicates_crash wb s l : forall st, flat_about s -> (exists p, In p l /\ divides m p = false) ->
  write_predicates m g ord_o wb true s l st = Crashed.
Proof.
  induction l as [|p l IH]; intros st F (q & I & D); [destruct I|]. cbn [write_predicates].
  destruct (split_uri (show_iri m p)) as [[ns local]|] eqn:S; [|reflexivity]. unfold xseq.
  destruct (properties_done_or wb ns local (ord_o (x_tick st) (g_objects_for g s p)) (XState (x_out st) (Datatypes.S (x_tick st)))) as [[s1 ->]|(o & O & N)].
  - cbn [wbind]. apply IH; [exact F|]. destruct I as [<-|I]; [|eauto]. unfold divides in D. rewrite S in D. discriminate.
  - exfalso. apply N. apply (Permutation_in _ (HO _ _)) in O. apply objects_for_spec in O. eapply F, O.
Qed.
Lemma predicates_failed wb s l : forall st, (forall p, In p l -> divides m p = true) ->
  (exists p o, In p l /\ In (MkStmt s p o) (g_list g) /\ ~ flat_object o) ->
  write_predicates m g ord_o wb true s l st = Failed RdfStarNotSupported.
Proof.
  induction l as [|p l IH]; intros st D (q & o & I & J & N); [destruct I|]. cbn [write_predicates].
  pose proof (D p (or_introl eq_refl)) as DP. unfold divides in DP.
  destruct (split_uri (show_iri m p)) as [[ns local]|] eqn:S; [|discriminate]. unfold xseq.
  destruct (properties_done_or wb ns local (ord_o (x_tick st) (g_objects_for g s p)) (XState (x_out st) (Datatypes.S (x_tick st)))) as [[s1 E]|X].
  - rewrite E. cbn [wbind]. apply IH; [intros r R; apply D; right; exact R|]. destruct I as [<-|I]; [|eauto]. exfalso.
    rewrite properties_failed in E; [discriminate|]. exists o. split; [|exact N].
    apply (Permutation_in _ (Permutation_sym (HO _ _))). apply objects_for_spec. exact J.
  - rewrite properties_failed by exact X. reflexivity.
Qed.
Lemma subject_run fuel s st : s_is_statement s = false ->
  exists attrs, write_subject m g ord_p ord_o (S fuel) true s st =
    wbind (write_predicates m g ord_o (fun b => write_subject m g ord_p ord_o fuel true (SBlank b)) true s
       (ord_p (x_tick st) (g_predicates_for g s)) (XState (x_out st ++ [XStart RDF_DESCRIPTION [] attrs]) (S (x_tick st))))
     (xemit [XEnd RDF_DESCRIPTION]).
Proof. destruct s as [b|i|t]; [| |discriminate]; intros _; eexists; reflexivity. Qed.
Lemma subjects_crash fuel l : forall st, (forall s, In s l -> s_is_statement s = false) -> (forall s, flat_about s) ->
  (exists s p o, In s l /\ In (MkStmt s p o) (g_list g) /\ divides m p = false) ->
  write_subjects m g ord_p ord_o (S fuel) true l st = Crashed.
Proof.
  induction l as [|s l IH]; intros st SS F (t & p & o & I & J & D); [destruct I|]. cbn [write_subjects]. unfold xseq.
  destruct (subject_run fuel s st (SS s (or_introl eq_refl))) as (attrs & ->).
  destruct (existsb (fun q => negb (divides m q)) (ord_p (x_tick st) (g_predicates_for g s))) eqn:E.
  - apply existsb_exists in E as (q & Q & E). rewrite predicates_crash; [reflexivity|apply F|]. exists q. split; [exact Q|].
    destruct (divides m q); [discriminate|reflexivity].
  - assert (A : forall q, In q (ord_p (x_tick st) (g_predicates_for g s)) -> divides m q = true).
    { intros q Q. destruct (divides m q) eqn:X; [reflexivity|]. exfalso.
      assert (Y : existsb (fun q => negb (divides m q)) (ord_p (x_tick st) (g_predicates_for g s)) = true)
        by (apply existsb_exists; exists q; split; [exact Q|rewrite X; reflexivity]). congruence. }
    edestruct (write_predicates_progress m g ord_o true HO (fun b => write_subject m g ord_p ord_o fuel true (SBlank b)) s
      (ord_p (x_tick st) (g_predicates_for g s))) as [s1 ->]; [discriminate|apply F| |].
    + intros q Q. apply divides_iff, A, Q.
    + cbn [wbind xemit]. apply IH; [intros x X; apply SS; right; exact X|exact F|].
      destruct I as [<-|I]; [|exists t, p, o; auto]. exfalso. rewrite A in D; [discriminate|].
      apply (Permutation_in _ (Permutation_sym (HP _ _))). apply predicates_for_spec. eauto.
Qed.
Lemma subjects_failed fuel l : forall st, (forall s, In s l -> s_is_statement s = false) ->
  divisible m (g_list g) ->
  (exists s p o, In s l /\ In (MkStmt s p o) (g_list g) /\ ~ flat_object o) ->
  write_subjects m g ord_p ord_o (S fuel) true l st = Failed RdfStarNotSupported.
Proof.
  induction l as [|s l IH]; intros st SS D (t & p & o & I & J & N); [destruct I|]. cbn [write_subjects]. unfold xseq.
  destruct (subject_run fuel s st (SS s (or_introl eq_refl))) as (attrs & ->).
  assert (A : forall q, In q (ord_p (x_tick st) (g_predicates_for g s)) -> divides m q = true).
  { intros q Q. apply (Permutation_in _ (HP _ _)) in Q. apply predicates_for_spec in Q as (o' & Q). apply divides_iff. apply (D _ Q). }
  destruct (Forall_dec (fun st => st_subject st = s -> flat_object (st_object st)) (fun st => ltac:(
      destruct (subj_eqb (st_subject st) s) eqn:E; [apply subj_eqb_eq in E; destruct (st_object st) eqn:O; cbn; first [left; intros _; exact Logic.I|right; intros H; apply (H E)]|
      left; intros H; exfalso; apply subj_eqb_eq in H; congruence])) (g_list g)) as [X|X].
  - rewrite Forall_forall in X.
    edestruct (write_predicates_progress m g ord_o true HO (fun b => write_subject m g ord_p ord_o fuel true (SBlank b)) s
      (ord_p (x_tick st) (g_predicates_for g s))) as [s1 ->]; [discriminate| | |].
    + intros q o' Q. apply (X _ Q). reflexivity.
    + intros q Q. apply divides_iff, A, Q.
    + cbn [wbind xemit]. apply IH; [intros x Y; apply SS; right; exact Y|exact D|].
      destruct I as [<-|I]; [|exists t, p, o; auto]. exfalso. apply N. apply (X _ J). reflexivity.
  - apply neg_Forall_Exists_neg in X.
    + apply Exists_exists in X as ([s' q o'] & Q & X). cbn [st_subject st_object] in X.
      destruct (subj_eqb s' s) eqn:E.
      * apply subj_eqb_eq in E. subst s'. rewrite predicates_failed; [reflexivity|exact A|]. exists q, o'.
        split; [apply (Permutation_in _ (Permutation_sym (HP _ _))), predicates_for_spec; eauto|]. split; [exact Q|]. intros F. apply X. intros _. exact F.
      * exfalso. apply X. intros H. apply subj_eqb_eq in H. congruence.
    + intros [s' q o']. cbn [st_subject st_object]. destruct (subj_eqb s' s) eqn:E.
      * destruct o' as [| | | |]; first [left; intros _; exact Logic.I|right; intros H; apply (H (proj1 (subj_eqb_eq _ _) E))].
      * left. intros H. apply subj_eqb_eq in H. congruence.
Qed.
End Bad.

Lemma c50_crash m ord_s ord_p ord_o ho n fuel g :
  (forall l, Permutation (ord_s l) l) -> any_order ord_p -> any_order ord_o -> hash_order ho ->
  Forall simplifiable (g_list g) -> ~ divisible m (g_list (fst (g_simplify ho n g))) ->
  xml_write m XFlat ord_s ord_p ord_o ho n (S fuel) g = Crashed.
Proof.
  intros HS HP HO Ho S D. unfold xml_write. cbv zeta. apply (simplify_flat_iff ho n g Ho) in S. rewrite Forall_forall in S.
  rewrite subjects_crash; [reflexivity|assumption|assumption| | |].
  - intros s I. apply (Permutation_in _ (HS _)) in I. apply subjects_spec in I as (p & o & I). eapply simplified_subjects, I.
  - intros s p o I. apply S in I. apply I.
  - destruct (Exists_dec (fun st => divides m (st_predicate st) = false) (g_list (fst (g_simplify ho n g)))) as [X|X].
    + intros st. destruct (divides m (st_predicate st)); [right; discriminate|left; reflexivity].
    + apply Exists_exists in X as ([s p o] & I & X). exists s, p, o. split; [|split; [exact I|exact X]].
      apply (Permutation_in _ (Permutation_sym (HS _))). apply subjects_spec. eauto.
    + exfalso. apply D. intros st I. apply divides_iff. destruct (divides m (st_predicate st)) eqn:E; [reflexivity|].
      exfalso. apply X. apply Exists_exists. eauto.
Qed.
Lemma c66_failed m ord_s ord_p ord_o ho n fuel g :
  (forall l, Permutation (ord_s l) l) -> any_order ord_p -> any_order ord_o -> hash_order ho ->
  ~ Forall simplifiable (g_list g) -> divisible m (g_list g) ->
  xml_write m XFlat ord_s ord_p ord_o ho n (S fuel) g = Failed RdfStarNotSupported.
Proof.
  intros HS HP HO Ho S D. unfold xml_write. cbv zeta.
  rewrite subjects_failed; [reflexivity|assumption|assumption| | |].
  - intros s I. apply (Permutation_in _ (HS _)) in I. apply subjects_spec in I as (p & o & I). eapply simplified_subjects, I.
  - apply simplified_divisible; assumption.
  - rewrite <- (simplify_flat_iff ho n g Ho) in S.
    apply neg_Forall_Exists_neg in S.
    + apply Exists_exists in S as ([s p o] & I & F). exists s, p, o. split; [|split; [exact I|]].
      * apply (Permutation_in _ (Permutation_sym (HS _))). apply subjects_spec. eauto.
      * intros O. apply F. split; [eapply simplified_subjects, I|exact O].
    + intros [s p o]. unfold flat. cbn [st_subject st_object].
      destruct (s_is_statement s); [right; intuition discriminate|]. destruct o; cbn; first [left; split; [reflexivity|exact Logic.I]|right; tauto].
Qed.

(** Simplification keeps the predicates. *)
Lemma simplify_statement_predicate n st : exists x, In x (fst (simplify_statement n st)) /\ st_predicate x = st_predicate st.
Proof.
  destruct st as [s p o]. unfold simplify_statement. cbn [st_subject st_object st_predicate].
  destruct (s_as_statement s) as [t|]; [|destruct (o_as_statement o) as [t|]; [|destruct (o_as_collection o) as [items|]]].
  - destruct (reify n t) as [[node sts] n']. eexists. split; [left; reflexivity|reflexivity].
  - destruct (reify n t) as [[node sts] n']. eexists. split; [left; reflexivity|reflexivity].
  - destruct (coll_reify n items) as [[node sts] n']. eexists. split; [left; reflexivity|reflexivity].
  - eexists. split; [left; reflexivity|reflexivity].
Qed.
Lemma divisible_simplified m ho n g : hash_order ho ->
  divisible m (g_list (fst (g_simplify ho n g))) -> divisible m (g_list g).
Proof.
  intros Ho D st I. apply (g_iter_In ho g st Ho) in I.
  assert (X : exists x, In x (g_list (fst (g_simplify ho n g))) /\ st_predicate x = st_predicate st).
  { rewrite simplify_chunks. unfold g_list. cbn [fst g_statements]. clear D. revert n.
    induction (g_iter ho g) as [|y l IH]; intros n; [destruct I|]. cbn [chunks].
    destruct I as [->|I].
    - destruct (simplify_statement_predicate n st) as (x & J & E). destruct (simplify_statement n st) as [sts n'].
      destruct (chunks n' l) as [more n'']. exists x. split; [apply in_app_iff; left; exact J|exact E].
    - destruct (simplify_statement n y) as [sts n']. destruct (IH I n') as (x & J & E). destruct (chunks n' l) as [more n''].
      exists x. split; [apply in_app_iff; right; exact J|exact E]. }
  destruct X as (x & J & <-). apply D, J.
Qed.
Lemma c50_panics m ord_s ord_p ord_o ho n fuel g :
  (forall l, Permutation (ord_s l) l) -> any_order ord_p -> any_order ord_o -> hash_order ho ->
  Forall simplifiable (g_list g) -> ~ divisible m (g_list g) ->
  xml_write m XFlat ord_s ord_p ord_o ho n (S fuel) g = Crashed.
Proof.
  intros HS HP HO Ho S D. apply c50_crash; try assumption. intros X. apply D. eapply divisible_simplified; eassumption.
Qed.

(** ** The names of elements *)
Lemma colon_not_name c : name_char c = true -> N.eqb 58 c = false.
Proof. destruct (N.eqb_spec 58 c) as [<-|]; [vm_compute; discriminate|reflexivity]. Qed.
Lemma ncname_no_colon s : ncname s = true -> forallb (fun c => negb (N.eqb 58 c)) s = true.
Proof.
  destruct s as [|c r]; [discriminate|]. cbn [ncname forallb]. intros E. apply andb_prop in E as [A B]. apply andb_true_intro. split.
  - rewrite colon_not_name; [reflexivity|]. unfold name_char. rewrite A. reflexivity.
  - rewrite forallb_forall in *. intros x X. rewrite colon_not_name; [reflexivity|]. apply B, X.
Qed.
Lemma ncname_split s : ncname s = true -> split_on (N.eqb 58) s = [s].
Proof. intros E. apply split_on_nosep, ncname_no_colon, E. Qed.
Lemma split_single s l : split_on (N.eqb 58) s = [l] -> l = s.
Proof. intros E. pose proof (join_split_on 58 s) as J. rewrite E in J. exact J. Qed.
Lemma prefix_ncname m ns p : prefix_for m ns = Some p -> ncname p = true /\ str_eqb p $"xml" = false.
Proof.
  unfold prefix_for. intros E. apply assoc_get_In in E. apply in_map_iff in E as ([a b] & E & I). cbn [fst snd] in E. injection E as _ <-.
  assert (A : forallb (fun e => ncname (snd e) && negb (str_eqb (snd e) $"xml")) known_prefixes = true) by (vm_compute; reflexivity).
  rewrite forallb_forall in A. apply A in I. cbn [snd] in I. apply andb_prop in I as [I J]. split; [exact I|].
  destruct (str_eqb b $"xml"); [discriminate|reflexivity].
Qed.
Lemma c50_element m ns k local scope :
  element_xname (declares (prefix_for m ns) ns ++ scope) (element_name (prefix_for m ns) k local) = Some (XName (Some ns) local)
  <-> ncname local = true /\ (prefix_for m ns = None \/ k = 0%nat).
Proof.
  destruct (prefix_for m ns) as [p|] eqn:P.
  - apply prefix_ncname in P as [NP NX]. pose proof (ncname_no_colon p NP) as NC.
    assert (SP : forall x, split_on (N.eqb 58) ((p ++ $":") ++ x) = p :: split_on (N.eqb 58) x).
    { intros x. rewrite <- app_assoc. apply split_on_app_sep; [reflexivity|exact NC]. }
    cbn [element_name declares app repeat concat]. destruct k as [|k].
    + cbn [repeat concat]. rewrite app_nil_r. unfold element_xname, qname. rewrite SP.
      split.
      * intros E. split; [|right; reflexivity]. destruct (split_on (N.eqb 58) local) as [|a [|b r]] eqn:S.
        -- destruct (split_on_nonnil _ _ S).
        -- apply split_single in S. subst a. destruct (ncname local); [reflexivity|]. rewrite Bool.andb_false_r in E. discriminate.
        -- discriminate.
      * intros [N _]. rewrite ncname_split by exact N. rewrite NP, N. cbn [andb]. unfold lookup_ns. rewrite NX. cbn [assoc_get fst snd].
        rewrite str_eqb_refl. reflexivity.
    + cbn [repeat concat]. rewrite <- !app_assoc. unfold element_xname, qname.
      rewrite (app_assoc p), SP. rewrite (app_assoc p), SP.
      destruct (split_on (N.eqb 58) _) as [|a r] eqn:S; [destruct (split_on_nonnil _ _ S)|]. split; [discriminate|intros [_ [X|X]]; discriminate].
  - cbn [element_name declares app]. unfold element_xname, qname. destruct (ncname local) eqn:N.
    + rewrite ncname_split by exact N. rewrite N. cbn [assoc_get]. cbn. intuition.
    + split; [|intros [X _]; discriminate]. destruct (split_on (N.eqb 58) local) as [|a [|b [|c r]]] eqn:S; try discriminate.
      * apply split_single in S. subst a. rewrite N. discriminate.
      * destruct (ncname a && ncname b) eqn:AB; [|discriminate]. unfold option_map. destruct (lookup_ns _ a); [|discriminate].
        intros E. injection E as _ E. subst b. apply andb_prop in AB as [_ AB]. congruence.
Qed.
