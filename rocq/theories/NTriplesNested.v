(** Graphs with quoted statements and collections, written as N-Triples and read back. *)
From Verif Require Import StrFacts LiteralProofs TermProofs ReifyProofs GraphSpec GraphProofs SimplifyProofs
  NTriplesWriteSpec NTriplesNestedSpec NTriplesProofs NTriplesDocs NTriplesWrite.
From Coq Require Import Lia.

(** ** What is written for a nested statement has the terms of the statement *)
Section Terms.
Variable Ps : subject -> Prop.
Variable Pp : str -> Prop.
Variable Po : object -> Prop.
Hypothesis Label : forall k, Ps (SBlank (gen_label k)) /\ Po (OBlank (gen_label k)).
Hypothesis Vocabulary : forall t, In t reading_terms -> Pp (rdf t) /\ Po (ORes (rdf t)).
Hypothesis Subjects : forall s, s_is_statement s = false -> Ps s -> Po (to_object s).
Hypothesis Predicates : forall p, Pp p -> Po (ORes p).
Definition good (st : statement) : Prop := Ps (st_subject st) /\ Pp (st_predicate st) /\ Po (st_object st).
Ltac voc := apply Vocabulary; cbn; auto 12.

Lemma reify_good :
  (forall s, match s with SStmt t => forall n, all_terms Ps Pp Po t -> no_collection t -> Forall good (snd (fst (reify n t))) | _ => True end) /\
  (forall o, match o with OStmt t => forall n, all_terms Ps Pp Po t -> no_collection t -> Forall good (snd (fst (reify n t))) | _ => True end) /\
  (forall t n, all_terms Ps Pp Po t -> no_collection t -> Forall good (snd (fst (reify n t)))).
Proof.
  apply term_ind; auto. intros s p o Hs Ho n. cbn [all_terms no_collection]. intros (DS & DP & DO) (CS & CO).
  cbn [reify].
  assert (G : forall q x, Pp (rdf q) -> Po x -> good (MkStmt (SBlank (gen_label n)) (rdf q) x)).
  { intros q x A B. split; [apply Label|]. split; assumption. }
  assert (N : forall m t, snd (fst (reify m t)) = snd (fst (reify m t))) by reflexivity.
  assert (XS : exists l n2, match s with
    | SStmt st' =>
        let '((nested, sts), n') := reify (n + 1) st' in
        (sts ++ [MkStmt (SBlank (gen_label n)) (rdf $"subject") (to_object nested)], n')
    | _ => ([MkStmt (SBlank (gen_label n)) (rdf $"subject") (to_object s)], n + 1)
    end = (l, n2) /\ Forall good l).
  { destruct s as [b|i|t].
    - eexists _, _. split; [reflexivity|]. constructor; [|constructor]. apply G; [voc|]. apply Subjects; auto.
    - eexists _, _. split; [reflexivity|]. constructor; [|constructor]. apply G; [voc|]. apply Subjects; auto.
    - specialize (Hs (n + 1) DS CS). pose proof (reify_spec t (n + 1)) as RS.
      destruct (reify (n + 1) t) as [[nested sts] n']. destruct RS as (-> & _). eexists _, _. split; [reflexivity|].
      apply Forall_app. split; [exact Hs|]. constructor; [|constructor]. apply G; [voc|]. apply Label. }
  destruct XS as (ls & n2 & -> & GS).
  assert (XO : exists l n3, match o with
    | OStmt st' =>
        let '((nested, sts), n') := reify n2 st' in
        (sts ++ [MkStmt (SBlank (gen_label n)) (rdf $"object") (to_object nested)], n')
    | _ => ([MkStmt (SBlank (gen_label n)) (rdf $"object") o], n2)
    end = (l, n3) /\ Forall good l).
  { destruct o as [b|i|l|l|t].
    1,2,3: eexists _, _; split; [reflexivity|]; constructor; [|constructor]; apply G; [voc|exact DO].
    - destruct CO.
    - specialize (Ho n2 DO CO). pose proof (reify_spec t n2) as RS.
      destruct (reify n2 t) as [[nested sts] n']. destruct RS as (-> & _). eexists _, _. split; [reflexivity|].
      apply Forall_app. split; [exact Ho|]. constructor; [|constructor]. apply G; [voc|]. apply Label. }
  destruct XO as (lo & n3 & -> & GO). cbn [fst snd].
  constructor; [apply G; voc|]. apply Forall_app. split; [exact GS|]. constructor; [apply G; [voc|auto]|exact GO].
Qed.

Lemma cells_good items : forall n s, Ps s -> Forall Po items -> Forall good (fst (coll_cells n s items)).
Proof.
  induction items as [|o rest IH]; intros n s Hs F; [constructor|]. inversion F as [|? ? F1 F2]; subst.
  assert (G : forall q x, Pp (rdf q) -> Po x -> good (MkStmt s (rdf q) x)) by (intros q x A B; split; [exact Hs|split; assumption]).
  cbn [coll_cells]. destruct rest as [|o2 rest].
  - cbn [fst app]. constructor; [apply G; voc|]. constructor; [apply G; [voc|exact F1]|]. constructor; [apply G; voc|constructor].
  - specialize (IH (n + 1) (SBlank (gen_label n)) (proj1 (Label n)) F2).
    destruct (coll_cells (n + 1) (SBlank (gen_label n)) (o2 :: rest)) as [more n']. cbn [fst app] in *.
    constructor; [apply G; voc|]. constructor; [apply G; [voc|exact F1]|]. constructor; [|exact IH]. apply G; [voc|]. apply Label.
Qed.

Lemma simplify_good n st : simplifiable st -> all_terms Ps Pp Po st -> Forall good (fst (simplify_statement n st)).
Proof.
  destruct st as [s p o]. unfold simplifiable, simplify_statement. cbn [st_subject st_object st_predicate all_terms].
  intros HS (DS & DP & DO).
  assert (R : forall t, all_terms Ps Pp Po t -> no_collection t -> Forall good (snd (fst (reify n t)))) by (intros t; apply reify_good).
  assert (O : s_is_statement s = false -> Ps s -> match o with OStmt t => no_collection t | OColl items => Forall flat_object items | _ => True end ->
    Forall good (fst (match o_as_statement o with
      | Some t => let '((node, sts), n') := reify n t in (MkStmt s p (to_object node) :: sts, n')
      | None => match o_as_collection o with
          | Some items => let '((node, sts), n') := coll_reify n items in (MkStmt s p (to_object node) :: sts, n')
          | None => ([MkStmt s p o], n)
          end
      end))).
  { intros E PS F. destruct o as [b|i|l|items|t]; cbn [o_as_statement o_as_collection fst].
    1,2,3: constructor; [|constructor]; split; [exact PS|split; assumption].
    - unfold coll_reify. destruct items as [|x rest].
      + constructor; [|constructor]. split; [exact PS|split; [exact DP|]]. cbn [st_object to_object]. voc.
      + pose proof (cells_good (x :: rest) (n + 1) (SBlank (gen_label n)) (proj1 (Label n)) DO) as C.
        destruct (coll_cells (n + 1) (SBlank (gen_label n)) (x :: rest)) as [sts n']. cbn [fst] in *.
        constructor; [|exact C]. split; [exact PS|split; [exact DP|]]. cbn [st_object to_object]. apply Label.
    - specialize (R t DO F). pose proof (reify_spec t n) as RS. destruct (reify n t) as [[node sts] n']. destruct RS as (-> & _).
      cbn [fst snd] in *. constructor; [|exact R]. split; [exact PS|split; [exact DP|]]. apply Label. }
  destruct s as [b|i|t]; cbn [s_as_statement].
  - apply O; auto.
  - apply O; auto.
  - clear O. destruct HS as [C F]. specialize (R t DS C). pose proof (reify_spec t n) as RS.
    destruct (reify n t) as [[node sts] n']. destruct RS as (-> & _). cbn [fst snd] in *. constructor; [|exact R].
    split; [apply Label|]. split; [exact DP|]. cbn [st_object]. destruct o; try exact DO; destruct F.
Qed.
Lemma chunks_good l : forall n, Forall simplifiable l -> Forall (all_terms Ps Pp Po) l -> Forall good (fst (chunks n l)).
Proof.
  induction l as [|st l IH]; intros n S D; [constructor|]. inversion S; subst. inversion D; subst. cbn [chunks].
  pose proof (simplify_good n st) as G. destruct (simplify_statement n st) as [sts n'].
  specialize (IH n'). destruct (chunks n' l) as [more n'']. cbn [fst] in *. apply Forall_app. auto.
Qed.
End Terms.

(** ** A copy of the simplified graph reads as the simplified graph *)
Lemma values_single_copy G G' s p x : NoDup G' -> (forall st, In st G' <-> In st G) -> values G s p = [x] -> values G' s p = [x].
Proof.
  intros N I V.
  assert (A : forall y, In y (values G' s p) <-> In y (values G s p)) by (intros y; rewrite !values_In; apply I).
  rewrite V in A.
  assert (ND : NoDup (values G' s p)).
  { unfold values.
    assert (K : NoDup (filter (fun st => subj_eqb (st_subject st) s && str_eqb (st_predicate st) p) G')) by (apply NoDup_filter, N).
    assert (F : forall st, In st (filter (fun st => subj_eqb (st_subject st) s && str_eqb (st_predicate st) p) G') ->
      st_subject st = s /\ st_predicate st = p).
    { intros st H. apply filter_In in H as [_ H]. apply andb_prop in H as [H1 H2].
      apply subj_eqb_eq in H1. apply str_eqb_eq in H2. auto. }
    revert K F. generalize (filter (fun st => subj_eqb (st_subject st) s && str_eqb (st_predicate st) p) G').
    clear. intros l K F. induction l as [|a l IH]; [constructor|]. inversion K as [|? ? K1 K2]; subst. cbn [map]. constructor.
    - intros H. apply in_map_iff in H as (b & E & H). apply K1. destruct (F a (or_introl eq_refl)) as [A1 A2].
      destruct (F b (or_intror H)) as [B1 B2]. destruct a, b. cbn in *. subst. exact H.
    - apply IH; [exact K2|]. intros st H. apply F. right. exact H. }
  destruct (values G' s p) as [|y [|z r]].
  - exfalso. apply (A x). left. reflexivity.
  - destruct (proj1 (A y) (or_introl eq_refl)) as [->|[]]. reflexivity.
  - exfalso. inversion ND as [|? ? N1 _]; subst. destruct (proj1 (A y) (or_introl eq_refl)) as [->|[]].
    destruct (proj1 (A z) (or_intror (or_introl eq_refl))) as [->|[]]. apply N1. left. reflexivity.
Qed.

Section Copy.
Variables G G' : list statement.
Hypothesis N : NoDup G'.
Hypothesis I : forall st, In st G' <-> In st G.

Lemma copy_reification b : is_reification G' b <-> is_reification G b.
Proof. unfold is_reification. rewrite !values_In. apply I. Qed.
Lemma copy_type b t : has_type G' b t = has_type G b t.
Proof. apply Bool.eq_true_iff_eq. rewrite !has_type_iff. apply I. Qed.
Lemma copy_description x : is_description G' x = is_description G x.
Proof. unfold is_description. destruct (st_subject x); auto. rewrite !copy_type. reflexivity. Qed.
Lemma copy_list o items : rdf_list G o items -> rdf_list G' o items.
Proof. induction 1 as [|b x r items V1 V2 V3 _ IH]; [constructor|]. econstructor; eauto using values_single_copy. Qed.
Lemma copy_describes :
  (forall b st, describes G b st -> describes G' b st) /\
  (forall o s, stands_s G o s -> stands_s G' o s) /\
  (forall o o', stands_o G o o' -> stands_o G' o o').
Proof.
  apply describes_mutind.
  - intros b so p oo s o V1 V2 V3 V4 _ IS _ IO. econstructor; eauto using values_single_copy.
  - intros s E R. constructor; auto. intros b Eb. rewrite copy_reification. auto.
  - intros b st R _ D. apply ss_nested; [apply copy_reification, R|exact D].
  - intros o E R. constructor; auto. intros b Eb. rewrite copy_reification. auto.
  - intros b st R _ D. apply so_nested; [apply copy_reification, R|exact D].
Qed.
Lemma copy_restores n0 x st : clean n0 G -> unencoded n0 st -> restores G x st -> restores G' x st.
Proof.
  intros C U (S & P & O). split; [apply copy_describes, S|]. split; [exact P|].
  assert (K : stands_o G (st_object x) (st_object st) -> (forall items, ~ rdf_list G (st_object x) items) ->
    stands_o G' (st_object x) (st_object st) /\ forall items, ~ rdf_list G' (st_object x) items).
  { intros SO NL. split; [apply copy_describes, SO|]. intros items L. inversion L as [E1 E2|b y r its V1 V2 V3 L' E1 E2].
    - apply (NL []). rewrite <- E1. constructor.
    - apply rdf_list_blank with (b := b) (G := G') (items := items) in L || (rewrite <- E1 in L; apply rdf_list_blank in L).
      rewrite copy_type in L. rewrite <- E1 in SO. inversion SO as [o E B E3 E4|b' t R D E3 E4].
      + destruct (C b) as [_ X]; [|congruence]. destruct U as (Q & _). apply Q. destruct st as [s p o']. cbn [st_object] in *.
        rewrite <- E4. cbn. apply in_or_app. right. left. reflexivity.
      + subst b'. inversion D as [? ? ? ? ? ? V _ _ _ _ _]. subst.
        apply (values_type_single _ _ _ _ V) in L. discriminate L. }
  unfold reads_object in *. destruct (st_object st) as [b|i|l|items|t]; try (destruct O as [O1 O2]; apply K; assumption).
  apply copy_list, O.
Qed.
End Copy.

Lemma Forall2_In_l {A B} (R : A -> B -> Prop) l l' x : Forall2 R l l' -> In x l -> exists y, In y l' /\ R x y.
Proof. induction 1; intros []; subst; eauto using in_eq. destruct IHForall2 as (? & ? & ?); eauto using in_cons. Qed.
Lemma Forall2_In_r {A B} (R : A -> B -> Prop) l l' y : Forall2 R l l' -> In y l' -> exists x, In x l /\ R x y.
Proof. induction 1; intros []; subst; eauto using in_eq. destruct IHForall2 as (? & ? & ?); eauto using in_cons. Qed.

Lemma simplify_copy ho n g G' : hash_order ho -> Forall simplifiable (g_list g) -> Forall (unencoded n) (g_list g) ->
  NoDup G' -> (forall st, In st G' <-> In st (g_list (fst (g_simplify ho n g)))) ->
  forall st, In st (g_list g) <-> fact_of G' st.
Proof.
  intros Ho S U N I st. pose proof (simplify_restores ho n g Ho S U) as R. cbv zeta in R.
  assert (P : Permutation (g_list g) (g_iter ho g)) by (apply Permutation_sym, g_iter_perm, Ho).
  assert (C : clean n (g_list (fst (g_simplify ho n g)))).
  { rewrite simplify_chunks. apply chunks_clean. eapply Forall_perm; eauto. }
  set (G := g_list (fst (g_simplify ho n g))) in *.
  assert (T : forall x st', In st' (g_list g) -> restores G x st' -> restores G' x st').
  { intros x st' M. apply (copy_restores G G' N I n); [exact C|]. rewrite Forall_forall in U. auto. }
  unfold fact_of. split.
  - intros M. destruct (Forall2_In_r _ _ _ st R) as (x & X & RX); [eapply Permutation_in; eauto|].
    apply filter_In in X as [X D]. exists x. split; [apply I, X|]. split; [|apply T; assumption].
    rewrite (copy_description G G' I). apply Bool.negb_true_iff, D.
  - intros (x & X & D & RX). destruct (Forall2_In_l _ _ _ x R) as (st' & M & RX').
    + apply filter_In. split; [apply I, X|]. rewrite (copy_description G G' I) in D. rewrite D. reflexivity.
    + assert (M' : In st' (g_list g)) by (eapply Permutation_in; [apply Permutation_sym, P|exact M]).
      apply (T _ _ M') in RX'. rewrite (restores_functional _ _ _ _ RX RX'). exact M'.
Qed.

(** ** N-Triples *)
Lemma digits_label l : Forall (fun c => is_digit c = true) l -> label_rest l.
Proof.
  induction 1 as [|c l D F IH]; [exact I|]. split; [left|exact IH]. revert D. unfold is_pn_chars, is_digit, in_range. intros D.
  rewrite D. rewrite ?Bool.orb_true_r. reflexivity.
Qed.
Lemma written_good iri_parse lang_parse label_ok gext printable force ho n g : hash_order ho ->
  (forall k, label_ok (gen_label k) = true) -> (forall t, In t reading_terms -> iri_parse (rdf t) = Some (rdf t)) ->
  Forall simplifiable (g_list g) ->
  Forall (nested_writable iri_parse lang_parse label_ok gext printable force) (g_list g) ->
  forall st, In st (g_list (fst (g_simplify ho n g))) ->
    statement_writable iri_parse lang_parse label_ok force st /\ stable gext printable st.
Proof.
  intros Ho LO VO S W st M.
  assert (P : Permutation (g_list g) (g_iter ho g)) by (apply Permutation_sym, g_iter_perm, Ho).
  assert (GD : Forall (good (subject_writable iri_parse label_ok) (iri_writable iri_parse)
    (fun o => object_writable iri_parse lang_parse label_ok force o /\
       match o with OLit l => stable_literal gext printable l | _ => True end)) (g_list (fst (g_simplify ho n g)))).
  { rewrite simplify_chunks. apply chunks_good.
    - intros k. assert (L : label_writable label_ok (gen_label k)).
      { split; [|].
        - split; [left; reflexivity|]. apply digits_label, dec_N_digits.
        - unfold bn_from_str, bn_is_valid_str. change (strip_prefix $"_:" (gen_label k)) with (@None str). cbv iota beta. rewrite LO. reflexivity. }
      split; [exact L|split; [exact L|exact I]].
    - intros t T. assert (Q : iri_writable iri_parse (rdf t)).
      { split; [|apply VO, T]. repeat (destruct T as [<-|T]; [repeat (constructor; [cbn; split; [reflexivity|intuition discriminate]|]); constructor|]). destruct T. }
      split; [exact Q|split; [exact Q|exact I]].
    - intros s E Q. destruct s; [split; [exact Q|exact I]|split; [exact Q|exact I]|discriminate].
    - intros p Q. split; [exact Q|exact I].
    - eapply Forall_perm; eauto.
    - eapply Forall_perm; eauto. }
  rewrite Forall_forall in GD. destruct (GD st M) as (A & B & C & D). split; [split; [exact A|split; [exact B|exact C]]|exact D].
Qed.
Lemma nt_nested iri_parse lang_parse label_ok gext printable force h ho n g :
  orders_ok h -> hash_order ho ->
  (forall k, label_ok (gen_label k) = true) -> (forall t, In t reading_terms -> iri_parse (rdf t) = Some (rdf t)) ->
  Forall simplifiable (g_list g) -> Forall (unencoded n) (g_list g) ->
  Forall (nested_writable iri_parse lang_parse label_ok gext printable force) (g_list g) ->
  exists g', nt_read iri_parse lang_parse label_ok gext printable (nt_write Bare force h ho n g) = Ret (Ok g') /\
    g_name g' = None /\ NoDup (g_list g') /\ forall st, In st (g_list g) <-> fact_of (g_list g') st.
Proof.
  intros H Ho LO VO S U W.
  pose proof (written_good iri_parse lang_parse label_ok gext printable force ho n g Ho LO VO S W) as GD.
  destruct (nt_back iri_parse lang_parse label_ok gext printable force h ho n g H) as (g' & R & NM & l & L & ND & IN).
  { apply Forall_forall. intros st M. apply (GD st M). }
  assert (L' : g_list g' = l).
  { rewrite L. apply map_stable. apply Forall_forall. intros x X. apply IN in X. apply (GD x X). }
  exists g'. split; [exact R|]. split; [exact NM|]. rewrite L'. split; [exact ND|].
  apply simplify_copy with ho n; assumption.
Qed.

(** ** N-Quads *)
Lemma unencoded_later n m st : n <= m -> unencoded n st -> unencoded m st.
Proof.
  intros L (B & U). split; [|exact U]. intros b I k E K. specialize (B b I). revert B. unfold not_generated_from. intros B.
  apply (B k); [lia|exact K].
Qed.

Lemma simplify_counter ho n g : n <= snd (g_simplify ho n g).
Proof. rewrite simplify_chunks. cbn [snd]. pose proof (chunks_subjects (g_iter ho g) n) as C. destruct (chunks n (g_iter ho g)). apply C. Qed.

Lemma quads_nested h ho l : (forall g, orders_ok (h g)) -> NoDup (map g_name l) -> forall n,
  NoDup (quads_of h ho n l) /\
  (forall k st, In (k, st) (quads_of h ho n l) -> In k (map g_name l)) /\
  (forall g, In g l -> exists m, n <= m /\ forall st, In (g_name g, st) (quads_of h ho n l) <-> In st (g_list (fst (g_simplify (ho g) m g)))).
Proof.
  intros H. induction l as [|g l IH]; intros N n; cbn [quads_of].
  - split; [constructor|]. split; [intros k st []|intros g []].
  - cbn [map] in N. inversion N as [|? ? N1 N2]; subst. destruct (IH N2 (snd (g_simplify (ho g) n g))) as (A & B & C).
    set (w := map (fun st => (g_name g, st)) (write_order (h g) (fst (g_simplify (ho g) n g)))) in *.
    set (q := quads_of h ho (snd (g_simplify (ho g) n g)) l) in *.
    assert (W : forall k st, In (k, st) w <-> k = g_name g /\ In st (g_list (fst (g_simplify (ho g) n g)))).
    { intros k st. unfold w. rewrite in_map_iff. split.
      - intros (x & E & I). injection E as <- <-. split; [reflexivity|]. apply write_order_In in I; auto.
      - intros (-> & I). exists st. split; [reflexivity|]. apply write_order_In; auto. }
    split; [|split].
    + assert (NW : NoDup w) by (apply FinFun.Injective_map_NoDup; [intros a b E; congruence|apply write_order_NoDup, H]).
      assert (D : forall x, In x w -> ~ In x q).
      { intros [k st] I J. apply W in I as [-> _]. apply B in J. contradiction. }
      clear - NW D A. induction w as [|x w IHw]; cbn; [exact A|]. inversion NW; subst. constructor.
      * rewrite in_app_iff. intros [I|I]; [auto|]. apply (D x); [left; reflexivity|exact I].
      * apply IHw; auto. intros y I. apply D. right. exact I.
    + intros k st I. apply in_app_or in I as [I|I]; [apply W in I as [-> _]; left; reflexivity|right; eauto].
    + intros g' [->|I].
      * exists n. split; [lia|]. intros st. rewrite in_app_iff, W. split; [|auto].
        intros [[_ I]|I]; [exact I|]. apply B in I. contradiction.
      * destruct (C g' I) as (m & L & M). exists m. split; [pose proof (simplify_counter (ho g) n g); lia|].
        intros st. rewrite in_app_iff, W, M. split; [|auto]. intros [[E _]|J]; [|exact J].
        exfalso. apply N1. rewrite <- E. apply in_map. exact I.
Qed.

Lemma fact_of_nil st : ~ fact_of [] st.
Proof. intros (x & [] & _). Qed.

Lemma nq_nested iri_parse lang_parse label_ok gext printable h ho hd n d :
  (forall g, orders_ok (h g)) -> (forall g, hash_order (ho g)) -> (forall l, Permutation (hd l) l) ->
  (forall k, label_ok (gen_label k) = true) -> (forall t, In t reading_terms -> iri_parse (rdf t) = Some (rdf t)) ->
  ds_nested_writable iri_parse lang_parse label_ok gext printable n d -> ds_statements d None = [] ->
  exists d', nq_read iri_parse lang_parse label_ok gext printable (nq_write_dataset Bare h ho hd n d) = Ret (Ok d') /\
    forall k, (forall g', ds_graph d' k = Some g' -> g_name g' = k) /\
      NoDup (ds_statements d' k) /\
      (forall st, In st (ds_statements d k) <-> fact_of (ds_statements d' k) st) /\
      (ds_graph d' k = None <-> ds_statements d k = []).
Proof.
  intros H Ho P LO VO (N & W) D.
  assert (NM : NoDup (map g_name (ds_graphs hd d))) by (apply ds_graphs_names; auto; intros k g G; apply (W _ _ G)).
  destruct (quads_nested h ho (ds_graphs hd d) H NM n) as (ND & K & C).
  set (l := quads_of h ho n (ds_graphs hd d)) in *.
  assert (F : forall k st, In (k, st) l -> exists g m, ds_graph d k = Some g /\ n <= m /\
    (forall st, In (k, st) l <-> In st (g_list (fst (g_simplify (ho g) m g))))).
  { intros k st I. pose proof (K _ _ I) as J. apply in_map_iff in J as (g & E & J).
    destruct (C g J) as (m & L & M). apply ds_graphs_In in J as (k' & G); auto. destruct (W _ _ G) as (E' & _).
    rewrite E' in E. subst k'. exists g, m. split; [exact G|]. split; [exact L|]. intros st'. rewrite <- M, E'. tauto. }
  assert (Q : forall k st, In (k, st) l -> statement_writable iri_parse lang_parse label_ok false st /\ stable gext printable st /\
    match k with Some m => name_writable iri_parse label_ok m | None => True end).
  { intros k st I. destruct (F k st I) as (g & m & G & L & M). destruct (W _ _ G) as (_ & S & _ & WR & NW).
    apply M in I. destruct (written_good _ _ _ _ _ _ (ho g) m g (Ho g) LO VO S WR st I). auto. }
  assert (R : nq_read iri_parse lang_parse label_ok gext printable (nq_write_dataset Bare h ho hd n d) =
    (let? w := io_all (map (quad_result gext printable) l) in io_ok (put_all [] w))).
  { unfold nq_write_dataset. rewrite write_all_lines. apply nq_lines_read. rewrite Forall_forall. intros [k st] I.
    destruct (Q k st I) as (A & _ & B). auto. }
  assert (NN : forall k st, In (k, st) l -> k <> None).
  { intros k st I ->. destruct (F _ _ I) as (g & m & G & L & M). unfold ds_statements in D. rewrite G in D.
    apply M in I. assert (PP : Permutation (g_list g) (g_iter (ho g) g)) by (apply Permutation_sym, g_iter_perm, Ho).
    rewrite D in PP. apply Permutation_nil in PP. rewrite simplify_chunks, PP in I. destruct I. }
  destruct (io_all_quads gext printable l NN) as (w & E & IW & NW).
  rewrite E in R. exists (put_all [] w). split; [exact R|]. intros k.
  destruct (holds_statements (put_all [] w) w (put_all_holds w) k) as (A & B & CC & DD).
  assert (ST : forall m st, In (m, st) w <-> In (Some m, st) l).
  { intros m st. rewrite IW. split.
    - intros (s0 & I & ->). rewrite stable_reread; [exact I|]. apply (Q _ _ I).
    - intros I. exists st. split; [exact I|]. symmetry. apply stable_reread. apply (Q _ _ I). }
  assert (B' : forall st, In st (ds_statements (put_all [] w) k) <-> In (k, st) l).
  { intros st. rewrite B. split.
    - intros (m & -> & I). apply ST, I.
    - intros I. destruct k as [m|]; [|destruct (NN _ _ I); reflexivity]. exists m. split; [reflexivity|]. apply ST, I. }
  assert (NDk : NoDup (ds_statements (put_all [] w) k)).
  { apply CC. apply NW; [|exact ND]. intros k' st I. apply (Q _ _ I). }
  assert (FACT : forall st, In st (ds_statements d k) <-> fact_of (ds_statements (put_all [] w) k) st).
  { destruct (ds_graph d k) as [g|] eqn:G.
    - assert (X : ds_statements d k = g_list g) by (unfold ds_statements; rewrite G; reflexivity). rewrite X.
      destruct (W _ _ G) as (GN & S & U & _).
      destruct (C g) as (m & L & M); [apply ds_graphs_In; eauto|]. rewrite GN in M.
      apply (simplify_copy (ho g) m g); auto.
      + eapply Forall_impl; [|exact U]. intros st. apply unencoded_later, L.
      + intros st. rewrite B', M. reflexivity.
    - assert (X : ds_statements d k = []) by (unfold ds_statements; rewrite G; reflexivity). rewrite X.
      destruct (ds_statements (put_all [] w) k) as [|x r] eqn:Y.
      + intros st. split; [intros []|intros Z; destruct (fact_of_nil _ Z)].
      + destruct (F k x) as (g & _ & G' & _); [apply B'; left; reflexivity|]. congruence. }
  split; [exact A|]. split; [exact NDk|]. split; [exact FACT|]. rewrite DD. split; intros Z.
  - destruct (ds_statements d k) as [|x r] eqn:Y; [reflexivity|]. exfalso. rewrite Z in FACT.
    apply (fact_of_nil x). apply FACT. left. reflexivity.
  - destruct (ds_statements (put_all [] w) k) as [|x r] eqn:Y; [reflexivity|]. exfalso.
    destruct (F k x) as (g & m & G & L & M); [apply B'; left; reflexivity|].
    assert (X : g_list g = []) by (rewrite <- Z; unfold ds_statements; rewrite G; reflexivity).
    assert (I : In (k, x) l) by (apply B'; left; reflexivity). apply M in I.
    assert (PP : Permutation (g_list g) (g_iter (ho g) g)) by (apply Permutation_sym, g_iter_perm, Ho).
    rewrite X in PP. apply Permutation_nil in PP. rewrite simplify_chunks, PP in I. destruct I.
Qed.
