(** Lemmas for the SKOS properties: the statements of a scheme. *)
From Verif Require Import SkosProofs TermProofs StrFacts.
From Coq Require Import Lia Permutation Arith.

Section Statements.
Variables gext printable : N -> bool.

Lemma lk_uri_is k : lk_uri k = kind_name k.
Proof. destruct k; reflexivity. Qed.
Lemma rel_uri_is r : rel_uri r = relation_name r.
Proof. destruct r; reflexivity. Qed.
Lemma label_statement_is u l : label_statement gext printable u l =
  MkStmt (SRes u) (kind_name (sl_kind l)) (text_in gext printable (sl_text l) None (sl_language l)).
Proof. unfold label_statement, text_in. rewrite lk_uri_is. destruct (sl_language l); reflexivity. Qed.
Lemma property_statement_is u p : property_statement gext printable u p =
  MkStmt (SRes u) (lp_predicate p) (text_in gext printable (lp_form p) (lp_data_type p) (lp_language p)).
Proof. unfold property_statement, make_literal, text_in. destruct (lp_data_type p), (lp_language p); reflexivity. Qed.

Lemma resource_iff u ls ps st : In st (map (label_statement gext printable u) ls ++ map (property_statement gext printable u) ps) <->
  resource_says gext printable u ls ps st.
Proof.
  rewrite in_app_iff, !in_map_iff. split.
  - intros [(l & <- & I)|(p & <- & I)]; [rewrite label_statement_is|rewrite property_statement_is]; constructor; exact I.
  - intros H; destruct H as [l I|p I]; [left; exists l; split; [apply label_statement_is|exact I]|right; exists p; split; [apply property_statement_is|exact I]].
Qed.

Lemma concept_iff w s c st : ok_concept (length (w_concepts w)) c ->
  In st (concept_statements gext printable w (Some s) c) <-> concept_says gext printable w s c st.
Proof.
  intros W. unfold concept_statements. cbv zeta. cbn [app In]. rewrite !in_app_iff.
  pose proof (resource_iff (kc_uri c) (kc_labels c) (kc_properties c) st) as R. rewrite in_app_iff in R. split.
  - intros [<-|[<-|[I|[I|I]]]].
    + apply cs_type.
    + apply cs_scheme.
    + apply in_map_iff in I as ([r k] & <- & I). cbn [fst snd]. pose proof (W _ _ I) as K. apply nth_error_Some in K.
      unfold uri_of. destruct (nth_error (w_concepts w) k) as [c'|] eqn:E; [|exfalso; apply K; reflexivity].
      rewrite rel_uri_is. eapply cs_relation; eassumption.
    + apply in_map_iff in I as ([p i] & <- & I). apply cs_external, I.
    + apply cs_resource, R, I.
  - intros H. destruct H as [| |r k c' I E|p i I|st I].
    + left. reflexivity.
    + right. left. reflexivity.
    + right. right. left. apply in_map_iff. exists (r, k). split; [|exact I]. cbn [fst snd]. unfold uri_of. rewrite E, rel_uri_is. reflexivity.
    + right. right. right. left. apply in_map_iff. exists (p, i). split; [reflexivity|exact I].
    + right. right. right. right. apply R, I.
Qed.

Lemma blank_list_loop w ms : forall n b i len sts n', list_loop w n b i len ms = (sts, n') ->
  Forall (fun st => exists x, st_subject st = SBlank x) sts.
Proof.
  induction ms as [|m ms IH]; intros n b i len sts n' E; cbn [list_loop] in E.
  - injection E as <- <-. repeat constructor; eexists; reflexivity.
  - destruct (Nat.ltb i len).
    + destruct (list_loop w (n + 1) (gen_label n) (S i) len ms) as [more n1] eqn:El. injection E as <- <-.
      repeat (constructor; [eexists; reflexivity|]). eapply IH, El.
    + destruct (list_loop w n b (S i) len ms) as [more n1] eqn:El. injection E as <- <-.
      repeat (constructor; [eexists; reflexivity|]). eapply IH, El.
Qed.

Definition named (st : statement) : Prop := forall b, st_subject st <> SBlank b.
Lemma member_iff w c u : ok_collection (length (w_concepts w)) (length (w_collections w)) c ->
  (exists m, In m (kl_members c) /\ u = member_uri w m) <-> is_member w c u.
Proof.
  intros W. unfold ok_collection in W. rewrite Forall_forall in W. split.
  - intros ([k|k] & I & ->); pose proof (W _ I) as K; cbn in K |- *; unfold uri_of, uri_of_collection; apply nth_error_Some in K.
    + destruct (nth_error (w_concepts w) k) eqn:E; [|congruence]. eapply im_concept; [exact I|exact E|reflexivity].
    + destruct (nth_error (w_collections w) k) eqn:E; [|congruence]. eapply im_collection; [exact I|exact E|reflexivity].
  - intros [k c' I E ->|k c' I E ->]; eexists; (split; [exact I|]); cbn; unfold uri_of, uri_of_collection; rewrite E; reflexivity.
Qed.
Lemma collection_iff w s c n sts n' st : ok_collection (length (w_concepts w)) (length (w_collections w)) c -> named st ->
  collection_statements gext printable w n (Some s) c = (sts, n') -> In st sts <-> collection_says gext printable w s c st.
Proof.
  intros W N E. unfold collection_statements in E. cbv zeta in E.
  match type of E with (let '(_, _) := ?p in _) = _ => destruct p as [ms n1] eqn:Em end. injection E as <- <-.
  pose proof (resource_iff (kl_uri c) (kl_labels c) (kl_properties c) st) as R. rewrite in_app_iff in R.
  assert (M : In st ms <-> exists u, kl_ordered c = false /\ is_member w c u /\ st = link (kl_uri c) (skos $"member") u).
  { destruct (kl_ordered c) eqn:O.
    - split; [|intros (u & F & _); discriminate F]. intros I. exfalso. destruct (kl_members c) as [|m r]; [injection Em as <- <-; destruct I|].
      destruct (list_loop w (n + 1) (gen_label n) 0 _ _) as [cells n2] eqn:El. injection Em as <- <-.
      apply blank_list_loop in El. rewrite Forall_forall in El. destruct I as [<-|I].
      + eapply N. reflexivity.
      + destruct (El _ I) as (x & Ex). eapply N, Ex.
    - assert (Ems : ms = map (fun m => MkStmt (SRes (kl_uri c)) (ns_term tb_sk $"member") (ORes (member_uri w m))) (kl_members c)).
      { destruct (kl_members c); injection Em as <- <-; reflexivity. }
      rewrite Ems, in_map_iff. split.
      + intros (m & <- & I). exists (member_uri w m). split; [reflexivity|]. split; [apply member_iff; [exact W|]; exists m; auto|reflexivity].
      + intros (u & _ & I & ->). apply (member_iff w c u W) in I as (m & I & ->). exists m. split; [reflexivity|exact I]. }
  cbn [app In]. rewrite !in_app_iff, M. split.
  - intros [<-|[<-|[(u & O & I & ->)|I]]].
    + replace (MkStmt _ _ _) with (of_type (kl_uri c) (if kl_ordered c then skos $"OrderedCollection" else skos $"Collection")); [apply ls_type|].
      destruct (kl_ordered c); reflexivity.
    + apply ls_scheme.
    + apply ls_member; assumption.
    + apply ls_resource, R, I.
  - intros H. destruct H as [| |u O I|st I].
    + left. destruct (kl_ordered c); reflexivity.
    + right. left. reflexivity.
    + right. right. left. exists u. auto.
    + right. right. right. apply R, I.
Qed.
Lemma parts_iff w ks : wf w -> forall n sts n' st, named st -> collection_parts gext printable w n ks = (sts, n') ->
  In st sts <-> exists k c, In k ks /\ nth_error (w_collections w) k = Some c /\ collection_says gext printable w (ks_uri (w_scheme w)) c st.
Proof.
  intros (_ & B & _). rewrite Forall_forall in B. induction ks as [|k ks IH]; intros n sts n' st N E; cbn [collection_parts] in E.
  - injection E as <- <-. split; [intros []|intros (k & c & [] & _)].
  - destruct (nth_error (w_collections w) k) as [c|] eqn:Ek.
    + destruct (collection_statements gext printable w n (Some (ks_uri (w_scheme w))) c) as [a n1] eqn:Ea.
      destruct (collection_parts gext printable w n1 ks) as [b n2] eqn:Eb. injection E as <- <-.
      rewrite in_app_iff. cbn [app In]. rewrite (IH _ _ _ _ N Eb), (collection_iff _ _ _ _ _ _ _ (B _ (nth_error_In _ _ Ek)) N Ea). split.
      * intros [S|[<-|(k' & c' & I & E' & S)]]; [exists k, c|exists k, c|exists k', c']; (split; [auto|split; [assumption|]]); [exact S| |exact S].
        apply ls_scheme.
      * intros (k' & c' & [<- | I] & E' & S); [left; rewrite Ek in E'; injection E' as <-; exact S|].
        right. right. exists k', c'. auto.
    + rewrite (IH _ _ _ _ N E). split; intros (k' & c' & I & E' & S).
      * exists k', c'. split; [right; exact I|auto].
      * destruct I as [<-|I]; [congruence|]. exists k', c'. auto.
Qed.

Lemma c86_says w fuel n sts n' st : wf w -> once w -> scheme_statements gext printable fuel n w = Some (sts, n') -> named st ->
  In st sts <-> scheme_says gext printable w st.
Proof.
  intros W O E N. unfold scheme_statements in E. cbv zeta in E.
  destruct (scheme_concepts_flattened fuel w) as [ks|] eqn:Ec; [|discriminate E].
  destruct (scheme_collections_flattened fuel w) as [ls|] eqn:El; [|discriminate E].
  destruct (collection_parts gext printable w n ls) as [parts n1] eqn:Ep. injection E as <- <-.
  pose proof (resource_iff (ks_uri (w_scheme w)) (ks_labels (w_scheme w)) (ks_properties (w_scheme w)) st) as R. rewrite in_app_iff in R.
  cbn [app In]. rewrite !in_app_iff, (parts_iff _ _ W _ _ _ _ N Ep), in_flat_map.
  pose proof (c_in_tree _ _ _ Ec) as T. pose proof (l_perm _ _ _ O El) as P.
  assert (top_tree : forall k, In k (ks_concepts (w_scheme w)) -> in_tree w k) by (intros k I; exists k; split; [exact I|apply rt_refl]).
  assert (tops : forall u, existsb (str_eqb u) (map (uri_of w) (ks_concepts (w_scheme w))) = true <->
    exists k c, In k (ks_concepts (w_scheme w)) /\ nth_error (w_concepts w) k = Some c /\ u = kc_uri c).
  { intros u. rewrite existsb_exists. split.
    - intros (x & I & E). apply str_eqb_eq in E as <-. apply in_map_iff in I as (k & <- & I). unfold uri_of.
      destruct W as (_ & _ & C & _). rewrite Forall_forall in C. pose proof (C _ I) as K. apply nth_error_Some in K.
      destruct (nth_error (w_concepts w) k) as [c|] eqn:Ek; [|congruence]. exists k, c. auto.
    - intros (k & c & I & E & ->). exists (kc_uri c). split; [|apply str_eqb_eq; reflexivity]. apply in_map_iff. exists k.
      split; [unfold uri_of; rewrite E; reflexivity|exact I]. }
  split.
  - intros [<-|[(k & I & S)|[(k & c & I & E & S)|I]]].
    + apply ss_type.
    + apply T in I. unfold concept_part in S. cbv zeta in S. destruct (nth_error (w_concepts w) k) as [c|] eqn:Ek; [|destruct S].
      apply in_app_iff in S as [S|S].
      * eapply ss_concept; [exact I|exact Ek|]. apply concept_iff; [|exact S]. destruct W as (A & _). rewrite Forall_forall in A.
        apply A. eapply nth_error_In, Ek.
      * destruct (existsb _ _) eqn:Ex; [|destruct S]. apply tops in Ex as (k' & c' & I' & E' & Eu).
        destruct S as [<-|[<-|[]]]; rewrite Eu; [apply (ss_top _ _ w k' c' I' E')|apply (ss_has_top _ _ w k' c' I' E')].
    + eapply ss_collection; [eapply nth_error_In, E|exact S].
    + apply ss_resource, R, I.
  - intros H. destruct H as [|st I|k c I E|k c I E|k c st I E S|c st I S].
    + left. reflexivity.
    + right. right. right. apply R, I.
    + right. left. exists k. split; [apply T, top_tree, I|]. unfold concept_part. rewrite E. apply in_app_iff. right.
      rewrite (proj2 (tops (kc_uri c))) by (exists k, c; auto). left. reflexivity.
    + right. left. exists k. split; [apply T, top_tree, I|]. unfold concept_part. rewrite E. apply in_app_iff. right.
      rewrite (proj2 (tops (kc_uri c))) by (exists k, c; auto). right. left. reflexivity.
    + right. left. exists k. split; [apply T, I|]. unfold concept_part. rewrite E. apply in_app_iff. left. apply concept_iff; [|exact S].
      destruct W as (A & _). rewrite Forall_forall in A. apply A. eapply nth_error_In, E.
    + right. right. left. apply In_nth_error in I as (k & E). exists k, c. split; [|split; [exact E|exact S]].
      eapply Permutation_in; [apply Permutation_sym, P|]. apply in_seq. split; [lia|]. cbn. apply nth_error_Some. congruence.
Qed.
End Statements.

(** ** When it ends *)
Lemma c86_ends gext printable u l h n : let w := skos_run (world_new u l) h in
  (exists fuel r, scheme_statements gext printable fuel n w = Some r) <-> ~ narrower_cycle w.
Proof.
  intros w. pose proof (wf_run u l h) as W. pose proof (once_run u l h) as O. fold w in W, O. split.
  - intros (fuel & r & E). unfold scheme_statements in E. destruct (scheme_concepts_flattened fuel w) as [ks|] eqn:Ec; [|discriminate E].
    eapply c_cycle, Ec.
  - intros N. destruct (c_ends w W N) as (ks & Ek). destruct O as (f & F & EF & _). exists (max (length (w_concepts w)) f).
    unfold scheme_statements. rewrite scheme_flat_c in Ek |- *. rewrite scheme_flat_l.
    rewrite (flatten_all_mono _ _ (max (length (w_concepts w)) f) _ _ (Nat.le_max_l _ _) Ek).
    rewrite (flatten_all_mono _ _ (max (length (w_concepts w)) f) _ _ (Nat.le_max_r _ _) EF).
    destruct (collection_parts gext printable w n F) as [parts n']. eexists. reflexivity.
Qed.
Lemma c86_fuel gext printable w n f f' r : (f <= f')%nat -> scheme_statements gext printable f n w = Some r ->
  scheme_statements gext printable f' n w = Some r.
Proof.
  intros L E. unfold scheme_statements in *. rewrite scheme_flat_c, scheme_flat_l in *.
  destruct (flatten_all (below_c w) f _) as [ks|] eqn:Ek; [|discriminate E].
  destruct (flatten_all (below_l w) f _) as [ls|] eqn:El; [|discriminate E].
  rewrite (flatten_all_mono _ _ _ _ _ L Ek), (flatten_all_mono _ _ _ _ _ L El). exact E.
Qed.

(** ** The lists of ordered collections *)
Lemma sblank_inj a b : SBlank (gen_label a) = SBlank (gen_label b) -> a = b.
Proof. intros E. apply gen_label_inj. congruence. Qed.
Definition listed_in (w : world) (u : str) : Prop :=
  exists c, In c (w_collections w) /\ kl_ordered c = true /\ exists m, In m (kl_members c) /\ u = member_uri w m.
Definition cells_ok (P : str -> Prop) (lo hi : N) (sts : list statement) : Prop :=
  (forall st b, In st sts -> st_subject st = SBlank b -> exists m, (lo <= m < hi)%N /\ b = gen_label m) /\
  (forall m x r, In (MkStmt (SBlank (gen_label m)) (rdf $"first") x) sts ->
     In (MkStmt (SBlank (gen_label m)) (rdf $"rest") r) sts -> r = OBlank (gen_label (m + 1))) /\
  (forall st b, In st sts -> st_object st = OBlank b -> exists x, st_subject st = SBlank x) /\
  (forall st b, In st sts -> st_subject st = SBlank b -> cell_says P b st).
Lemma cells_app P lo mid hi a b : (lo <= mid <= hi)%N -> cells_ok P lo mid a -> cells_ok P mid hi b -> cells_ok P lo hi (a ++ b).
Proof.
  intros L (A1 & A2 & A3 & A4) (B1 & B2 & B3 & B4). split; [|split; [|split]].
  - intros st x I S. apply in_app_iff in I as [I|I]; [destruct (A1 _ _ I S) as (m & M & E)|destruct (B1 _ _ I S) as (m & M & E)]; exists m; (split; [lia|exact E]).
  - intros m x r I J. apply in_app_iff in I as [I|I]; apply in_app_iff in J as [J|J].
    + eapply A2; eassumption.
    + exfalso. destruct (A1 _ _ I eq_refl) as (i & Mi & Ei). destruct (B1 _ _ J eq_refl) as (j & Mj & Ej). apply gen_label_inj in Ei, Ej. lia.
    + exfalso. destruct (B1 _ _ I eq_refl) as (i & Mi & Ei). destruct (A1 _ _ J eq_refl) as (j & Mj & Ej). apply gen_label_inj in Ei, Ej. lia.
    + eapply B2; eassumption.
  - intros st x I S. apply in_app_iff in I as [I|I]; [eapply A3|eapply B3]; eassumption.
  - intros st x I S. apply in_app_iff in I as [I|I]; [apply A4|apply B4]; assumption.
Qed.
Lemma cells_plain P n sts : Forall (fun st => (exists u, st_subject st = SRes u) /\ forall b, st_object st <> OBlank b) sts -> cells_ok P n n sts.
Proof.
  rewrite Forall_forall. intros F. split; [|split; [|split]].
  - intros st b I S. destruct (F _ I) as [(u & E) _]. congruence.
  - intros m x r I. destruct (F _ I) as [(u & E) _]. discriminate E.
  - intros st b I S. destruct (F _ I) as [_ H]. exfalso. eapply H, S.
  - intros st b I S. destruct (F _ I) as [(u & E) _]. congruence.
Qed.
Lemma open_mono A G b us : open_list A b us -> (forall st, In st A -> In st G) ->
  (forall st st' x, In st G -> st_subject st = SBlank x -> In st' A -> st_subject st' = SBlank x -> In st A) -> open_list G b us.
Proof.
  intros O I C. induction O as [b E N|b u b' us T F R O IH].
  - apply ol_end; [apply I, E|]. intros x J. apply (N x). exact (C _ _ b J eq_refl E eq_refl).
  - eapply ol_cons; [apply I, T|apply I, F|apply I, R|exact IH].
Qed.
Definition typed (m : N) : statement := MkStmt (SBlank (gen_label m)) (rdf $"type") (ORes (rdf $"List")).
Lemma loop_cells (P : str -> Prop) w ms : (forall m, In m ms -> P (member_uri w m)) -> forall m i len sts n', (i + length ms <= len)%nat -> list_loop w (m + 1) (gen_label m) i len ms = (sts, n') ->
  n' = (m + 1 + N.of_nat (length ms))%N /\ cells_ok P m n' (typed m :: sts) /\
  open_list (typed m :: sts) (gen_label m) (map (member_uri w) ms).
Proof.
  induction ms as [|x ms IH]; intros K m i len sts n' L E; cbn [list_loop] in E.
  - injection E as <- <-. split; [cbn; lia|]. cbn [map]. unfold make_list_end, typed.
    split; [split; [|split; [|split]]|apply ol_end].
    + intros st b [<-|[<-|[<-|[]]]] S; injection S as <-; exists m; (split; [lia|reflexivity]).
    + intros m' x r [E|[E|[E|[]]]]; discriminate E.
    + intros st b [<-|[<-|[<-|[]]]] S; discriminate S.
    + intros st b [<-|[<-|[<-|[]]]] S; injection S as <-; constructor.
    + right. right. left. reflexivity.
    + intros x [E|[E|[E|[]]]]; discriminate E.
  - assert (Ei : Nat.ltb i len = true) by (apply Nat.ltb_lt; cbn in L; lia). rewrite Ei in E.
    destruct (list_loop w (m + 1 + 1) (gen_label (m + 1)) (S i) len ms) as [more n1] eqn:El.
    destruct (IH (fun y I => K y (or_intror I)) (m + 1)%N (S i) len more n1) as (Hn & C & O); [cbn in L; lia|exact El|].
    assert (Es : sts = MkStmt (SBlank (gen_label m)) (rdf $"first") (ORes (member_uri w x)) ::
      MkStmt (SBlank (gen_label m)) (rdf $"rest") (OBlank (gen_label (m + 1))) :: typed (m + 1) :: more /\ n1 = n')
      by (injection E as <- <-; split; reflexivity).
    clear E. destruct Es as [-> <-]. split; [rewrite Hn; cbn [length]; lia|].
    set (f := MkStmt (SBlank (gen_label m)) (rdf $"first") (ORes (member_uri w x))).
    set (r := MkStmt (SBlank (gen_label m)) (rdf $"rest") (OBlank (gen_label (m + 1)))). split.
    + change (typed m :: f :: r :: typed (m + 1) :: more) with ([typed m; f; r] ++ typed (m + 1) :: more).
      apply (cells_app P m (m + 1)); [lia| |exact C]. split; [|split; [|split]].
      * intros st b [<-|[<-|[<-|[]]]] S; injection S as <-; exists m; (split; [lia|reflexivity]).
      * intros m' y r' [E|[E|[E|[]]]] [E'|[E'|[E'|[]]]]; try discriminate E; try discriminate E'.
        apply (f_equal st_subject) in E. apply sblank_inj in E as <-. apply (f_equal st_object) in E'. symmetry. exact E'.
      * intros st b [<-|[<-|[<-|[]]]] S; eexists; reflexivity.
      * intros st b [<-|[<-|[<-|[]]]] S; injection S as <-; constructor. apply K. left. reflexivity.
    + cbn [map]. eapply ol_cons; [left; reflexivity|right; left; reflexivity|right; right; left; reflexivity|].
      apply (open_mono _ _ _ _ O); [intros st I; right; right; right; exact I|].
      intros st st' b I S I' S'. destruct C as (C1 & _). destruct (C1 _ _ I' S') as (j & J & ->).
      destruct I as [<-|[<-|[<-|I]]]; [| | |exact I]; exfalso; apply sblank_inj in S; lia.
Qed.

Lemma open_left P lo mid hi a b x us : cells_ok P lo mid a -> cells_ok P mid hi b -> open_list a x us -> open_list (a ++ b) x us.
Proof.
  intros (A & _) (B & _) O. apply (open_mono _ _ _ _ O); [intros st I; apply in_app_iff; auto|].
  intros st st' y I S I' S'. apply in_app_iff in I as [I|I]; [exact I|exfalso].
  destruct (A _ _ I' S') as (i & Li & ->). destruct (B _ _ I S) as (j & Lj & E). apply gen_label_inj in E. lia.
Qed.
Lemma open_right P lo mid hi a b x us : cells_ok P lo mid a -> cells_ok P mid hi b -> open_list b x us -> open_list (a ++ b) x us.
Proof.
  intros (A & _) (B & _) O. apply (open_mono _ _ _ _ O); [intros st I; apply in_app_iff; auto|].
  intros st st' y I S I' S'. apply in_app_iff in I as [I|I]; [exfalso|exact I].
  destruct (B _ _ I' S') as (i & Li & ->). destruct (A _ _ I S) as (j & Lj & E). apply gen_label_inj in E. lia.
Qed.

Section Lists.
Variables gext printable : N -> bool.
Lemma plain_resource u ls ps : Forall (fun st => (exists u, st_subject st = SRes u) /\ forall b, st_object st <> OBlank b)
  (map (label_statement gext printable u) ls ++ map (property_statement gext printable u) ps).
Proof.
  apply Forall_forall. intros st I. apply in_app_iff in I as [I|I]; apply in_map_iff in I as (x & <- & _); (split; [eexists; reflexivity|intros b E; discriminate E]).
Qed.
Lemma collection_cells w s c n sts n' : In c (w_collections w) -> collection_statements gext printable w n s c = (sts, n') ->
  (n <= n')%N /\ cells_ok (listed_in w) n n' sts /\
  (kl_ordered c = true -> kl_members c <> [] -> exists b, open_list sts b (map (member_uri w) (kl_members c))).
Proof.
  unfold collection_statements. cbv zeta. intros Ic E.
  match type of E with (let '(_, _) := ?p in _) = _ => destruct p as [ms n1] eqn:Em end.
  match type of E with (?a ++ ?b ++ ms ++ ?r, _) = _ => set (A := a) in *; set (B := b) in *; set (R := r) in * end.
  assert (En : n1 = n') by congruence. assert (Es : sts = (A ++ B) ++ ms ++ R) by (rewrite <- app_assoc; congruence).
  clear E. subst n1 sts.
  assert (PA : cells_ok (listed_in w) n n (A ++ B)).
  { apply cells_plain, Forall_app. split; [constructor; [split; [eexists; reflexivity|intros b E; discriminate E]|constructor]|].
    unfold B. destruct s; repeat constructor; [eexists; reflexivity|intros b E; discriminate E]. }
  assert (PR : cells_ok (listed_in w) n' n' R) by (apply cells_plain, plain_resource).
  assert (M : (n <= n')%N /\ cells_ok (listed_in w) n n' ms /\
    (kl_ordered c = true -> kl_members c <> [] -> exists b, open_list ms b (map (member_uri w) (kl_members c)))).
  { destruct (kl_members c) as [|m r] eqn:El.
    - injection Em as <- <-. split; [lia|]. split; [apply cells_plain; constructor|]. intros _ X. exfalso. apply X. reflexivity.
    - destruct (kl_ordered c) eqn:O.
      + destruct (list_loop w (n + 1) (gen_label n) 0 (length (m :: r)) (m :: r)) as [cells n2] eqn:Ec. 
        destruct (loop_cells (listed_in w) w (m :: r) (fun y I => ex_intro _ c (conj Ic (conj O (ex_intro _ y (conj (eq_ind_r (In y) I El) eq_refl))))) n 0 (length (m :: r)) cells n2 (Nat.le_refl _) Ec) as (Hn & C & L).
        assert (X : ms = typed n :: cells /\ n2 = n') by (injection Em as <- <-; split; reflexivity). destruct X as [-> ->].
        split; [lia|]. split; [exact C|]. intros _ _. exists (gen_label n). exact L.
      + assert (X : ms = map (fun m => MkStmt (SRes (kl_uri c)) (ns_term tb_sk $"member") (ORes (member_uri w m))) (m :: r) /\ n = n')
          by (injection Em as <- <-; split; reflexivity). destruct X as [-> ->]. split; [lia|]. split; [|intros X; discriminate X].
        apply cells_plain, Forall_forall. intros st I. apply in_map_iff in I as (x & <- & _). split; [eexists; reflexivity|intros b E; discriminate E]. }
  destruct M as (L & C & O). split; [exact L|].
  assert (CR : cells_ok (listed_in w) n n' (ms ++ R)) by (apply (cells_app _ n n' n'); [lia|exact C|exact PR]).
  split; [apply (cells_app _ n n n'); [lia|exact PA|exact CR]|].
  intros Or Ne. destruct (O Or Ne) as (b & Ob). exists b. eapply open_right; [exact PA|exact CR|]. eapply open_left; [exact C|exact PR|exact Ob].
Qed.
Lemma parts_cells w ks : forall n sts n', collection_parts gext printable w n ks = (sts, n') ->
  (n <= n')%N /\ cells_ok (listed_in w) n n' sts /\
  (forall k c, In k ks -> nth_error (w_collections w) k = Some c -> kl_ordered c = true -> kl_members c <> [] ->
     exists b, open_list sts b (map (member_uri w) (kl_members c))).
Proof.
  induction ks as [|k ks IH]; intros n sts n' E; cbn [collection_parts] in E.
  - injection E as <- <-. split; [lia|]. split; [apply cells_plain; constructor|intros k c []].
  - destruct (nth_error (w_collections w) k) as [c|] eqn:Ek.
    + destruct (collection_statements gext printable w n (Some (ks_uri (w_scheme w))) c) as [a n1] eqn:Ea.
      destruct (collection_parts gext printable w n1 ks) as [b n2] eqn:Eb.
      destruct (collection_cells _ _ _ _ _ _ (nth_error_In _ _ Ek) Ea) as (La & Ca & Oa). destruct (IH _ _ _ Eb) as (Lb & Cb & Ob).
      assert (Es : sts = (a ++ [MkStmt (SRes (kl_uri c)) (ns_term tb_sk $"in_scheme") (ORes (ks_uri (w_scheme w)))]) ++ b /\ n2 = n')
        by (rewrite <- app_assoc; split; congruence). clear E. destruct Es as [-> ->].
      assert (Cx : cells_ok (listed_in w) n1 n1 [MkStmt (SRes (kl_uri c)) (ns_term tb_sk $"in_scheme") (ORes (ks_uri (w_scheme w)))]).
      { apply cells_plain. constructor; [split; [eexists; reflexivity|intros x E; discriminate E]|constructor]. }
      assert (Cax : cells_ok (listed_in w) n n1 (a ++ [MkStmt (SRes (kl_uri c)) (ns_term tb_sk $"in_scheme") (ORes (ks_uri (w_scheme w)))]))
        by (apply (cells_app _ n n1 n1); [lia|exact Ca|exact Cx]).
      split; [lia|]. split; [apply (cells_app _ n n1 n'); [lia|exact Cax|exact Cb]|].
      intros k' c' I E' Or Ne. destruct I as [<-|I].
      * rewrite Ek in E'. injection E' as <-. destruct (Oa Or Ne) as (x & Ox). exists x. eapply open_left; [exact Cax|exact Cb|].
        eapply open_left; [exact Ca|exact Cx|exact Ox].
      * destruct (Ob _ _ I E' Or Ne) as (x & Ox). exists x. eapply open_right; [exact Cax|exact Cb|exact Ox].
    + destruct (IH _ _ _ E) as (L & C & O). split; [exact L|]. split; [exact C|].
      intros k' c' I E' Or Ne. destruct I as [<-|I]; [congruence|]. eapply O; eassumption.
Qed.
Lemma scheme_cells w fuel n sts n' : once w -> scheme_statements gext printable fuel n w = Some (sts, n') ->
  (n <= n')%N /\ cells_ok (listed_in w) n n' sts /\
  (forall c, In c (w_collections w) -> kl_ordered c = true -> kl_members c <> [] ->
     exists b, open_list sts b (map (member_uri w) (kl_members c))).
Proof.
  intros O E. unfold scheme_statements in E. cbv zeta in E.
  destruct (scheme_concepts_flattened fuel w) as [ks|] eqn:Ec; [|discriminate E].
  destruct (scheme_collections_flattened fuel w) as [ls|] eqn:El; [|discriminate E].
  destruct (collection_parts gext printable w n ls) as [parts n1] eqn:Ep.
  match type of E with Some (?a ++ ?b ++ parts ++ ?r, _) = _ => set (A := a) in *; set (B := b) in *; set (R := r) in * end.
  assert (En : n1 = n') by congruence. assert (Es : sts = (A ++ B) ++ parts ++ R) by (rewrite <- app_assoc; congruence).
  clear E. subst n1 sts. destruct (parts_cells _ _ _ _ _ Ep) as (L & C & Op).
  assert (PA : cells_ok (listed_in w) n n (A ++ B)).
  { apply cells_plain, Forall_app. split; [constructor; [split; [eexists; reflexivity|intros b E; discriminate E]|constructor]|].
    unfold B. apply Forall_forall. intros st I. apply in_flat_map in I as (k & _ & I). unfold concept_part in I.
    destruct (nth_error (w_concepts w) k) as [c|]; [|destruct I]. cbv zeta in I. apply in_app_iff in I as [I|I].
    - unfold concept_statements in I. cbv zeta in I. cbn [app In] in I. rewrite !in_app_iff in I.
      destruct I as [<-|[<-|[I|[I|[I|I]]]]]; try (apply in_map_iff in I as (y & <- & _)); (split; [eexists; reflexivity|intros b E; discriminate E]).
    - destruct (existsb _ _); [|destruct I]. destruct I as [<-|[<-|[]]]; (split; [eexists; reflexivity|intros b E; discriminate E]). }
  assert (PR : cells_ok (listed_in w) n' n' R) by (apply cells_plain, plain_resource).
  assert (CR : cells_ok (listed_in w) n n' (parts ++ R)) by (apply (cells_app _ n n' n'); [lia|exact C|exact PR]).
  split; [exact L|]. split; [apply (cells_app _ n n n'); [lia|exact PA|exact CR]|].
  intros c I Or Ne. apply In_nth_error in I as (k & Ek). destruct (Op k c) as (b & Ob); [|exact Ek|exact Or|exact Ne|].
  - eapply Permutation_in; [apply Permutation_sym, (l_perm _ _ _ O El)|]. apply in_seq. split; [lia|]. apply nth_error_Some. cbn. congruence.
  - exists b. eapply open_right; [exact PA|exact CR|]. eapply open_left; [exact C|exact PR|exact Ob].
Qed.

Lemma member_iris_map w c : ok_collection (length (w_concepts w)) (length (w_collections w)) c ->
  member_iris w c (map (member_uri w) (kl_members c)).
Proof.
  unfold ok_collection, member_iris. intros F. induction F as [|m r K F IH]; [constructor|]. cbn [map]. constructor; [|exact IH].
  destruct m as [k|k]; cbn in K |- *; apply nth_error_Some in K; unfold uri_of, uri_of_collection;
    (destruct (nth_error _ k) as [x|]; [exists x; auto|congruence]).
Qed.
Lemma c87_open u l h fuel n sts n' : scheme_statements gext printable fuel n (skos_run (world_new u l) h) = Some (sts, n') ->
  forall c, In c (w_collections (skos_run (world_new u l) h)) -> kl_ordered c = true -> kl_members c <> [] ->
  exists b us, member_iris (skos_run (world_new u l) h) c us /\ open_list sts b us.
Proof.
  intros E c I O Ne. destruct (scheme_cells _ _ _ _ _ (once_run u l h) E) as (_ & _ & H). destruct (H c I O Ne) as (b & Ob).
  exists b, (map (member_uri (skos_run (world_new u l) h)) (kl_members c)). split; [|exact Ob]. apply member_iris_map.
  destruct (wf_run u l h) as (_ & B & _). rewrite Forall_forall in B. exact (B _ I).
Qed.
Lemma c87_no_list u l h fuel n sts n' : scheme_statements gext printable fuel n (skos_run (world_new u l) h) = Some (sts, n') ->
  (forall b items, ~ reads_list sts (OBlank b) items) /\ (forall s p b, ~ In (MkStmt (SRes s) p (OBlank b)) sts).
Proof.
  intros E. destruct (scheme_cells _ _ _ _ _ (once_run u l h) E) as (_ & (C1 & C2 & C3 & _) & _). split.
  - intros b items H. remember (OBlank b) as o eqn:Eo. revert b Eo. induction H as [|b x r items F R H IH]; intros b0 Eo; [discriminate Eo|].
    destruct (C1 _ _ F eq_refl) as (m & _ & ->). eapply IH. eapply C2; eassumption.
  - intros s p b I. destruct (C3 _ _ I eq_refl) as (x & X). discriminate X.
Qed.
Lemma c87_cells u l h fuel n sts n' : scheme_statements gext printable fuel n (skos_run (world_new u l) h) = Some (sts, n') ->
  forall st b, In st sts -> st_subject st = SBlank b ->
  cell_says (fun u' => exists c, In c (w_collections (skos_run (world_new u l) h)) /\ kl_ordered c = true /\
    is_member (skos_run (world_new u l) h) c u') b st.
Proof.
  intros E st b I S. destruct (scheme_cells _ _ _ _ _ (once_run u l h) E) as (_ & (_ & _ & _ & C4) & _).
  destruct (C4 st b I S) as [|x (c & Ic & Or & m & Im & ->)| |]; constructor. exists c. split; [exact Ic|]. split; [exact Or|].
  destruct (wf_run u l h) as (_ & B & _). rewrite Forall_forall in B. specialize (B _ Ic). unfold ok_collection in B.
  rewrite Forall_forall in B. specialize (B _ Im). destruct m as [k|k]; cbn in B |- *; apply nth_error_Some in B; unfold uri_of, uri_of_collection;
    (destruct (nth_error _ k) as [x|] eqn:Ex; [|congruence]); [eapply im_concept|eapply im_collection]; eauto.
Qed.
End Lists.
