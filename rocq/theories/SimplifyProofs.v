From Verif Require Import StrFacts LiteralProofs TermProofs ReifyProofs GraphSpec GraphProofs.

(** ** What the encoders emit *)

Definition reify_desc (st : statement) : Prop :=
  forall n, let '((node, sts), n') := reify n st in
  forall t, In t sts -> In (st_predicate t) reify_props /\
    In (MkStmt (st_subject t) (rdf $"type") (ORes (rdf $"Statement"))) sts.

Lemma reify_desc_all :
  (forall s, match s with SStmt st => reify_desc st | _ => True end) /\
  (forall o, match o with OStmt st => reify_desc st | _ => True end) /\
  (forall st, reify_desc st).
Proof.
  apply term_ind; auto. intros s p o Hs Ho n. cbn [reify]. set (node := gen_label n).
  assert (PS : exists pre v n2,
    match s with
    | SStmt st' =>
        let '((nested, sts), n') := reify (n + 1) st' in
        (sts ++ [MkStmt (SBlank node) (rdf $"subject") (to_object nested)], n')
    | _ => ([MkStmt (SBlank node) (rdf $"subject") (to_object s)], n + 1)
    end = (pre ++ [MkStmt (SBlank node) (rdf $"subject") v], n2) /\
    forall t, In t pre -> In (st_predicate t) reify_props /\
      In (MkStmt (st_subject t) (rdf $"type") (ORes (rdf $"Statement"))) pre).
  { destruct s as [b|i|st'].
    - exists [], (OBlank b), (n+1). split; auto. intros t [].
    - exists [], (ORes i), (n+1). split; auto. intros t [].
    - specialize (Hs (n + 1)). destruct (reify (n + 1) st') as [[nested sts] n'].
      exists sts, (to_object nested), n'. split; auto. }
  destruct PS as (spre & sv & n2 & -> & HS).
  assert (PO : exists pre v n3,
    match o with
    | OStmt st' =>
        let '((nested, sts), n') := reify n2 st' in
        (sts ++ [MkStmt (SBlank node) (rdf $"object") (to_object nested)], n')
    | _ => ([MkStmt (SBlank node) (rdf $"object") o], n2)
    end = (pre ++ [MkStmt (SBlank node) (rdf $"object") v], n3) /\
    forall t, In t pre -> In (st_predicate t) reify_props /\
      In (MkStmt (st_subject t) (rdf $"type") (ORes (rdf $"Statement"))) pre).
  { destruct o as [b|i|l|l|st'].
    - exists [], (OBlank b), n2. split; auto. intros t [].
    - exists [], (ORes i), n2. split; auto. intros t [].
    - exists [], (OLit l), n2. split; auto. intros t [].
    - exists [], (OColl l), n2. split; auto. intros t [].
    - specialize (Ho n2). destruct (reify n2 st') as [[nested sts] n'].
      exists sts, (to_object nested), n'. split; auto. }
  destruct PO as (opre & ov & n3 & -> & HO).
  intros t Ht. rewrite !in_app_iff in Ht. cbn [In] in Ht.
  destruct Ht as [[<-|[]]|[[Ht|[<-|[]]]|[[<-|[]]|[Ht|[<-|[]]]]]]; cbn [st_predicate st_subject].
  1,3,4,6: (split; [cbn; tauto|rewrite !in_app_iff; cbn; auto]).
  - destruct (HS _ Ht) as [A B]. split; auto. rewrite !in_app_iff. auto.
  - destruct (HO _ Ht) as [A B]. split; auto. rewrite !in_app_iff. auto.
Qed.

Definition reify_flat (st : statement) : Prop :=
  forall n, let '((node, sts), n') := reify n st in
  (forall t, In t sts -> flat_object (st_object t)) <-> no_collection st.

Lemma reify_flat_all :
  (forall s, match s with SStmt st => reify_flat st | _ => True end) /\
  (forall o, match o with OStmt st => reify_flat st | _ => True end) /\
  (forall st, reify_flat st).
Proof.
  apply term_ind; auto. intros s p o Hs Ho n. cbn [reify]. set (node := gen_label n).
  assert (PS : exists pre v n2,
    match s with
    | SStmt st' =>
        let '((nested, sts), n') := reify (n + 1) st' in
        (sts ++ [MkStmt (SBlank node) (rdf $"subject") (to_object nested)], n')
    | _ => ([MkStmt (SBlank node) (rdf $"subject") (to_object s)], n + 1)
    end = (pre ++ [MkStmt (SBlank node) (rdf $"subject") v], n2) /\ flat_object v /\
    ((forall t, In t pre -> flat_object (st_object t)) <->
     match s with SStmt t => no_collection t | _ => True end)).
  { destruct s as [b|i|st'].
    - exists [], (OBlank b), (n+1). split; auto. split; [exact I|]. split; auto. intros _ t [].
    - exists [], (ORes i), (n+1). split; auto. split; [exact I|]. split; auto. intros _ t [].
    - specialize (Hs (n + 1)). pose proof (reify_spec st' (n+1)) as RS.
      destruct (reify (n + 1) st') as [[nested sts] n']. destruct RS as (-> & _).
      exists sts, (OBlank (gen_label (n+1))), n'. split; auto. split; [exact I|]. exact Hs. }
  destruct PS as (spre & sv & n2 & -> & VS & HS).
  assert (PO : exists pre v n3,
    match o with
    | OStmt st' =>
        let '((nested, sts), n') := reify n2 st' in
        (sts ++ [MkStmt (SBlank node) (rdf $"object") (to_object nested)], n')
    | _ => ([MkStmt (SBlank node) (rdf $"object") o], n2)
    end = (pre ++ [MkStmt (SBlank node) (rdf $"object") v], n3) /\
    ((forall t, In t pre -> flat_object (st_object t)) /\ flat_object v <->
     match o with OStmt t => no_collection t | OColl _ => False | _ => True end)).
  { destruct o as [b|i|l|l|st'].
    - exists [], (OBlank b), n2. split; auto. cbn. intuition.
    - exists [], (ORes i), n2. split; auto. cbn. intuition.
    - exists [], (OLit l), n2. split; auto. cbn. intuition.
    - exists [], (OColl l), n2. split; auto. cbn. intuition.
    - specialize (Ho n2). pose proof (reify_spec st' n2) as RS.
      destruct (reify n2 st') as [[nested sts] n']. destruct RS as (-> & _).
      exists sts, (OBlank (gen_label n2)), n'. split; auto. rewrite <- Ho. cbn. tauto. }
  destruct PO as (opre & ov & n3 & -> & HO).
  change (no_collection (MkStmt s p o)) with
    (match s with SStmt t => no_collection t | _ => True end /\
     match o with OStmt t => no_collection t | OColl _ => False | _ => True end).
  rewrite <- HS, <- HO. split.
  - intros H. split; [|split].
    + intros t Ht. apply H. rewrite !in_app_iff. auto.
    + intros t Ht. apply H. rewrite !in_app_iff. auto.
    + apply (H (MkStmt (SBlank node) (rdf $"object") ov)). rewrite !in_app_iff. cbn. tauto.
  - intros (H1 & H2 & H3) t Ht. rewrite !in_app_iff in Ht. cbn [In] in Ht.
    destruct Ht as [[<-|[]]|[[Ht|[<-|[]]]|[[<-|[]]|[Ht|[<-|[]]]]]]; auto; exact I.
Qed.

Lemma coll_cells_desc items : forall n s, items <> [] ->
  let '(sts, n') := coll_cells n s items in
  (forall t, In t sts -> In (st_predicate t) list_props /\
    In (MkStmt (st_subject t) (rdf $"type") (ORes (rdf $"List"))) sts) /\
  ((forall t, In t sts -> flat_object (st_object t)) <-> Forall flat_object items).
Proof.
  induction items as [|o rest IH]; intros n s Hne; [congruence|].
  cbn [coll_cells]. destruct rest as [|o2 rest].
  - cbn [app]. split.
    + intros t [<-|[<-|[<-|[]]]]; cbn; tauto.
    + split.
      * intros H. constructor; [|constructor]. apply (H (MkStmt s (rdf $"first") o)). cbn; auto.
      * intros H t [<-|[<-|[<-|[]]]]; cbn; auto. inversion H; auto.
  - specialize (IH (n + 1) (SBlank (gen_label n)) ltac:(discriminate)).
    destruct (coll_cells (n + 1) (SBlank (gen_label n)) (o2 :: rest)) as [more n'].
    destruct IH as [D F]. split.
    + intros t Ht. cbn [app In] in Ht. destruct Ht as [<-|[<-|[<-|Ht]]]; try (cbn; tauto).
      destruct (D _ Ht) as [A B]. split; auto. rewrite !in_app_iff. auto.
    + split.
      * intros H. constructor.
        -- apply (H (MkStmt s (rdf $"first") o)). cbn; auto.
        -- apply F. intros t Ht. apply H. rewrite !in_app_iff. auto.
      * intros H t Ht. cbn [app In] in Ht. inversion H; subst.
        destruct Ht as [<-|[<-|[<-|Ht]]]; cbn; auto. apply F; auto.
Qed.

Lemma coll_reify_desc n items :
  let '((node, sts), n') := coll_reify n items in
  (node = SRes (rdf $"nil") \/ node = SBlank (gen_label n) /\ n < n') /\
  (forall t, In t sts -> In (st_predicate t) list_props /\
    In (MkStmt (st_subject t) (rdf $"type") (ORes (rdf $"List"))) sts) /\
  ((forall t, In t sts -> flat_object (st_object t)) <-> Forall flat_object items).
Proof.
  unfold coll_reify. destruct items as [|o rest].
  - split; auto. split; [intros t []|]. split; [constructor|intros _ t []].
  - pose proof (coll_cells_desc (o :: rest) (n+1) (SBlank (gen_label n)) ltac:(discriminate)) as H.
    pose proof (coll_cells_spec (o :: rest) n ltac:(discriminate)) as H2.
    destruct (coll_cells (n + 1) (SBlank (gen_label n)) (o :: rest)) as [sts n'].
    destruct H as [H0 H1], H2 as [H2 _]. split; auto.
Qed.

(** ** The loop *)

Fixpoint chunks (n : N) (l : list statement) : list statement * N :=
  match l with
  | [] => ([], n)
  | st :: r =>
      let '(sts, n') := simplify_statement n st in
      let '(more, n'') := chunks n' r in (sts ++ more, n'')
  end.

Lemma fold_insert_list l : forall g vs, g_statements g = NonUnique vs ->
  fold_left g_insert l g = Graph (g_name g) (NonUnique (vs ++ l)) (g_mappings g).
Proof.
  induction l as [|x l IH]; intros g vs H; cbn [fold_left].
  - rewrite app_nil_r, <- H. destruct g; reflexivity.
  - rewrite (IH _ (vs ++ [x])).
    + rewrite <- app_assoc. reflexivity.
    + unfold g_insert. rewrite H. reflexivity.
Qed.

Lemma simplify_loop_chunks l : forall n g vs, g_statements g = NonUnique vs ->
  simplify_loop n g l =
  (Graph (g_name g) (NonUnique (vs ++ fst (chunks n l))) (g_mappings g), snd (chunks n l)).
Proof.
  induction l as [|st l IH]; intros n g vs H; cbn [simplify_loop chunks fst snd].
  - rewrite app_nil_r, <- H. destruct g; reflexivity.
  - destruct (simplify_statement n st) as [sts n'].
    rewrite (fold_insert_list sts g vs H). rewrite (IH _ _ (vs ++ sts)) by reflexivity.
    destruct (chunks n' l) as [more n'']. cbn. rewrite <- app_assoc. reflexivity.
Qed.

Lemma simplify_chunks ho n g :
  g_simplify ho n g =
  (Graph (g_name g) (NonUnique (fst (chunks n (g_iter ho g)))) default_mappings,
   snd (chunks n (g_iter ho g))).
Proof.
  unfold g_simplify. destruct (g_name g) as [m|] eqn:E;
    rewrite (simplify_loop_chunks _ _ _ []) by reflexivity; reflexivity.
Qed.

Lemma simplify_statement_flat n st :
  Forall flat (fst (simplify_statement n st)) <-> simplifiable st.
Proof.
  destruct st as [s p o]. unfold simplify_statement, simplifiable. cbn [st_subject st_object st_predicate].
  assert (NS : forall t m, match reify m t with (_, sts, _) => forall x, In x sts -> s_is_statement (st_subject x) = false end).
  { intros t m. pose proof (reify_spec t m) as H. destruct (reify m t) as [[node sts] m'].
    destruct H as (_ & _ & H & _). intros x Hx. destruct (H _ Hx) as (k & _ & ->). reflexivity. }
  assert (OB : forall t, (s_is_statement s = false) ->
    (Forall flat (fst (let '(node, sts, n') := reify n t in (MkStmt s p (to_object node) :: sts, n'))) <-> no_collection t)).
  { intros t E. pose proof (proj2 (proj2 reify_flat_all) t n) as F. specialize (NS t n).
    pose proof (reify_spec t n) as RS.
    destruct (reify n t) as [[node sts] n']. destruct RS as (-> & _). cbn [fst to_object]. rewrite <- F.
    rewrite Forall_forall. split.
    - intros H x Hx. apply (H x). right; auto.
    - intros H x [<-|Hx]; split; cbn; auto; try exact I. }
  assert (OC : forall items, (s_is_statement s = false) ->
    (Forall flat (fst (let '(node, sts, n') := coll_reify n items in (MkStmt s p (to_object node) :: sts, n'))) <-> Forall flat_object items)).
  { intros items E. pose proof (coll_reify_spec n items) as S. pose proof (coll_reify_desc n items) as D.
    destruct (coll_reify n items) as [[node sts] n']. destruct S as (_ & S & _), D as (D & _ & F).
    cbn [fst]. rewrite <- F. rewrite (Forall_forall flat). split.
    - intros H x Hx. apply (H x). right; auto.
    - intros H x [<-|Hx]; split; auto.
      + destruct D as [->|[-> _]]; exact I.
      + destruct (S _ Hx) as (k & _ & ->). reflexivity. }
  assert (PL : s_is_statement s = false -> flat_object o -> (Forall flat (fst ([MkStmt s p o], n)) <-> True)).
  { intros E F. split; auto. intros _. constructor; [|constructor]. split; auto. }
  destruct s as [b|i|t]; cbn [s_as_statement].
  - destruct o as [b'|i'|l'|items|t']; cbn [o_as_statement o_as_collection]; auto; apply PL; auto; exact I.
  - destruct o as [b'|i'|l'|items|t']; cbn [o_as_statement o_as_collection]; auto; apply PL; auto; exact I.
  - pose proof (proj2 (proj2 reify_flat_all) t n) as F. specialize (NS t n).
    pose proof (reify_spec t n) as RS. destruct (reify n t) as [[node sts] n']. destruct RS as (-> & _).
    cbn [fst]. rewrite <- F, Forall_forall. split.
    + intros H. split.
      * intros x Hx. apply (H x). right; auto.
      * apply (H (MkStmt (SBlank (gen_label n)) p o)). left; auto.
    + intros [H H'] x [<-|Hx]; split; auto.
Qed.

Lemma chunks_flat l : forall n, Forall flat (fst (chunks n l)) <-> Forall simplifiable l.
Proof.
  induction l as [|st l IH]; intros n; cbn [chunks].
  - split; constructor.
  - pose proof (simplify_statement_flat n st) as H. destruct (simplify_statement n st) as [sts n'].
    specialize (IH n'). destruct (chunks n' l) as [more n'']. cbn [fst] in *.
    rewrite Forall_app, H, IH. split; [intros [? ?]; constructor; auto|intros K; inversion K; auto].
Qed.

Lemma Forall_perm {A} (P : A -> Prop) l l' : Permutation l l' -> Forall P l -> Forall P l'.
Proof.
  intros H K. rewrite Forall_forall in *. intros x Hx. apply K.
  eapply Permutation_in; [apply Permutation_sym; exact H|exact Hx].
Qed.

Lemma simplify_flat_iff ho n g : hash_order ho ->
  Forall flat (g_list (fst (g_simplify ho n g))) <-> Forall simplifiable (g_list g).
Proof.
  intros Ho. rewrite simplify_chunks. cbn [fst]. unfold g_list at 1. cbn [g_statements].
  rewrite chunks_flat. pose proof (g_iter_perm ho g Ho) as P.
  split; apply Forall_perm; auto using Permutation_sym.
Qed.

(** ** Reading back *)

Lemma existsb_str x l : existsb (str_eqb x) l = true <-> In x l.
Proof.
  rewrite existsb_exists. split.
  - intros (y & H & E). apply str_eqb_eq in E. subst. auto.
  - intros H. exists x. split; auto. apply str_eqb_eq. reflexivity.
Qed.
Lemma has_type_iff G b t : has_type G b t = true <-> In (MkStmt (SBlank b) (rdf $"type") (ORes (rdf t))) G.
Proof.
  unfold has_type. rewrite existsb_exists, <- values_In. split.
  - intros (y & H & E). apply obj_eqb_eq in E. subst. auto.
  - intros H. exists (ORes (rdf t)). split; auto. apply obj_eqb_eq. reflexivity.
Qed.

Lemma values_cons_other s p o r s' q : p <> q -> values (MkStmt s p o :: r) s' q = values r s' q.
Proof.
  intros H. unfold values. cbn. destruct (str_eqb p q) eqn:E; [apply str_eqb_eq in E; contradiction|].
  rewrite andb_false_r. reflexivity.
Qed.

Definition foreign (n n' : N) (l : list statement) : Prop :=
  forall t k, In t l -> n <= k < n' -> st_subject t <> SBlank (gen_label k).

Lemma foreign_values n n' l k q : foreign n n' l -> n <= k < n' -> values l (SBlank (gen_label k)) q = [].
Proof. intros H K. apply values_nil. intros t Ht. apply H; auto. Qed.

Definition clean (n0 : N) (R : list statement) : Prop :=
  forall b, not_generated_from n0 b -> has_type R b $"Statement" = false /\ has_type R b $"List" = false.

Lemma clean_reif n0 R b : clean n0 R -> not_generated_from n0 b -> ~ is_reification R b.
Proof.
  intros C H K. destruct (C b H) as [E _]. apply values_In in K. apply has_type_iff in K. congruence.
Qed.
Lemma rdf_list_blank G b items : rdf_list G (OBlank b) items -> has_type G b $"List" = true.
Proof.
  intros H. inversion H; subst. apply has_type_iff, values_In.
  match goal with K : values G _ (rdf $"type") = _ |- _ => rewrite K end. left; auto.
Qed.

Lemma filter_none {A} (f : A -> bool) l : (forall x, In x l -> f x = false) -> filter f l = [].
Proof.
  induction l as [|x l IH]; intros H; cbn; auto. rewrite (H x) by (left; auto). apply IH. intros y Hy. apply H. right; auto.
Qed.

Lemma values_type_single G b x y : values G (SBlank b) (rdf $"type") = [ORes (rdf x)] ->
  has_type G b y = true -> rdf x = rdf y.
Proof.
  intros H K. apply has_type_iff, values_In in K. rewrite H in K. destruct K as [K|[]]. congruence.
Qed.

Lemma plain_reads n0 R o : clean n0 R -> flat_object o -> o <> ORes (rdf $"nil") ->
  (forall b, o = OBlank b -> not_generated_from n0 b) -> reads_object R o o.
Proof.
  intros C F N B.
  assert (S : stands_o R o o).
  { apply so_plain; [destruct o; auto; destruct F|]. intros b ->. apply clean_reif with n0; auto. }
  assert (L : forall items, ~ rdf_list R o items).
  { intros items H. inversion H; subst; [congruence|]. apply rdf_list_blank in H.
    destruct (C b (B b eq_refl)). congruence. }
  destruct o; try (split; assumption). destruct F.
Qed.

Lemma plain_subject n0 R s : clean n0 R -> s_is_statement s = false ->
  (forall b, s = SBlank b -> not_generated_from n0 b) ->
  stands_s R (to_object s) s.
Proof. intros C E B. apply ss_plain; auto. intros b ->. apply clean_reif with n0; auto. Qed.

Lemma main_not_description n0 R s p o : clean n0 R -> s_is_statement s = false ->
  (forall b, s = SBlank b -> not_generated_from n0 b) -> is_description R (MkStmt s p o) = false.
Proof.
  intros C E B. unfold is_description. cbn [st_subject st_predicate]. destruct s as [b| |]; auto.
  destruct (C b (B b eq_refl)) as [-> ->]. rewrite !andb_false_r. reflexivity.
Qed.

(** One statement. *)
Lemma chunk_restores n0 n R pre post st : n0 <= n ->
  let '(sts, n') := simplify_statement n st in
  R = pre ++ sts ++ post -> foreign n n' pre -> foreign n n' post -> clean n0 R ->
  simplifiable st -> unencoded n0 st ->
  exists main, filter (fun x => negb (is_description R x)) sts = [main] /\ restores R main st.
Proof.
  intros Hn. destruct st as [s p o]. unfold simplify_statement, simplifiable, unencoded.
  cbn [st_subject st_object st_predicate].
  assert (OB : forall t, (s_is_statement s = false) -> o = OStmt t ->
    let '(sts, n') := let '(node, sts, n') := reify n t in (MkStmt s p (to_object node) :: sts, n') in
    R = pre ++ sts ++ post -> foreign n n' pre -> foreign n n' post -> clean n0 R ->
    (forall b, In b (quoted_blanks (MkStmt s p o)) -> not_generated_from n0 b) ->
    exists main, filter (fun x => negb (is_description R x)) sts = [main] /\ restores R main (MkStmt s p o)).
  { intros t E ->. pose proof (reify_spec t n) as RS. pose proof (proj2 (proj2 reify_desc_all) t n) as RD.
    destruct (reify n t) as [[node sts] n'] eqn:RE. destruct RS as (-> & L & SG & _ & D).
    intros HR Fpre Fpost C Q.
    assert (QS : forall b, s = SBlank b -> not_generated_from n0 b).
    { intros b ->. apply Q. cbn. auto. }
    assert (QT : forall b, In b (quoted_blanks t) -> not_generated_from n0 b).
    { intros b Hb. apply Q. cbn. apply in_or_app. auto. }
    assert (Fm : st_subject (MkStmt s p (OBlank (gen_label n))) = s) by reflexivity.
    assert (V : forall k q, In q reify_props -> n <= k < n' ->
      values R (SBlank (gen_label k)) q = values sts (SBlank (gen_label k)) q).
    { intros k q _ Hk. rewrite HR, !values_app. rewrite (foreign_values n n' pre), (foreign_values n n' post) by auto.
      rewrite app_nil_r. cbn [app]. apply values_other. cbn. intros Es.
      apply (QS _ Es k); [lia|reflexivity]. }
    assert (DR : describes R (gen_label n) t).
    { apply D; auto. intros b Hb. apply clean_reif with n0; auto. }
    assert (TY : values R (SBlank (gen_label n)) (rdf $"type") = [ORes (rdf $"Statement")]) by (inversion DR; assumption).
    exists (MkStmt s p (OBlank (gen_label n))). split.
    - cbn [filter to_object]. rewrite (main_not_description n0) by auto. cbn [negb]. f_equal. apply filter_none.
      intros x Hx. destruct (RD x Hx) as [A B]. destruct (SG x Hx) as (k & Hk & Ek). destruct x as [xs xp xo]. cbn [st_subject st_predicate] in *. subst xs.
      unfold is_description. cbn [st_subject st_predicate]. apply existsb_str in A. rewrite A.
      replace (has_type R (gen_label k) $"Statement") with true; [reflexivity|]. symmetry. apply has_type_iff.
      rewrite HR, !in_app_iff. right. left. right. exact B.
    - split; [apply plain_subject with n0; auto|]. split; auto. cbn [st_object reads_object]. split.
      + apply so_nested; auto. unfold is_reification. rewrite TY. left; auto.
      + intros items H. apply rdf_list_blank in H. apply (values_type_single _ _ _ _ TY) in H. discriminate H. }
  assert (OC : forall items, (s_is_statement s = false) -> o = OColl items ->
    let '(sts, n') := let '(node, sts, n') := coll_reify n items in (MkStmt s p (to_object node) :: sts, n') in
    R = pre ++ sts ++ post -> foreign n n' pre -> foreign n n' post -> clean n0 R ->
    (forall b, In b (quoted_blanks (MkStmt s p o)) -> not_generated_from n0 b) ->
    exists main, filter (fun x => negb (is_description R x)) sts = [main] /\ restores R main (MkStmt s p o)).
  { intros items E ->. pose proof (coll_reify_spec n items) as RS. pose proof (coll_reify_desc n items) as RD.
    destruct (coll_reify n items) as [[node sts] n'] eqn:RE. destruct RS as (_ & SG & _ & D), RD as (_ & RD & _).
    intros HR Fpre Fpost C Q.
    assert (QS : forall b, s = SBlank b -> not_generated_from n0 b).
    { intros b ->. apply Q. cbn. auto. }
    assert (V : forall k q, n <= k < n' ->
      values R (SBlank (gen_label k)) q = values sts (SBlank (gen_label k)) q).
    { intros k q Hk. rewrite HR, !values_app. rewrite (foreign_values n n' pre), (foreign_values n n' post) by auto.
      rewrite app_nil_r. cbn [app]. apply values_other. cbn. intros Es.
      apply (QS _ Es k); [lia|reflexivity]. }
    exists (MkStmt s p (to_object node)). split.
    - cbn [filter]. rewrite (main_not_description n0) by auto. cbn [negb]. f_equal. apply filter_none.
      intros x Hx. destruct (RD x Hx) as [A B]. destruct (SG x Hx) as (k & Hk & Ek). destruct x as [xs xp xo]. cbn [st_subject st_predicate] in *. subst xs.
      unfold is_description. cbn [st_subject st_predicate]. apply existsb_str in A. rewrite A.
      replace (has_type R (gen_label k) $"List") with true; [rewrite orb_true_r; reflexivity|]. symmetry. apply has_type_iff.
      rewrite HR, !in_app_iff. right. left. right. exact B.
    - split; [apply plain_subject with n0; auto|]. split; auto. cbn [st_object reads_object]. apply D, V. }
  assert (PL : s_is_statement s = false -> flat_object o ->
    R = pre ++ [MkStmt s p o] ++ post -> clean n0 R ->
    (forall b, In b (quoted_blanks (MkStmt s p o)) -> not_generated_from n0 b) -> o <> ORes (rdf $"nil") ->
    exists main, filter (fun x => negb (is_description R x)) [MkStmt s p o] = [main] /\ restores R main (MkStmt s p o)).
  { intros E F HR C Q N. exists (MkStmt s p o).
    assert (QS : forall b, s = SBlank b -> not_generated_from n0 b).
    { intros b ->. apply Q. cbn. auto. }
    cbn [filter]. rewrite (main_not_description n0) by auto. split; auto.
    split; [apply plain_subject with n0; auto|]. split; auto. cbn [st_object]. apply plain_reads with n0; auto.
    intros b ->. apply Q. cbn. apply in_or_app. right. left; auto. }
  destruct s as [b|i|t]; cbn [s_as_statement].
  - destruct o as [b'|i'|l'|items|t']; cbn [o_as_statement o_as_collection].
    1,2,3: intros HR F1 F2 C _ (Q & _ & _ & N & _); apply PL; auto; exact I.
    + specialize (OC items eq_refl eq_refl). destruct (coll_reify n items) as [[node sts] n'].
      intros HR F1 F2 C _ (Q & _). apply OC; auto.
    + specialize (OB t' eq_refl eq_refl). destruct (reify n t') as [[node sts] n'].
      intros HR F1 F2 C _ (Q & _). apply OB; auto.
  - destruct o as [b'|i'|l'|items|t']; cbn [o_as_statement o_as_collection].
    1,2,3: intros HR F1 F2 C _ (Q & _ & _ & N & _); apply PL; auto; exact I.
    + specialize (OC items eq_refl eq_refl). destruct (coll_reify n items) as [[node sts] n'].
      intros HR F1 F2 C _ (Q & _). apply OC; auto.
    + specialize (OB t' eq_refl eq_refl). destruct (reify n t') as [[node sts] n'].
      intros HR F1 F2 C _ (Q & _). apply OB; auto.
  - clear OB OC PL. pose proof (reify_spec t n) as RS. pose proof (proj2 (proj2 reify_desc_all) t n) as RD.
    destruct (reify n t) as [[node sts] n'] eqn:RE. destruct RS as (-> & L & SG & _ & D).
    intros HR Fpre Fpost C [_ F] (Q & _ & _ & N & NP). specialize (NP t eq_refl).
    assert (QT : forall b, In b (quoted_blanks t) -> not_generated_from n0 b).
    { intros b Hb. apply Q. cbn. apply in_or_app. auto. }
    assert (V : forall k q, In q reify_props -> n <= k < n' ->
      values R (SBlank (gen_label k)) q = values sts (SBlank (gen_label k)) q).
    { intros k q Hq Hk. rewrite HR, !values_app. rewrite (foreign_values n n' pre), (foreign_values n n' post) by auto.
      rewrite app_nil_r. cbn [app]. apply values_cons_other. congruence. }
    assert (DR : describes R (gen_label n) t).
    { apply D; auto. intros b Hb. apply clean_reif with n0; auto. }
    assert (TY : values R (SBlank (gen_label n)) (rdf $"type") = [ORes (rdf $"Statement")]) by (inversion DR; assumption).
    exists (MkStmt (SBlank (gen_label n)) p o). split.
    + cbn [filter]. replace (is_description R (MkStmt (SBlank (gen_label n)) p o)) with false.
      * cbn [negb]. f_equal. apply filter_none.
        intros x Hx. destruct (RD x Hx) as [A B]. destruct (SG x Hx) as (k & Hk & Ek). destruct x as [xs xp xo]. cbn [st_subject st_predicate] in *. subst xs.
        unfold is_description. cbn [st_subject st_predicate]. apply existsb_str in A. rewrite A.
        replace (has_type R (gen_label k) $"Statement") with true; [reflexivity|]. symmetry. apply has_type_iff.
        rewrite HR, !in_app_iff. right. left. right. exact B.
      * symmetry. unfold is_description. cbn [st_subject st_predicate].
        replace (existsb (str_eqb p) reify_props) with false.
        2:{ symmetry. apply not_true_is_false. rewrite existsb_str. exact NP. }
        replace (has_type R (gen_label n) $"List") with false; [rewrite andb_false_r; reflexivity|].
        symmetry. apply not_true_is_false. intros H. apply (values_type_single _ _ _ _ TY) in H. discriminate H.
    + split; [|split; auto].
      * cbn. apply ss_nested; auto. unfold is_reification. rewrite TY. left; auto.
      * cbn [st_object]. apply plain_reads with n0; auto. intros b ->. apply Q. cbn. apply in_or_app. right. left; auto.
Qed.

(** Labels used by a chunk. *)
Lemma chunk_subjects n st : let '(sts, n') := simplify_statement n st in
  n <= n' /\ forall x, In x sts -> in_gen n n' (st_subject x) \/
    (st_subject x = st_subject st /\ s_is_statement (st_subject st) = false /\
     st_predicate x = st_predicate st /\
     (st_object x = st_object st \/ st_object x = ORes (rdf $"nil") \/ exists k, st_object x = OBlank k)).
Proof.
  destruct st as [s p o]. unfold simplify_statement. cbn [st_subject st_object st_predicate].
  destruct (s_as_statement s) as [t|] eqn:Es.
  { pose proof (reify_spec t n) as RS. destruct (reify n t) as [[node sts] n']. destruct RS as (-> & L & SG & _).
    split; [lia|]. intros x [<-|Hx]; left; auto. exists n. split; auto. lia. }
  assert (Hs : s_is_statement s = false) by (destruct s; auto; discriminate).
  destruct (o_as_statement o) as [t|] eqn:Eo.
  { pose proof (reify_spec t n) as RS. destruct (reify n t) as [[node sts] n']. destruct RS as (-> & L & SG & _).
    split; [lia|]. intros x [<-|Hx]; [right|left; auto]. cbn. eauto 10. }
  destruct (o_as_collection o) as [items|] eqn:Ec.
  { pose proof (coll_reify_spec n items) as RS. pose proof (coll_reify_desc n items) as RD.
    destruct (coll_reify n items) as [[node sts] n']. destruct RS as (-> & SG & _), RD as (RD & _).
    split; [lia|]. intros x [<-|Hx]; [right|left; auto]. cbn [st_subject st_object st_predicate].
    split; [auto|split; [auto|split; [auto|]]]. destruct RD as [->|[-> _]]; cbn; eauto. }
  split; [lia|]. intros x [<-|[]]. right. cbn. auto.
Qed.

Lemma chunks_subjects l : forall n, let '(sts, n') := chunks n l in
  n <= n' /\ forall x, In x sts -> in_gen n n' (st_subject x) \/ exists st, In st l /\
    (st_subject x = st_subject st /\ s_is_statement (st_subject st) = false /\
     st_predicate x = st_predicate st /\
     (st_object x = st_object st \/ st_object x = ORes (rdf $"nil") \/ exists k, st_object x = OBlank k)).
Proof.
  induction l as [|st l IH]; intros n; cbn [chunks].
  - split; [lia|]. intros x [].
  - pose proof (chunk_subjects n st) as H. destruct (simplify_statement n st) as [sts n1].
    specialize (IH n1). destruct (chunks n1 l) as [more n2]. destruct H as [L1 H], IH as [L2 IH].
    split; [lia|]. intros x Hx. apply in_app_or in Hx as [Hx|Hx].
    + destruct (H x Hx) as [(k & Hk & E)|K]; [left; exists k; split; auto; lia|]. right. exists st. split; [left; auto|exact K].
    + destruct (IH x Hx) as [(k & Hk & E)|(st' & A & K)]; [left; exists k; split; auto; lia|].
      right. exists st'. split; [right; auto|exact K].
Qed.

Lemma chunks_restores l : forall n0 n R pre post, n0 <= n ->
  let '(sts, n') := chunks n l in
  R = pre ++ sts ++ post -> foreign n n' pre -> foreign n n' post -> clean n0 R ->
  Forall simplifiable l -> Forall (unencoded n0) l ->
  Forall2 (restores R) (filter (fun x => negb (is_description R x)) sts) l.
Proof.
  induction l as [|st l IH]; intros n0 n R pre post Hn; cbn [chunks].
  - intros. constructor.
  - pose proof (chunk_subjects n st) as CS. pose proof (fun post' => chunk_restores n0 n R pre post' st Hn) as CR.
    destruct (simplify_statement n st) as [sts n1]. destruct CS as [L1 CS].
    pose proof (chunks_subjects l n1) as CS2. specialize (IH n0 n1 R (pre ++ sts) post ltac:(lia)).
    destruct (chunks n1 l) as [more n2]. destruct CS2 as [L2 CS2].
    intros HR F1 F2 C HS HU. inversion HS as [|? ? S1 S2]; subst. inversion HU as [|? ? U1 U2]; subst. clear HS HU.
    assert (UG : forall st', unencoded n0 st' -> s_is_statement (st_subject st') = false ->
              forall k, n <= k -> st_subject st' <> SBlank (gen_label k)).
    { intros st' (Q & _) E k Hk Es. destruct st' as [s' p' o']. cbn [st_subject] in *. subst s'.
      apply (Q (gen_label k) (or_introl eq_refl) k); [lia|reflexivity]. }
    destruct (CR (more ++ post)) as (main & Fm & Rm); auto.
    + rewrite <- app_assoc. reflexivity.
    + intros t k Ht Hk. apply F1; auto. lia.
    + intros t k Ht Hk. apply in_app_or in Ht as [Ht|Ht]; [|apply F2; auto; lia].
      destruct (CS2 t Ht) as [G|(st' & A & B & B2 & _)].
      * apply in_gen_neq with (1 := G). lia.
      * rewrite B. apply UG; auto; [|lia]. rewrite Forall_forall in U2. auto.
    + rewrite filter_app, Fm. cbn [app]. constructor; auto. apply IH; auto.
      * rewrite <- !app_assoc. reflexivity.
      * intros t k Ht Hk. apply in_app_or in Ht as [Ht|Ht]; [apply F1; auto; lia|].
        destruct (CS t Ht) as [G|(B & B2 & _)]; [apply in_gen_neq with (1 := G); lia|].
        rewrite B. apply UG; auto. lia.
      * intros t k Ht Hk. apply F2; auto. lia.
Qed.

Lemma chunks_clean n l : Forall (unencoded n) l -> clean n (fst (chunks n l)).
Proof.
  intros U b Hb. pose proof (chunks_subjects l n) as CS. destruct (chunks n l) as [sts n']. destruct CS as [_ CS].
  assert (K : forall T, (forall st b, In st l -> st <> MkStmt (SBlank b) (rdf $"type") (ORes (rdf T))) ->
     rdf T <> rdf $"nil" -> has_type sts b T = false).
  { intros T HT HN. apply not_true_is_false. intros H. apply has_type_iff in H.
    destruct (CS _ H) as [(k & Hk & E)|(st & A & B & _ & P & O)].
    - cbn in E. injection E as ->. apply (Hb k); [lia|reflexivity].
    - cbn in *. destruct O as [O|[O|[k O]]]; [|congruence|discriminate].
      apply (HT st b A). destruct st; cbn in *; congruence. }
  rewrite Forall_forall in U. split; apply K; try discriminate.
  - intros st b' A. apply (U st A).
  - intros st b' A. apply (U st A).
Qed.

Lemma simplify_restores ho n g : hash_order ho ->
  Forall simplifiable (g_list g) -> Forall (unencoded n) (g_list g) ->
  let R := g_list (fst (g_simplify ho n g)) in
  Forall2 (restores R) (filter (fun x => negb (is_description R x)) R) (g_iter ho g).
Proof.
  intros Ho S U. rewrite simplify_chunks. cbn [fst]. unfold g_list. cbn [g_statements].
  assert (P : Permutation (g_list g) (g_iter ho g)) by (apply Permutation_sym, g_iter_perm, Ho).
  apply (Forall_perm _ _ _ P) in S. apply (Forall_perm _ _ _ P) in U.
  pose proof (chunks_restores (g_iter ho g) n n (fst (chunks n (g_iter ho g))) [] [] ltac:(lia)) as H.
  pose proof (chunks_clean n _ U) as C.
  destruct (chunks n (g_iter ho g)) as [sts n']. cbn [fst] in *. apply H; auto.
  - rewrite app_nil_r. reflexivity.
  - intros t k [].
  - intros t k [].
Qed.

Lemma restores_functional G x a b : restores G x a -> restores G x b -> a = b.
Proof.
  intros (S1 & P1 & O1) (S2 & P2 & O2). destruct a as [sa pa oa], b as [sb pb ob]. cbn in *.
  assert (sa = sb) by (eapply describes_functional_all; eauto). subst.
  assert (oa = ob); [|congruence].
  unfold reads_object in *. destruct oa as [| | |la|]; destruct ob as [| | |lb|];
    try (destruct O1 as [O1 N1]); try (destruct O2 as [O2 N2]);
    try (exfalso; eapply N1; eassumption); try (exfalso; eapply N2; eassumption);
    try (eapply describes_functional_all; eassumption).
  f_equal. eapply rdf_list_functional; eauto.
Qed.

Lemma restores_unique G xs : forall l l', Forall2 (restores G) xs l -> Forall2 (restores G) xs l' -> l = l'.
Proof.
  induction xs as [|x xs IH]; intros l l' H K; inversion H; inversion K; subst; auto.
  f_equal; [eapply restores_functional; eauto|auto].
Qed.

(** Consequently the result determines the statements. *)
Lemma simplify_injective ho ho' n n' g g' : hash_order ho -> hash_order ho' ->
  Forall simplifiable (g_list g) -> Forall (unencoded n) (g_list g) ->
  Forall simplifiable (g_list g') -> Forall (unencoded n') (g_list g') ->
  fst (g_simplify ho n g) = fst (g_simplify ho' n' g') ->
  Permutation (g_list g) (g_list g').
Proof.
  intros Ho Ho' S U S' U' E.
  pose proof (simplify_restores ho n g Ho S U) as R. pose proof (simplify_restores ho' n' g' Ho' S' U') as R'.
  cbv zeta in *. rewrite <- E in R'.
  pose proof (restores_unique _ _ _ _ R R') as I.
  transitivity (g_iter ho g); [apply Permutation_sym, g_iter_perm, Ho|].
  rewrite I. apply g_iter_perm, Ho'.
Qed.
