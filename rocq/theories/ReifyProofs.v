From Verif Require Import StrFacts LiteralProofs TermProofs ReifySpec.

Lemma values_app g h s p : values (g ++ h) s p = values g s p ++ values h s p.
Proof. unfold values. rewrite filter_app, map_app. reflexivity. Qed.

Lemma values_In g s p o : In o (values g s p) <-> In (MkStmt s p o) g.
Proof.
  unfold values. rewrite in_map_iff. split.
  - intros ([s' p' o'] & <- & H). apply filter_In in H as [H E]. cbn in *.
    apply andb_true_iff in E as [E1 E2]. apply subj_eqb_eq in E1. apply str_eqb_eq in E2. subst. exact H.
  - intros H. exists (MkStmt s p o). split; auto. apply filter_In. split; auto. cbn.
    rewrite subj_eqb_refl, str_eqb_refl. reflexivity.
Qed.

Lemma values_nil g s p : (forall st, In st g -> st_subject st <> s) -> values g s p = [].
Proof.
  intros H. destruct (values g s p) as [|o l] eqn:E; auto. exfalso.
  assert (Hin : In o (values g s p)) by (rewrite E; left; reflexivity).
  apply values_In in Hin. apply (H _ Hin). reflexivity.
Qed.

Lemma values_here s p o r q : values (MkStmt s p o :: r) s q =
  if str_eqb p q then o :: values r s q else values r s q.
Proof. unfold values. cbn. rewrite subj_eqb_refl. cbn. destruct (str_eqb p q); reflexivity. Qed.

Lemma values_other st r s q : st_subject st <> s -> values (st :: r) s q = values r s q.
Proof.
  intros H. unfold values. cbn. destruct (subj_eqb (st_subject st) s) eqn:E; [|reflexivity].
  apply subj_eqb_eq in E. contradiction.
Qed.

(** ** Collections *)

Definition in_gen (n n' : N) (s : subject) : Prop := exists k, n <= k < n' /\ s = SBlank (gen_label k).

Lemma in_gen_neq n n' k s : in_gen n n' s -> (k < n \/ n' <= k) -> s <> SBlank (gen_label k).
Proof.
  intros (j & Hj & ->) Hk H. injection H as H. apply dec_N_inj in H. lia.
Qed.

Lemma coll_cells_spec items : forall n,
  items <> [] -> let '(sts, n') := coll_cells (n + 1) (SBlank (gen_label n)) items in
  n < n' /\ n' = n + N.of_nat (length items) /\
  (forall st, In st sts -> in_gen n n' (st_subject st)) /\
  length sts = (3 * length items)%nat /\
  (forall G, (forall k q, n <= k < n' -> values G (SBlank (gen_label k)) q = values sts (SBlank (gen_label k)) q) ->
     rdf_list G (OBlank (gen_label n)) items).
Proof.
  induction items as [|o rest IH]; intros n Hne; [congruence|].
  cbn [coll_cells]. destruct rest as [|o2 rest].
  - cbn [app]. split; [lia|]. split; [cbn; lia|]. split; [|split; [reflexivity|]].
    + intros st [<-|[<-|[<-|[]]]]; exists n; split; auto; lia.
    + intros G HG. eapply rl_cons.
      * rewrite HG by lia. rewrite !values_here. vm_compute. reflexivity.
      * rewrite HG by lia. rewrite !values_here. vm_compute. reflexivity.
      * rewrite HG by lia. rewrite !values_here. vm_compute. reflexivity.
      * constructor.
  - specialize (IH (n + 1) ltac:(discriminate)).
    destruct (coll_cells (n + 1 + 1) (SBlank (gen_label (n + 1))) (o2 :: rest)) as [more n'] eqn:E.
    destruct IH as (L & Hn & S & Len & R). cbn [app to_object].
    split; [lia|]. split; [cbn [length] in *; lia|]. split; [|split].
    + intros st [<-|[<-|[<-|H]]]; try (exists n; split; auto; lia).
      destruct (S _ H) as (k & Hk & ->). exists k. split; auto. lia.
    + cbn [length] in *. lia.
    + intros G HG.
      assert (V : forall q, values more (SBlank (gen_label n)) q = []).
      { intros q. apply values_nil. intros st Hst. apply in_gen_neq with (1 := S _ Hst). lia. }
      eapply rl_cons.
      * rewrite HG by lia. rewrite !values_here, V. vm_compute. reflexivity.
      * rewrite HG by lia. rewrite !values_here, V. vm_compute. reflexivity.
      * rewrite HG by lia. rewrite !values_here, V. vm_compute. reflexivity.
      * apply R. intros k q Hk. rewrite HG by lia.
        rewrite !values_other; auto; cbn [st_subject]; intros H; injection H as H; apply dec_N_inj in H; lia.
Qed.

Lemma coll_reify_spec n items :
  let '((node, sts), n') := coll_reify n items in
  n' = n + N.of_nat (length items) /\
  (forall st, In st sts -> in_gen n n' (st_subject st)) /\
  length sts = (3 * length items)%nat /\
  forall G, (forall k q, n <= k < n' -> values G (SBlank (gen_label k)) q = values sts (SBlank (gen_label k)) q) ->
    rdf_list G (to_object node) items.
Proof.
  unfold coll_reify. destruct items as [|o rest].
  - cbn. split; [lia|]. split; [tauto|]. split; auto. intros. constructor.
  - pose proof (coll_cells_spec (o :: rest) n ltac:(discriminate)) as H.
    destruct (coll_cells (n + 1) (SBlank (gen_label n)) (o :: rest)) as [sts n'].
    destruct H as (_ & H1 & H2 & H3 & H4). auto.
Qed.

(** Reading a list has at most one result. *)
Lemma rdf_list_functional g o l1 l2 : rdf_list g o l1 -> rdf_list g o l2 -> l1 = l2.
Proof.
  intros H. revert l2. induction H as [|b x r items T F R H IH]; intros l2 H2; inversion H2; subst; auto.
  rewrite F in H3. injection H3 as <-. rewrite R in H4. injection H4 as <-. f_equal. auto.
Qed.

(** ** Statements *)

Scheme describes_mind := Minimality for describes Sort Prop
with stands_s_mind := Minimality for stands_s Sort Prop
with stands_o_mind := Minimality for stands_o Sort Prop.
Combined Scheme describes_mutind from describes_mind, stands_s_mind, stands_o_mind.

Lemma describes_functional_all g :
  (forall b st, describes g b st -> forall st', describes g b st' -> st = st') /\
  (forall o s, stands_s g o s -> forall s', stands_s g o s' -> s = s') /\
  (forall o q, stands_o g o q -> forall q', stands_o g o q' -> q = q').
Proof.
  apply describes_mutind.
  - intros b so p oo s o HT HS HP HO _ IHs _ IHo st' H. inversion H; subst.
    rewrite HS in H1. injection H1 as <-. rewrite HP in H2. injection H2 as <-. rewrite HO in H3. injection H3 as <-.
    f_equal; auto.
  - intros s Hs Hb s' H. inversion H; subst.
    + assert (E : to_subject (to_object s) = to_subject (to_object s')) by (f_equal; symmetry; assumption).
      rewrite !to_subject_to_object in E. congruence.
    + exfalso. destruct s; cbn in *; try discriminate. injection H0 as <-. eapply Hb; eauto.
  - intros b st Hr _ IH s' H. inversion H; subst.
    + exfalso. destruct s'; cbn in *; try discriminate. injection H0 as ->. eapply H2; eauto.
    + f_equal. auto.
  - intros o Ho Hb q' H. inversion H; subst; auto. exfalso. eapply Hb; eauto.
  - intros b st Hr _ IH q' H. inversion H; subst.
    + exfalso. eapply H1; eauto.
    + f_equal. auto.
Qed.

Lemma describes_functional g b st st' : describes g b st -> describes g b st' -> st = st'.
Proof. intros. eapply describes_functional_all; eauto. Qed.

Lemma gen_neq k j : k <> j -> SBlank (gen_label k) <> SBlank (gen_label j).
Proof. intros H E. injection E as E. apply dec_N_inj in E. contradiction. Qed.

Definition reify_ok (st : statement) : Prop :=
  forall n, let '((node, sts), n') := reify n st in
  node = SBlank (gen_label n) /\ n < n' /\
  (forall t, In t sts -> in_gen n n' (st_subject t)) /\
  (forall t, In t sts -> is_nested t = false) /\
  (forall G, (forall k q, In q reify_props -> n <= k < n' -> values G (SBlank (gen_label k)) q = values sts (SBlank (gen_label k)) q) ->
     (forall b, In b (quoted_blanks st) -> ~ is_reification G b) ->
     describes G (gen_label n) st).

(** A piece of the output together with what it says about the subject (or object). *)
Definition piece_ok {T} (n n1 n2 : N) (prop : str) (part : list statement)
    (stands : list statement -> object -> T -> Prop) (x : T) (blanks : list str) : Prop :=
  n1 <= n2 /\
  (exists v pre, part = pre ++ [MkStmt (SBlank (gen_label n)) prop v] /\
     (forall t, In t pre -> in_gen n1 n2 (st_subject t)) /\
     (forall t, In t part -> is_nested t = false) /\
     (forall G, (forall k q, In q reify_props -> n1 <= k < n2 -> values G (SBlank (gen_label k)) q = values pre (SBlank (gen_label k)) q) ->
        (forall b, In b blanks -> ~ is_reification G b) -> stands G v x)).

Lemma reify_all :
  (forall s, match s with SStmt st => reify_ok st | _ => True end) /\
  (forall o, match o with OStmt st => reify_ok st | _ => True end) /\
  (forall st, reify_ok st).
Proof.
  apply term_ind; auto.
  intros s p o Hs Ho n. cbn [reify].
  set (node := gen_label n).
  (* the subject part *)
  assert (PS : exists subj_part n2,
    match s with
    | SStmt st' =>
        let '((nested, sts), n') := reify (n + 1) st' in
        (sts ++ [MkStmt (SBlank node) (rdf $"subject") (to_object nested)], n')
    | _ => ([MkStmt (SBlank node) (rdf $"subject") (to_object s)], n + 1)
    end = (subj_part, n2) /\
    piece_ok n (n + 1) n2 (rdf $"subject") subj_part stands_s s
      (match s with SBlank b => [b] | SRes _ => [] | SStmt t => quoted_blanks t end)).
  { destruct s as [b|i|st'].
    - do 2 eexists. split; [reflexivity|]. split; [lia|]. exists (OBlank b), []. split; [reflexivity|].
      split; [intros t []|]. split; [intros t [<-|[]]; reflexivity|].
      intros G _ HB. apply (ss_plain G (SBlank b)); auto. intros c E. injection E as <-. apply HB. left; auto.
    - do 2 eexists. split; [reflexivity|]. split; [lia|]. exists (ORes i), []. split; [reflexivity|].
      split; [intros t []|]. split; [intros t [<-|[]]; reflexivity|].
      intros G _ HB. apply (ss_plain G (SRes i)); auto. intros c E. discriminate E.
    - specialize (Hs (n + 1)). destruct (reify (n + 1) st') as [[nested sts] n'].
      destruct Hs as (-> & L & SG & NN & R).
      do 2 eexists. split; [reflexivity|]. split; [lia|].
      exists (OBlank (gen_label (n + 1))), sts. split; [reflexivity|]. split; [exact SG|].
      split. { intros t Ht. apply in_app_or in Ht as [Ht|[<-|[]]]; auto. }
      intros G HG HB. specialize (R G HG HB). apply ss_nested; auto.
      inversion R; subst. unfold is_reification.
      match goal with H : values G _ (rdf $"type") = _ |- _ => rewrite H end. left; reflexivity. }
  destruct PS as (subj_part & n2 & -> & L2 & sv & spre & -> & SG & SN & SR).
  assert (PO : exists obj_part n3,
    match o with
    | OStmt st' =>
        let '((nested, sts), n') := reify n2 st' in
        (sts ++ [MkStmt (SBlank node) (rdf $"object") (to_object nested)], n')
    | _ => ([MkStmt (SBlank node) (rdf $"object") o], n2)
    end = (obj_part, n3) /\
    piece_ok n n2 n3 (rdf $"object") obj_part stands_o o
      (match o with OBlank b => [b] | OStmt t => quoted_blanks t | _ => [] end)).
  { destruct o as [b|i|l|l|st'].
    - do 2 eexists. split; [reflexivity|]. split; [lia|]. exists (OBlank b), []. split; [reflexivity|].
      split; [intros t []|]. split; [intros t [<-|[]]; reflexivity|].
      intros G _ HB. apply so_plain; auto. intros c E. injection E as <-. apply HB. left; auto.
    - do 2 eexists. split; [reflexivity|]. split; [lia|]. exists (ORes i), []. split; [reflexivity|].
      split; [intros t []|]. split; [intros t [<-|[]]; reflexivity|].
      intros G _ HB. apply so_plain; auto. intros c E. discriminate E.
    - do 2 eexists. split; [reflexivity|]. split; [lia|]. exists (OLit l), []. split; [reflexivity|].
      split; [intros t []|]. split; [intros t [<-|[]]; reflexivity|].
      intros G _ HB. apply so_plain; auto. intros c E. discriminate E.
    - do 2 eexists. split; [reflexivity|]. split; [lia|]. exists (OColl l), []. split; [reflexivity|].
      split; [intros t []|]. split; [intros t [<-|[]]; reflexivity|].
      intros G _ HB. apply so_plain; auto. intros c E. discriminate E.
    - specialize (Ho n2). destruct (reify n2 st') as [[nested sts] n'].
      destruct Ho as (-> & L & OG & NN & R).
      do 2 eexists. split; [reflexivity|]. split; [lia|].
      exists (OBlank (gen_label n2)), sts. split; [reflexivity|]. split; [exact OG|].
      split. { intros t Ht. apply in_app_or in Ht as [Ht|[<-|[]]]; auto. }
      intros G HG HB. specialize (R G HG HB). apply so_nested; auto.
      inversion R; subst. unfold is_reification.
      match goal with H : values G _ (rdf $"type") = _ |- _ => rewrite H end. left; reflexivity. }
  destruct PO as (obj_part & n3 & -> & L3 & ov & opre & -> & OG & ON & OR).
  split; [reflexivity|]. split; [lia|]. split; [|split].
  - intros t Ht. rewrite !in_app_iff in Ht. cbn [In] in Ht.
    destruct Ht as [[<-|[]]|[[Ht|[<-|[]]]|[[<-|[]]|[Ht|[<-|[]]]]]];
      try (exists n; split; [lia|reflexivity]).
    + destruct (SG _ Ht) as (k & Hk & ->). exists k. split; auto. lia.
    + destruct (OG _ Ht) as (k & Hk & ->). exists k. split; auto. lia.
  - intros t Ht. rewrite !in_app_iff in Ht. cbn [In] in Ht.
    destruct Ht as [[<-|[]]|[Ht|[[<-|[]]|Ht]]]; try reflexivity.
    + apply SN. rewrite in_app_iff. exact Ht.
    + apply ON. rewrite in_app_iff. exact Ht.
  - intros G HG HB.
    assert (SPn : forall q, values spre (SBlank node) q = []).
    { intros q. apply values_nil. intros t Ht. apply in_gen_neq with (1 := SG _ Ht). lia. }
    assert (OPn : forall q, values opre (SBlank node) q = []).
    { intros q. apply values_nil. intros t Ht. apply in_gen_neq with (1 := OG _ Ht). lia. }
    assert (V : forall q, In q reify_props -> values G (SBlank node) q =
      values [MkStmt (SBlank node) (rdf $"type") (ORes (rdf $"Statement"));
              MkStmt (SBlank node) (rdf $"subject") sv;
              MkStmt (SBlank node) (rdf $"predicate") (ORes p);
              MkStmt (SBlank node) (rdf $"object") ov] (SBlank node) q).
    { intros q Hq. unfold node. rewrite HG by (assumption || lia). rewrite !values_app. fold node. rewrite SPn, OPn.
      change (values [MkStmt (SBlank node) (rdf $ "type") (ORes (rdf $ "Statement"));
        MkStmt (SBlank node) (rdf $ "subject") sv; MkStmt (SBlank node) (rdf $ "predicate") (ORes p);
        MkStmt (SBlank node) (rdf $ "object") ov] (SBlank node) q) with
        (values ([MkStmt (SBlank node) (rdf $ "type") (ORes (rdf $ "Statement"))] ++
        [MkStmt (SBlank node) (rdf $ "subject") sv] ++ [MkStmt (SBlank node) (rdf $ "predicate") (ORes p)] ++
        [MkStmt (SBlank node) (rdf $ "object") ov]) (SBlank node) q).
      rewrite !values_app. cbn [app]. reflexivity. }
    assert (VS : forall k q, In q reify_props -> n + 1 <= k < n2 ->
       values G (SBlank (gen_label k)) q = values spre (SBlank (gen_label k)) q).
    { intros k q Hq Hk. rewrite HG by (assumption || lia). rewrite !values_app.
      rewrite (values_nil opre) by (intros t Ht; apply in_gen_neq with (1 := OG _ Ht); lia).
      rewrite !values_other by (apply gen_neq; lia). cbn [app]. unfold values at 2 3 4 5. cbn.
      rewrite !app_nil_r. reflexivity. }
    assert (VO : forall k q, In q reify_props -> n2 <= k < n3 ->
       values G (SBlank (gen_label k)) q = values opre (SBlank (gen_label k)) q).
    { intros k q Hq Hk. rewrite HG by (assumption || lia). rewrite !values_app.
      rewrite (values_nil spre) by (intros t Ht; apply in_gen_neq with (1 := SG _ Ht); lia).
      rewrite !values_other by (apply gen_neq; lia). cbn [app]. unfold values at 1 2 3 5. cbn.
      rewrite !app_nil_r. reflexivity. }
    apply d_stmt with (so := sv) (oo := ov).
    + rewrite V by (cbn; tauto). rewrite !values_here. vm_compute. reflexivity.
    + rewrite V by (cbn; tauto). rewrite !values_here. vm_compute. reflexivity.
    + rewrite V by (cbn; tauto). rewrite !values_here. vm_compute. reflexivity.
    + rewrite V by (cbn; tauto). rewrite !values_here. vm_compute. reflexivity.
    + apply SR; auto. intros b Hb. apply HB. cbn. apply in_or_app. auto.
    + apply OR; auto. intros b Hb. apply HB. cbn. apply in_or_app. auto.
Qed.

Lemma reify_spec st n : let '((node, sts), n') := reify n st in
  node = SBlank (gen_label n) /\ n < n' /\
  (forall t, In t sts -> in_gen n n' (st_subject t)) /\
  (forall t, In t sts -> is_nested t = false) /\
  (forall G, (forall k q, In q reify_props -> n <= k < n' -> values G (SBlank (gen_label k)) q = values sts (SBlank (gen_label k)) q) ->
     (forall b, In b (quoted_blanks st) -> ~ is_reification G b) ->
     describes G (gen_label n) st).
Proof. apply reify_all. Qed.

(** Every node in the output is described. *)
Definition reify_nodes (st : statement) : Prop :=
  forall n G, let '((node, sts), n') := reify n st in
  (forall k q, In q reify_props -> n <= k < n' -> values G (SBlank (gen_label k)) q = values sts (SBlank (gen_label k)) q) ->
  (forall b, In b (quoted_blanks st) -> ~ is_reification G b) ->
  forall t, In t sts -> exists b x, st_subject t = SBlank b /\ describes G b x.

Lemma reify_nodes_all :
  (forall s, match s with SStmt st => reify_nodes st | _ => True end) /\
  (forall o, match o with OStmt st => reify_nodes st | _ => True end) /\
  (forall st, reify_nodes st).
Proof.
  apply term_ind; auto. intros s p o Hs Ho n G.
  pose proof (reify_spec (MkStmt s p o) n) as RS. cbn [reify] in *. set (node := gen_label n) in *.
  assert (PS : exists pre v n2,
    match s with
    | SStmt st' =>
        let '((nested, sts), n') := reify (n + 1) st' in
        (sts ++ [MkStmt (SBlank node) (rdf $"subject") (to_object nested)], n')
    | _ => ([MkStmt (SBlank node) (rdf $"subject") (to_object s)], n + 1)
    end = (pre ++ [MkStmt (SBlank node) (rdf $"subject") v], n2) /\ n + 1 <= n2 /\
    (forall t, In t pre -> in_gen (n + 1) n2 (st_subject t)) /\
    ((forall k q, In q reify_props -> n + 1 <= k < n2 -> values G (SBlank (gen_label k)) q = values pre (SBlank (gen_label k)) q) ->
     (forall b, In b (quoted_blanks (MkStmt s p o)) -> ~ is_reification G b) ->
     forall t, In t pre -> exists b x, st_subject t = SBlank b /\ describes G b x)).
  { destruct s as [b|i|st'].
    - exists [], (OBlank b), (n+1). split; auto. split; [lia|]. split; [intros t []|intros _ _ t []].
    - exists [], (ORes i), (n+1). split; auto. split; [lia|]. split; [intros t []|intros _ _ t []].
    - specialize (Hs (n + 1) G). pose proof (reify_spec st' (n + 1)) as R1.
      destruct (reify (n + 1) st') as [[nested sts] n']. destruct R1 as (_ & L & SG & _).
      exists sts, (to_object nested), n'. split; auto. split; [lia|]. split; auto. intros V Q. apply Hs; auto.
      intros b Hb. apply Q. cbn. apply in_or_app. auto. }
  destruct PS as (spre & sv & n2 & ES & L2 & SG & HS). rewrite ES in *.
  assert (PO : exists pre v n3,
    match o with
    | OStmt st' =>
        let '((nested, sts), n') := reify n2 st' in
        (sts ++ [MkStmt (SBlank node) (rdf $"object") (to_object nested)], n')
    | _ => ([MkStmt (SBlank node) (rdf $"object") o], n2)
    end = (pre ++ [MkStmt (SBlank node) (rdf $"object") v], n3) /\ n2 <= n3 /\
    (forall t, In t pre -> in_gen n2 n3 (st_subject t)) /\
    ((forall k q, In q reify_props -> n2 <= k < n3 -> values G (SBlank (gen_label k)) q = values pre (SBlank (gen_label k)) q) ->
     (forall b, In b (quoted_blanks (MkStmt s p o)) -> ~ is_reification G b) ->
     forall t, In t pre -> exists b x, st_subject t = SBlank b /\ describes G b x)).
  { destruct o as [b|i|l|l|st'].
    - exists [], (OBlank b), n2. split; auto. split; [lia|]. split; [intros t []|intros _ _ t []].
    - exists [], (ORes i), n2. split; auto. split; [lia|]. split; [intros t []|intros _ _ t []].
    - exists [], (OLit l), n2. split; auto. split; [lia|]. split; [intros t []|intros _ _ t []].
    - exists [], (OColl l), n2. split; auto. split; [lia|]. split; [intros t []|intros _ _ t []].
    - specialize (Ho n2 G). pose proof (reify_spec st' n2) as R1.
      destruct (reify n2 st') as [[nested sts] n']. destruct R1 as (_ & L & OG & _).
      exists sts, (to_object nested), n'. split; auto. split; [lia|]. split; auto. intros V Q. apply Ho; auto.
      intros b Hb. apply Q. cbn. apply in_or_app. auto. }
  destruct PO as (opre & ov & n3 & EO & L3 & OG & HO). rewrite EO in *.
  destruct RS as (_ & _ & _ & _ & D). intros V Q. specialize (D G V Q).
  assert (TOP : exists b x, SBlank node = SBlank b /\ describes G b x) by eauto.
  assert (VS : forall k q, In q reify_props -> n + 1 <= k < n2 ->
     values G (SBlank (gen_label k)) q = values spre (SBlank (gen_label k)) q).
  { intros k q Hq Hk. rewrite V by (assumption || lia). rewrite !values_app.
    rewrite (values_nil opre) by (intros t Ht; apply in_gen_neq with (1 := OG _ Ht); lia).
    rewrite !values_other by (apply gen_neq; lia). cbn [app]. unfold values at 2 3 4 5. cbn.
    rewrite !app_nil_r. reflexivity. }
  assert (VO : forall k q, In q reify_props -> n2 <= k < n3 ->
     values G (SBlank (gen_label k)) q = values opre (SBlank (gen_label k)) q).
  { intros k q Hq Hk. rewrite V by (assumption || lia). rewrite !values_app.
    rewrite (values_nil spre) by (intros t Ht; apply in_gen_neq with (1 := SG _ Ht); lia).
    rewrite !values_other by (apply gen_neq; lia). cbn [app]. unfold values at 1 2 3 5. cbn.
    rewrite !app_nil_r. reflexivity. }
  intros t Ht. rewrite !in_app_iff in Ht. cbn [In] in Ht.
  destruct Ht as [[<-|[]]|[[Ht|[<-|[]]]|[[<-|[]]|[Ht|[<-|[]]]]]]; try exact TOP.
  - apply HS; auto.
  - apply HO; auto.
Qed.

Definition outside (n n' : N) (l : list statement) : Prop :=
  forall t k, In t l -> n <= k < n' -> st_subject t <> SBlank (gen_label k).

Lemma outside_agree n n' pre sts post : outside n n' pre -> outside n n' post ->
  forall k q, n <= k < n' ->
  values (pre ++ sts ++ post) (SBlank (gen_label k)) q = values sts (SBlank (gen_label k)) q.
Proof.
  intros H1 H2 k q Hk. rewrite !values_app.
  rewrite (values_nil pre) by (intros t Ht; apply H1; auto).
  rewrite (values_nil post) by (intros t Ht; apply H2; auto).
  rewrite app_nil_r. reflexivity.
Qed.

Lemma reify_in_graph st n : let '((node, sts), n') := reify n st in
  node = SBlank (gen_label n) /\ n < n' /\
  (forall t, In t sts -> is_nested t = false /\ exists k, n <= k < n' /\ st_subject t = SBlank (gen_label k)) /\
  forall pre post,
  (forall t k, In t (pre ++ post) -> n <= k < n' -> st_subject t <> SBlank (gen_label k)) ->
  (forall b, In b (quoted_blanks st) -> ~ is_reification (pre ++ sts ++ post) b) ->
  describes (pre ++ sts ++ post) (gen_label n) st /\
  (forall st', describes (pre ++ sts ++ post) (gen_label n) st' -> st' = st) /\
  (forall t, In t sts -> exists b x, st_subject t = SBlank b /\ describes (pre ++ sts ++ post) b x).
Proof.
  pose proof (reify_spec st n) as RS. pose proof (fun G => proj2 (proj2 reify_nodes_all) st n G) as RN.
  destruct (reify n st) as [[node sts] n']. destruct RS as (A & B & C & D & E).
  split; auto. split; auto. split.
  - intros t Ht. split; auto. destruct (C t Ht) as (k & K1 & K2). eauto.
  - intros pre post O Q.
    assert (V : forall k q, In q reify_props -> n <= k < n' ->
       values (pre ++ sts ++ post) (SBlank (gen_label k)) q = values sts (SBlank (gen_label k)) q).
    { intros k q _ Hk. apply outside_agree with n n'; auto; intros t j Ht; apply O, in_or_app; auto. }
    specialize (E _ V Q). split; auto. split.
    + intros st' H. eapply describes_functional; eauto.
    + exact (RN _ V Q).
Qed.

Lemma reify_alone st n : (forall b, In b (quoted_blanks st) -> not_generated_from n b) ->
  let '((node, sts), n') := reify n st in
  exists b, node = SBlank b /\ describes sts b st /\
  (forall st', describes sts b st' -> st' = st) /\
  (forall t, In t sts -> is_nested t = false) /\
  (forall t, In t sts -> exists c x, st_subject t = SBlank c /\ describes sts c x) /\
  (forall t, In t sts -> forall c, In c (quoted_blanks st) -> st_subject t <> SBlank c).
Proof.
  intros NG. pose proof (reify_in_graph st n) as H. destruct (reify n st) as [[node sts] n'].
  destruct H as (-> & L & S & H). exists (gen_label n). split; auto. specialize (H [] []).
  cbn [app] in H. rewrite app_nil_r in H.
  assert (X : forall t, In t sts -> forall c, In c (quoted_blanks st) -> st_subject t <> SBlank c).
  { intros t Ht c Hc E. destruct (S t Ht) as (_ & k & Hk & Ek). rewrite Ek in E. injection E as E.
    symmetry in E. revert E. apply (NG c Hc). lia. }
  destruct H as (H1 & H2 & H3).
  - intros t k [].
  - intros b Hb K. unfold is_reification in K. apply values_In in K. apply (X _ K b Hb). reflexivity.
  - split; auto. split; auto. split; [intros t Ht; apply S, Ht|]. split; auto.
Qed.

Lemma coll_in_graph n items : let '((node, sts), n') := coll_reify n items in
  (items = [] <-> to_object node = ORes (rdf $"nil")) /\
  n' = n + N.of_nat (length items) /\ length sts = (3 * length items)%nat /\
  (forall t, In t sts -> exists k, n <= k < n' /\ st_subject t = SBlank (gen_label k)) /\
  forall pre post,
  (forall t k, In t (pre ++ post) -> n <= k < n' -> st_subject t <> SBlank (gen_label k)) ->
  rdf_list (pre ++ sts ++ post) (to_object node) items /\
  (forall l, rdf_list (pre ++ sts ++ post) (to_object node) l -> l = items).
Proof.
  pose proof (coll_reify_spec n items) as H.
  assert (NIL : forall node sts n', coll_reify n items = (node, sts, n') -> (items = [] <-> to_object node = ORes (rdf $"nil"))).
  { intros node sts n' E. unfold coll_reify in E. destruct items as [|o r].
    - injection E as <- <- <-. split; auto.
    - destruct (coll_cells (n + 1) (SBlank (gen_label n)) (o :: r)). injection E as <- <- <-.
      split; intros K; discriminate K. }
  destruct (coll_reify n items) as [[node sts] n'] eqn:E. destruct H as (A & B & C & D).
  split; [eapply NIL; reflexivity|]. split; auto. split; auto. split; [intros t Ht; exact (B t Ht)|].
  intros pre post O.
  assert (R : rdf_list (pre ++ sts ++ post) (to_object node) items).
  { apply D. intros k q Hk. apply outside_agree with n n'; auto; intros t j Ht; apply O, in_or_app; auto. }
  split; auto. intros l Hl. eapply rdf_list_functional; eauto.
Qed.

Lemma reify_collision :
  let '((node, sts), n') := reify 7 (MkStmt (SBlank $"B7") $"p" (ORes $"o")) in
  forall b, node = SBlank b -> ~ describes sts b (MkStmt (SBlank $"B7") $"p" (ORes $"o")).
Proof.
  intros b E D. vm_compute in E. injection E as <-. inversion D; subst.
  match goal with H : stands_s _ _ _ |- _ => inversion H; subst end.
  match goal with H : forall b, SBlank _ = SBlank b -> _ |- _ => apply (H _ eq_refl) end.
  unfold is_reification. left. vm_compute. reflexivity.
Qed.

(** Nested statements. *)
Lemma nested_iff st :
  is_nested st = true <-> (exists t, st_subject st = SStmt t) \/ (exists t, st_object st = OStmt t).
Proof.
  unfold is_nested. destruct st as [s p o]. cbn [st_subject st_object]. split.
  - destruct s as [i|b|t]; [| |intros _; left; exists t; reflexivity];
      (destruct o as [i'|b'|l|c|t']; cbn; try discriminate; intros _; right; exists t'; reflexivity).
  - intros [[t ->]|[t ->]]; cbn; [reflexivity|]. apply Bool.orb_true_r.
Qed.
