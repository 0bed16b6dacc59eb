From Coq Require Import Lia ZArith.
From Verif Require Import GraphProofs SimplifyProofs LiteralProofs TermProofs NTriplesWrite AMapFacts StrFacts JsonProofs.
From Verif Require Export JsonSpec.

(** ** Keys *)
Lemma show_iri_inj m a b : show_iri m a = show_iri m b -> a = b.
Proof. destruct m; cbn; [auto|]. intros E. injection E as E. apply app_inj_tail in E. tauto. Qed.
Lemma subj_show_inj m s t : s_is_statement s = false -> s_is_statement t = false -> subj_show m s = subj_show m t -> s = t.
Proof.
  destruct s, t; try discriminate; cbn [subj_show]; intros _ _ E.
  - change ($"_:") with [95; 58] in E. cbn in E. congruence.
  - cbn in E. injection E as E. apply app_inj_tail in E as [E _]. apply show_iri_inj in E. congruence.
Qed.
Lemma subj_head m s : s_is_statement s = false -> exists c r, subj_show m s = c :: r /\
  match s with SBlank b => c = 95 /\ r = 58 :: b | _ => c = 60 end.
Proof. destruct s; try discriminate; intros _; cbn; eauto. Qed.

(** ** Writing *)
Lemma js_subjects_ok m h g l : forall acc,
  (forall s p, In s l -> In p (ord_predicates h s (g_predicates_for g s)) ->
     Forall flat_object (ord_objects h s p (g_objects_for g s p))) ->
  js_subjects m h g acc l = io_ok (fold_left (fun mp s => js_insert mp (subj_show m s)
    (JObject (fold_left (fun mp p => js_insert mp (show_iri m p)
       (JArray (map (entry_of m) (ord_objects h s p (g_objects_for g s p)))))
       (ord_predicates h s (g_predicates_for g s)) []))) l acc).
Proof.
  induction l as [|s l IH]; intros acc F; cbn [js_subjects fold_left]; [reflexivity|].
  rewrite js_predicates_ok by (intros p P; apply F; [left; reflexivity|exact P]). cbn [io_bind io_ok].
  apply IH. intros t p T. apply F. right. exact T.
Qed.
Lemma js_subjects_err m h g l : forall acc,
  (exists s p, In s l /\ In p (ord_predicates h s (g_predicates_for g s)) /\
     ~ Forall flat_object (ord_objects h s p (g_objects_for g s p))) ->
  js_subjects m h g acc l = io_err RdfStarNotSupported.
Proof.
  induction l as [|t l IH]; intros acc (s & p & [] & P & N); cbn [js_subjects].
  - subst t. rewrite js_predicates_err by eauto. reflexivity.
  - destruct (Exists_dec (fun q => ~ Forall flat_object (ord_objects h t q (g_objects_for g t q)))
      (ord_predicates h t (g_predicates_for g t))) as [X|X].
    { intros q. destruct (Forall_dec flat_object flat_object_dec' (ord_objects h t q (g_objects_for g t q))); [right|left]; auto. }
    + apply Exists_exists in X. rewrite js_predicates_err by exact X. reflexivity.
    + rewrite js_predicates_ok.
      * cbn [io_bind io_ok]. apply IH. eauto.
      * intros q Q. destruct (Forall_dec flat_object flat_object_dec' (ord_objects h t q (g_objects_for g t q))) as [Y|Y]; [exact Y|].
        exfalso. apply X. apply Exists_exists. eauto.
Qed.

Lemma js_write_ok m h ho n g : orders_ok h ->
  Forall flat (g_list (fst (g_simplify ho n g))) ->
  exists doc, js_write m h ho n g = io_ok doc /\ describes m doc (g_list (fst (g_simplify ho n g))).
Proof.
  intros (HS & HP & HO) F. unfold js_write. set (G := fst (g_simplify ho n g)) in *. cbv zeta.
  rewrite js_subjects_ok.
  2:{ intros s p _ _. apply Forall_forall. intros o O. rewrite (perm_In _ _ _ (HO _ _ _)) in O. apply objects_for_spec in O.
      rewrite Forall_forall in F. apply F in O. exact (proj2 O). }
  cbn [io_bind io_ok]. eexists. split; [reflexivity|].
  set (pm := fun s => fold_left (fun mp p => js_insert mp (show_iri m p)
       (JArray (map (entry_of m) (ord_objects h s p (g_objects_for G s p)))))
       (ord_predicates h s (g_predicates_for G s)) []).
  set (subs := fold_left _ _ _).
  assert (FS : forall s, In s (ord_subjects h (g_subjects G)) -> s_is_statement s = false).
  { intros s S. rewrite (perm_In _ _ _ (HS _)) in S. apply subjects_spec in S as (p & o & S).
    rewrite Forall_forall in F. apply F in S. exact (proj1 S). }
  destruct (fold_js_insert (subj_show m) (fun s => JObject (pm s)) (ord_subjects h (g_subjects G)) [] js_map_nil) as [M1 M2].
  { intros a b A B E. apply subj_show_inj in E; auto. subst. reflexivity. }
  change (fold_left _ (ord_subjects h (g_subjects G)) []) with subs in M1, M2.
  exists subs. split; [reflexivity|]. split; [exact M1|]. split.
  - intros k. rewrite in_map_iff. split.
    + intros ((k' & v) & E & I). cbn in E. subst k'. apply M2 in I as [(s & S & -> & ->)|[[] _]].
      rewrite (perm_In _ _ _ (HS _)) in S. apply subjects_spec in S as (p & o & S). exists (MkStmt s p o). auto.
    + intros ([s p o] & I & ->). exists (subj_show m s, JObject (pm s)). split; [reflexivity|]. apply M2. left. exists s.
      split; [|auto]. rewrite (perm_In _ _ _ (HS _)). apply subjects_spec. eauto.
  - intros s v I S0. apply M2 in I as [(s' & S & E & ->)|[[] _]].
    apply subj_show_inj in E; auto. subst s'. exists (pm s). split; [reflexivity|].
    destruct (fold_js_insert (show_iri m) (fun p => JArray (map (entry_of m) (ord_objects h s p (g_objects_for G s p))))
      (ord_predicates h s (g_predicates_for G s)) [] js_map_nil) as [P1 P2].
    { intros a b A B E. apply show_iri_inj in E. subst. reflexivity. }
    fold (pm s) in P1, P2. split; [exact P1|]. split.
    + intros k. rewrite in_map_iff. split.
      * intros ((k' & v) & E & J). cbn in E. subst k'. apply P2 in J as [(p & P & -> & ->)|[[] _]].
        rewrite (perm_In _ _ _ (HP _ _)) in P. apply predicates_for_spec in P as (o & P). exists (MkStmt s p o). auto.
      * intros ([s' p o] & J & E & ->). cbn in E. subst s'. eexists (show_iri m p, _). split; [reflexivity|]. apply P2. left. exists p.
        split; [|auto]. rewrite (perm_In _ _ _ (HP _ _)). apply predicates_for_spec. eauto.
    + intros p w J. apply P2 in J as [(p' & P & E & ->)|[[] _]]. apply show_iri_inj in E. subst p'.
      eexists. split; [reflexivity|]. split.
      * eapply perm_NoDup; [apply HO|]. apply (projections_NoDup G s p).
      * intros o. rewrite (perm_In _ _ _ (HO _ _ _)). apply objects_for_spec.
Qed.
Lemma js_write_err m h ho n g : orders_ok h ->
  ~ Forall (fun st => flat_object (st_object st)) (g_list (fst (g_simplify ho n g))) ->
  js_write m h ho n g = io_err RdfStarNotSupported.
Proof.
  intros (HS & HP & HO) F. unfold js_write. set (G := fst (g_simplify ho n g)) in *. cbv zeta.
  rewrite js_subjects_err; [reflexivity|].
  apply neg_Forall_Exists_neg in F; [|intros st; apply flat_object_dec'].
  apply Exists_exists in F as ([s p o] & I & N). exists s, p. split; [|split].
  - rewrite (perm_In _ _ _ (HS _)). apply subjects_spec. eauto.
  - rewrite (perm_In _ _ _ (HP _ _)). apply predicates_for_spec. eauto.
  - intros A. rewrite Forall_forall in A. apply N. apply A. rewrite (perm_In _ _ _ (HO _ _ _)). apply objects_for_spec. exact I.
Qed.

Lemma c47 m h ho n g : orders_ok h -> hash_order ho ->
  (Forall simplifiable (g_list g) -> exists doc, js_write m h ho n g = io_ok doc /\
     describes m doc (g_list (fst (g_simplify ho n g)))) /\
  (~ Forall (fun st => flat_object (st_object st)) (g_list (fst (g_simplify ho n g))) ->
     js_write m h ho n g = io_err RdfStarNotSupported).
Proof.
  intros H Ho. split; [|apply js_write_err, H]. intros S. apply js_write_ok; [exact H|]. apply simplify_flat_iff; assumption.
Qed.

(** A flat graph is described as it is. *)
Lemma describes_ext m doc a b : (forall st, In st a <-> In st b) -> describes m doc a -> describes m doc b.
Proof.
  intros E (subs & D & M & K & V). exists subs. split; [exact D|]. split; [exact M|]. split.
  - intros k. rewrite K. split; intros (st & I & Q); exists st; (split; [apply E; exact I|exact Q]).
  - intros s v I S. destruct (V s v I S) as (preds & P1 & P2 & P3 & P4). exists preds. split; [exact P1|]. split; [exact P2|]. split.
    + intros k. rewrite P3. split; intros (st & J & Q); exists st; (split; [apply E; exact J|exact Q]).
    + intros p w J. destruct (P4 p w J) as (os & O1 & O2 & O3). exists os. split; [exact O1|]. split; [exact O2|]. intros o. rewrite O3. apply E.
Qed.
Lemma c47_flat m h ho n g : orders_ok h -> hash_order ho -> Forall flat (g_list g) ->
  exists doc, js_write m h ho n g = io_ok doc /\ describes m doc (g_list g).
Proof.
  intros H Ho F. destruct (js_write_ok m h ho n g H) as (doc & W & D).
  - rewrite simplify_flat_list by assumption. eapply Forall_perm; [|exact F]. apply Permutation_sym, g_iter_perm, Ho.
  - exists doc. split; [exact W|]. eapply describes_ext; [|exact D]. intros st. rewrite simplify_flat_list by assumption.
    apply perm_In, g_iter_perm, Ho.
Qed.

(** The entries are as many as the statements. *)
Lemma NoDup_app {A} (x y : list A) : NoDup x -> NoDup y -> (forall a, In a x -> ~ In a y) -> NoDup (x ++ y).
Proof.
  induction 1 as [|a x NI NX IH]; intros NY D; [exact NY|]. cbn. constructor.
  - rewrite in_app_iff. intros [I|I]; [auto|]. apply (D a); [left; reflexivity|exact I].
  - apply IH; [exact NY|]. intros b B. apply D. right. exact B.
Qed.
(** Collecting lists that belong to different keys. *)
Lemma collect {A B} (key : B -> A) (P : B -> Prop) (l : list A) (c : A -> nat) : NoDup l ->
  (forall a, In a l -> exists x, NoDup x /\ length x = c a /\ forall b, In b x <-> key b = a /\ P b) ->
  exists y, NoDup y /\ length y = list_sum (map c l) /\ forall b, In b y <-> In (key b) l /\ P b.
Proof.
  induction l as [|a l IH]; intros N H.
  - exists []. split; [constructor|]. split; [reflexivity|]. cbn. tauto.
  - inversion N as [|? ? NI N']; subst. destruct IH as (y & Y1 & Y2 & Y3); [exact N'|intros b I; apply H; right; exact I|].
    destruct (H a (or_introl eq_refl)) as (x & X1 & X2 & X3). exists (x ++ y). split; [|split].
    + apply NoDup_app; auto. intros b I J. apply X3 in I as [<- _]. apply Y3 in J as [J _]. auto.
    + rewrite app_length. cbn. f_equal; [exact X2|exact Y2].
    + intros b. rewrite in_app_iff, X3, Y3. cbn. intuition.
Qed.
Lemma describes_count m doc sts : Forall flat sts -> describes m doc sts ->
  exists l, NoDup l /\ (forall st, In st l <-> In st sts) /\ entry_count doc = length l.
Proof.
  intros F (subs & -> & M & K & V). rewrite Forall_forall in F.
  set (count := fun kv : str * json => length (flat_map js_items (js_values (snd kv)))).
  assert (KF : forall (mp : list (str * json)), js_map mp -> NoDup (map fst mp) /\ forall k v v', In (k, v) mp -> In (k, v') mp -> v = v').
  { intros mp MM. apply js_map_sorted in MM. split; [eapply sorted_NoDup_keys; eauto using any_total|].
    intros k v v'. eapply sorted_functional; eauto using any_total. }
  destruct (KF subs M) as [NK FK].
  pose (val := fun k => match js_get subs k with Some v => count (k, v) | None => O end).
  destruct (collect (fun st => subj_show m (st_subject st)) (fun st => In st sts) (map fst subs) val NK) as (l & L1 & L2 & L3).
  { intros k IK. pose proof IK as IK'. apply K in IK' as (st0 & I0 & EK). apply in_map_iff in IK as ((k' & v) & E & IK). cbn in E. subst k'.
    unfold val. rewrite (proj2 (js_get_In subs k v M) IK). subst k.
    destruct (V _ _ IK (proj1 (F _ I0))) as (preds & -> & MP & P3 & P4). destruct (KF preds MP) as [NP FP].
    pose (pval := fun p => match js_get preds p with Some w => length (js_items w) | None => O end).
    destruct (collect (fun st => show_iri m (st_predicate st)) (fun st => st_subject st = st_subject st0 /\ In st sts)
      (map fst preds) pval NP) as (x & X1 & X2 & X3).
    - intros p IP. pose proof IP as IP'. apply P3 in IP' as (st1 & I1 & ES & ->). apply in_map_iff in IP as ((p' & w) & E & IP). cbn in E. subst p'.
      unfold pval. rewrite (proj2 (js_get_In preds _ w MP) IP). destruct (P4 _ _ IP) as (os & -> & NO & O).
      exists (map (fun o => MkStmt (st_subject st0) (st_predicate st1) o) os). split; [|split].
      + apply FinFun.Injective_map_NoDup; [intros a b E; congruence|exact NO].
      + cbn [js_items]. rewrite !map_length. reflexivity.
      + intros [s p o]. rewrite in_map_iff. cbn [st_subject st_predicate]. split.
        * intros (o' & E & IO). injection E as <- <- <-. apply O in IO. auto.
        * intros (E & -> & IO). apply show_iri_inj in E. subst p. exists o. split; [reflexivity|]. apply O. exact IO.
    - exists x. split; [exact X1|]. split.
      + rewrite X2. unfold count. cbn [snd js_values]. rewrite length_flat_map, !map_map. f_equal. apply map_ext_in.
        intros [p w] IP. cbn [fst snd]. unfold pval. rewrite (proj2 (js_get_In preds p w MP) IP). reflexivity.
      + intros st. rewrite X3. split.
        * intros (_ & -> & I). auto.
        * intros (E & I). apply subj_show_inj in E; [|apply F; exact I|apply F; exact I0].
          split; [|split; [exact E|exact I]]. apply P3. exists st. auto. }
  exists l. split; [exact L1|]. split.
  - intros st. rewrite L3. split; [tauto|]. intros I. split; [|exact I]. apply K. eauto.
  - rewrite L2. unfold entry_count. unfold js_values at 2. rewrite length_flat_map.
    replace (list_sum (map val (map fst subs))) with (list_sum (map count subs)).
    + clear. unfold count. induction subs as [|[k v] subs IH]; [reflexivity|]. cbn [map flat_map snd].
      rewrite map_app, list_sum_app. cbn [list_sum]. rewrite IH, <- length_flat_map. reflexivity.
    + rewrite map_map. f_equal. apply map_ext_in. intros [k v] IK. cbn [fst]. unfold val.
      rewrite (proj2 (js_get_In subs k v M) IK). reflexivity.
Qed.

(** ** Reading back *)
Section Back.
Variable iri_parse : str -> option str.
Variable lang_parse : str -> option str.
Variable label_ok : str -> bool.
Variable gext printable : chr -> bool.
Notation read := (js_read iri_parse lang_parse label_ok gext printable).
Notation den := (denotes iri_parse lang_parse label_ok gext printable).
Notation skey := (subject_key iri_parse label_ok).
Notation den_obj := (den_object iri_parse lang_parse label_ok gext printable).

Lemma entry_map m o mp : entry_of m o = JObject mp -> js_map mp.
Proof.
  destruct o as [b|i|l|items|st]; cbn [entry_of]; intros E; try discriminate; injection E as <-; unfold js_map.
  - repeat constructor.
  - repeat constructor.
  - destruct (lit_data_type l), (lit_language l); repeat constructor.
Qed.
Lemma entry_den o : js_object_readable iri_parse lang_parse label_ok o ->
  exists o', den_obj (entry_of Bare o) = io_ok o' /\ js_reread_object gext printable o o'.
Proof.
  destruct o as [b|i|l|items|st]; cbn [js_object_readable]; intros R; [| | |destruct R|destruct R].
  - destruct R as (x & A & B). apply slice_two in A as S. exists (OBlank x). split; [|cbn; eauto].
    change (den_obj (entry_of Bare (OBlank b))) with (match slice_from b 2 with Ret w => let? b := js_blank label_ok w in io_ok (OBlank b) | Panic => Panic end).
    rewrite S. unfold js_blank. rewrite B. reflexivity.
  - exists (ORes i). split; [|reflexivity].
    change (den_obj (entry_of Bare (ORes i))) with (let? j := js_iri iri_parse i in io_ok (ORes j)). unfold js_iri. rewrite R. reflexivity.
  - eexists. split; [|reflexivity]. unfold entry_of. destruct (lit_data_type l) as [d|], (lit_language l) as [t|]; [destruct R| | |].
    + cbn [app]. change (show_iri Bare (dt_as_iri d)) with (dt_as_iri d).
      transitivity (let? x := (let? i := js_iri iri_parse (dt_as_iri d) in
        io_ok (lit_with_data_type gext printable (lexical_form l) (dt_from_iri i))) in io_ok (OLit x)); [reflexivity|].
      unfold js_iri. rewrite R. reflexivity.
    + transitivity (let? x := match lang_parse t with Some t' => io_ok (lit_with_language gext printable (lexical_form l) t')
        | None => io_err InvalidLanguageTag end in io_ok (OLit x)); [reflexivity|]. rewrite R. reflexivity.
    + reflexivity.
Qed.
Lemma reread_functional o a b : js_reread_object gext printable o a -> js_reread_object gext printable o b -> a = b.
Proof.
  destruct o; cbn; try congruence; try tauto. intros (w & W & ->) (w' & W' & ->). f_equal. eapply after_two_functional; eauto.
Qed.

Lemma describes_wf m doc sts : Forall flat sts -> describes m doc sts -> js_wf doc.
Proof.
  intros F (subs & -> & M & K & V) k p mp (subs' & preds & es & E & IK & IP & IE). injection E as <-.
  assert (KS : In k (map fst subs)) by (apply in_map_iff; exists (k, JObject preds); auto).
  apply K in KS as (st & I & ->). rewrite Forall_forall in F. destruct (F st I) as [FS _].
  destruct (V _ _ IK FS) as (preds' & E & _ & P3 & P4). injection E as <-.
  assert (KP : In p (map fst preds)) by (apply in_map_iff; exists (p, JArray es); auto).
  apply P3 in KP as (st' & I' & _ & ->). destruct (P4 _ _ IP) as (os & E & _). injection E as ->.
  apply in_map_iff in IE as (o & E & _). eapply entry_map. exact E.
Qed.

Lemma c46_back doc sts : describes Bare doc sts -> Forall (js_readable iri_parse lang_parse label_ok) sts ->
  exists g, read doc = io_ok g /\
    forall st', In st' (g_list g) <-> exists st, In st sts /\ js_reread gext printable st st'.
Proof.
  intros D R. rewrite Forall_forall in R.
  assert (F : Forall flat sts).
  { apply Forall_forall. intros st I. destruct (R st I) as ((b & S & _) & _ & O). split; [rewrite S; reflexivity|].
    destruct (st_object st); cbn in *; auto. }
  pose proof (describes_wf _ _ _ F D) as W. pose proof D as (subs & E & M & K & V). subst doc.
  assert (SK : forall st, In st sts -> skey (subj_show Bare (st_subject st)) (st_subject st)).
  { intros st I. destruct (R st I) as ((b & S & B) & _). rewrite S. left. exists b. auto. }
  assert (S : sensible iri_parse lang_parse label_ok gext printable (JObject subs)).
  { exists subs. split; [reflexivity|]. intros k v IK.
    assert (KS : In k (map fst subs)) by (apply in_map_iff; exists (k, v); auto). apply K in KS as (st & I & ->).
    rewrite Forall_forall in F. destruct (V _ _ IK (proj1 (F st I))) as (preds & -> & _ & P3 & P4).
    exists (st_subject st), preds. split; [apply SK, I|]. split; [reflexivity|]. intros p w IP.
    assert (KP : In p (map fst preds)) by (apply in_map_iff; exists (p, w); auto). apply P3 in KP as (st' & I' & ES & ->).
    destruct (P4 _ _ IP) as (os & -> & _ & O). exists (st_predicate st'), (map (entry_of Bare) os).
    split; [exact (proj1 (proj2 (R st' I')))|]. split; [reflexivity|]. intros e IE. apply in_map_iff in IE as (o & <- & IO).
    apply O in IO. destruct (R _ IO) as (_ & _ & RO). destruct (entry_den o RO) as (o' & DO & _). exists o'.
    apply den_object_spec; [|exact DO]. intros mp EM. eapply entry_map. exact EM. }
  apply c61_sensible in S as (g & G); [|exact W]. exists g. split; [exact G|]. intros st'. rewrite (c61_lists _ _ _ _ _ _ _ st' W G).
  split.
  - intros (k & p & e & (subs' & preds & es & E & IK & IP & IE) & SK' & PI & DE). injection E as <-.
    assert (KS : In k (map fst subs)) by (apply in_map_iff; exists (k, JObject preds); auto). apply K in KS as (st & I & ->).
    rewrite Forall_forall in F. destruct (V _ _ IK (proj1 (F st I))) as (preds' & E & _ & P3 & P4). injection E as <-.
    assert (KP : In p (map fst preds)) by (apply in_map_iff; exists (p, JArray es); auto). apply P3 in KP as (st1 & I1 & ES & ->).
    destruct (P4 _ _ IP) as (os & E & _ & O). injection E as ->. apply in_map_iff in IE as (o & <- & IO). apply O in IO.
    destruct (R _ IO) as (_ & PR & RO). destruct (entry_den o RO) as (o' & DO & RR).
    apply den_object_spec in DE; [|intros mp EM; eapply entry_map; exact EM]. rewrite DE in DO. injection DO as <-.
    exists (MkStmt (st_subject st) (st_predicate st1) o). split; [exact IO|]. unfold js_reread. cbn [st_subject st_predicate st_object].
    split; [eapply skey_functional; [exact SK'|apply SK, I]|]. split; [|exact RR]. cbn [st_predicate] in PR. cbn [show_iri] in PI. congruence.
  - intros (st & I & RS & RP & RO). destruct st as [s p o]. cbn [st_subject st_predicate st_object] in *.
    assert (KS : In (subj_show Bare s) (map fst subs)) by (apply K; exists (MkStmt s p o); auto).
    apply in_map_iff in KS as ((k & v) & E & IK). cbn in E. subst k.
    rewrite Forall_forall in F. destruct (V _ _ IK (proj1 (F _ I))) as (preds & -> & _ & P3 & P4).
    assert (KP : In (show_iri Bare p) (map fst preds)) by (apply P3; exists (MkStmt s p o); auto).
    apply in_map_iff in KP as ((k & w) & E & IP). cbn in E. subst k.
    destruct (P4 _ _ IP) as (os & -> & _ & O). exists (subj_show Bare s), p, (entry_of Bare o). split; [|split; [|split]].
    + exists subs, preds, (map (entry_of Bare) os). split; [reflexivity|]. split; [exact IK|]. split; [exact IP|].
      apply in_map. apply O. exact I.
    + rewrite RS. apply (SK _ I).
    + rewrite RP. exact (proj1 (proj2 (R _ I))).
    + destruct (R _ I) as (_ & _ & RO'). destruct (entry_den o RO') as (o' & DO & RR).
      rewrite (reread_functional _ _ _ RO RR). apply den_object_spec; [|exact DO]. intros mp EM. eapply entry_map. exact EM.
Qed.

Lemma c46_round h ho n g : orders_ok h -> hash_order ho -> Forall (js_readable iri_parse lang_parse label_ok) (g_list g) ->
  exists doc g', js_write Bare h ho n g = io_ok doc /\ read doc = io_ok g' /\
    forall st', In st' (g_list g') <-> exists st, In st (g_list g) /\ js_reread gext printable st st'.
Proof.
  intros H Ho R. destruct (c47_flat Bare h ho n g H Ho) as (doc & W & D).
  { eapply Forall_impl; [|exact R]. intros st ((b & S & _) & _ & O). split; [rewrite S; reflexivity|]. destruct (st_object st); cbn in *; auto. }
  destruct (c46_back doc _ D R) as (g' & G & I). eauto.
Qed.
Lemma stable_js st st' : js_stable gext printable st -> js_reread gext printable st st' <-> st' = st.
Proof.
  destruct st as [s p o], st' as [s' p' o']. unfold js_stable, js_reread. cbn [st_subject st_predicate st_object]. intros S.
  assert (E : js_reread_object gext printable o o' <-> o' = o).
  { destruct o as [b|i|[lex d t]|items|st]; try destruct S; cbn [js_reread_object]; [reflexivity|]. cbn [lexical_form lit_data_type lit_language] in *.
    rewrite (proj2 (escape_id_iff gext printable lex)) by assumption. destruct d as [d|]; cbn [option_map]; [|reflexivity].
    match goal with H : dt_from_iri _ = _ |- _ => rewrite H end. reflexivity. }
  rewrite E. split; [intros (-> & -> & ->); reflexivity|intros Q; injection Q as -> -> ->; auto].
Qed.
Lemma c46_stable h ho n g : orders_ok h -> hash_order ho -> Forall (js_readable iri_parse lang_parse label_ok) (g_list g) ->
  Forall (js_stable gext printable) (g_list g) ->
  exists doc g', js_write Bare h ho n g = io_ok doc /\ read doc = io_ok g' /\ NoDup (g_list g') /\
    forall st, In st (g_list g') <-> In st (g_list g).
Proof.
  intros H Ho R S.
  assert (F : Forall flat (g_list g)).
  { eapply Forall_impl; [|exact R]. intros st ((b & Q & _) & _ & O). split; [rewrite Q; reflexivity|]. destruct (st_object st); cbn in *; auto. }
  destruct (c47_flat Bare h ho n g H Ho F) as (doc & W & D).
  destruct (c46_back doc _ D R) as (g' & G & I). exists doc, g'. split; [exact W|]. split; [exact G|].
  rewrite Forall_forall in S.
  assert (E : forall st, In st (g_list g') <-> In st (g_list g)).
  { intros st. rewrite I. split.
    - intros (st0 & I0 & RR). apply (stable_js st0 st (S _ I0)) in RR. subst. exact I0.
    - intros I0. exists st. split; [exact I0|]. apply stable_js; auto. }
  split; [|exact E]. destruct (describes_count _ _ _ F D) as (l & L1 & L2 & L3).
  apply (NoDup_incl_NoDup (l := l)); [exact L1| |].
  - rewrite <- L3, <- (c61_count _ _ _ _ _ _ _ G). reflexivity.
  - intros st J. apply E, L2, J.
Qed.

(** Documents which cannot be read back. *)
Lemma head_fails m subs : (forall t, iri_parse (60 :: t) = None) -> forall sts, Forall flat sts -> describes m (JObject subs) sts ->
  (exists st i, In st sts /\ st_subject st = SRes i) -> read (JObject subs) = io_err InvalidIri.
Proof.
  intros X sts F (subs' & E & M & K & V) (st & i & I & S). injection E as <-. rewrite Forall_forall in F.
  assert (KS : In (subj_show m (SRes i)) (map fst subs)) by (apply K; exists st; rewrite S; auto).
  destruct subs as [|[k v] subs]; [destruct KS|].
  assert (KH : In k (map fst ((k, v) :: subs))) by (left; reflexivity). apply K in KH as (st0 & I0 & EK).
  destruct (V (st_subject st0) v) as (preds & -> & _); [left; rewrite EK; reflexivity|exact (proj1 (F st0 I0))|].
  assert (T : exists t, k = 60 :: t).
  { destruct (st_subject st0) as [b|j|] eqn:E0; [|cbn in EK; subst k; cbn; eauto|apply F in I0 as [Q _]; rewrite E0 in Q; discriminate].
    exfalso. destruct KS as [Q|KS].
    - cbn [map fst] in Q. rewrite EK in Q. apply (subj_show_inj m (SBlank b) (SRes i)) in Q; [discriminate|reflexivity|reflexivity].
    - apply in_map_iff in KS as ((k' & v') & Q & J). cbn [fst] in Q. inversion M as [|? ? _ FA]; subst.
      rewrite Forall_forall in FA. apply FA in J. cbn in J. discriminate J. }
  destruct T as (t & ->). cbn [js_read js_subject_loop js_statements]. unfold js_subject. cbn [strip_prefix].
  change (strip_prefix BNODE_PREFIX (60 :: t)) with (@None (list N)). cbv iota. unfold js_iri. rewrite X. reflexivity.
Qed.
Lemma angled_fails subs : (forall t, iri_parse (60 :: t) = None) -> forall sts, Forall flat sts -> describes Angled (JObject subs) sts ->
  sts <> [] -> exists e, read (JObject subs) = io_err e /\ (e = InvalidIri \/ e = InvalidBlankNode).
Proof.
  intros X sts F (subs' & E & M & K & V) N. injection E as <-. rewrite Forall_forall in F.
  destruct subs as [|[k v] subs].
  { exfalso. destruct sts as [|st sts]; [congruence|]. apply (K (subj_show Angled (st_subject st))). exists st. split; [left; reflexivity|auto]. }
  assert (KH : In k (map fst ((k, v) :: subs))) by (left; reflexivity). apply K in KH as (st0 & I0 & EK).
  destruct (V (st_subject st0) v) as (preds & -> & _ & P3 & P4); [left; rewrite EK; reflexivity|exact (proj1 (F st0 I0))|].
  cbn [js_read js_subject_loop js_statements].
  destruct (js_subject iri_parse label_ok k) as [[s|e]|] eqn:S.
  - cbn [io_bind]. destruct preds as [|[p w] preds].
    { exfalso. apply (P3 (show_iri Angled (st_predicate st0))). exists st0. auto. }
    assert (KP : In p (map fst ((p, w) :: preds))) by (left; reflexivity). apply P3 in KP as (st1 & I1 & ES & EP).
    destruct (P4 (st_predicate st1) w) as (os & -> & _); [left; rewrite EP; reflexivity|].
    subst p. cbn [js_predicate_loop js_predicate show_iri app]. unfold js_iri. rewrite X. exists InvalidIri. cbn. auto.
  - exists e. split; [reflexivity|]. unfold js_subject, js_blank, js_iri in S. destruct (strip_prefix BNODE_PREFIX k) as [b|].
    + destruct (bn_from_str label_ok b); try discriminate. injection S as <-. auto.
    + destruct (iri_parse k); try discriminate. injection S as <-. auto.
  - exfalso. unfold js_subject, js_blank, js_iri in S. destruct (strip_prefix BNODE_PREFIX k) as [b|].
    + destruct (bn_from_str label_ok b); discriminate.
    + destruct (iri_parse k); discriminate.
Qed.
Lemma c46_fails m h ho n g : orders_ok h -> hash_order ho -> (forall t, iri_parse (60 :: t) = None) ->
  Forall flat (g_list g) -> g_list g <> [] ->
  exists doc, js_write m h ho n g = io_ok doc /\
    ((exists st i, In st (g_list g) /\ st_subject st = SRes i) -> read doc = io_err InvalidIri) /\
    (m = Angled -> exists e, read doc = io_err e /\ (e = InvalidIri \/ e = InvalidBlankNode)).
Proof.
  intros H Ho X F N. destruct (c47_flat m h ho n g H Ho F) as (doc & W & D). exists doc. split; [exact W|].
  pose proof D as (subs & -> & _). split.
  - intros S. eapply head_fails; eauto.
  - intros ->. eapply angled_fails; eauto.
Qed.
End Back.

Lemma c61_reads iri_parse lang_parse label_ok gext printable doc : js_wf doc ->
  ((exists g, js_read iri_parse lang_parse label_ok gext printable doc = Ret (Ok g)) <->
     sensible iri_parse lang_parse label_ok gext printable doc) /\
  (forall g, js_read iri_parse lang_parse label_ok gext printable doc = Ret (Ok g) ->
     length (g_list g) = entry_count doc /\
     forall st, In st (g_list g) <-> lists iri_parse lang_parse label_ok gext printable doc st).
Proof.
  intros W. split; [apply c61_sensible, W|]. intros g G. split; [eapply c61_count; exact G|].
  intros st. apply c61_lists; assumption.
Qed.
