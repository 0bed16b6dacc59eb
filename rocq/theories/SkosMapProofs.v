(** Proofs of C118. *)
From Coq Require Import Lia.
From Verif Require Import Str PName Url Iri PrefixMap Names Term StrFacts PNameProofs IriProofs PrefixMapProofs NamesProofs SkosProofs SkosMain SkosMore.
From Verif Require Export SkosMapSpec.

Definition std_tables : list table := [tb_sk; tb_sk_xl; tb_sk_iso; tb_sk_status; tb_dc_terms; tb_rdf; tb_owl; tb_xsd].
Definition voc_of (t : table) : vocabulary := MkVocabulary (tb_prefix t) (tb_ns t).

Lemma std_pairs : map (fun t => (tb_prefix t, tb_ns t)) std_tables = standard_pairs.
Proof. reflexivity. Qed.
Lemma std_all (f : table -> bool) t : forallb f std_tables = true -> In t std_tables -> f t = true.
Proof. intros H I. rewrite forallb_forall in H. apply H, I. Qed.
Lemma std_sound t : In t std_tables -> sound t /\ distinct_functions t.
Proof.
  intros I. split.
  - apply sound_b_ok. apply (std_all sound_b); [vm_compute; reflexivity|exact I].
  - apply nodup_b_ok. apply (std_all (fun t => nodup_b (map fst (tb_members t)))); [vm_compute; reflexivity|exact I].
Qed.
Lemma std_prefix t : In t std_tables -> default_prefix_fn t = Ret (MkName (tb_prefix t)) /\
  namespace_from_str (tb_prefix t ++ $":") = Ok (MkNamespace (tb_prefix t ++ $":")).
Proof. intros I. cbn in I. repeat (destruct I as [<-|I]; [split; vm_compute; reflexivity|]). destruct I. Qed.
Lemma std_vocabulary t : In t std_tables -> vocabulary_ok (voc_of t).
Proof.
  intros I. destruct (std_sound t I) as (((u & W & _ & E) & _) & _). split.
  - eexists. apply std_prefix, I.
  - exists u. split; [exact W|symmetry; exact E].
Qed.

Section Std.
Variable parse : str -> option url.
Hypothesis P : parser_ok parse.

Lemma insert_is m t : In t std_tables -> insert_table parse m t = pm_insert_vocabulary parse m (voc_of t).
Proof.
  intros I. destruct (std_prefix t I) as (D & N). unfold insert_table, pm_insert_vocabulary, voc_prefix_as_namespace.
  rewrite D. cbn [voc_of voc_prefix]. rewrite N. cbn [and_then name_text]. unfold namespace_fn, ns_iri, voc_iri_as_iri. cbn [voc_of voc_iri].
  destruct (iri_from_str parse (tb_ns t)); reflexivity.
Qed.
Lemma inserts_are l : incl l std_tables -> forall acc,
  fold_left (fun acc t => and_then acc (fun m => insert_table parse m t)) l acc = pm_with_vocabularies parse acc (map voc_of l).
Proof.
  unfold pm_with_vocabularies. induction l as [|t l IH]; intros S acc; [reflexivity|]. cbn [fold_left map].
  rewrite IH by (intros x J; apply S; right; exact J). f_equal. destruct acc as [m|]; [|reflexivity]. cbn [and_then]. apply insert_is, S. left. reflexivity.
Qed.
Lemma standard_is m : standard_mappings parse m = pm_exec parse m (map OpInsertVocabulary (map voc_of std_tables)).
Proof.
  unfold standard_mappings. change [tb_sk; tb_sk_xl; tb_sk_iso; tb_sk_status; tb_dc_terms; tb_rdf; tb_owl; tb_xsd] with std_tables.
  rewrite inserts_are by apply incl_refl. apply with_vocabularies_exec.
Qed.
Lemma exec_app h h' : forall m, pm_exec parse m (h ++ h') = match pm_exec parse m h with Ret m' => pm_exec parse m' h' | Panic => Panic end.
Proof. induction h as [|o h IH]; intros m; [reflexivity|]. cbn [app pm_exec]. destruct (pm_step parse m o); [apply IH|reflexivity]. Qed.
Lemma standard_run s h m : pm_run parse s h = Ret m ->
  standard_mappings parse m = pm_run parse s (h ++ map OpInsertVocabulary (map voc_of std_tables)).
Proof.
  unfold pm_run. destruct (pm_init parse s) as [m0|]; [|discriminate]. intros E. rewrite exec_app, E. apply standard_is.
Qed.

Definition avoids (vs : list vocabulary) (p : namespace) (i : url) : Prop :=
  forall v, In v vs -> p <> MkNamespace (voc_prefix v ++ $":") /\ url_ser i <> voc_iri v.
Lemma fold_vocabularies vs : NoDup (map voc_prefix vs) -> NoDup (map voc_iri vs) -> forall R p i,
  fold_left rel_step (map OpInsertVocabulary vs) R p i <-> (exists v, In v vs /\ voc_pair v p i) \/ (R p i /\ avoids vs p i).
Proof.
  induction vs as [|v vs IH]; intros N1 N2 R p i.
  - cbn. split; [intros H; right; split; [exact H|intros v []]|intros [(v & [] & _)|[H _]]; exact H].
  - cbn [map fold_left] in *. inversion N1 as [|a l M1 N1']; subst. inversion N2 as [|a l M2 N2']; subst. rewrite (IH N1' N2'). cbn [rel_step]. split.
    + intros [(w & I & W)|[[V|(HR & A & B)] C]].
      * left. exists w. split; [right; exact I|exact W].
      * left. exists v. split; [left; reflexivity|exact V].
      * right. split; [exact HR|]. intros w [<-|I]; [split; assumption|apply C, I].
    + intros [(w & [<-|I] & W)|[HR C]].
      * right. split; [left; exact W|]. destruct W as (-> & S & _). intros w I. split.
        -- intros E. injection E as E. apply app_inv_tail in E. apply M1. rewrite E. apply in_map, I.
        -- rewrite S. intros E. apply M2. rewrite E. apply in_map, I.
      * left. exists w. split; assumption.
      * right. split; [right; split; [exact HR|apply C; left; reflexivity]|]. intros w I. apply C. right. exact I.
Qed.

Lemma std_pair x ns : In (x, ns) standard_pairs <-> exists t, In t std_tables /\ tb_prefix t = x /\ tb_ns t = ns.
Proof.
  rewrite <- std_pairs, in_map_iff. split.
  - intros (t & E & I). injection E as <- <-. eauto.
  - intros (t & I & <- & <-). eauto.
Qed.
Lemma std_ops h : Forall op_ok h -> Forall op_ok (h ++ map OpInsertVocabulary (map voc_of std_tables)).
Proof.
  intros F. apply Forall_app. split; [exact F|]. apply Forall_forall. intros o I. apply in_map_iff in I as (v & <- & I).
  apply in_map_iff in I as (t & <- & I). apply std_vocabulary, I.
Qed.

Lemma c118_mappings s h m : Forall op_ok h -> pm_run parse s h = Ret m ->
  exists m', standard_mappings parse m = Ret m' /\ forall p i, pm_get_namespace m' p = Some i <->
    (exists x ns, In (x, ns) standard_pairs /\ p = MkNamespace (x ++ $":") /\ url_ser i = ns /\ wf_url i = true) \/
    (pm_get_namespace m p = Some i /\ forall x ns, In (x, ns) standard_pairs -> p <> MkNamespace (x ++ $":") /\ url_ser i <> ns).
Proof.
  intros F E. destruct (c12_refines parse P s _ (std_ops h F)) as (m' & E' & G & _). exists m'.
  split; [rewrite (standard_run s h m E); exact E'|]. intros p i. rewrite G. unfold rel_replay. rewrite fold_left_app.
  rewrite fold_vocabularies; [|apply nodupb_ok; vm_compute; reflexivity|apply nodupb_ok; vm_compute; reflexivity].
  destruct (c12_refines parse P s h F) as (m0 & E0 & G0 & _). rewrite E in E0. injection E0 as <-.
  change (fold_left rel_step h (rel_init s) p i) with (rel_replay s h p i). rewrite <- G0. split.
  - intros [(v & I & Hp & Hi & W)|[H A]].
    + left. apply in_map_iff in I as (t & <- & I). exists (tb_prefix t), (tb_ns t). split; [apply std_pair; eauto|]. auto.
    + right. split; [exact H|]. intros x ns I. apply std_pair in I as (t & I & <- & <-). apply (A (voc_of t)). apply in_map, I.
  - intros [(x & ns & I & -> & S & W)|[H A]].
    + left. apply std_pair in I as (t & I & <- & <-). exists (voc_of t). split; [apply in_map, I|]. repeat split; assumption.
    + right. split; [exact H|]. intros v I. apply in_map_iff in I as (t & <- & I). apply A. apply std_pair. eauto.
Qed.

Lemma c118_short s h m m' : Forall op_ok h -> pm_run parse s h = Ret m -> standard_mappings parse m = Ret m' ->
  forall t f nm, In t std_tables -> In (f, nm) (tb_members t) -> shortened m' (tb_ns t ++ nm).
Proof.
  intros F E S t f nm I M. destruct (std_sound t I) as (So & D). destruct (std_prefix t I) as (_ & N).
  rewrite (standard_run s h m E) in S. pose proof (std_ops h F) as F'.
  destruct (c12_refines parse P s _ F') as (m1 & E1 & G1 & _ & L1 & _). rewrite S in E1. injection E1 as <-.
  pose proof So as ((u & W & _ & U) & _).
  assert (J : In (MkNamespace (tb_prefix t ++ $":"), u) (pm_mappings m')).
  { apply L1. unfold rel_replay. rewrite fold_left_app. rewrite fold_vocabularies; [|apply nodupb_ok; vm_compute; reflexivity|apply nodupb_ok; vm_compute; reflexivity].
    left. exists (voc_of t). split; [apply in_map, I|]. repeat split; assumption. }
  pose proof (In_assoc f nm (tb_members t) D M) as A.
  destruct (c73_map parse P t f nm s _ m' u So A N F' S J U) as (q & l & i & Q & Lq & C & X & Y).
  destruct (c73_member parse P t f nm So A) as (_ & Q' & i' & C' & Si & _). rewrite Q in Q'. injection Q' as ->. rewrite C in C'. injection C' as <-.
  exists (tb_prefix t), (tb_ns t), nm, i, l. split; [apply std_pair; eauto|]. auto.
Qed.
Lemma c118_has s h m m' iri : Forall op_ok h -> pm_run parse s h = Ret m -> standard_mappings parse m = Ret m' ->
  existsb (fun t => existsb (fun q => str_eqb (tb_ns t ++ snd q) iri) (tb_members t)) std_tables = true -> shortened m' iri.
Proof.
  intros F E S X. apply existsb_exists in X as (t & I & X). apply existsb_exists in X as ((f & nm) & J & X). cbn [snd] in X. apply str_eqb_eq in X as <-.
  eapply c118_short; eassumption.
Qed.
End Std.

Ltac known := eapply c118_has; [eassumption|eassumption|eassumption|eassumption|vm_compute; reflexivity].

Lemma c118_thesaurus parse s h m m' gext printable u l ops fuel n sts n' st : parser_ok parse ->
  Forall op_ok h -> pm_run parse s h = Ret m -> standard_mappings parse m = Ret m' -> let w := skos_run (world_new u l) ops in
  scheme_statements gext printable fuel n w = Some (sts, n') -> In st sts -> ~ given w (st_predicate st) ->
  shortened m' (st_predicate st) /\ forall c, st_predicate st = rdf $"type" -> st_object st = ORes c -> shortened m' c.
Proof.
  intros P F E S w Q I G.
  assert (Res : forall x ls ps, has_labels w ls -> has_properties w ps -> resource_says gext printable x ls ps st ->
    shortened m' (st_predicate st) /\ forall c, st_predicate st = rdf $"type" -> st_object st = ORes c -> shortened m' c).
  { intros x ls ps HL HP R. destruct R as [lb J|q J].
    - split; [|intros c _ X; discriminate X]. destruct lb as [k t g]. cbn [st_predicate sl_kind] in *. destruct k; try (cbn [kind_name]; known).
      destruct G. left. exists ls, t, g. split; [exact HL|exact J].
    - destruct G. right. left. exists ps, q. auto. }
  destruct (st_subject st) as [b|x|x] eqn:Sb.
  2,3: assert (N : forall b, st_subject st <> SBlank b) by (intros b; rewrite Sb; discriminate);
    apply (c86_in gext printable u l ops fuel n sts n' st Q N) in I; clear Sb N;
    destruct I as [|st R|k c J K|k c J K|k c st J K C|c st J C];
    [split; [cbn; known|intros c _ X; injection X as <-; known]
    |apply (Res _ _ _ (or_introl eq_refl) (or_introl eq_refl) R)
    |split; [cbn; known|intros d X; discriminate X]
    |split; [cbn; known|intros d X; discriminate X]
    | |].
  - destruct (c87_cells gext printable u l ops fuel n sts n' Q st b I Sb); cbn [st_predicate st_object];
      (split; [known|intros c X Y; try discriminate X; try discriminate Y; injection Y as <-; known]).
  - apply nth_error_In in K. destruct C as [| |r k' c' J' K'|p i J'|st R].
    + split; [cbn; known|intros d _ X; injection X as <-; known].
    + split; [cbn; known|intros d X; discriminate X].
    + cbn [link st_predicate]. split; [destruct r; cbn [relation_name]; known|]. intros d X. destruct r; discriminate X.
    + destruct G. right. right. exists c, i. split; [exact K|exact J'].
    + apply (Res _ _ _ (or_intror (or_introl (ex_intro _ c (conj K eq_refl)))) (or_intror (or_introl (ex_intro _ c (conj K eq_refl)))) R).
  - destruct C as [| |x' O M|st R].
    + split; [cbn; known|]. intros d _ X. destruct (kl_ordered c); injection X as <-; known.
    + split; [cbn; known|intros d X; discriminate X].
    + split; [cbn; known|intros d X; discriminate X].
    + apply (Res _ _ _ (or_intror (or_intror (ex_intro _ c (conj J eq_refl)))) (or_intror (or_intror (ex_intro _ c (conj J eq_refl)))) R).
  - apply nth_error_In in K. destruct C as [| |r k' c' J' K'|p i J'|st R].
    + split; [cbn; known|intros d _ X; injection X as <-; known].
    + split; [cbn; known|intros d X; discriminate X].
    + cbn [link st_predicate]. split; [destruct r; cbn [relation_name]; known|]. intros d X. destruct r; discriminate X.
    + destruct G. right. right. exists c, i. split; [exact K|exact J'].
    + apply (Res _ _ _ (or_intror (or_introl (ex_intro _ c (conj K eq_refl)))) (or_intror (or_introl (ex_intro _ c (conj K eq_refl)))) R).
  - destruct C as [| |x' O M|st R].
    + split; [cbn; known|]. intros d _ X. destruct (kl_ordered c); injection X as <-; known.
    + split; [cbn; known|intros d X; discriminate X].
    + split; [cbn; known|intros d X; discriminate X].
    + apply (Res _ _ _ (or_intror (or_intror (ex_intro _ c (conj J eq_refl)))) (or_intror (or_intror (ex_intro _ c (conj J eq_refl)))) R).
Qed.

Lemma c118_constructors parse s h m m' fn p : parser_ok parse ->
  Forall op_ok h -> pm_run parse s h = Ret m -> standard_mappings parse m = Ret m' ->
  assoc fn constructor_names = Some p \/ assoc fn constructor_names_with = Some p -> shortened m' p.
Proof.
  intros P F E S A.
  assert (K : forallb (fun q => existsb (fun t => existsb (fun r => str_eqb (tb_ns t ++ snd r) (snd q)) (tb_members t)) std_tables)
    (constructor_names ++ constructor_names_with) = true) by (vm_compute; reflexivity).
  rewrite forallb_forall in K. apply (c118_has parse P s h m m' p F E S).
  destruct A as [A|A]; apply assoc_In in A; apply (K (fn, p)); apply in_or_app; [left|right]; exact A.
Qed.
