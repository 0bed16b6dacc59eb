From Coq Require Import Sorting.Sorted Permutation.
From Verif Require Import StrFacts PName PNameSpec PNameProofs Url Iri IriSpec IriProofs AMap AMapFacts PrefixMap PrefixMapSpec.

Definition any_ns (n : namespace) : Prop := True.
Definition wf_iri (i : iri) : Prop := wf_url i = true.

Lemma ns_total : total_on any_ns ns_cmp.
Proof.
  apply total_order_on. apply (inj_total ns_text str_cmp); [|exact str_total].
  intros [a] [b]; cbn; congruence.
Qed.

Lemma iri_total : total_on wf_iri iri_cmp.
Proof.
  unfold iri_cmp. split.
  - intros a b Ha Hb. rewrite (to_eq _ str_total). split; [apply url_ser_inj; assumption|congruence].
  - intros a b _ _. apply (to_opp _ str_total).
  - intros a b c _ _ _. apply (to_trans _ str_total).
Qed.

Definition pm_inv : prefix_map -> Prop := bi_inv any_ns wf_iri ns_cmp iri_cmp.
Definition represents (m : prefix_map) (R : rel) : Prop := forall p i, bi_in m p i <-> R p i.

Lemma pm_empty_inv : pm_inv pm_empty.
Proof. apply bi_empty_inv. Qed.

Lemma pm_in_wf m p i : pm_inv m -> bi_in m p i -> wf_url i = true.
Proof. intros Hi H. exact (proj2 (bi_in_P _ _ _ _ _ _ _ Hi H)). Qed.

Lemma pm_insert_ok m R p i : pm_inv m -> represents m R -> wf_url i = true ->
  exists m', pm_insert m p i = Ret m' /\ pm_inv m' /\ represents m' (rel_insert p i R).
Proof.
  intros Hi HR Hw. destruct (bi_insert_ok _ _ _ _ ns_total iri_total m p i Hi I Hw) as (m' & E & Hi' & Hin).
  exists m'. split; [exact E|]. split; [exact Hi'|]. intros p' i'. rewrite Hin. unfold rel_insert. rewrite (HR p' i'). tauto.
Qed.

Lemma pm_remove_ok m R p : pm_inv m -> represents m R ->
  exists m', pm_remove m p = Ret m' /\ pm_inv m' /\ represents m' (rel_remove p R).
Proof.
  intros Hi HR. destruct (bi_remove_by_left_ok _ _ _ _ ns_total iri_total m p Hi I) as (m' & E & Hi' & Hin).
  exists m'. split; [exact E|]. split; [exact Hi'|]. intros p' i'. rewrite Hin. unfold rel_remove. rewrite (HR p' i'). tauto.
Qed.

Section Parse.
  Variable parse : str -> option url.
  Hypothesis Hparse : parser_ok parse.

  Lemma voc_ok_values v : vocabulary_ok v ->
    exists u, wf_url u = true /\ voc_iri v = url_ser u /\
      voc_prefix_as_namespace v = Ret (MkNamespace (voc_prefix v ++ $":")) /\ voc_iri_as_iri parse v = Ret u.
  Proof.
    intros [[n Hn] (u & Hu & E)]. exists u. split; [exact Hu|]. split; [exact E|]. split.
    - unfold voc_prefix_as_namespace. rewrite Hn. f_equal.
      apply c02_namespace_exact in Hn. destruct Hn as [Ht _]. destruct n; cbn in *. congruence.
    - unfold voc_iri_as_iri. rewrite E.
      pose proof (c06_iri_roundtrip parse Hparse u Hu true) as H. cbn in H. rewrite H. reflexivity.
  Qed.

  Lemma pm_step_ok m R o : pm_inv m -> represents m R -> op_ok o ->
    exists m', pm_step parse m o = Ret m' /\ pm_inv m' /\ represents m' (rel_step R o).
  Proof.
    intros Hi HR Ho. destruct o as [p i|v|i|p| |]; cbn [pm_step rel_step op_ok] in *.
    - apply pm_insert_ok; auto.
    - destruct (voc_ok_values v Ho) as (u & Hu & E & E1 & E2).
      unfold pm_insert_vocabulary. rewrite E1, E2.
      destruct (pm_insert_ok m R (MkNamespace (voc_prefix v ++ $":")) u Hi HR Hu) as (m' & Em & Hi' & HR').
      exists m'. split; [exact Em|]. split; [exact Hi'|]. intros p' i'. rewrite (HR' p' i'). unfold rel_insert, voc_pair.
      split.
      + intros [[-> ->]|(H & Hp & Hne)]; [left; auto|]. right. split; [exact H|]. split; [exact Hp|].
        intros Es. apply Hne. apply url_ser_inj; [|exact Hu|congruence].
        apply HR in H. exact (pm_in_wf m _ _ Hi H).
      + intros [(-> & Es & Hw)|(H & Hp & Hne)].
        * left. split; [reflexivity|]. apply url_ser_inj; congruence.
        * right. split; [exact H|]. split; [exact Hp|]. intros ->. congruence.
    - apply pm_insert_ok; auto.
    - apply pm_remove_ok; auto.
    - apply pm_remove_ok; auto.
    - exists pm_empty. split; [reflexivity|]. split; [apply pm_empty_inv|]. intros p i. unfold rel_empty. split; [intros []|intros []].
  Qed.

  Lemma pm_exec_ok h : forall m R, pm_inv m -> represents m R -> Forall op_ok h ->
    exists m', pm_exec parse m h = Ret m' /\ pm_inv m' /\ represents m' (fold_left rel_step h R).
  Proof.
    induction h as [|o h IH]; intros m R Hi HR Ho.
    - exists m. auto.
    - inversion Ho; subst. destruct (pm_step_ok m R o) as (m1 & E & Hi1 & HR1); auto.
      cbn [pm_exec fold_left]. rewrite E. apply IH; auto.
  Qed.

  Lemma with_vocabularies_exec vs : forall m,
    pm_with_vocabularies parse (Ret m) vs = pm_exec parse m (map OpInsertVocabulary vs).
  Proof.
    unfold pm_with_vocabularies. induction vs as [|v vs IH]; intros m; [reflexivity|].
    cbn [fold_left map pm_exec pm_step]. destruct (pm_insert_vocabulary parse m v) as [m'|]; [apply IH|].
    clear. induction vs as [|w vs IH]; [reflexivity|]. exact IH.
  Qed.

  (** *** The built-in table *)

  Lemma vocabularies_ok : Forall vocabulary_ok all_vocabularies.
  Proof.
    assert (K : forall v, is_ok (namespace_from_str (voc_prefix v ++ $":")) = true ->
                (match url_reparse (voc_iri v) with
                 | Some u => wf_url u && str_eqb (url_ser u) (voc_iri v) && looks_like_namespace u
                 | None => false end) = true -> vocabulary_ok v).
    { intros v H1 H2. split.
      - destruct (namespace_from_str (voc_prefix v ++ $":")) as [n|]; [eauto|discriminate].
      - destruct (url_reparse (voc_iri v)) as [u|]; [|discriminate].
        apply andb_true_iff in H2 as [H2 _]. apply andb_true_iff in H2 as [H2 H3].
        exists u. split; [exact H2|]. symmetry. apply str_eqb_eq, H3. }
    unfold all_vocabularies. repeat (constructor; [apply K; vm_compute; reflexivity|]). constructor.
  Qed.

  Lemma vocabularies_are_namespaces : forall v, In v all_vocabularies ->
    exists u, wf_url u = true /\ url_ser u = voc_iri v /\ looks_like_namespace u = true.
  Proof.
    intros v Hv.
    assert (K : forallb (fun v => match url_reparse (voc_iri v) with
                 | Some u => wf_url u && str_eqb (url_ser u) (voc_iri v) && looks_like_namespace u
                 | None => false end) all_vocabularies = true) by (vm_compute; reflexivity).
    rewrite forallb_forall in K. specialize (K v Hv). destruct (url_reparse (voc_iri v)) as [u|]; [|discriminate].
    apply andb_true_iff in K as [K K3]. apply andb_true_iff in K as [K1 K2].
    exists u. split; [exact K1|]. split; [apply str_eqb_eq, K2|exact K3].
  Qed.

  Lemma vocabularies_distinct v w : In v all_vocabularies -> In w all_vocabularies ->
    v = w \/ (voc_prefix v <> voc_prefix w /\ voc_iri v <> voc_iri w).
  Proof.
    intros Hv Hw.
    assert (K : forallb (fun v => forallb (fun w =>
        (str_eqb (voc_prefix v) (voc_prefix w) && str_eqb (voc_iri v) (voc_iri w))
        || (negb (str_eqb (voc_prefix v) (voc_prefix w)) && negb (str_eqb (voc_iri v) (voc_iri w))))
        all_vocabularies) all_vocabularies = true) by (vm_compute; reflexivity).
    rewrite forallb_forall in K. specialize (K v Hv). rewrite forallb_forall in K. specialize (K w Hw).
    apply orb_true_iff in K as [K|K]; apply andb_true_iff in K as [K1 K2].
    - left. apply str_eqb_eq in K1, K2. destruct v, w; cbn in *. congruence.
    - right. apply negb_true_iff in K1, K2. split; intros E; rewrite E, str_eqb_refl in *; discriminate.
  Qed.

  Lemma rel_vocabularies vs : incl vs all_vocabularies -> forall p i,
    fold_left rel_step (map OpInsertVocabulary vs) rel_empty p i <-> rel_of_vocabularies vs p i.
  Proof.
    induction vs as [|v vs IH] using rev_ind; intros Hincl p i.
    - cbn. unfold rel_empty, rel_of_vocabularies. split; [intros []|]. intros (v & [] & _).
    - rewrite map_app, fold_left_app. cbn [map fold_left rel_step].
      assert (Hincl' : incl vs all_vocabularies) by (intros x Hx; apply Hincl, in_or_app; auto).
      rewrite (IH Hincl' p i). unfold rel_of_vocabularies. split.
      + intros [H|((w & Hw & H) & _)]; [exists v|exists w]; split; auto; apply in_or_app; cbn; auto.
      + intros (w & Hw & H).
        assert (Hwa : In w all_vocabularies) by (apply Hincl, Hw).
        assert (Hva : In v all_vocabularies) by (apply Hincl, in_or_app; cbn; auto).
        destruct (vocabularies_distinct w v Hwa Hva) as [->|[D1 D2]]; [left; exact H|].
        apply in_app_or in Hw as [Hw|[->|[]]]; [|left; exact H].
        right. split; [exists w; auto|]. destruct H as (-> & Es & _). split.
        * intros E. injection E as E. apply app_inv_tail in E. congruence.
        * congruence.
  Qed.

  Lemma pm_init_ok s : exists m, pm_init parse s = Ret m /\ pm_inv m /\ represents m (rel_init s).
  Proof.
    assert (K : forall vs vs', incl vs all_vocabularies -> incl vs vs' -> incl vs' vs ->
      exists m, pm_with_vocabularies parse (Ret pm_empty) vs = Ret m /\ pm_inv m /\ represents m (rel_of_vocabularies vs')).
    { intros vs vs' Hincl H1 H2. rewrite with_vocabularies_exec.
      destruct (pm_exec_ok (map OpInsertVocabulary vs) pm_empty rel_empty) as (m & E & Hi & HR).
      - apply pm_empty_inv.
      - intros p i. unfold rel_empty. split; intros [].
      - apply Forall_forall. intros o Ho. apply in_map_iff in Ho as (v & <- & Hv). cbn.
        pose proof vocabularies_ok as Hok. rewrite Forall_forall in Hok. auto.
      - exists m. split; [exact E|]. split; [exact Hi|]. intros p i. rewrite (HR p i), rel_vocabularies by exact Hincl.
        unfold rel_of_vocabularies. split; intros (v & Hv & H); exists v; auto. }
    destruct s; cbn [pm_init rel_init].
    - exists pm_empty. split; [reflexivity|]. split; [apply pm_empty_inv|]. intros p i. unfold rel_empty. split; intros [].
    - apply K; intros v; unfold all_vocabularies; cbn [In]; intuition.
    - unfold pm_common, pm_default.
      assert (E : forall a b, pm_with_vocabularies parse (pm_with_vocabularies parse (Ret pm_empty) a) b
                  = pm_with_vocabularies parse (Ret pm_empty) (a ++ b)).
      { intros a b. unfold pm_with_vocabularies. rewrite fold_left_app. reflexivity. }
      rewrite E. apply K; intros v; unfold all_vocabularies; cbn [app In]; intuition.
  Qed.

  Lemma pm_run_ok s h : Forall op_ok h ->
    exists m, pm_run parse s h = Ret m /\ pm_inv m /\ represents m (rel_replay s h).
  Proof.
    intros Ho. unfold pm_run, rel_replay. destruct (pm_init_ok s) as (m0 & -> & Hi & HR).
    exact (pm_exec_ok h m0 _ Hi HR Ho).
  Qed.

  Lemma pm_run_inv s h m : Forall op_ok h -> pm_run parse s h = Ret m -> pm_inv m /\ represents m (rel_replay s h).
  Proof. intros Ho E. destruct (pm_run_ok s h Ho) as (m' & E' & Hi & HR). rewrite E in E'. injection E' as ->. auto. Qed.

  (** *** Observations *)

  Lemma pm_get_ns m p i : pm_inv m -> (pm_get_namespace m p = Some i <-> bi_in m p i).
  Proof. intros Hi. unfold pm_get_namespace. apply (bi_get_left _ _ _ _ ns_total m p i Hi). exact I. Qed.

  Lemma pm_get_px m p i : pm_inv m -> wf_url i = true -> (pm_get_prefix m i = Some p <-> bi_in m p i).
  Proof. intros Hi Hw. unfold pm_get_prefix. apply (bi_get_right _ _ _ _ iri_total m p i Hi Hw). Qed.

  Lemma keys_sorted {K V} (P : K -> Prop) cmp (m : list (K * V)) :
    sorted P cmp m -> StronglySorted (fun a b => cmp a b = Lt) (map fst m).
  Proof.
    induction m as [|[k v] m IH]; intros H; [constructor|]. apply sorted_cons in H as (_ & H & L).
    cbn. constructor; [auto|]. rewrite Forall_forall. intros a Ha. apply in_map_iff in Ha as ([k' v'] & <- & Hin).
    exact (L _ _ Hin).
  Qed.

  Lemma inverse_perm m : pm_inv m -> Permutation (left2right m) (map (fun q => (snd q, fst q)) (right2left m)).
  Proof.
    intros (S1 & S2 & HI). apply NoDup_Permutation.
    - pose proof (sorted_NoDup_keys _ _ ns_total _ S1) as H. exact (NoDup_map_inv _ _ H).
    - apply FinFun.Injective_map_NoDup.
      + intros [a b] [c d]; cbn; congruence.
      + pose proof (sorted_NoDup_keys _ _ iri_total _ S2) as H. exact (NoDup_map_inv _ _ H).
    - intros [p i]. rewrite (HI p i). rewrite in_map_iff. split.
      + intros H. exists (i, p). auto.
      + intros ([i' p'] & E & H). cbn in E. injection E as -> ->. exact H.
  Qed.

  Lemma c11_bijection s h m : Forall op_ok h -> pm_run parse s h = Ret m ->
    (forall p i, wf_url i = true -> (pm_get_namespace m p = Some i <-> pm_get_prefix m i = Some p)) /\
    (forall p i, pm_get_namespace m p = Some i -> wf_url i = true) /\
    (forall p i, In (p, i) (pm_mappings m) <-> pm_get_namespace m p = Some i) /\
    pm_prefixes m = map fst (pm_mappings m) /\
    Permutation (pm_iris m) (map snd (pm_mappings m)) /\
    NoDup (pm_prefixes m) /\ NoDup (pm_iris m) /\
    pm_len m = length (pm_mappings m) /\ (pm_is_empty m = true <-> pm_mappings m = []).
  Proof.
    intros Ho E. destruct (pm_run_inv s h m Ho E) as [Hi _]. pose proof Hi as (S1 & S2 & HI).
    split; [|split; [|split; [|split; [|split; [|split; [|split; [|split]]]]]]].
    - intros p i Hw. rewrite pm_get_ns, pm_get_px by auto. reflexivity.
    - intros p i H. apply pm_get_ns in H; auto. eapply pm_in_wf; eauto.
    - intros p i. rewrite pm_get_ns by auto. reflexivity.
    - reflexivity.
    - unfold pm_iris, pm_mappings. pose proof (Permutation_map snd (inverse_perm m Hi)) as H.
      rewrite map_map in H. cbn in H. symmetry. exact H.
    - exact (sorted_NoDup_keys _ _ ns_total _ S1).
    - exact (sorted_NoDup_keys _ _ iri_total _ S2).
    - reflexivity.
    - unfold pm_is_empty, bi_len, pm_mappings. destruct (left2right m); cbn; split; congruence.
  Qed.

  Lemma c12_refines s h : Forall op_ok h ->
    exists m, pm_run parse s h = Ret m /\
      (forall p i, pm_get_namespace m p = Some i <-> rel_replay s h p i) /\
      (forall p i, wf_url i = true -> (pm_get_prefix m i = Some p <-> rel_replay s h p i)) /\
      (forall p i, In (p, i) (pm_mappings m) <-> rel_replay s h p i) /\
      (forall i, pm_get_default_namespace m = Some i <-> rel_replay s h default_prefix i).
  Proof.
    intros Ho. destruct (pm_run_ok s h Ho) as (m & E & Hi & HR). exists m. split; [exact E|].
    split; [|split; [|split]].
    - intros p i. rewrite pm_get_ns by auto. apply HR.
    - intros p i Hw. rewrite pm_get_px by auto. apply HR.
    - intros p i. apply HR.
    - intros i. unfold pm_get_default_namespace. rewrite pm_get_ns by auto. apply HR.
  Qed.

  Lemma c12_effects s h m : Forall op_ok h -> pm_run parse s h = Ret m ->
    (forall p i, wf_url i = true -> exists m', pm_insert m p i = Ret m' /\
       pm_get_namespace m' p = Some i /\ pm_get_prefix m' i = Some p /\
       (forall p', p' <> p -> pm_get_namespace m' p' =
          (if match pm_get_namespace m p' with Some j => iri_eqb j i | None => false end
           then None else pm_get_namespace m p'))) /\
    (forall p, exists m', pm_remove m p = Ret m' /\ pm_get_namespace m' p = None /\
       (forall p', p' <> p -> pm_get_namespace m' p' = pm_get_namespace m p')) /\
    (forall p, pm_get_namespace (pm_clear m) p = None) /\
    (forall i, pm_set_default_namespace m i = pm_insert m default_prefix i) /\
    pm_remove_default_namespace m = pm_remove m default_prefix.
  Proof.
    intros Ho E. destruct (pm_run_inv s h m Ho E) as [Hi _].
    assert (NS : forall m1 m2 p1 p2, pm_inv m1 -> pm_inv m2 ->
      (forall i, bi_in m1 p1 i <-> bi_in m2 p2 i) -> pm_get_namespace m1 p1 = pm_get_namespace m2 p2).
    { intros m1 m2 p1 p2 H1 H2 H. destruct (pm_get_namespace m2 p2) as [i|] eqn:G.
      - apply pm_get_ns, H. 1: exact H1. apply pm_get_ns; auto.
      - destruct (pm_get_namespace m1 p1) as [i|] eqn:G1; [|reflexivity].
        apply pm_get_ns in G1; auto. apply H in G1. apply pm_get_ns in G1; auto. congruence. }
    split; [|split; [|split; [|split]]].
    - intros p i Hw. destruct (pm_insert_ok m (bi_in m) p i Hi (fun _ _ => iff_refl _) Hw) as (m' & Em & Hi' & HR).
      exists m'. split; [exact Em|]. unfold represents, rel_insert in HR.
      split; [apply pm_get_ns; auto; apply HR; auto|]. split; [apply pm_get_px; auto; apply HR; auto|].
      intros p' Hne. destruct (pm_get_namespace m p') as [j|] eqn:G.
      + pose proof G as G0. apply pm_get_ns in G0; auto. pose proof (pm_in_wf _ _ _ Hi G0) as Hj.
        destruct (iri_eqb j i) eqn:Ej.
        * apply iri_eqb_eq in Ej; auto. subst j.
          destruct (pm_get_namespace m' p') as [k|] eqn:G'; [|reflexivity].
          apply pm_get_ns in G'; auto. apply HR in G' as [[-> _]|(G' & _ & Hk)]; [congruence|].
          exfalso. apply Hk. apply pm_get_ns in G'; auto. congruence.
        * rewrite <- G. apply NS; auto. intros k. rewrite HR. split; [intros [[-> _]|[H _]]; [congruence|exact H]|].
          intros H. right. split; [exact H|]. split; [exact Hne|]. intros ->.
          apply pm_get_ns in H; auto. rewrite G in H. injection H as ->.
          pose proof (proj2 (iri_eqb_eq i i Hw Hw) eq_refl). congruence.
      + destruct (pm_get_namespace m' p') as [k|] eqn:G'; [|reflexivity].
        apply pm_get_ns in G'; auto. apply HR in G' as [[-> _]|(G' & _)]; [congruence|].
        apply pm_get_ns in G'; auto. congruence.
    - intros p. destruct (pm_remove_ok m (bi_in m) p Hi (fun _ _ => iff_refl _)) as (m' & Em & Hi' & HR).
      exists m'. split; [exact Em|]. unfold represents, rel_remove in HR. split.
      + destruct (pm_get_namespace m' p) as [k|] eqn:G'; [|reflexivity].
        apply pm_get_ns in G'; auto. apply HR in G'. tauto.
      + intros p' Hne. apply NS; auto. intros k. rewrite HR. tauto.
    - reflexivity.
    - reflexivity.
    - reflexivity.
  Qed.

  (** *** C13-C15 *)

  Lemma c13_compress_expand s h m i l : Forall op_ok h -> pm_run parse s h = Ret m ->
    wf_url i = true -> pm_compress m i = Ret (Some l) ->
    (pm_expand m l = Some i <-> u_frag i <> Some []).
  Proof.
    intros Ho E Hw Hc. destruct (pm_run_inv s h m Ho E) as [Hi _].
    unfold pm_compress in Hc. destruct (split i) as [[[ns n]|]|] eqn:Es; try discriminate.
    destruct (pm_get_prefix m ns) as [p|] eqn:Ep; [|discriminate]. injection Hc as <-.
    destruct (c10_split_namespace i ns n Hw Es) as [_ Hns].
    apply pm_get_px in Ep; auto. apply pm_get_ns in Ep; auto.
    unfold pm_expand. cbn [ln_namespace ln_name]. rewrite Ep. cbn [option_map].
    apply c07_split_make; auto.
  Qed.

  Lemma c14_expand_compress s h m l ns sn : Forall op_ok h -> pm_run parse s h = Ret m ->
    name_from_str sn = Ok (ln_name l) ->
    pm_get_namespace m (ln_namespace l) = Some ns -> namespace_like ns ->
    exists i, pm_expand m l = Some i /\
      (pm_compress m i = Ret (Some l) <-> forallb is_ascii sn = true) /\
      (forallb is_ascii sn = false -> pm_compress m i = Ret None).
  Proof.
    intros Ho E Hn Hg Hns. destruct (pm_run_inv s h m Ho E) as [Hi _].
    pose proof Hg as Hg0. apply pm_get_ns in Hg0; auto. pose proof (pm_in_wf _ _ _ Hi Hg0) as Hw.
    destruct (c08_ascii ns (ln_name l) sn Hw Hns Hn) as (v & Ev & Hv & Hs & Hn').
    exists v. split.
    - unfold pm_expand. rewrite Hg. exact Ev.
    - unfold pm_compress. assert (Hpx : pm_get_prefix m ns = Some (ln_namespace l)) by (apply pm_get_px; auto).
      destruct (forallb is_ascii sn).
      + split; [|discriminate]. split; [reflexivity|]. intros _. rewrite (proj2 Hs eq_refl), Hpx.
        destruct l; reflexivity.
      + rewrite Hn' by reflexivity. split; [|reflexivity]. split; discriminate.
  Qed.

  Lemma c15_iriref s h m i : Forall op_ok h -> pm_run parse s h = Ret m -> wf_url i = true ->
    (pm_compress_to_iriref m i = Panic <-> opaque_with_last_segment i) /\
    (forall r, pm_compress_to_iriref m i = Ret r -> u_frag i <> Some [] ->
       r = RIri i \/ exists l, r = RPrefixed (PLocal l) /\ pm_expand m l = Some i).
  Proof.
    intros Ho E Hw. split.
    - rewrite <- (proj1 (c09_exact i Hw)). unfold pm_compress_to_iriref, pm_compress.
      destruct (split i) as [[[ns n]|]|]; [destruct (pm_get_prefix m ns)|..]; split; congruence.
    - intros r Hr Hf. unfold pm_compress_to_iriref in Hr. destruct (pm_compress m i) as [[l|]|] eqn:Ec; try discriminate.
      + injection Hr as <-. right. exists l. split; [reflexivity|]. exact (proj2 (c13_compress_expand s h m i l Ho E Hw Ec) Hf).
      + injection Hr as <-. left. reflexivity.
  Qed.

  (** *** C57 *)

  Lemma c57_expand s h m l v : Forall op_ok h -> pm_run parse s h = Ret m ->
    pm_expand m l = Some v <->
    exists ns, In (ln_namespace l, ns) (pm_mappings m) /\ make_name ns (ln_name l) = Some v.
  Proof.
    intros Ho E. destruct (pm_run_inv s h m Ho E) as [Hi _]. unfold pm_expand. split.
    - destruct (pm_get_namespace m (ln_namespace l)) as [ns|] eqn:G; cbn; [|discriminate].
      intros H. apply pm_get_ns in G; auto. exists ns. auto.
    - intros (ns & H & K). apply (pm_get_ns m) in H; auto. rewrite H. exact K.
  Qed.

  Lemma c57_expand_fails s h m l : Forall op_ok h -> pm_run parse s h = Ret m ->
    pm_expand m l = None <->
    forall ns, In (ln_namespace l, ns) (pm_mappings m) ->
      u_frag ns = None /\ (ends_with_chr 47 (u_path ns) = false \/ u_query ns <> None).
  Proof.
    intros Ho E. destruct (pm_run_inv s h m Ho E) as [Hi _].
    assert (K : forall ns n, make_name ns n = None <->
      u_frag ns = None /\ (ends_with_chr 47 (u_path ns) = false \/ u_query ns <> None)).
    { intros ns n. unfold make_name. destruct (u_frag ns); [split; [discriminate|intros [H _]; discriminate]|].
      destruct (ends_with_chr 47 (u_path ns)), (u_query ns); cbn; split; intros H; try discriminate; auto;
        try (split; auto; right; discriminate); destruct H as [_ [H|H]]; congruence. }
    unfold pm_expand. split.
    - intros H ns Hin. apply (pm_get_ns m) in Hin; auto. rewrite Hin in H. cbn in H. apply K in H. exact H.
    - intros H. destruct (pm_get_namespace m (ln_namespace l)) as [ns|] eqn:G; cbn; [|reflexivity].
      apply pm_get_ns in G; auto. apply K, H, G.
  Qed.

  Lemma c57_compress s h m i p n : Forall op_ok h -> pm_run parse s h = Ret m -> wf_url i = true ->
    pm_compress m i = Ret (Some (MkLocalName p n)) <->
    exists ns, split i = Ret (Some (ns, n)) /\ In (p, ns) (pm_mappings m).
  Proof.
    intros Ho E Hw. destruct (pm_run_inv s h m Ho E) as [Hi _]. unfold pm_compress. split.
    - destruct (split i) as [[[ns n']|]|] eqn:Es; try discriminate.
      destruct (c10_split_namespace i ns n' Hw Es) as [_ Hns].
      destruct (pm_get_prefix m ns) as [p'|] eqn:Ep; [|discriminate]. intros H. injection H as -> ->.
      exists ns. split; [reflexivity|]. apply pm_get_px in Ep; auto.
    - intros (ns & Es & Hin). destruct (c10_split_namespace i ns n Hw Es) as [_ Hns]. rewrite Es.
      apply (pm_get_px m) in Hin; auto. rewrite Hin. reflexivity.
  Qed.

  Lemma c15_prefixed s h m i : Forall op_ok h -> pm_run parse s h = Ret m -> wf_url i = true ->
    (forall p n, pm_compress_to_iriref m i = Ret (RPrefixed (PLocal (MkLocalName p n))) <->
       exists ns, split i = Ret (Some (ns, n)) /\ In (p, ns) (pm_mappings m)) /\
    (forall ns, pm_compress_to_iriref m i <> Ret (RPrefixed (PNamespace ns))).
  Proof.
    intros Ho E Hw. split.
    - intros p n. rewrite <- (c57_compress s h m i p n Ho E Hw). unfold pm_compress_to_iriref.
      destruct (pm_compress m i) as [[l|]|]; split; congruence.
    - intros ns. unfold pm_compress_to_iriref. destruct (pm_compress m i) as [[l|]|]; congruence.
  Qed.

  Lemma c57_compress_none s h m i : Forall op_ok h -> pm_run parse s h = Ret m -> wf_url i = true ->
    pm_compress m i = Ret None <->
    split i = Ret None \/ exists ns n, split i = Ret (Some (ns, n)) /\ forall p, ~ In (p, ns) (pm_mappings m).
  Proof.
    intros Ho E Hw. destruct (pm_run_inv s h m Ho E) as [Hi _]. unfold pm_compress.
    destruct (split i) as [[[ns n']|]|] eqn:Es.
    - destruct (c10_split_namespace i ns n' Hw Es) as [_ Hns].
      destruct (pm_get_prefix m ns) as [p'|] eqn:Ep.
      + split; [discriminate|]. intros [H|(ns' & n & H & K)]; [discriminate|]. injection H as <- <-.
        apply pm_get_px in Ep; auto. destruct (K p' Ep).
      + split; [|auto]. intros _. right. exists ns, n'. split; [reflexivity|]. intros p H.
        apply (pm_get_px m) in H; auto. congruence.
    - split; auto.
    - split; [discriminate|]. intros [H|(ns' & n & H & K)]; discriminate.
  Qed.

  (** *** C16 *)

  Lemma c16_all_insertable vs m : incl vs all_vocabularies ->
    pm_with_vocabularies parse (Ret pm_empty) vs = Ret m ->
    (forall p i, In (p, i) (pm_mappings m) <-> rel_of_vocabularies vs p i) /\
    (forall v, In v vs -> exists u, url_ser u = voc_iri v /\
        pm_get_namespace m (MkNamespace (voc_prefix v ++ $":")) = Some u /\ looks_like_namespace u = true).
  Proof.
    intros Hincl Hr. rewrite with_vocabularies_exec in Hr.
    assert (Hok : Forall op_ok (map OpInsertVocabulary vs)).
    { apply Forall_forall. intros o Ho. apply in_map_iff in Ho as (v & <- & Hv). cbn.
      pose proof vocabularies_ok as Hok. rewrite Forall_forall in Hok. auto. }
    destruct (pm_run_inv StartEmpty (map OpInsertVocabulary vs) m Hok Hr) as [Hi HR].
    assert (A : forall p i, In (p, i) (pm_mappings m) <-> rel_of_vocabularies vs p i).
    { intros p i. rewrite <- rel_vocabularies by exact Hincl. apply HR. }
    split; [exact A|]. intros v Hv. destruct (vocabularies_are_namespaces v (Hincl v Hv)) as (u & Hu & Es & Hl).
    exists u. split; [exact Es|]. split; [|exact Hl]. apply pm_get_ns; auto. apply A.
    exists v. split; [exact Hv|]. split; [reflexivity|]. auto.
  Qed.

  Lemma c16_never_panics vs : incl vs all_vocabularies ->
    exists m, pm_with_vocabularies parse (Ret pm_empty) vs = Ret m.
  Proof.
    intros Hincl. rewrite with_vocabularies_exec.
    destruct (pm_run_ok StartEmpty (map OpInsertVocabulary vs)) as (m & E & _); [|exists m; exact E].
    apply Forall_forall. intros o Ho. apply in_map_iff in Ho as (v & <- & Hv). cbn.
    pose proof vocabularies_ok as Hok. rewrite Forall_forall in Hok. auto.
  Qed.

  Lemma c16_vocabulary_values v : In v all_vocabularies ->
    voc_prefix_as_namespace v = Ret (MkNamespace (voc_prefix v ++ $":")) /\
    exists u, voc_iri_as_iri parse v = Ret u /\ url_ser u = voc_iri v /\ looks_like_namespace u = true.
  Proof.
    intros Hv. pose proof vocabularies_ok as Hok. rewrite Forall_forall in Hok.
    destruct (voc_ok_values v (Hok v Hv)) as (u & Hu & E & E1 & E2). split; [exact E1|].
    exists u. split; [exact E2|]. split; [congruence|].
    destruct (vocabularies_are_namespaces v Hv) as (u' & Hu' & Es & Hl).
    replace u with u'; [exact Hl|]. apply url_ser_inj; congruence.
  Qed.

  Lemma c16_stock : exists d c, pm_default parse = Ret d /\ pm_common parse = Ret c /\
    (forall p i, In (p, i) (pm_mappings d) <-> rel_init StartDefault p i) /\
    (forall p i, In (p, i) (pm_mappings c) <-> rel_init StartCommon p i) /\
    pm_len d = 4%nat /\ pm_len c = 7%nat.
  Proof.
    destruct (pm_init_ok StartDefault) as (d & Ed & Hd & Rd). destruct (pm_init_ok StartCommon) as (c & Ec & Hc & Rc).
    exists d, c. split; [exact Ed|]. split; [exact Ec|]. split; [exact Rd|]. split; [exact Rc|].
    assert (L : forall m vs, pm_inv m -> represents m (rel_of_vocabularies vs) -> incl vs all_vocabularies -> NoDup vs ->
              pm_len m = length vs).
    { intros m vs Hi HR Hincl Hnd. unfold pm_len, bi_len.
      rewrite <- (map_length fst (left2right m)).
      rewrite <- (map_length (fun v => MkNamespace (voc_prefix v ++ $":")) vs).
      pose proof Hi as (S1 & _). apply Permutation_length. apply NoDup_Permutation.
      - exact (sorted_NoDup_keys _ _ ns_total _ S1).
      - clear - Hincl Hnd. induction vs as [|v vs IH]; [constructor|]. inversion Hnd; subst. cbn. constructor.
        + intros H. apply in_map_iff in H as (w & E & Hw). injection E as E. apply app_inv_tail in E.
          destruct (vocabularies_distinct w v) as [->|[D _]]; [apply Hincl; cbn; auto..| |]; [auto|congruence].
        + apply IH; [|assumption]. intros x Hx. apply Hincl. cbn. auto.
      - intros p. rewrite !in_map_iff. split.
        + intros ([p' i] & E & H). cbn in E. subst p'. apply HR in H as (v & Hv & -> & _). eauto.
        + intros (v & <- & Hv). destruct (vocabularies_are_namespaces v (Hincl v Hv)) as (u & Hu & Es & _).
          exists (MkNamespace (voc_prefix v ++ $":"), u). split; [reflexivity|]. apply HR. exists v. split; [exact Hv|]. split; [reflexivity|]. auto. }
    assert (ND : forall vs, (let fix nd (l : list vocabulary) := match l with [] => true | v :: r =>
                  negb (existsb (fun w => str_eqb (voc_prefix v) (voc_prefix w)) r) && nd r end in nd vs) = true -> NoDup vs).
    { induction vs as [|v vs IH]; intros H; [constructor|]. apply andb_true_iff in H as [H1 H2]. constructor; [|apply IH, H2].
      intros Hin. apply negb_true_iff in H1. assert (existsb (fun w => str_eqb (voc_prefix v) (voc_prefix w)) vs = true).
      { apply existsb_exists. exists v. split; [exact Hin|apply str_eqb_refl]. } congruence. }
    split.
    - apply (L d _ Hd Rd).
      + intros v; unfold all_vocabularies; cbn [In]; intuition.
      + apply ND. vm_compute. reflexivity.
    - apply (L c _ Hc Rc).
      + intros v; unfold all_vocabularies; cbn [In]; intuition.
      + apply ND. vm_compute. reflexivity.
  Qed.

  (** *** C17 *)

  Lemma c17_sorted s h m : Forall op_ok h -> pm_run parse s h = Ret m ->
    StronglySorted (fun a b => str_cmp (ns_text a) (ns_text b) = Lt) (pm_prefixes m) /\
    StronglySorted (fun a b => str_cmp (ns_text (fst a)) (ns_text (fst b)) = Lt) (pm_mappings m) /\
    StronglySorted (fun a b => str_cmp (url_ser a) (url_ser b) = Lt) (pm_iris m).
  Proof.
    intros Ho E. destruct (pm_run_inv s h m Ho E) as [(S1 & S2 & _) _]. split; [|split].
    - exact (keys_sorted _ _ _ S1).
    - exact (proj1 S1).
    - exact (keys_sorted _ _ _ S2).
  Qed.

  Lemma c17_canonical s1 h1 m1 s2 h2 m2 :
    Forall op_ok h1 -> Forall op_ok h2 -> pm_run parse s1 h1 = Ret m1 -> pm_run parse s2 h2 = Ret m2 ->
    (forall p i, rel_replay s1 h1 p i <-> rel_replay s2 h2 p i) ->
    pm_eq m1 m2 /\ pm_mappings m1 = pm_mappings m2 /\ pm_iris m1 = pm_iris m2 /\ pm_display m1 = pm_display m2.
  Proof.
    intros O1 O2 E1 E2 H. destruct (pm_run_inv _ _ _ O1 E1) as [I1 R1]. destruct (pm_run_inv _ _ _ O2 E2) as [I2 R2].
    assert (m1 = m2); [|subst m2; repeat split; reflexivity].
    apply (bi_ext _ _ _ _ ns_total iri_total m1 m2 I1 I2). intros p i. rewrite (R1 p i), (R2 p i). apply H.
  Qed.
End Parse.

Definition pair_eqb (x y : str * str) : bool := str_eqb (fst x) (fst y) && str_eqb (snd x) (snd y).
Lemma pair_eqb_eq x y : pair_eqb x y = true -> x = y.
Proof.
  destruct x as [a b], y as [c d]. unfold pair_eqb. cbn [fst snd]. intros H. apply andb_true_iff in H as [H1 H2].
  apply str_eqb_eq in H1, H2. congruence.
Qed.
Lemma pairs_incl l m : forallb (fun x => existsb (pair_eqb x) m) l = true -> incl l m.
Proof.
  intros H x I. rewrite forallb_forall in H. apply H in I. apply existsb_exists in I as (y & I & E). apply pair_eqb_eq in E as ->. exact I.
Qed.
Lemma c16_published p i :
  In (p, i) published <-> exists v, In v all_vocabularies /\ p = voc_prefix v /\ i = voc_iri v.
Proof.
  assert (A : incl published (map (fun v => (voc_prefix v, voc_iri v)) all_vocabularies)) by (apply pairs_incl; vm_compute; reflexivity).
  assert (B : incl (map (fun v => (voc_prefix v, voc_iri v)) all_vocabularies) published) by (apply pairs_incl; vm_compute; reflexivity).
  split.
  - intros H. apply A, in_map_iff in H as (v & E & H). exists v. split; [exact H|]. split; congruence.
  - intros (v & H & -> & ->). apply B, in_map_iff. exists v. split; [reflexivity|exact H].
Qed.
Fixpoint nodupb (l : list str) : bool := match l with [] => true | x :: r => negb (existsb (str_eqb x) r) && nodupb r end.
Lemma nodupb_ok l : nodupb l = true -> NoDup l.
Proof.
  induction l as [|x r IH]; intros H; [constructor|]. cbn [nodupb] in H. apply andb_true_iff in H as [H1 H2]. constructor; [|auto].
  intros I. apply negb_true_iff in H1. enough (existsb (str_eqb x) r = true) by congruence. apply existsb_exists. exists x. split; [exact I|]. apply str_eqb_eq. reflexivity.
Qed.
Lemma c16_each_once : length all_vocabularies = 21%nat /\
  NoDup (map voc_prefix all_vocabularies) /\ NoDup (map voc_iri all_vocabularies).
Proof. split; [reflexivity|]. split; apply nodupb_ok; vm_compute; reflexivity. Qed.
