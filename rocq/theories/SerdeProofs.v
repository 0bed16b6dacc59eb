(** Proofs of C108. *)
From Verif Require Import StrFacts AMap AMapFacts PNameProofs PrefixMapProofs.
From Verif Require Export SerdeSpec.

Lemma str_eqb_spec a b : Bool.reflect (a = b) (str_eqb a b).
Proof. apply Bool.iff_reflect. symmetry. apply str_eqb_eq. Qed.

(** ** Fields *)
Lemma field_none k m : field k m = Some None <-> ~ In k (map fst m).
Proof.
  induction m as [|[k' v] m IH]; cbn; [tauto|]. destruct (field k m) as [[x|]|].
  - destruct (str_eqb_spec k' k) as [->|N]; (split; [discriminate|]); [tauto|]. intros H. exfalso. assert (X : ~ In k (map fst m)) by tauto. apply IH in X. discriminate X.
  - destruct (str_eqb_spec k' k) as [->|N]; [split; [discriminate|tauto]|]. split; [|reflexivity]. intros _ [E|J]; [congruence|]. apply (proj1 IH eq_refl J).
  - split; [discriminate|]. intros H. assert (X : ~ In k (map fst m)) by tauto. apply IH in X. discriminate X.
Qed.
Lemma field_some k m v : field k m = Some (Some v) <-> once k v m.
Proof.
  induction m as [|[k' w] m IH]; cbn.
  - split; [discriminate|]. intros (a & b & E & _). destruct a; discriminate.
  - pose proof (field_none k m) as NN. destruct (field k m) as [[x|]|] eqn:F.
    + destruct (str_eqb_spec k' k) as [->|N].
      * split; [discriminate|]. intros (a & b & E & A & B). destruct a as [|e a]; cbn in E; injection E as E1 E2.
        -- subst. apply NN in B. discriminate B.
        -- subst e. cbn in A. tauto.
      * rewrite IH. split.
        -- intros (a & b & -> & A & B). exists ((k', w) :: a), b. cbn. repeat split; auto. intros [E|J]; [congruence|tauto].
        -- intros (a & b & E & A & B). destruct a as [|e a]; cbn in E; injection E as E1 E2; [congruence|]. exists a, b. split; [exact E2|].
           split; [|exact B]. intros J. apply A. cbn. auto.
    + destruct (str_eqb_spec k' k) as [->|N].
      * split.
        -- intros E. injection E as <-. exists [], m. split; [reflexivity|]. split; [tauto|apply NN; reflexivity].
        -- intros (a & b & E & A & B). destruct a as [|e a]; cbn in E; injection E as E1 E2; [congruence|]. subst e. cbn in A. tauto.
      * split; [discriminate|]. intros (a & b & E & A & B). destruct a as [|e a]; cbn in E; injection E as E1 E2; [congruence|].
        exfalso. apply (proj1 NN eq_refl). rewrite E2, map_app. apply in_or_app. right. left. reflexivity.
    + split; [discriminate|]. intros (a & b & E & A & B). destruct a as [|e a]; cbn in E; injection E as E1 E2.
      * subst. apply NN in B. discriminate B.
      * assert (X : once k v m) by (exists a, b; split; [exact E2|split; [|exact B]]; intros J; apply A; cbn; auto). apply IH in X. discriminate X.
Qed.
Lemma once_fun k v w m : once k v m -> once k w m -> v = w.
Proof. intros A B. apply field_some in A, B. congruence. Qed.
Lemma required_some {A} (de : json -> option A) k m a : required de k m = Some a <-> exists v, once k v m /\ de v = Some a.
Proof.
  unfold required. split.
  - destruct (field k m) as [[v|]|] eqn:F; try discriminate. intros E. exists v. split; [apply field_some, F|exact E].
  - intros (v & O & E). apply field_some in O. rewrite O. exact E.
Qed.

(** ** Names *)
Lemma de_namespace_iff v n : de_namespace v = Some n <-> v = JString (ns_text n).
Proof.
  destruct n as [t]. unfold de_namespace. destruct v; cbn; (split; [intros E|intros E]); try discriminate E; injection E as ->; reflexivity.
Qed.
Lemma de_name_iff v n : de_name v = Some n <-> v = JString (name_text n).
Proof.
  destruct n as [t]. unfold de_name. destruct v; cbn; (split; [intros E|intros E]); try discriminate E; injection E as ->; reflexivity.
Qed.
Lemma both_some {A B} (a : option A) (b : option B) x : both a b = Some x <-> a = Some (fst x) /\ b = Some (snd x).
Proof.
  destruct x as [y z]. destruct a, b; cbn; (split; [intros E|intros [E1 E2]]); try discriminate; [injection E as -> ->; auto|congruence].
Qed.
Lemma map_some {A B} (f : A -> B) o b : option_map f o = Some b <-> exists a, o = Some a /\ b = f a.
Proof.
  destruct o; cbn; split; [intros E; injection E as <-; eauto|intros (x & E & ->); injection E as ->; reflexivity|discriminate|].
  intros (x & E & _). discriminate E.
Qed.
Lemma de_local_name_iff v l : de_local_name v = Some l <-> local_name_json v l.
Proof.
  unfold de_local_name. rewrite map_some. split.
  - intros ([[ns] [n]] & E & ->). cbn [fst snd]. destruct v as [| | | |a|m]; try discriminate E.
    + destruct a as [|x [|y [|z a]]]; try discriminate E. apply both_some in E as [E1 E2]. cbn [fst snd] in *.
      apply de_namespace_iff in E1. apply de_name_iff in E2. subst. constructor.
    + apply both_some in E as [E1 E2]. cbn [fst snd] in *. apply required_some in E1 as (v1 & O1 & E1). apply required_some in E2 as (v2 & O2 & E2).
      apply de_namespace_iff in E1. apply de_name_iff in E2. subst. constructor; assumption.
  - intros H. destruct H as [m ns n O1 O2|ns n]; exists (MkNamespace ns, MkName n); (split; [|reflexivity]); apply both_some; cbn [fst snd].
    + split; apply required_some; eexists; (split; [eassumption|]); [apply de_namespace_iff|apply de_name_iff]; reflexivity.
    + split; [apply de_namespace_iff|apply de_name_iff]; reflexivity.
Qed.
Lemma de_prefixed_name_iff v p : de_prefixed_name v = Some p <-> prefixed_name_json v p.
Proof.
  split.
  - destruct v as [| | | | |m]; try discriminate. destruct m as [|[k x] [|y m]]; try discriminate. cbn [de_prefixed_name].
    destruct (str_eqb_spec k $"Namespace") as [->|_]; [|destruct (str_eqb_spec k $"Local") as [->|_]; [|discriminate]]; rewrite map_some.
    + intros ([t] & E & ->). apply de_namespace_iff in E. subst. constructor.
    + intros (l & E & ->). constructor. apply de_local_name_iff, E.
  - intros [ns|w l H]; [reflexivity|]. apply de_local_name_iff in H. cbn. rewrite H. reflexivity.
Qed.

Section Iris.
Variable parse : str -> option url.
Lemma de_iri_iff v i : de_iri parse v = Some i <-> iri_json parse v i.
Proof.
  unfold de_iri. split.
  - destruct v; try discriminate. cbn. intros E. constructor. exact E.
  - intros [s j E]. exact E.
Qed.
Lemma de_iri_ref_iff v r : de_iri_ref parse v = Some r <-> iri_ref_json parse v r.
Proof.
  split.
  - destruct v as [| | | | |m]; try discriminate. destruct m as [|[k x] [|y m]]; try discriminate. cbn [de_iri_ref].
    destruct (str_eqb_spec k $"Iri") as [->|_]; [|destruct (str_eqb_spec k $"PrefixedName") as [->|_]; [|discriminate]]; rewrite map_some.
    + intros (i & E & ->). constructor. apply de_iri_iff, E.
    + intros (l & E & ->). constructor. apply de_prefixed_name_iff, E.
  - intros [w i H|w p H].
    + apply de_iri_iff in H. cbn. rewrite H. reflexivity.
    + apply de_prefixed_name_iff in H. cbn. rewrite H. reflexivity.
Qed.

(** ** Maps *)
Hypothesis P : url_parser parse.
Definition insert_all (pairs : list (namespace * iri)) (R : rel) : rel := fold_left (fun R p => rel_insert (fst p) (snd p) R) pairs R.
Lemma insert_all_app a b R : insert_all (a ++ b) R = insert_all b (insert_all a R).
Proof. apply fold_left_app. Qed.
Lemma stays_iff pairs p i : insert_all pairs rel_empty p i <-> stays pairs p i.
Proof.
  induction pairs as [|[q j] pairs IH] using rev_ind.
  - split; [intros []|]. intros (a & b & E & _). destruct a; discriminate.
  - rewrite insert_all_app. cbn. unfold rel_insert. rewrite IH. split.
    + intros [[-> ->]|((a & b & -> & B) & N1 & N2)].
      * exists pairs, []. split; [reflexivity|intros ? ? []].
      * exists a, (b ++ [(q, j)]). split; [rewrite <- app_assoc; reflexivity|]. intros r k J. apply in_app_or in J as [J|[E|[]]]; [apply B, J|].
        injection E as <- <-. split; congruence.
    + intros (a & b & E & B). destruct b as [|e b _] using rev_ind.
      * apply app_inj_tail in E as [_ E]. injection E as -> ->. auto.
      * right. assert (E' : pairs ++ [(q, j)] = (a ++ (p, i) :: b) ++ [e]) by (rewrite E, <- app_assoc; reflexivity).
        apply app_inj_tail in E' as [-> <-]. split.
        -- exists a, b. split; [reflexivity|]. intros r k J. apply B, in_or_app. auto.
        -- destruct (B q j) as [N1 N2]; [apply in_or_app; right; left; reflexivity|]. split; congruence.
Qed.
Lemma de_pairs_ok l : forall m R, pm_inv m -> represents m R ->
  (forall pairs, pairs_json parse l pairs -> exists m', de_pairs parse (Ret m) l = Ret (Some m') /\ pm_inv m' /\ represents m' (insert_all pairs R)) /\
  (exists o, de_pairs parse (Ret m) l = Ret o /\ (o <> None -> exists pairs, pairs_json parse l pairs)).
Proof.
  induction l as [|[k v] l IH]; intros m R I Rp; cbn [de_pairs].
  - split.
    + intros pairs F. inversion F; subst. exists m. auto.
    + exists (Some m). split; [reflexivity|]. intros _. exists []. constructor.
  - destruct (de_iri parse v) as [i|] eqn:E.
    + apply de_iri_iff in E. assert (W : wf_url i = true) by (destruct E; eapply (proj2 P); eassumption).
      destruct (pm_insert_ok m R (MkNamespace k) i I Rp W) as (m' & -> & I' & R'). destruct (IH m' _ I' R') as [A (o & B1 & B2)]. split.
      * intros pairs F. inversion F as [|? [[q] j] ? ps [F1 F2] F']; subst. cbn in F1. subst q.
        assert (j = i) by (cbn in F2; inversion F2; inversion E; congruence). subst j. apply A, F'.
      * exists o. split; [exact B1|]. intros N. destruct (B2 N) as (ps & F). exists ((MkNamespace k, i) :: ps). constructor; [split; [reflexivity|exact E]|exact F].
    + split.
      * intros pairs F. inversion F as [|? ? ? ? [_ F2] _]; subst. apply de_iri_iff in F2. cbn in F2. congruence.
      * exists None. split; [reflexivity|congruence].
Qed.
Lemma de_bimap_ok v : 
  (forall l pairs, v = JObject l -> pairs_json parse l pairs -> exists m, de_bimap parse v = Ret (Some m) /\ pm_inv m /\ represents m (insert_all pairs rel_empty)) /\
  (exists o, de_bimap parse v = Ret o /\ (o <> None -> exists l pairs, v = JObject l /\ pairs_json parse l pairs)).
Proof.
  assert (Rp : represents pm_empty rel_empty) by (intros p i; split; intros []). split.
  - intros l pairs -> F. apply (de_pairs_ok l pm_empty rel_empty pm_empty_inv Rp), F.
  - destruct v as [| | | | |l]; try (exists None; split; [reflexivity|congruence]).
    destruct (proj2 (de_pairs_ok l pm_empty rel_empty pm_empty_inv Rp)) as (o & E & H). exists o. split; [exact E|]. intros N.
    destruct (H N) as (ps & F). exists l, ps. auto.
Qed.
Lemma de_map_ok v pairs : prefix_map_json parse v pairs ->
  exists m, de_prefix_map parse v = Ret (Some m) /\ pm_inv m /\ forall p i, In (p, i) (pm_mappings m) <-> stays pairs p i.
Proof.
  assert (X : forall l pairs, pairs_json parse l pairs -> exists m, de_bimap parse (JObject l) = Ret (Some m) /\ pm_inv m /\ forall p i, In (p, i) (pm_mappings m) <-> stays pairs p i).
  { clear pairs. intros l pairs F. destruct (proj1 (de_bimap_ok (JObject l)) l pairs eq_refl F) as (m & E & I & R). exists m. split; [exact E|]. split; [exact I|].
    intros p i. rewrite <- stays_iff. apply R. }
  intros [m l ps O F|l ps F].
  - apply field_some in O. cbn [de_prefix_map]. rewrite O. apply X, F.
  - apply X, F.
Qed.
Lemma de_map_total v : exists o, de_prefix_map parse v = Ret o /\ (o <> None -> exists pairs, prefix_map_json parse v pairs).
Proof.
  assert (N : forall w, exists o, @Ret (option prefix_map) None = Ret o /\ (o <> None -> exists pairs, prefix_map_json parse w pairs)) by (intros w; exists None; split; [reflexivity|congruence]).
  destruct v as [| | | |a|m]; cbn [de_prefix_map]; try apply N.
  - destruct a as [|x [|y a]]; try apply N. destruct (proj2 (de_bimap_ok x)) as (o & E & H). exists o. split; [exact E|]. intros K.
    destruct (H K) as (l & ps & -> & F). exists ps. constructor. exact F.
  - destruct (field $"map" m) as [[x|]|] eqn:E; try apply N. apply field_some in E. destruct (proj2 (de_bimap_ok x)) as (o & D & H). exists o.
    split; [exact D|]. intros K. destruct (H K) as (l & ps & -> & F). exists ps. econstructor; eassumption.
Qed.
Lemma de_map_back m : pm_inv m -> de_prefix_map parse (ser_prefix_map m) = Ret (Some m).
Proof.
  intros I. destruct (de_map_ok (ser_prefix_map m) (pm_mappings m)) as (m' & E & I' & R).
  - unfold ser_prefix_map. econstructor.
    + exists [], []. split; [reflexivity|]. split; intros [].
    + assert (W : forall e, In e (pm_mappings m) -> wf_url (snd e) = true) by (intros [p i] J; apply (pm_in_wf m p i I), J).
      induction (pm_mappings m) as [|[p i] l IH]; cbn [map]; constructor.
      * cbn. split; [reflexivity|]. constructor. apply (proj1 P). apply (W (p, i)). left. reflexivity.
      * apply IH. intros e J. apply W. right. exact J.
  - rewrite E. do 2 f_equal. apply (bi_ext _ _ _ _ ns_total iri_total m' m I' I). intros p i. rewrite (R p i). unfold bi_in. fold (pm_mappings m). split.
    + intros (a & b & -> & _). apply in_or_app. right. left. reflexivity.
    + intros J. apply in_split in J as (a & b & S). exists a, b. split; [exact S|]. intros q j J.
      assert (Ip : bi_in m p i) by (unfold bi_in; fold (pm_mappings m); rewrite S; apply in_or_app; right; left; reflexivity).
      assert (Iq : bi_in m q j) by (unfold bi_in; fold (pm_mappings m); rewrite S; apply in_or_app; right; right; exact J).
      assert (ND : NoDup (pm_mappings m)).
      { destruct I as (So & _). apply (NoDup_map_inv fst). exact (sorted_NoDup_keys _ _ ns_total _ So). }
      split; intros ->.
      * assert (j = i) by exact (bi_in_fun_l _ _ _ _ ns_total m p j i I Iq Ip). subst j. rewrite S in ND. apply NoDup_remove_2 in ND. apply ND, in_or_app. auto.
      * assert (q = p) by exact (bi_in_fun_r _ _ _ _ iri_total m q p i I Iq Ip). subst q. rewrite S in ND. apply NoDup_remove_2 in ND. apply ND, in_or_app. auto.
Qed.
End Iris.

(** ** The properties *)
Lemma c108_round_trip parse : url_parser parse ->
  (forall n, de_namespace (ser_namespace n) = Some n) /\ (forall n, de_name (ser_name n) = Some n) /\
  (forall l, de_local_name (ser_local_name l) = Some l) /\ (forall p, de_prefixed_name (ser_prefixed_name p) = Some p) /\
  (forall i, wf_url i = true -> de_iri parse (ser_iri i) = Some i) /\
  (forall i, wf_url i = true -> de_iri_ref parse (ser_iri_ref (RIri i)) = Some (RIri i)) /\
  (forall p, de_iri_ref parse (ser_iri_ref (RPrefixed p)) = Some (RPrefixed p)) /\
  (forall s h m, Forall op_ok h -> pm_run parse s h = Ret m -> de_prefix_map parse (ser_prefix_map m) = Ret (Some m)).
Proof.
  intros P.
  assert (L : forall l, de_local_name (ser_local_name l) = Some l) by (intros [[a] [b]]; reflexivity).
  assert (N : forall p, de_prefixed_name (ser_prefixed_name p) = Some p).
  { intros [[a]|l]; [reflexivity|]. cbn -[ser_local_name de_local_name]. rewrite L. reflexivity. }
  split; [intros [a]; reflexivity|]. split; [intros [a]; reflexivity|]. split; [exact L|]. split; [exact N|].
  split; [intros i W; exact (proj1 P i W)|]. split; [|split].
  - intros i W. cbn. rewrite (proj1 P i W). reflexivity.
  - intros p. cbn -[ser_prefixed_name de_prefixed_name]. rewrite N. reflexivity.
  - intros s h m O E. apply de_map_back; [exact P|]. apply (pm_run_inv parse (proj1 P) s h m O E).
Qed.
Lemma c108_again parse : url_parser parse -> forall v m, de_prefix_map parse v = Ret (Some m) -> de_prefix_map parse (ser_prefix_map m) = Ret (Some m).
Proof.
  intros P v m E. apply de_map_back; [exact P|]. destruct (de_map_total parse P v) as (o & E' & H). rewrite E in E'. injection E' as <-.
  destruct H as (ps & J); [discriminate|]. destruct (de_map_ok parse P v ps J) as (m' & E' & I & _). congruence.
Qed.
Lemma c108_accepts parse :
  (forall v n, de_namespace v = Some n <-> v = JString (ns_text n)) /\ (forall v n, de_name v = Some n <-> v = JString (name_text n)) /\
  (forall v l, de_local_name v = Some l <-> local_name_json v l) /\ (forall v p, de_prefixed_name v = Some p <-> prefixed_name_json v p) /\
  (forall v i, de_iri parse v = Some i <-> iri_json parse v i) /\ (forall v r, de_iri_ref parse v = Some r <-> iri_ref_json parse v r).
Proof.
  split; [exact de_namespace_iff|]. split; [exact de_name_iff|]. split; [exact de_local_name_iff|]. split; [exact de_prefixed_name_iff|].
  split; [exact (de_iri_iff parse)|exact (de_iri_ref_iff parse)].
Qed.
Lemma c108_maps parse : url_parser parse -> forall v,
  de_prefix_map parse v <> Panic /\
  (de_prefix_map parse v = Ret None <-> forall pairs, ~ prefix_map_json parse v pairs) /\
  (forall pairs, prefix_map_json parse v pairs ->
     exists m, de_prefix_map parse v = Ret (Some m) /\ (forall p i, In (p, i) (pm_mappings m) <-> stays pairs p i) /\
       (forall p i, pm_get_namespace m p = Some i <-> stays pairs p i) /\
       (forall p i, wf_url i = true -> (pm_get_prefix m i = Some p <-> stays pairs p i))).
Proof.
  intros P v. destruct (de_map_total parse P v) as (o & E & H). split; [congruence|]. split; [split|].
  - intros N ps J. destruct (de_map_ok parse P v ps J) as (m & E' & _). congruence.
  - intros N. destruct o as [m|]; [|exact E]. exfalso. destruct H as (ps & J); [discriminate|]. apply (N ps J).
  - intros ps J. destruct (de_map_ok parse P v ps J) as (m & E' & I & R). exists m. split; [exact E'|]. split; [exact R|].
    split; [intros p i; rewrite (pm_get_ns m p i I)|intros p i W; rewrite (pm_get_px m p i I W)]; apply R.
Qed.
Lemma c108_unchecked s :
  de_namespace (JString s) = Some (MkNamespace s) /\ de_name (JString s) = Some (MkName s) /\
  (namespace_obtained (MkNamespace s) <-> exists p, s = p ++ $":") /\
  (namespace_name_string (MkNamespace s) = Panic <-> ~ exists p, s = p ++ $":") /\
  ((exists n, name_from_str (name_display (MkName s)) = Ok n) <-> PN_LOCAL s).
Proof.
  split; [reflexivity|]. split; [reflexivity|]. split; [|split; [|apply name_from_str_dec]].
  - split; [intros O; destruct (c04_name_string _ O) as (p & E & _); exists p; exact E|].
    intros (p & E). assert (X : MkNamespace s = namespace_new_unchecked s).
    { unfold namespace_new_unchecked, with_sep. rewrite E. change $":" with [sep]. rewrite ends_with_chr_app. reflexivity. }
    rewrite X. constructor.
  - unfold namespace_name_string. cbn [ns_text]. destruct (strip_suffix_chr sep s) as [r|] eqn:S.
    + apply strip_suffix_chr_Some in S. split; [destruct r; discriminate|]. intros N. exfalso. apply N. exists r. exact S.
    + split; [|reflexivity]. intros _ (p & E). apply strip_suffix_chr_None in S. rewrite E in S. change $":" with [sep] in S. rewrite ends_with_chr_app in S. discriminate S.
Qed.
