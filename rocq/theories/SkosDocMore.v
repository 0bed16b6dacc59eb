(** Lemmas about the document of a scheme as a whole. *)
From Verif Require Import Str StrFacts LiteralProofs Skos SkosSpec SkosProofs SkosMain SkosMore Turtle TurtleProofs SkosDoc SkosDocSpec
  SkosDocProofs SkosDocMain.
From Coq Require Import Arith Lia Relations.

Section More.
Variable anchor : str -> str -> str.
Variable short : str -> option str.
Variable lang : option str.
Notation concept_body := (concept_body anchor short lang).
Notation collection_body := (collection_body anchor short lang).

(** ** Relations, members and collections *)
Lemma label_is u ls t : is_label lang u ls t <-> t = preferred_label_for u ls lang.
Proof. unfold is_label. rewrite <- c89_preferred. split; congruence. Qed.
Lemma concept_label_iff w k t : concept_label lang w k t <-> exists_at w k /\ t = label_of lang w k.
Proof.
  unfold concept_label, exists_at, label_of. split.
  - intros (c & E & L). split; [apply nth_error_Some; congruence|]. rewrite E. apply label_is, L.
  - intros (X & ->). apply nth_error_Some in X. destruct (nth_error (w_concepts w) k) as [c|]; [|congruence]. exists c.
    split; [reflexivity|]. apply label_is. reflexivity.
Qed.
Lemma collection_label_iff w k t : collection_label lang w k t <-> (k < length (w_collections w))%nat /\ t = label_of_collection lang w k.
Proof.
  unfold collection_label, label_of_collection. split.
  - intros (c & E & L). split; [apply nth_error_Some; congruence|]. rewrite E. apply label_is, L.
  - intros (X & ->). apply nth_error_Some in X. destruct (nth_error (w_collections w) k) as [c|]; [|congruence]. exists c.
    split; [reflexivity|]. apply label_is. reflexivity.
Qed.

Lemma grown_body w w' a ls c : grown w w' a -> concept_body w' ls c = concept_body w ls c.
Proof.
  intros G. unfold SkosDocMain.concept_body. f_equal. f_equal.
  - destruct (kc_concepts c) as [|rk rels]; [reflexivity|]. unfold write_concept_relations. f_equal. f_equal. f_equal. f_equal.
    apply map_ext. intros x. rewrite (grown_label lang _ _ _ _ G). reflexivity.
  - unfold write_collection_membership. replace (in_collections w' ls (kc_uri c)) with (in_collections w ls (kc_uri c)).
    + destruct (in_collections w ls (kc_uri c)); [reflexivity|]. do 3 f_equal. apply map_ext. intros k. rewrite (grown_label_l lang _ _ _ _ G). reflexivity.
    + unfold in_collections, has_member. destruct G as (G1 & G2 & G3). rewrite G1. apply filter_ext. intros k. destruct (nth_error (w_collections w) k); [|reflexivity].
      induction (kl_members c0) as [|m ms IH]; [reflexivity|]. cbn. rewrite IH. f_equal. f_equal. destruct m; cbn.
      * unfold uri_of. rewrite G3. destruct (nth_error (w_concepts w) k0); reflexivity.
      * unfold uri_of_collection. rewrite G1. reflexivity.
Qed.
Lemma grown_collection_body w w' a ls c : grown w w' a -> collection_body w' ls c = collection_body w ls c.
Proof.
  intros G. unfold SkosDocMain.collection_body. f_equal. f_equal.
  - destruct (kl_members c) as [|m ms]; [reflexivity|]. unfold write_collection_members. f_equal. f_equal. f_equal.
    apply map_ext. intros [k|k]; [rewrite (grown_label lang _ _ _ _ G)|rewrite (grown_label_l lang _ _ _ _ G)]; reflexivity.
  - unfold write_collection_membership. replace (in_collections w' ls (kl_uri c)) with (in_collections w ls (kl_uri c)).
    + destruct (in_collections w ls (kl_uri c)); [reflexivity|]. do 3 f_equal. apply map_ext. intros k. rewrite (grown_label_l lang _ _ _ _ G). reflexivity.
    + unfold in_collections, has_member. destruct G as (G1 & G2 & G3). rewrite G1. apply filter_ext. intros k. destruct (nth_error (w_collections w) k); [|reflexivity].
      induction (kl_members c0) as [|m ms IH]; [reflexivity|]. cbn. rewrite IH. f_equal. f_equal. destruct m; cbn.
      * unfold uri_of. rewrite G3. destruct (nth_error (w_concepts w) k0); reflexivity.
      * unfold uri_of_collection. rewrite G1. reflexivity.
Qed.

Lemma has_member_iff w c u : ok_collection (length (w_concepts w)) (length (w_collections w)) c -> has_member w c u = true <-> is_member w c u.
Proof.
  intros O. rewrite <- (member_iff w c u O). unfold has_member. rewrite existsb_exists. split; intros (m & I & E); exists m; (split; [exact I|]).
  - apply str_eqb_eq in E. congruence.
  - rewrite <- E. apply str_eqb_refl.
Qed.
Lemma in_collections_iff w ls u : wf w -> Permutation ls (seq 0 (length (w_collections w))) -> forall k,
  In k (in_collections w ls u) <-> exists c, nth_error (w_collections w) k = Some c /\ is_member w c u.
Proof.
  intros (_ & B & _) P k. unfold in_collections. rewrite filter_In. rewrite Forall_forall in B. split.
  - intros (I & H). destruct (nth_error (w_collections w) k) as [c|] eqn:E; [|discriminate]. exists c. split; [reflexivity|].
    apply has_member_iff; [apply B, (nth_error_In _ _ E)|exact H].
  - intros (c & E & M). split.
    + apply (Permutation_in _ (Permutation_sym P)). apply in_seq. split; [lia|]. cbn. apply nth_error_Some. congruence.
    + rewrite E. apply has_member_iff; [apply B, (nth_error_In _ _ E)|exact M].
Qed.
Lemma places_exist w ls : Permutation ls (seq 0 (length (w_collections w))) -> forall k, In k ls -> (k < length (w_collections w))%nat.
Proof. intros P k I. apply (Permutation_in _ P), in_seq in I. lia. Qed.

Lemma membership_shows w ls u pre : wf w -> Permutation ls (seq 0 (length (w_collections w))) ->
  ~ In $"In Collections" (headings 4 pre) ->
  shows_membership anchor lang w u (pre ++ write_collection_membership anchor lang w ls u).
Proof.
  intros W P N. pose proof (in_collections_iff w ls u W P) as H. split.
  - intros (c & I & M). apply In_nth_error in I as (k & E).
    exists (in_collections w ls u), (map (fun k => DItem [collection_link anchor (label_of_collection lang w k)]) (in_collections w ls u)).
    split; [|split; [exact H|split]].
    + unfold write_collection_membership. destruct (in_collections w ls u) as [|k' r] eqn:Q.
      * assert (X : In k []) by (apply H; exists c; auto). destruct X.
      * match goal with |- section_of (pre ++ [?x; ?y]) _ _ _ _ => change [x; y] with (x :: [y] ++ []) end. apply section_here; [repeat constructor|exact I].
    + apply NoDup_filter. apply (Permutation_NoDup (Permutation_sym P)), seq_NoDup.
    + apply Forall2_map_r. assert (G : Forall (fun k => (k < length (w_collections w))%nat) (in_collections w ls u)).
      { apply Forall_forall. intros j J. apply H in J as (c' & E' & _). apply nth_error_Some. congruence. }
      clear - G. induction G as [|k r K _ IH]; constructor; [|exact IH]. exists (label_of_collection lang w k). split; [|reflexivity].
      apply collection_label_iff. auto.
  - intros X. rewrite headings_app, membership_headings. destruct (in_collections w ls u) as [|k r] eqn:Q; [rewrite app_nil_r; exact N|].
    destruct X. destruct (proj1 (H k) (or_introl eq_refl)) as (c & E & M). exists c. split; [apply (nth_error_In _ _ E)|exact M].
Qed.

Lemma headings_header u ls ps n t : t <> $"Labels" -> t <> $"Other Properties" -> ~ In t (headings n (header_body short lang u ls ps 3)).
Proof.
  intros A B. rewrite headings_body, (headings_labels anchor), headings_properties. intros I. apply in_app_or in I as [I|I].
  - destruct ls; [destruct I|]. destruct (Nat.eqb 4 n); [|destruct I]. destruct I as [I|[]]. congruence.
  - destruct ps; [destruct I|]. destruct (Nat.eqb 4 n); [|destruct I]. destruct I as [I|[]]. congruence.
Qed.
Lemma relation_columns_is : relation_columns = [$"Relationship"; $"Concept Iri"].
Proof. reflexivity. Qed.
Lemma concept_body_relations w ls c : Forall (fun rk => exists_at w (snd rk)) (kc_concepts c) ->
  shows_relations anchor short lang w (kc_concepts c) (kc_external c) (concept_body w ls c).
Proof.
  intros X. unfold SkosDocMain.concept_body. split.
  - intros N. exists (map (fun rk => [[IText Normal (shown short (rel_uri (fst rk)))]; [concept_link anchor Normal (label_of lang w (snd rk))]]) (kc_concepts c)),
      (map (fun ri => [[IText Normal (shown short (fst ri))]; [IExternal (snd ri) (Some (shown short (snd ri)))]]) (kc_external c)).
    split; [|split].
    + destruct (kc_concepts c) as [|rk rels] eqn:Q; [congruence|]. unfold write_concept_relations. rewrite Q, relation_columns_is.
      match goal with |- section_of (?p ++ [?x; ?y] ++ ?r) _ _ _ _ => change ([x; y] ++ r) with (x :: [y] ++ r) end.
      apply section_here; [repeat constructor|]. unfold write_collection_membership. destruct (in_collections w ls (kc_uri c)); [exact I|apply stops_heading].
    + apply Forall2_map_r. clear N. induction X as [|rk r K _ IH]; constructor; [|exact IH]. exists (shown short (rel_uri (fst rk))), (label_of lang w (snd rk)).
      rewrite <- rel_uri_is. split; [apply shown_iff; reflexivity|]. split; [|reflexivity]. apply concept_label_iff. auto.
    + apply Forall2_map_r, Forall2_same. intros x. exists (shown short (fst x)), (shown short (snd x)).
      split; [apply shown_iff; reflexivity|]. split; [apply shown_iff; reflexivity|reflexivity].
  - intros ->. cbn [app]. rewrite headings_app, membership_headings. intros I. apply in_app_or in I as [I|I].
    + revert I. apply headings_header; discriminate.
    + destruct (in_collections w ls (kc_uri c)); [destruct I|]. destruct I as [I|[]]. discriminate I.
Qed.
Lemma concept_body_membership w ls c : wf w -> Permutation ls (seq 0 (length (w_collections w))) ->
  shows_membership anchor lang w (kc_uri c) (concept_body w ls c).
Proof.
  intros W P. unfold SkosDocMain.concept_body. rewrite app_assoc. apply membership_shows; [exact W|exact P|].
  rewrite headings_app. intros I. apply in_app_or in I as [I|I]; [revert I; apply headings_header; discriminate|].
  destruct (kc_concepts c); [destruct I|]. destruct I as [I|[]]. discriminate I.
Qed.
Lemma collection_body_membership w ls c : wf w -> Permutation ls (seq 0 (length (w_collections w))) ->
  shows_membership anchor lang w (kl_uri c) (collection_body w ls c).
Proof.
  intros W P. unfold SkosDocMain.collection_body. rewrite app_assoc. apply membership_shows; [exact W|exact P|].
  rewrite headings_app. intros I. apply in_app_or in I as [I|I]; [revert I; apply headings_header; discriminate|].
  destruct (kl_members c); [destruct I|]. destruct I as [I|[]]. discriminate I.
Qed.
Lemma collection_body_members w ls c : ok_collection (length (w_concepts w)) (length (w_collections w)) c ->
  shows_members anchor lang w (kl_members c) (collection_body w ls c).
Proof.
  intros O. unfold SkosDocMain.collection_body. split.
  - intros N. exists (map (fun m => match m with
            | MCollection k => DItem [IText Normal $"Collection "; collection_link anchor (label_of_collection lang w k)]
            | MConcept k => DItem [IText Normal $"Concept "; concept_link anchor Normal (label_of lang w k)]
            end) (kl_members c)). split.
    + destruct (kl_members c) as [|m ms]; [congruence|]. unfold write_collection_members.
      match goal with |- section_of (?p ++ ([?x] ++ [?y]) ++ ?r) _ _ _ _ => change (([x] ++ [y]) ++ r) with (x :: [y] ++ r) end.
      apply section_here; [repeat constructor|]. unfold write_collection_membership. destruct (in_collections w ls (kl_uri c)); [exact I|apply stops_heading].
    + apply Forall2_map_r. clear N. unfold ok_collection in O. induction O as [|m r K _ IH]; constructor; [|exact IH]. destruct m as [k|k]; cbn in K; cbn.
      * exists (label_of lang w k). split; [apply concept_label_iff; auto|reflexivity].
      * exists (label_of_collection lang w k). split; [apply collection_label_iff; auto|reflexivity].
  - intros ->. cbn [app]. rewrite headings_app, membership_headings. intros I. apply in_app_or in I as [I|I].
    + revert I. apply headings_header; discriminate.
    + destruct (in_collections w ls (kl_uri c)); [destruct I|]. destruct I as [I|[]]. discriminate I.
Qed.

(** ** The hierarchy *)
(** A list of items, each of which may be followed by a list. *)
Definition group (g : inline * option (list ditem)) : list ditem :=
  match snd g with None => [DItem [fst g]] | Some sub => [DItem [fst g]; DSub sub] end.
Lemma way_down_groups gs p : way_down (flat_map group gs) p <->
  exists y a s, (exists o, In (IAnchor y a s, o) gs) /\ p = [s] \/
    exists sub p', In (IAnchor y a s, Some sub) gs /\ way_down sub p' /\ p = s :: p'.
Proof.
  split.
  - intros H. inversion H as [l y a s I El Ep|before y a s sub after q D El Ep]; subst p.
    + exists y, a, s. left. split; [|reflexivity]. apply in_flat_map in I as ([i o] & J & K). unfold group in K. cbn in K.
      destruct o as [sub|]; destruct K as [K|K]; try (injection K as ->; eauto); [|destruct K]. destruct K as [K|[]]; discriminate K.
    + exists y, a, s. right. exists sub, q. split; [|auto]. clear H D. revert before El. induction gs as [|[i o] gs IH]; intros before El.
      * destruct before; discriminate El.
      * cbn [flat_map] in El. unfold group at 1 in El. cbn [fst snd] in El. destruct o as [sub'|].
        -- destruct before as [|x [|z before]]; cbn [app] in El; [|discriminate El|].
           ++ injection El as E1 E2 E3. subst. left. reflexivity.
           ++ injection El as E1 E2 E3. right. apply (IH _ E3).
        -- destruct before as [|x before]; cbn [app] in El; injection El as E1 E2; [|right; apply (IH _ E2)].
           destruct gs as [|[i' o'] gs]; [discriminate E2|]. cbn [flat_map] in E2. unfold group at 1 in E2. cbn in E2. destruct o'; discriminate E2.
  - intros (y & a & s & [((o & I) & ->)|(sub & p' & I & D & ->)]).
    + apply wd_here with y a. apply in_flat_map. exists (IAnchor y a s, o). split; [exact I|]. destruct o; left; reflexivity.
    + apply in_split in I as (g1 & g2 & ->). rewrite flat_map_app. cbn [flat_map]. unfold group at 2. cbn [fst snd app].
      apply wd_below, D.
Qed.

Lemma sequence_groups {A} (F : A -> option (list ditem)) (G : A -> option (inline * option (list ditem))) xs l :
  (forall x, F x = option_map group (G x)) -> sequence (map F xs) = Some l ->
  exists gs, Forall2 (fun x g => G x = Some g) xs gs /\ l = flat_map group gs.
Proof.
  intros H. revert l. induction xs as [|x xs IH]; intros l E; cbn in E; [injection E as <-; exists []; split; [constructor|reflexivity]|].
  rewrite H in E. destruct (G x) as [g|] eqn:Q; [|discriminate]. cbn [option_map] in E.
  destruct (sequence (map F xs)) as [r|]; [|discriminate]. cbn in E. injection E as <-.
  destruct (IH _ eq_refl) as (gs & A1 & ->). exists (g :: gs). split; [constructor; assumption|reflexivity].
Qed.

Definition inner_group (f : nat) (w : world) (rk : concept_relation * nat) : option (inline * option (list ditem)) :=
  let i := concept_link anchor (match fst rk with RNarrowerPartitive | RNarrowerInstantial => Italic | _ => Normal end) (label_of lang w (snd rk)) in
  match rels_at w (snd rk) with
  | [] => Some (i, None)
  | more => option_map (fun sub => (i, Some sub)) (tree_inner anchor lang f w more)
  end.
Lemma tree_inner_groups f w rels l : tree_inner anchor lang (S f) w rels = Some l ->
  exists gs, Forall2 (fun rk g => inner_group f w rk = Some g)
    (filter (fun rk => rel_is_narrower (fst rk)) (sort_by_key str_cmp (fun rk => label_of lang w (snd rk)) rels)) gs /\ l = flat_map group gs.
Proof.
  cbn [tree_inner]. apply sequence_groups. intros rk. unfold inner_group, rels_at.
  destruct (nth_error (w_concepts w) (snd rk)) as [c|]; [|reflexivity].
  destruct (kc_concepts c) as [|x more]; [reflexivity|]. destruct (tree_inner anchor lang f w (x :: more)); reflexivity.
Qed.
Lemma Forall2_in_r {A B} (R : A -> B -> Prop) la lb : Forall2 R la lb -> forall b, In b lb -> exists a, In a la /\ R a b.
Proof. induction 1 as [|a b la lb H _ IH]; intros x I; [destruct I|]. destruct I as [<-|I]; [exists a; cbn; auto|]. destruct (IH _ I) as (a' & J & K). exists a'. cbn. auto. Qed.
Lemma Forall2_in_l {A B} (R : A -> B -> Prop) la lb : Forall2 R la lb -> forall a, In a la -> exists b, In b lb /\ R a b.
Proof. induction 1 as [|a b la lb H _ IH]; intros x I; [destruct I|]. destruct I as [<-|I]; [exists b; cbn; auto|]. destruct (IH _ I) as (a' & J & K). exists a'. cbn. auto. Qed.

Definition chains (w : world) (k : nat) (p : list str) : Prop :=
  exists ks, narrower_chain w (k :: ks) /\ p = map (label_of lang w) (k :: ks).
Lemma chains_step w k p : chains w k p <->
  p = [label_of lang w k] \/ exists r k' p', In (r, k') (rels_at w k) /\ rel_is_narrower r = true /\ chains w k' p' /\ p = label_of lang w k :: p'.
Proof.
  unfold chains. split.
  - intros ([|k' ks] & C & ->); [left; reflexivity|]. right. inversion C as [|a b r (c & r' & E & I & N) C' E1]; subst.
    exists r', k', (map (label_of lang w) (k' :: ks)). split; [unfold rels_at; rewrite E; exact I|]. split; [apply narrower_iff, N|].
    split; [exists ks; auto|reflexivity].
  - intros [->|(r & k' & p' & I & N & (ks & C & ->) & ->)]; [exists []; split; [constructor|reflexivity]|].
    exists (k' :: ks). split; [|reflexivity]. constructor; [|exact C]. unfold rels_at in I. destruct (nth_error (w_concepts w) k) as [c|] eqn:E; [|destruct I].
    exists c, r. split; [exact E|]. split; [exact I|]. apply narrower_iff, N.
Qed.
Lemma tree_inner_ways f : forall w rels l, tree_inner anchor lang f w rels = Some l -> forall p, way_down l p <->
  exists r k, In (r, k) rels /\ rel_is_narrower r = true /\ chains w k p.
Proof.
  induction f as [|f IH]; intros w rels l H p; [discriminate H|]. apply tree_inner_groups in H as (gs & F & ->). rewrite way_down_groups.
  assert (M : forall r k, In (r, k) (filter (fun rk => rel_is_narrower (fst rk)) (sort_by_key str_cmp (fun rk => label_of lang w (snd rk)) rels)) <->
    In (r, k) rels /\ rel_is_narrower r = true).
  { intros r k. rewrite filter_In, sort_by_key_in. reflexivity. }
  split.
  - intros (y & a & s & [((o & I) & ->)|(sub & p' & I & D & ->)]).
    + destruct (Forall2_in_r _ _ _ F _ I) as ((r & k) & J & E). apply M in J as (J & N). exists r, k. split; [exact J|]. split; [exact N|].
      apply chains_step. left. unfold inner_group in E. cbn [fst snd] in E. destruct (rels_at w k); [injection E as _ _ <- _; reflexivity|].
      destruct (tree_inner anchor lang f w (p :: l)); [|discriminate]. injection E as _ _ <- _. reflexivity.
    + destruct (Forall2_in_r _ _ _ F _ I) as ((r & k) & J & E). apply M in J as (J & N). exists r, k. split; [exact J|]. split; [exact N|].
      apply chains_step. right. unfold inner_group in E. cbn [fst snd] in E. destruct (rels_at w k) as [|x more] eqn:Q; [discriminate E|].
      destruct (tree_inner anchor lang f w (x :: more)) as [sub'|] eqn:T; [|discriminate]. injection E as _ _ <- <-.
      apply (IH _ _ _ T) in D as (r' & k' & I' & N' & C). exists r', k', p'. auto.
  - intros (r & k & I & N & C). destruct (Forall2_in_l _ _ _ F (r, k)) as (g & J & E); [apply M; auto|].
    unfold inner_group in E. cbn [fst snd] in E. apply chains_step in C.
    destruct (rels_at w k) as [|x more] eqn:Q.
    + injection E as <-. eexists _, _, _. left. split; [eexists; exact J|]. destruct C as [->|(r' & k' & p' & [] & _)]. reflexivity.
    + destruct (tree_inner anchor lang f w (x :: more)) as [sub|] eqn:T; [|discriminate]. injection E as <-.
      eexists _, _, _. destruct C as [->|(r' & k' & p' & I' & N' & C & ->)].
      * left. split; [eexists; exact J|reflexivity].
      * right. exists sub, p'. split; [exact J|]. split; [|reflexivity]. apply (IH _ _ _ T). exists r', k'. auto.
Qed.
Lemma tree_of_ways f w k b : exists_at w k -> tree_of anchor lang f w k = Some b ->
  exists l, b = [DList l] /\ forall p, way_down l p <-> chains w k p.
Proof.
  intros X. unfold tree_of. apply nth_error_Some in X. destruct (nth_error (w_concepts w) k) as [c|] eqn:E; [|congruence].
  assert (R : rels_at w k = kc_concepts c) by (unfold rels_at; rewrite E; reflexivity).
  destruct (kc_concepts c) as [|x more].
  - injection 1 as <-. eexists. split; [reflexivity|]. intros p.
    change [DItem [concept_link anchor Bold (label_of lang w k)]] with (flat_map group [(concept_link anchor Bold (label_of lang w k), @None (list ditem))]).
    rewrite way_down_groups, chains_step, R. split.
    + intros (y & a & s & [((o & I) & ->)|(sub & p' & I & D & ->)]); destruct I as [I|[]]; [|discriminate I]. left. injection I as _ _ <- _. reflexivity.
    + intros [->|(r' & k' & p' & [] & _)]. eexists _, _, _. left. split; [eexists; left; reflexivity|reflexivity].
  - destruct (tree_inner anchor lang f w (x :: more)) as [sub|] eqn:T; [|discriminate]. injection 1 as <-. eexists. split; [reflexivity|]. intros p.
    change [DItem [concept_link anchor Bold (label_of lang w k)]; DSub sub] with (flat_map group [(concept_link anchor Bold (label_of lang w k), Some sub)]).
    rewrite way_down_groups, chains_step, R. split.
    + intros (y & a & s & [((o & I) & ->)|(sub' & p' & I & D & ->)]); destruct I as [I|[]].
      * left. injection I as _ _ <- _. reflexivity.
      * right. injection I as _ _ <- <-. apply (tree_inner_ways _ _ _ _ T) in D as (r' & k' & I' & N' & C). exists r', k', p'. auto.
    + intros [->|(r' & k' & p' & I' & N' & C & ->)].
      * eexists _, _, _. left. split; [eexists; left; reflexivity|reflexivity].
      * eexists _, _, _. right. exists sub, p'. split; [left; reflexivity|]. split; [|reflexivity]. apply (tree_inner_ways _ _ _ _ T). exists r', k'. auto.
Qed.
Lemma chain_exists w : wf w -> forall ks k, exists_at w k -> narrower_chain w (k :: ks) -> Forall (exists_at w) (k :: ks).
Proof.
  intros W. induction ks as [|k' ks IH]; intros k X C; [repeat constructor; exact X|]. inversion C as [|a b r U C' E1]; subst.
  constructor; [exact X|]. apply IH; [|exact C']. destruct U as (c & r & E & I & _). apply (wf_closed w W k r). unfold rels_at. rewrite E. exact I.
Qed.
Lemma chains_labels w k p : wf w -> exists_at w k ->
  chains w k p <-> exists ks, narrower_chain w (k :: ks) /\ Forall2 (concept_label lang w) (k :: ks) p.
Proof.
  intros W X. unfold chains. split; intros (ks & C & L); exists ks; (split; [exact C|]); pose proof (chain_exists w W ks k X C) as F.
  - subst p. apply Forall2_map_r. clear C. induction F; [constructor|]. constructor; [apply concept_label_iff; auto|assumption].
  - clear C X. revert p L. induction F as [|k' r K F IH]; intros p L; inversion L; subst; [reflexivity|]. cbn. f_equal; [|apply IH; assumption].
    apply concept_label_iff. assumption.
Qed.
Lemma sorted_filter {A} (R : A -> A -> Prop) (f : A -> bool) l : StronglySorted R l -> StronglySorted R (filter f l).
Proof.
  induction 1 as [|a l S IH F]; cbn; [constructor|]. destruct (f a); [|exact IH]. constructor; [exact IH|].
  apply Forall_forall. intros x I. apply filter_In in I as [I _]. rewrite Forall_forall in F. exact (F x I).
Qed.
Lemma filter_perm {A} (f : A -> bool) l l' : Permutation l l' -> Permutation (filter f l) (filter f l').
Proof.
  induction 1 as [|a l l' P IH|a b l|l l' l'' P IH P' IH']; cbn.
  - constructor.
  - destruct (f a); [constructor|]; exact IH.
  - destruct (f a), (f b); try constructor; apply Permutation_refl.
  - eapply Permutation_trans; eassumption.
Qed.
Lemma narrower_sorted w rels : narrower_by_label lang w rels
  (filter (fun rk => rel_is_narrower (fst rk)) (sort_by_key str_cmp (fun rk => label_of lang w (snd rk)) rels)).
Proof.
  split.
  - apply (filter_perm (fun rk => rel_is_narrower (fst rk))), sort_by_key_perm.
  - apply sorted_filter. pose proof (sort_by_key_sorted str_cmp (fun rk : concept_relation * nat => label_of lang w (snd rk)) rels str_total) as S.
    induction S as [|a l S IH F]; constructor; [exact IH|]. eapply Forall_impl; [|exact F]. cbn. intros b G s t A B.
    apply concept_label_iff in A as (_ & ->). apply concept_label_iff in B as (_ & ->). exact G.
Qed.
Lemma tree_inner_lists f w : wf w -> forall rels l, (forall r k, In (r, k) rels -> exists_at w k) -> tree_inner anchor lang f w rels = Some l ->
  lists_narrower anchor lang w (filter (fun rk => rel_is_narrower (fst rk)) (sort_by_key str_cmp (fun rk => label_of lang w (snd rk)) rels)) l.
Proof.
  intros W. induction f as [|f IH]; intros rels l X H; [discriminate H|]. apply tree_inner_groups in H as (gs & F & ->).
  assert (M : forall r k, In (r, k) (filter (fun rk => rel_is_narrower (fst rk)) (sort_by_key str_cmp (fun rk => label_of lang w (snd rk)) rels)) ->
    exists_at w k /\ rel_is_narrower r = true).
  { intros r k I. apply filter_In in I as (I & N). apply sort_by_key_in in I. split; [exact (X r k I)|exact N]. }
  induction F as [|(r & k) g xs gs E F IHF]; [constructor|]. destruct (M r k (or_introl eq_refl)) as (Xk & N).
  specialize (IHF (fun r' k' I => M r' k' (or_intror I))).
  assert (L : concept_label lang w k (label_of lang w k)) by (apply concept_label_iff; auto).
  assert (Y : (match r with RNarrowerPartitive | RNarrowerInstantial => Italic | _ => Normal end) = narrower_style r) by (destruct r; try discriminate N; reflexivity).
  unfold inner_group in E. cbn [fst snd] in E. rewrite Y in E. unfold rels_at in E.
  pose proof Xk as Xk'. apply nth_error_Some in Xk'. destruct (nth_error (w_concepts w) k) as [c|] eqn:Ec; [|congruence]. clear Xk'.
  destruct (kc_concepts c) as [|x more] eqn:Q.
  - injection E as <-. exact (ln_alone anchor lang w r k c _ xs _ Ec Q L IHF).
  - destruct (tree_inner anchor lang f w (x :: more)) as [sub|] eqn:T; [|discriminate E]. injection E as <-.
    apply (ln_more anchor lang w r k c _ (filter (fun rk => rel_is_narrower (fst rk)) (sort_by_key str_cmp (fun rk => label_of lang w (snd rk)) (x :: more))) sub xs _ Ec); [congruence|exact L|rewrite Q; apply narrower_sorted| |exact IHF].
    apply IH; [|exact T]. intros r' k' I. apply (wf_closed w W k r' k'). unfold rels_at. rewrite Ec, Q. exact I.
Qed.
Lemma tree_of_lists f w k l : wf w -> exists_at w k -> tree_of anchor lang f w k = Some [DList l] -> lists_top anchor lang w k l.
Proof.
  intros W X. unfold tree_of. pose proof X as X'. apply nth_error_Some in X'. destruct (nth_error (w_concepts w) k) as [c|] eqn:E; [|congruence]. clear X'.
  intros H. exists c, (label_of lang w k). split; [exact E|]. split; [apply concept_label_iff; auto|].
  destruct (kc_concepts c) as [|x more] eqn:Q.
  - left. injection H as <-. auto.
  - right. split; [congruence|]. destruct (tree_inner anchor lang f w (x :: more)) as [sub|] eqn:T; [|discriminate H]. injection H as <-.
    eexists _, sub. split; [apply narrower_sorted|]. split; [|reflexivity]. apply (tree_inner_lists f w W); [|exact T].
    intros r' k' I. apply (wf_closed w W k r' k'). unfold rels_at. rewrite E, Q. exact I.
Qed.
Lemma tree_lists f w tree : wf w -> write_concept_tree anchor lang f w = Some tree ->
  exists lists, tree = DHeading 2 $"Concepts Hierarchy" (Some $"ConceptsHierarchy") :: lists /\
  Forall2 (fun k b => exists l, b = DList l /\
      (forall p, way_down l p <-> exists ks, narrower_chain w (k :: ks) /\ Forall2 (concept_label lang w) (k :: ks) p) /\
      lists_top anchor lang w k l)
    (ks_concepts (w_scheme w)) lists.
Proof.
  intros W. unfold write_concept_tree. destruct (sequence _) as [lists|] eqn:E; [|discriminate]. injection 1 as <-. exists lists. split; [reflexivity|].
  pose proof W as (_ & _ & K & _). revert lists E. induction K as [|k ks X _ IH]; intros lists E.
  - injection E as <-. constructor.
  - cbn [map sequence] in E. destruct (tree_of anchor lang f w k) as [b|] eqn:T; [|discriminate].
    destruct (sequence (map (tree_of anchor lang f w) ks)) as [r|] eqn:Q; [|discriminate]. injection E as <-.
    destruct (tree_of_ways f w k b X T) as (l & -> & H). constructor; [|apply IH; reflexivity]. exists l. split; [reflexivity|].
    split; [|apply (tree_of_lists f w k l W X T)]. intros p. rewrite H. apply chains_labels; assumption.
Qed.
End More.
