(** Where the links of the document of a scheme go. *)
From Verif Require Import Str StrFacts LiteralProofs Skos SkosSpec SkosProofs SkosMain SkosMore Turtle TurtleProofs SkosDoc SkosDocSpec
  SkosDocProofs SkosDocMain SkosDocMore SkosDocWhole SkosDocFinal.
From Coq Require Import Arith Lia Relations.

Lemma has_link_app d d' a t : has_link (d ++ d') a t <-> has_link d a t \/ has_link d' a t.
Proof.
  unfold has_link. split.
  - intros (b & y & I & B). apply in_app_or in I as [I|I]; [left|right]; exists b, y; auto.
  - intros [(b & y & I & B)|(b & y & I & B)]; exists b, y; (split; [apply in_or_app; auto|exact B]).
Qed.
Lemma has_link_cons b d a t : has_link (b :: d) a t <-> (exists y, in_block (IAnchor y a t) b) \/ has_link d a t.
Proof.
  unfold has_link. split.
  - intros (b' & y & [<-|I] & B); [left; exists y; exact B|right; exists b', y; auto].
  - intros [(y & B)|(b' & y & I & B)]; [exists b, y; cbn; auto|exists b', y; cbn; auto].
Qed.
Lemma has_link_nil a t : ~ has_link [] a t.
Proof. intros (b & y & [] & _). Qed.
Lemma has_link_flat {A} (f : A -> list block) xs a t : has_link (flat_map f xs) a t <-> exists x, In x xs /\ has_link (f x) a t.
Proof.
  induction xs as [|x xs IH]; cbn [flat_map]; [split; [intros L; destruct (has_link_nil _ _ L)|intros (x & [] & _)]|].
  rewrite has_link_app, IH. split.
  - intros [L|(x' & I & L)]; [exists x; cbn; auto|exists x'; cbn; auto].
  - intros (x' & [<-|I] & L); [left; exact L|right; exists x'; auto].
Qed.
Lemma in_sub i l : in_item i (DSub l) <-> exists t, In t l /\ in_item i t.
Proof.
  induction l as [|x r IH]; cbn in *; [split; [intros []|intros (t & [] & _)]|]. rewrite IH. split.
  - intros [H|(t & I & H)]; [exists x; auto|exists t; auto].
  - intros (t & [<-|I] & H); [left; exact H|right; exists t; auto].
Qed.

(** Blocks without links. *)
Definition plain (b : block) : Prop := forall y a t, ~ in_block (IAnchor y a t) b.
Lemma plain_none d a t : Forall plain d -> ~ has_link d a t.
Proof. intros F (b & y & I & B). rewrite Forall_forall in F. apply (F b I _ _ _ B). Qed.
Lemma plain_heading n t a : plain (DHeading n t a).
Proof. intros y a' t' []. Qed.
Lemma plain_text i : (forall y a t, ~ In (IAnchor y a t) i) -> plain (DPara i).
Proof. intros H y a t. apply H. Qed.
Definition plain_cell (c : list inline) : Prop := forall y a t, ~ In (IAnchor y a t) c.
Lemma plain_table cols rows : Forall (Forall plain_cell) rows -> plain (DTable cols rows).
Proof.
  intros F y a t (row & cell & I & J & K). rewrite Forall_forall in F. specialize (F _ I). rewrite Forall_forall in F. apply (F _ J _ _ _ K).
Qed.
Lemma plain_one y s : plain_cell [IText y s].
Proof. intros y' a t [E|[]]. discriminate. Qed.
Lemma plain_language lang g : plain_cell (language_cell lang g).
Proof. destruct g; cbn; [apply plain_one|intros y a t []]. Qed.

Section Links.
Variable anchor : str -> str -> str.
Variable short : str -> option str.
Variable lang : option str.

Lemma plain_labels ls : forall cur table, (forall rows, table = Some rows -> Forall (Forall plain_cell) rows) ->
  Forall plain (label_tables short lang cur table ls).
Proof.
  induction ls as [|l ls IH]; intros cur table T; cbn [label_tables].
  - destruct table as [rows|]; constructor; [apply plain_table, T; reflexivity|constructor].
  - assert (R : Forall plain_cell [[IText Normal (sl_text l)]; language_cell lang (sl_language l)]).
    { constructor; [apply plain_one|]. constructor; [apply plain_language|constructor]. }
    destruct (match cur with Some k => lk_eqb (sl_kind l) k | None => false end).
    + apply IH. destruct table as [rows|]; cbn; intros rs E; [|discriminate]. injection E as <-. apply Forall_app. split; [apply T; reflexivity|].
      constructor; [exact R|constructor].
    + apply Forall_app. split; [destruct table as [rows|]; constructor; [apply plain_table, T; reflexivity|constructor]|].
      constructor; [apply plain_text, plain_one|]. apply IH. intros rows E. injection E as <-. constructor; [exact R|constructor].
Qed.
Lemma plain_header u ls ps depth : Forall plain (header_body short lang u ls ps depth).
Proof.
  unfold header_body, definition_part, labels_part, properties_part. apply Forall_app. split.
  { destruct (find _ ps); constructor; [apply plain_text, plain_one|constructor]. }
  constructor; [apply plain_text; intros y a t [E|[]]; discriminate|]. apply Forall_app. split.
  - destruct ls; [constructor|]. constructor; [apply plain_heading|]. apply plain_labels. discriminate.
  - destruct ps as [|p ps]; [constructor|]. constructor; [apply plain_heading|]. constructor; [|constructor]. apply plain_table, Forall_forall.
    intros row I. apply in_map_iff in I as (q & <- & _). unfold property_row.
    constructor; [apply plain_one|]. constructor; [apply plain_one|]. constructor; [apply plain_one|]. constructor; [apply plain_language|constructor].
Qed.

(** The hierarchy. *)
Lemma rels_under w k r k' : In (r, k') (rels_at w k) -> rel_is_narrower r = true -> under w k k'.
Proof.
  unfold rels_at. intros I N. destruct (nth_error (w_concepts w) k) as [c|] eqn:E; [|destruct I]. exists c, r. split; [exact E|]. split; [exact I|].
  apply narrower_iff, N.
Qed.
Lemma tree_inner_links f w : forall rels l, tree_inner anchor lang f w rels = Some l -> forall x y a t, In x l -> in_item (IAnchor y a t) x ->
  exists r k k', In (r, k) rels /\ rel_is_narrower r = true /\ clos_refl_trans nat (under w) k k' /\ t = label_of lang w k' /\ a = anchor t $"concept".
Proof.
  induction f as [|f IH]; intros rels l E x y a t I J; [discriminate E|]. apply tree_inner_groups in E as (gs & F & ->).
  apply in_flat_map in I as (g & Ig & I). destruct (Forall2_in_r _ _ _ F g Ig) as ([r k] & Ir & G). apply filter_In in Ir as (Ir & Nr).
  apply sort_by_key_in in Ir. cbn [fst] in Nr. unfold inner_group in G. cbn [fst snd] in G.
  assert (X : (exists o, g = (concept_link anchor (match r with RNarrowerPartitive | RNarrowerInstantial => Italic | _ => Normal end) (label_of lang w k), o) /\
    forall sub, o = Some sub -> tree_inner anchor lang f w (rels_at w k) = Some sub)).
  { destruct (rels_at w k) as [|z more]; [injection G as <-; exists None; split; [reflexivity|discriminate]|].
    destruct (tree_inner anchor lang f w (z :: more)) as [sub|]; [|discriminate]. injection G as <-. exists (Some sub). split; [reflexivity|auto]. }
  destruct X as (o & -> & T). unfold group in I. cbn [fst snd] in I. 
  assert (C : x = DItem [concept_link anchor (match r with RNarrowerPartitive | RNarrowerInstantial => Italic | _ => Normal end) (label_of lang w k)] \/
    exists sub, o = Some sub /\ x = DSub sub).
  { destruct o as [sub|]; [destruct I as [<-|[<-|[]]]; [left; reflexivity|right; exists sub; auto]|destruct I as [<-|[]]; left; reflexivity]. }
  destruct C as [-> | (sub & -> & ->)].
  - destruct J as [J|[]]. unfold concept_link in J. injection J as _ <- <-. exists r, k, k. split; [exact Ir|]. split; [exact Nr|]. split; [apply rt_refl|auto].
  - apply in_sub in J as (x' & I' & J). destruct (IH _ _ (T sub eq_refl) _ _ _ _ I' J) as (r' & k1 & k2 & A & B & C & D).
    exists r, k, k2. split; [exact Ir|]. split; [exact Nr|]. split; [|exact D]. eapply rt_trans; [apply rt_step, (rels_under w k r' k1 A B)|exact C].
Qed.
Lemma sequence_in {A B} (F : A -> option (list B)) xs l b : sequence (map F xs) = Some l -> In b l -> exists x y, In x xs /\ F x = Some y /\ In b y.
Proof.
  revert l. induction xs as [|x xs IH]; intros l E I; cbn in E; [injection E as <-; destruct I|].
  destruct (F x) as [y|] eqn:Q; [|discriminate]. destruct (sequence (map F xs)) as [r|]; [|discriminate]. injection E as <-.
  apply in_app_or in I as [I|I]; [exists x, y; cbn; auto|]. destruct (IH r eq_refl I) as (x' & y' & J & K). exists x', y'. cbn. auto.
Qed.
Lemma tree_links f w tree a t : write_concept_tree anchor lang f w = Some tree -> has_link tree a t ->
  exists k, in_tree w k /\ t = label_of lang w k /\ a = anchor t $"concept".
Proof.
  unfold write_concept_tree. destruct (sequence _) as [lists|] eqn:E; [|discriminate]. injection 1 as <-. intros L.
  apply has_link_cons in L as [(y & [])|(b & y & I & B)]. destruct (sequence_in _ _ _ _ E I) as (k & bs & Ik & T & Ib).
  unfold tree_of in T. pose proof (tree_inner_links f w (rels_at w k)) as G. unfold rels_at in G at 1.
  assert (X : exists o, b = DList (DItem [concept_link anchor Bold (label_of lang w k)] :: match o with None => [] | Some s => [DSub s] end) /\
    forall s, o = Some s -> tree_inner anchor lang f w (rels_at w k) = Some s).
  { unfold rels_at. destruct (nth_error (w_concepts w) k) as [c|]; [|injection T as <-; destruct Ib].
    destruct (kc_concepts c) as [|z more]; [injection T as <-; destruct Ib as [<-|[]]; exists None; split; [reflexivity|discriminate]|].
    destruct (tree_inner anchor lang f w (z :: more)) as [s|]; [|discriminate]. injection T as <-. destruct Ib as [<-|[]]. exists (Some s). split; [reflexivity|auto]. }
  destruct X as (o & -> & S). destruct B as (x & Ix & J). destruct Ix as [<-|Ix].
  - destruct J as [J|[]]. unfold concept_link in J. injection J as _ <- <-. exists k. split; [exists k; split; [exact Ik|apply rt_refl]|auto].
  - destruct o as [s|]; [|destruct Ix]. destruct Ix as [<-|[]]. apply in_sub in J as (x' & Ix' & J).
    destruct (tree_inner_links f w _ _ (S s eq_refl) _ _ _ _ Ix' J) as (r & k1 & k2 & A & B & C & D). exists k2. split; [|exact D].
    exists k. split; [exact Ik|]. eapply rt_trans; [apply rt_step, (rels_under w k r k1 A B)|exact C].
Qed.

(** Membership, relations, members. *)
Lemma membership_links w ls u a t : has_link (write_collection_membership anchor lang w ls u) a t ->
  exists k, In k (in_collections w ls u) /\ t = label_of_collection lang w k /\ a = anchor t $"collection".
Proof.
  unfold write_collection_membership. set (ks := in_collections w ls u). intros L.
  assert (X : has_link [DList (map (fun k => DItem [collection_link anchor (label_of_collection lang w k)]) ks)] a t).
  { destruct ks; [destruct (has_link_nil _ _ L)|]. apply has_link_cons in L as [(y & [])|L]. exact L. }
  apply has_link_cons in X as [(y & x & I & J)|X]; [|destruct (has_link_nil _ _ X)].
  apply in_map_iff in I as (k & <- & I). destruct J as [J|[]]. unfold collection_link in J. injection J as _ <- <-. exists k. auto.
Qed.
Lemma concept_links w ls c a t : has_link (concept_body anchor short lang w ls c) a t ->
  (exists r k, In (r, k) (kc_concepts c) /\ t = label_of lang w k /\ a = anchor t $"concept") \/
  (exists k, In k (in_collections w ls (kc_uri c)) /\ t = label_of_collection lang w k /\ a = anchor t $"collection").
Proof.
  unfold concept_body. intros L. apply has_link_app in L as [L|L]; [destruct (plain_none _ _ _ (plain_header _ _ _ _) L)|].
  apply has_link_app in L as [L|L]; [left|right; apply membership_links, L].
  assert (X : has_link (write_concept_relations anchor short lang w c) a t).
  { destruct (kc_concepts c); [destruct (has_link_nil _ _ L)|exact L]. }
  unfold write_concept_relations in X. apply has_link_cons in X as [(y & [])|X].
  apply has_link_cons in X as [(y & row & cell & I & J & K)|X]; [|destruct (has_link_nil _ _ X)].
  apply in_app_or in I as [I|I]; apply in_map_iff in I as ([r k] & <- & I); destruct J as [<-|[<-|[]]]; destruct K as [K|[]]; try discriminate K.
  unfold concept_link in K. injection K as _ <- <-. exists r, k. auto.
Qed.
Lemma collection_links w ls c a t : has_link (collection_body anchor short lang w ls c) a t ->
  (exists k, In (MConcept k) (kl_members c) /\ t = label_of lang w k /\ a = anchor t $"concept") \/
  (exists k, In (MCollection k) (kl_members c) /\ t = label_of_collection lang w k /\ a = anchor t $"collection") \/
  (exists k, In k (in_collections w ls (kl_uri c)) /\ t = label_of_collection lang w k /\ a = anchor t $"collection").
Proof.
  unfold collection_body. intros L. apply has_link_app in L as [L|L]; [destruct (plain_none _ _ _ (plain_header _ _ _ _) L)|].
  apply has_link_app in L as [L|L]; [|right; right; apply membership_links, L].
  assert (X : has_link (write_collection_members anchor lang w (kl_members c)) a t).
  { destruct (kl_members c); [destruct (has_link_nil _ _ L)|exact L]. }
  unfold write_collection_members in X. apply has_link_app in X as [X|X]; [apply has_link_cons in X as [(y & [])|X]; destruct (has_link_nil _ _ X)|].
  assert (Y : exists y x m, In m (kl_members c) /\ x = match m with
            | MCollection k => DItem [IText Normal $"Collection "; collection_link anchor (label_of_collection lang w k)]
            | MConcept k => DItem [IText Normal $"Concept "; concept_link anchor Normal (label_of lang w k)]
            end /\ in_item (IAnchor y a t) x).
  { destruct (kl_members c) as [|m ms]; [destruct (has_link_nil _ _ X)|]. apply has_link_cons in X as [(y & x & I & J)|X]; [|destruct (has_link_nil _ _ X)].
    apply in_map_iff in I as (m' & <- & I). exists y. eexists. exists m'. split; [exact I|]. split; [reflexivity|exact J]. }
  destruct Y as (y & x & m & I & -> & J).
  destruct m as [k|k]; destruct J as [J|[J|[]]]; try discriminate J; unfold concept_link, collection_link in J; injection J as _ <- <-.
  - left. exists k. auto.
  - right. left. exists k. auto.
Qed.
End Links.

Lemma section_in d n t a body b : section_of d n t a body -> In b body -> In b d.
Proof. intros (before & after & -> & _) I. apply in_or_app. right. right. apply in_or_app. left. exact I. Qed.
Lemma section_anchor d n t a body : section_of d n t (Some a) body -> has_anchor d a.
Proof. intros (before & after & -> & _). exists n, t. apply in_or_app. right. left. reflexivity. Qed.

Lemma concept_eqb_rel f w a b x y : concept_eqb f w a b = Some true -> nth_error (w_concepts w) a = Some x -> nth_error (w_concepts w) b = Some y ->
  forall r k, In (r, k) (kc_concepts x) -> exists k' f', In (r, k') (kc_concepts y) /\ concept_eqb f' w k k' = Some true.
Proof.
  destruct f as [|f]; [discriminate|]. cbn [concept_eqb]. intros E A B. rewrite A, B in E. destruct (_ && _) in E; [|discriminate].
  destruct (related_eqb _ _ _) as [[]|] eqn:Q; try discriminate. intros r k I.
  destruct (related_eqb_each _ _ _ Q r k I) as (k' & I' & E'). exists k', f. auto.
Qed.

Section Final.
Variables gext printable : N -> bool.
Variable anchor : str -> str -> str.
Variable short : str -> option str.
Variable mappings : list (str * str).
Variable turtle : graph -> wres str.
Variable lang : option str.
Notation doc := (make_document gext printable anchor short mappings turtle lang).

Section Run.
Variables (u : str) (l : list slabel) (h : list skos_op).
Let w := skos_run (world_new u l) h.
Variables (fuel : nat) (n : N) (d : list block) (w' : world) (n' : N).
Hypothesis H : doc fuel n w = Done (d, w', n').
Let W : wf w := wf_run u l h.
Let O : once w := once_run u l h.

Lemma links_only a t : has_link d a t -> link_of anchor lang w a t.
Proof.
  apply doc_done in H as (ls & ks & tree & code & P). pose proof (p_doc _ _ _ _ _ _ _ _ _ _ _ _ _ _ _ _ _ P) as E.
  pose proof (written_sub _ _ _ _ (p_written _ _ _ _ _ _ _ _ _ _ _ _ _ _ _ _ _ P)) as S.
  pose proof (g_places _ _ _ _ _ _ _ _ _ _ _ _ _ _ _ _ _ O P) as Pl.
  assert (Lk : forall k, exists_at w k -> concept_label lang w k (label_of lang w k)) by (intros k X; apply concept_label_iff; auto).
  assert (Mem : forall v k, In k (in_collections w ls v) ->
    exists c, nth_error (w_collections w) k = Some c /\ is_member w c v /\ collection_label lang w k (label_of_collection lang w k)).
  { intros v k I. apply (in_collections_iff anchor short w ls v W Pl) in I as (c & Ec & M). exists c. split; [exact Ec|]. split; [exact M|].
    apply collection_label_iff. split; [apply nth_error_Some; congruence|reflexivity]. }
  rewrite E. clear E. intros L. apply has_link_cons in L as [(y & [])|L].
  apply has_link_app in L as [L|L]; [destruct (plain_none _ _ _ (plain_header _ _ _ _ _ _) L)|].
  apply has_link_app in L as [L|L]; [|apply has_link_app in L as [L|L]].
  - unfold c_part in L. destruct (ks_concepts (w_scheme w)) as [|k0 kr] eqn:K; [destruct (has_link_nil _ _ L)|].
    assert (K' : ks_concepts (w_scheme w) <> []) by congruence. clear K.
    apply has_link_app in L as [L|L]; [|apply has_link_app in L as [L|L]; [|apply has_link_cons in L as [(y & [])|L]]].
    + apply has_link_cons in L as [(y & I)|L]; [|destruct (has_link_nil _ _ L)].
      destruct I as [I|[I|[I|[I|I]]]]; [discriminate| |discriminate| |]; try (injection I as _ <- <-; apply lo_part; [exact K'|cbn; auto]; fail).
      cbn [app] in I. apply in_app_or in I as [I|[I|[I|[]]]].
      * destruct (ks_collections (w_scheme w)) eqn:C; [destruct I|]. destruct I as [I|[I|[]]]; [discriminate|]. injection I as _ <- <-.
        apply lo_collections; [exact K'|congruence].
      * discriminate.
      * injection I as _ <- <-; apply lo_part; [exact K'|cbn; auto].
    + destruct (tree_links anchor lang fuel w tree a t (p_tree _ _ _ _ _ _ _ _ _ _ _ _ _ _ _ _ _ P K') L) as (k & T & -> & ->).
      apply (lo_concept _ _ _ k); [apply Lk, in_tree_exists; assumption|auto].
    + apply has_link_flat in L as (k & I & L). rewrite (g_concept _ _ _ _ _ _ _ _ _ _ _ _ _ _ _ _ _ W P k I) in L.
      apply has_link_cons in L as [(y & [])|L]. pose proof (S k I) as T. pose proof (in_tree_exists _ _ W T) as X. apply nth_error_Some in X.
      unfold grown_concept in L. destruct (nth_error (w_concepts w) k) as [c|] eqn:Ec; [|congruence].
      apply concept_links in L as [(r & k' & J & -> & ->)|(k' & J & -> & ->)].
      * cbn in J. assert (Z : exists_at w k' /\ (in_tree w k' \/ exists j r, in_tree w j /\ has_relation w j r k')).
        { apply in_app_or in J as [J|J].
          - split; [apply (wf_closed w W k r); unfold rels_at; rewrite Ec; exact J|]. right. exists k, r. split; [exact T|]. exists c. auto.
          - apply inverses_in in J as (J & _). split; [apply in_tree_exists; auto|left; auto]. }
        apply (lo_concept _ _ _ k'); [apply Lk, Z|]. destruct Z as [_ [Z|Z]]; auto.
      * cbn in J. destruct (Mem _ _ J) as (c' & Ec' & M & Q). apply (lo_collection _ _ _ k' c'); [exact Ec'|exact Q|]. right. left. exists k, c. auto.
  - unfold l_part in L. destruct (ks_collections (w_scheme w)) as [|k0 kr] eqn:K; [destruct (has_link_nil _ _ L)|]. clear K.
    apply has_link_cons in L as [(y & [])|L]. apply has_link_flat in L as (k & I & L).
    rewrite (g_collection _ _ _ _ _ _ _ _ _ _ _ _ _ _ _ _ _ O P k I) in L. apply has_link_cons in L as [(y & [])|L].
    pose proof (places_exist w ls Pl k I) as X. apply nth_error_Some in X.
    unfold the_collection in L. destruct (nth_error (w_collections w) k) as [c|] eqn:Ec; [|congruence]. apply nth_error_In in Ec.
    assert (Ok : ok_collection (length (w_concepts w)) (length (w_collections w)) c).
    { destruct W as (_ & B & _). rewrite Forall_forall in B. apply B, Ec. }
    apply collection_links in L as [(k' & J & -> & ->)|[(k' & J & -> & ->)|(k' & J & -> & ->)]].
    + apply (lo_concept _ _ _ k'); [|right; right; exists c; auto]. apply Lk. unfold ok_collection in Ok. rewrite Forall_forall in Ok. apply (Ok _ J).
    + unfold ok_collection in Ok. rewrite Forall_forall in Ok. specialize (Ok _ J). cbn in Ok. pose proof Ok as Y. apply nth_error_Some in Y.
      destruct (nth_error (w_collections w) k') as [c'|] eqn:Ec'; [|congruence].
      apply (lo_collection _ _ _ k' c'); [exact Ec'|apply collection_label_iff; auto|]. left. exists c. auto.
    + destruct (Mem _ _ J) as (c' & Ec' & M & Q). apply (lo_collection _ _ _ k' c'); [exact Ec'|exact Q|]. right. right. exists c. auto.
  - apply has_link_cons in L as [(y & [])|L]. apply has_link_cons in L as [(y & [])|L]. destruct (has_link_nil _ _ L).
Qed.

(** Conversely. *)
Lemma has_link_in b a t : In b d -> (exists y, in_block (IAnchor y a t) b) -> has_link d a t.
Proof. intros I (y & B). exists b, y. auto. Qed.
Lemma way_link ls0 p : way_down ls0 p -> forall t, In t p -> exists x y a, In x ls0 /\ in_item (IAnchor y a t) x.
Proof.
  induction 1 as [l0 y a s I|before y a s sub after p D IH]; intros t It.
  - destruct It as [<-|[]]. exists (DItem [IAnchor y a s]), y, a. split; [exact I|left; reflexivity].
  - destruct It as [<-|It].
    + exists (DItem [IAnchor y a s]), y, a. split; [apply in_or_app; right; left; reflexivity|left; reflexivity].
    + destruct (IH t It) as (x & y' & a' & Ix & J). exists (DSub sub), y', a'. split; [apply in_or_app; right; right; left; reflexivity|].
      apply in_sub. exists x. auto.
Qed.
Lemma chain_to k k' : clos_refl_trans nat (under w) k k' -> exists ks, narrower_chain w (k :: ks) /\ In k' (k :: ks).
Proof.
  intros R. apply clos_rt_rt1n in R. induction R as [k|k j k' U R (ks & C & I)].
  - exists []. split; [constructor|left; reflexivity].
  - exists (j :: ks). split; [econstructor; eassumption|right; exact I].
Qed.
Lemma tree_linked k t : in_tree w k -> concept_label lang w k t -> has_link d (anchor t $"concept") t.
Proof.
  intros (k0 & I0 & R) L. assert (N : ks_concepts (w_scheme w) <> []) by (intros Z; rewrite Z in I0; destruct I0).
  destruct (chain_to k0 k R) as (cs & C & Ik).
  pose proof H as H'. apply doc_done in H' as (ls & ks & tree & code & P). pose proof (p_doc _ _ _ _ _ _ _ _ _ _ _ _ _ _ _ _ _ P) as E.
  destruct (g_tree _ _ _ _ _ _ _ _ _ _ _ _ _ _ _ _ _ W P N) as (lists & Et & F).
  destruct (Forall2_in_l _ _ _ F k0 I0) as (b & Ib & l0 & -> & Wd).
  assert (X : Forall (exists_at w) (k0 :: cs)).
  { apply chain_exists; [exact W| |exact C]. apply in_tree_exists; [exact W|]. exists k0. split; [exact I0|apply rt_refl]. }
  assert (D : way_down l0 (map (label_of lang w) (k0 :: cs))).
  { apply Wd. exists cs. split; [exact C|]. apply Forall2_labels, X. }
  apply concept_label_iff in L as (_ & ->).
  destruct (way_link _ _ D (label_of lang w k) (in_map _ _ _ Ik)) as (x & y & a & Ix & J).
  assert (T : has_link tree a (label_of lang w k)).
  { rewrite Et. exists (DList l0), y. split; [right; exact Ib|]. exists x. auto. }
  destruct (tree_links anchor lang fuel w tree _ _ (p_tree _ _ _ _ _ _ _ _ _ _ _ _ _ _ _ _ _ P N) T) as (k' & _ & _ & ->).
  rewrite E. apply has_link_cons. right. apply has_link_app. right. apply has_link_app. left. unfold c_part.
  destruct (ks_concepts (w_scheme w)); [congruence|]. apply has_link_app. right. apply has_link_app. left. exact T.
Qed.
Lemma relation_linked rels c j r k t : shows_concept anchor short lang w rels c d -> In (r, k) rels -> concept_label lang w k t ->
  j = c -> has_link d (anchor t $"concept") t.
Proof.
  intros (t0 & body & _ & S & _ & (R & _) & _) I L _. destruct R as (rows & rows' & S' & F & _); [intros Z; rewrite Z in I; destruct I|].
  destruct (Forall2_in_l _ _ _ F _ I) as (row & Ir & q & t' & _ & L' & ->).
  apply concept_label_iff in L as (_ & ->). apply concept_label_iff in L' as (_ & ->). cbn [snd] in *.
  eapply has_link_in; [eapply section_in; [exact S|]; eapply section_in; [exact S'|]; left; reflexivity|].
  exists Normal. cbn [in_block]. eexists _, _. split; [apply in_or_app; left; exact Ir|]. split; [right; left; reflexivity|left; reflexivity].
Qed.
Lemma membership_linked v k c t body lv tv av : section_of d lv tv av body -> shows_membership anchor lang w v body -> nth_error (w_collections w) k = Some c -> is_member w c v ->
  collection_label lang w k t -> has_link d (anchor t $"collection") t.
Proof.
  intros S (M & _) E I L. destruct M as (ks & items & S' & K & _ & F); [exists c; split; [apply (nth_error_In _ _ E)|exact I]|].
  assert (Ik : In k ks) by (apply K; exists c; auto). destruct (Forall2_in_l _ _ _ F _ Ik) as (i & Ii & t' & L' & ->).
  apply collection_label_iff in L as (_ & ->). apply collection_label_iff in L' as (_ & ->).
  eapply has_link_in; [eapply section_in; [exact S|]; eapply section_in; [exact S'|]; left; reflexivity|].
  exists Normal. cbn [in_block]. eexists. split; [exact Ii|left; reflexivity].
Qed.
Lemma links_all a t : link_of anchor lang w a t -> has_link d a t.
Proof.
  intros L. destruct L as [a t N I|N C|k t L D|k c t E L D].
  - pose proof H as H'. apply doc_done in H' as (ls & ks & tree & code & P). rewrite (p_doc _ _ _ _ _ _ _ _ _ _ _ _ _ _ _ _ _ P).
    apply has_link_cons. right. apply has_link_app. right. apply has_link_app. left. unfold c_part.
    destruct (ks_concepts (w_scheme w)); [congruence|]. apply has_link_app. left. apply has_link_cons. left. exists Normal.
    destruct I as [I|[I|[I|[]]]]; injection I as <- <-; cbn [in_block jump_links].
    + apply in_or_app. left. cbn. auto.
    + apply in_or_app. left. cbn. auto.
    + apply in_or_app. right. apply in_or_app. right. cbn. auto.
  - pose proof H as H'. apply doc_done in H' as (ls & ks & tree & code & P). rewrite (p_doc _ _ _ _ _ _ _ _ _ _ _ _ _ _ _ _ _ P).
    apply has_link_cons. right. apply has_link_app. right. apply has_link_app. left. unfold c_part.
    destruct (ks_concepts (w_scheme w)); [congruence|]. apply has_link_app. left. apply has_link_cons. left. exists Normal.
    destruct (ks_collections (w_scheme w)); [congruence|]. cbn [in_block jump_links]. apply in_or_app. right. cbn. auto.
  - destruct D as [D|[(j & r & T & R)|(c & Ic & Im)]].
    + apply (tree_linked k t D L).
    + destruct R as (c & Ec & I). pose proof H as H'. apply doc_done in H' as (ls & ks & tree & code & P).
      destruct (written_all _ _ _ _ (p_written _ _ _ _ _ _ _ _ _ _ _ _ _ _ _ _ _ P) j T) as [J|(j' & J & Q)].
      * apply (relation_linked _ c c r k t (g_shows _ _ _ _ _ _ _ _ _ _ _ _ _ _ _ _ _ W O P j c J Ec)); [apply in_or_app; left; exact I|exact L|reflexivity].
      * pose proof (g_exists _ _ _ _ _ _ _ _ _ _ _ _ _ _ _ _ _ W P j' J) as Y. apply nth_error_Some in Y.
        destruct (nth_error (w_concepts w) j') as [c'|] eqn:E'; [|congruence].
        assert (X : exists k', In (r, k') (kc_concepts c') /\ concept_label lang w k' t).
        { destruct (concept_eqb_rel _ _ _ _ _ _ Q Ec E' r k I) as (k' & f' & I' & Q'). exists k'. split; [exact I'|].
          destruct L as (x & Ex & Lx). assert (X' : exists_at w k') by (apply (wf_closed w W j' r); unfold rels_at; rewrite E'; exact I').
          apply nth_error_Some in X'. destruct (nth_error (w_concepts w) k') as [x'|] eqn:Ex'; [|congruence].
          destruct (concept_eqb_same _ _ _ _ _ _ Q' Ex Ex') as (A1 & _ & A3 & _). exists x'. split; [exact Ex'|]. rewrite <- A1, <- A3. exact Lx. }
        destruct X as (k' & I' & L').
        apply (relation_linked _ c' c' r k' t (g_shows _ _ _ _ _ _ _ _ _ _ _ _ _ _ _ _ _ W O P j' c' J E')); [apply in_or_app; left; exact I'|exact L'|reflexivity].
    + apply In_nth_error in Ic as (j & Ec).
      destruct (c94_collections gext printable anchor short mappings turtle lang u l h fuel n d w' n' H j c Ec) as (t0 & body & _ & S & _ & (M & _) & _).
      destruct M as (items & S' & F); [intros Z; rewrite Z in Im; destruct Im|]. destruct (Forall2_in_l _ _ _ F _ Im) as (i & Ii & t' & L' & ->).
      apply concept_label_iff in L as (_ & ->). apply concept_label_iff in L' as (_ & ->).
      eapply has_link_in; [eapply section_in; [exact S|]; eapply section_in; [exact S'|]; left; reflexivity|].
      exists Normal. cbn [in_block]. eexists. split; [exact Ii|right; left; reflexivity].
  - destruct D as [(c' & Ic & Im)|[(j & c' & T & Ec & M)|(c' & Ic & M)]].
    + apply In_nth_error in Ic as (j & Ec).
      destruct (c94_collections gext printable anchor short mappings turtle lang u l h fuel n d w' n' H j c' Ec) as (t0 & body & _ & S & _ & (M & _) & _).
      destruct M as (items & S' & F); [intros Z; rewrite Z in Im; destruct Im|]. destruct (Forall2_in_l _ _ _ F _ Im) as (i & Ii & t' & L' & ->).
      apply collection_label_iff in L as (_ & ->). apply collection_label_iff in L' as (_ & ->).
      eapply has_link_in; [eapply section_in; [exact S|]; eapply section_in; [exact S'|]; left; reflexivity|].
      exists Normal. cbn [in_block]. eexists. split; [exact Ii|right; left; reflexivity].
    + destruct (c94_any gext printable anchor short mappings turtle lang u l h fuel n d w' n' H j c' T Ec) as (j' & x & more & _ & _ & Eu & _ & _ & _ & _ & Sh).
      destruct Sh as (t0 & body & _ & S & _ & _ & Mm). rewrite <- Eu in M. apply (membership_linked _ _ _ _ _ _ _ _ S Mm E M L).
    + apply In_nth_error in Ic as (j & Ec).
      destruct (c94_collections gext printable anchor short mappings turtle lang u l h fuel n d w' n' H j c' Ec) as (t0 & body & _ & S & _ & _ & Mm).
      apply (membership_linked _ _ _ _ _ _ _ _ S Mm E M L).
Qed.
Lemma c97_links a t : has_link d a t <-> link_of anchor lang w a t.
Proof. split; [apply links_only|apply links_all]. Qed.

(** The anchors. *)
Lemma tree_anchor k t : in_tree w k -> concept_label lang w k t -> has_anchor d (anchor t $"concept").
Proof.
  intros T (c & E & L). destruct (c94_any gext printable anchor short mappings turtle lang u l h fuel n d w' n' H k c T E) as (j' & x & more & _ & _ & Eu & El & _ & _ & _ & Sh).
  destruct Sh as (t0 & body & L0 & S & _). rewrite Eu, El in L0. apply label_is in L, L0. rewrite L, <- L0. apply (section_anchor _ _ _ _ _ S).
Qed.
Lemma collection_anchor k t : collection_label lang w k t -> has_anchor d (anchor t $"collection").
Proof.
  intros (c & E & L). destruct (c94_collections gext printable anchor short mappings turtle lang u l h fuel n d w' n' H k c E) as (t0 & body & L0 & S & _).
  apply label_is in L, L0. rewrite L, <- L0. apply (section_anchor _ _ _ _ _ S).
Qed.
Lemma c97_anchors a t : has_link d a t -> has_anchor d a \/
  (a = $"Collections" /\ ks_concepts (w_scheme w) <> [] /\ ks_collections (w_scheme w) <> []) \/
  exists k, concept_label lang w k t /\ a = anchor t $"concept" /\ ~ in_tree w k /\
    ((exists j r, in_tree w j /\ has_relation w j r k) \/ (exists c, In c (w_collections w) /\ In (MConcept k) (kl_members c))).
Proof.
  intros L. apply c97_links in L. destruct L as [a t N I|N C|k t L D|k c t E L D].
  - left. pose proof H as H'. apply doc_done in H' as (ls & ks & tree & code & P).
    destruct (g_tree _ _ _ _ _ _ _ _ _ _ _ _ _ _ _ _ _ W P N) as (lists & Et & F). rewrite (p_doc _ _ _ _ _ _ _ _ _ _ _ _ _ _ _ _ _ P), Et.
    unfold c_part. destruct (ks_concepts (w_scheme w)); [congruence|].
    destruct I as [I|[I|[I|[]]]]; injection I as <- <-; eexists _, _.
    + right. apply in_or_app. right. apply in_or_app. left. right. left. reflexivity.
    + right. apply in_or_app. right. apply in_or_app. left. right. right. apply in_or_app. right. left. reflexivity.
    + right. apply in_or_app. right. apply in_or_app. right. apply in_or_app. right. left. reflexivity.
  - right. left. auto.
  - assert (Dec : in_tree w k \/ ~ in_tree w k).
    { pose proof H as H'. apply doc_done in H' as (ls & ks & tree & code & P). pose proof (p_written _ _ _ _ _ _ _ _ _ _ _ _ _ _ _ _ _ P) as Q.
      unfold written in Q. destruct (scheme_concepts_flattened fuel w) as [cf|] eqn:Cf; [|discriminate].
      destruct (in_dec Nat.eq_dec k cf) as [I|I]; [left|right; intros T; apply I]; apply (c_in_tree _ _ _ Cf); assumption. }
    destruct Dec as [T|T]; [left; apply (tree_anchor k); assumption|]. right. right. exists k. split; [exact L|]. split; [reflexivity|]. split; [exact T|].
    destruct D as [D|D]; [destruct (T D)|exact D].
  - left. apply (collection_anchor k), L.
Qed.
End Run.
End Final.
