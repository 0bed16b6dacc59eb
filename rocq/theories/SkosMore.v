(** C88 to C92. *)
From Verif Require LiteralProofs.
From Verif Require Import SkosSpec SkosProofs SkosMain StrFacts NamesProofs GraphProofs SimplifyProofs.
From Coq Require Import Lia List Permutation Arith.
Import ListNotations.

(** ** C86: the graph *)
Lemma c86_graph gext printable fuel n w m : to_rdf_graph_with_mappings gext printable fuel n w m =
  match scheme_statements gext printable fuel n w with
  | Some (sts, n') => Some (Graph None (NonUnique sts) m, n')
  | None => None
  end.
Proof.
  unfold to_rdf_graph_with_mappings. destruct (scheme_statements _ _ _ _ _) as [[sts n']|]; [|reflexivity].
  cbn [option_map fst snd]. rewrite (fold_insert_list sts (g_with_mappings g_default m) []); reflexivity.
Qed.
Lemma c86_in gext printable u l h fuel n sts n' st :
  scheme_statements gext printable fuel n (skos_run (world_new u l) h) = Some (sts, n') ->
  (forall b, st_subject st <> SBlank b) ->
  In st sts <-> scheme_says gext printable (skos_run (world_new u l) h) st.
Proof. intros E N. eapply c86_says; [apply wf_run|apply once_run|exact E|]. exact N. Qed.
Lemma c86_collections u l h fuel ks : scheme_collections_flattened fuel (skos_run (world_new u l) h) = Some ks ->
  Permutation ks (seq 0 (length (w_collections (skos_run (world_new u l) h)))).
Proof. apply l_perm, once_run. Qed.
Lemma c86_concepts u l h fuel ks : scheme_concepts_flattened fuel (skos_run (world_new u l) h) = Some ks ->
  forall k, In k ks <-> in_tree (skos_run (world_new u l) h) k.
Proof. intros E. exact (c_in_tree _ _ _ E). Qed.

(** ** C88 *)
Lemma c88_inverse r : (rel_inverse (rel_inverse r) = r <-> r <> RNarrowerInstantial) /\
  (rel_is_narrower r = true -> rel_is_broader (rel_inverse r) = true) /\
  (rel_is_broader r = true -> (rel_is_narrower (rel_inverse r) = true <-> r <> RBroaderInstantial)).
Proof. destruct r; cbn; repeat split; intros; try reflexivity; try discriminate; try congruence. Qed.

(** ** C89 *)
Lemma lk_eqb_eq a b : lk_eqb a b = true <-> a = b.
Proof. destruct a, b; cbn; try (split; intros H; (reflexivity || discriminate H)). rewrite str_eqb_eq. split; congruence. Qed.
Lemma lang_eqb_eq a b : lang_eqb a b = true <-> a = b.
Proof. destruct a, b; cbn; try (split; intros H; (reflexivity || discriminate H)). rewrite str_eqb_eq. split; congruence. Qed.
Lemma final_first ls g t : final_preferred_label ls g = Some t <-> first_preferred ls g t.
Proof.
  unfold final_preferred_label, first_preferred. induction ls as [|[k x y] r IH]; cbn [find option_map].
  - split; [discriminate|]. intros (b & a & E & _). destruct b; discriminate E.
  - destruct (lk_eqb _ _ && lang_eqb _ _)%bool eqn:E; cbn [sl_kind sl_language sl_text] in E.
    + apply Bool.andb_true_iff in E as [E1 E2]. apply lk_eqb_eq in E1. apply lang_eqb_eq in E2. subst k y. cbn [option_map sl_text]. split.
      * intros H. injection H as ->. exists [], r. split; [reflexivity|intros t' []].
      * intros (b & a & E & N). destruct b as [|z b]; [injection E as -> _; reflexivity|]. injection E as <- _. exfalso. apply (N x). left. reflexivity.
    + rewrite IH. assert (D : forall t', MkLabel k x y <> MkLabel LkPreferred t' g).
      { intros t' X. injection X as -> _ ->. rewrite (proj2 (lang_eqb_eq g g) eq_refl) in E. discriminate E. }
      split; intros (b & a & E' & N).
      * exists (MkLabel k x y :: b), a. split; [rewrite E'; reflexivity|]. intros t' [X|X]; [apply (D t' X)|apply (N t' X)].
      * destruct b as [|z b]; [injection E' as -> -> -> _; exfalso; apply (D t); reflexivity|].
        injection E' as <- E'. exists b, a. split; [exact E'|]. intros t' X. apply (N t'). right. exact X.
Qed.
Lemma c89_preferred u ls g t : preferred_label_for u ls g = t <->
  first_preferred ls g t \/ (t = u /\ forall t', ~ In (MkLabel LkPreferred t' g) ls).
Proof.
  unfold preferred_label_for. destruct (final_preferred_label ls g) as [s|] eqn:E.
  - apply final_first in E. split; [intros <-; left; exact E|]. intros [H|[-> H]].
    + apply final_first in E. apply final_first in H. congruence.
    + destruct E as (b & a & -> & _). exfalso. apply (H s). apply in_app_iff. right. left. reflexivity.
  - assert (N : forall t', ~ In (MkLabel LkPreferred t' g) ls).
    { intros t' I. unfold final_preferred_label in E. destruct (find _ ls) as [l|] eqn:F; [discriminate E|].
      apply (find_none _ _ F) in I. cbn in I. rewrite (proj2 (lang_eqb_eq g g) eq_refl) in I. discriminate I. }
    split; [intros <-; right; auto|]. intros [H|[-> _]]; [apply final_first in H; congruence|reflexivity].
Qed.
Lemma c89_new tag k text language r : label_new tag k text language = r <->
  match r with
  | Ret l => (language = [] /\ l = MkLabel k text None) \/
             (language <> [] /\ exists g, tag language = Some g /\ l = MkLabel k text (Some g))
  | Panic => language <> [] /\ tag language = None
  end.
Proof.
  unfold label_new. destruct language as [|c s]; [|destruct (tag (c :: s)) as [g|] eqn:E]; destruct r as [l|]; split; intros H; try discriminate H.
  - left. injection H as <-. auto.
  - destruct H as [[_ ->]|[N _]]; [reflexivity|congruence].
  - destruct H as [N _]. congruence.
  - right. injection H as <-. split; [discriminate|eauto].
  - destruct H as [[N _]|[_ (g' & G & ->)]]; [discriminate N|congruence].
  - destruct H as [_ H]. discriminate H.
  - destruct H as [[N _]|[_ (g' & G & ->)]]; [discriminate N|discriminate G].
  - split; [discriminate|reflexivity].
  - reflexivity.
Qed.

(** ** C90 *)
Lemma c90_plain fn text p : assoc fn constructor_names = Some p ->
  lprop_named fn text = Some (MkLprop (if str_eqb fn $"available" then dct $"created" else p) text None None).
Proof.
  intros H. unfold lprop_named.
  assert (K : Forall2 (fun a b => fst a = fst b /\ snd a = if str_eqb (fst b) $"available" then dct $"created" else snd b) plain_constructors constructor_names).
  { unfold plain_constructors, constructor_names. repeat (constructor; [split; vm_compute; reflexivity|]). constructor. }
  revert H. induction K as [|[a x] [b y] r s [E1 E2] K IH]; cbn [assoc fst snd] in *; [discriminate|]. subst a x.
  destruct (str_eqb b fn) eqn:E; [|exact IH]. apply str_eqb_eq in E as ->. intros H. injection H as ->. reflexivity.
Qed.
Lemma c90_with tag fn text g p : assoc fn constructor_names_with = Some p ->
  lprop_named_with tag fn text g =
    Some (match tag g with Some t => Ret (MkLprop p text None (Some t)) | None => Panic end).
Proof.
  intros H. unfold lprop_named_with.
  assert (K : Forall2 (fun a b => fst a = fst b /\ snd a = snd b) language_constructors constructor_names_with).
  { unfold language_constructors, constructor_names_with. repeat (constructor; [split; vm_compute; reflexivity|]). constructor. }
  revert H. induction K as [|[a x] [b y] r s [E1 E2] K IH]; cbn [assoc fst snd] in *; [discriminate|]. subst a x.
  destruct (str_eqb b fn) eqn:E; [|exact IH]. intros H. injection H as ->. reflexivity.
Qed.
Lemma c90_none tag fn text g : (lprop_named fn text = None <-> assoc fn constructor_names = None) /\
  (lprop_named_with tag fn text g = None <-> assoc fn constructor_names_with = None).
Proof.
  assert (A : forall l l' : list (str * str), map fst l = map fst l' -> (assoc fn l = None <-> assoc fn l' = None)).
  { intros l. induction l as [|[a x] l IH]; intros [|[b y] l']; cbn [map fst assoc]; intros E; try discriminate E; [tauto|].
    injection E as <- E. destruct (str_eqb a fn); [split; discriminate|apply IH, E]. }
  assert (B : forall {X Y} (f : X -> Y) o, option_map f o = None <-> o = None) by (intros X Y f [x|]; cbn; split; congruence).
  unfold lprop_named, lprop_named_with. rewrite !B. split; apply A; reflexivity.
Qed.

(** ** C91 *)
Definition skos_tables : list table := [tb_sk; tb_sk_xl; tb_sk_iso; tb_sk_status].
Lemma sk_all (f : table -> bool) t : forallb f skos_tables = true -> In t skos_tables -> f t = true.
Proof. intros H I. rewrite forallb_forall in H. apply H, I. Qed.
Lemma c91_sound t : In t [tb_sk; tb_sk_xl; tb_sk_iso; tb_sk_status] -> sound t /\ distinct_functions t.
Proof.
  intros I. split.
  - apply sound_b_ok. apply (sk_all sound_b); [vm_compute; reflexivity|exact I].
  - apply nodup_b_ok. apply (sk_all (fun t => nodup_b (map fst (tb_members t)))); [vm_compute; reflexivity|exact I].
Qed.
Lemma c91_functions parse t f nm : parser_ok parse -> In t [tb_sk; tb_sk_xl; tb_sk_iso; tb_sk_status] -> In (f, nm) (tb_members t) ->
  exists i, call parse t f = Some (Ret i) /\ url_ser i = tb_ns t ++ nm /\ ns_term t f = tb_ns t ++ nm.
Proof.
  intros P I M. destruct (c91_sound t I) as (S & D). pose proof (In_assoc f nm (tb_members t) D M) as A.
  destruct (c73_member parse P t f nm S A) as (C & _ & i & Ci & Si & _). exists i. split; [exact Ci|]. split; [exact Si|].
  unfold ns_term. rewrite C. reflexivity.
Qed.
Lemma c91_spelled t f nm : In t [tb_sk; tb_sk_xl; tb_sk_iso; tb_sk_status] -> In (f, nm) (tb_members t) -> spelled_like f nm.
Proof.
  intros T I.
  assert (B : forallb (fun p => spelled_b (fst p) (snd p)) (tb_members t) = true).
  { apply (sk_all (fun t => forallb (fun p => spelled_b (fst p) (snd p)) (tb_members t))); [vm_compute; reflexivity|exact T]. }
  rewrite forallb_forall in B. specialize (B _ I). unfold spelled_b in B. apply existsb_exists in B as ([b a] & J & E).
  cbn [fst snd] in E. apply StrFacts.str_eqb_eq in E. exists b, a. auto.
Qed.
Lemma c91_prefixes : map (fun t => (tb_prefix t, tb_ns t)) [tb_sk; tb_sk_xl; tb_sk_iso; tb_sk_status] =
  [($"skos", $"http://www.w3.org/2004/02/skos/core#"); ($"skosxl", $"http://www.w3.org/2008/05/skos-xl#");
   ($"isothes", $"http://purl.org/iso25964/skos-thes#"); ($"status", $"http://www.w3.org/2003/06/sw-vocab-status/ns#")].
Proof. reflexivity. Qed.
Lemma c91_skos nm : tb_ns tb_sk = skos [] /\ (In nm (map snd (tb_members tb_sk)) <-> In nm skos_terms).
Proof. split; [reflexivity|]. apply same_spec. vm_compute. reflexivity. Qed.
Lemma c91_xl nm : tb_ns tb_sk_xl = $"http://www.w3.org/2008/05/skos-xl#" /\
  (In nm (map snd (tb_members tb_sk_xl)) <-> In nm skosxl_terms /\ nm <> $"hiddenLabel").
Proof.
  split; [reflexivity|].
  assert (S : In nm (map snd (tb_members tb_sk_xl)) <-> In nm [$"Label"; $"altLabel"; $"labelRelation"; $"literalForm"; $"prefLabel"])
    by (apply same_spec; vm_compute; reflexivity).
  rewrite S. assert (D : In nm skosxl_terms /\ ~ In nm [$"Label"; $"altLabel"; $"labelRelation"; $"literalForm"; $"prefLabel"] <-> In nm [$"hiddenLabel"])
    by (apply diff_spec; vm_compute; reflexivity).
  assert (U : In nm [$"Label"; $"altLabel"; $"labelRelation"; $"literalForm"; $"prefLabel"] -> In nm skosxl_terms)
    by (unfold skosxl_terms; intros X; repeat (destruct X as [<-|X]; [cbn [In]; tauto|]); destruct X).
  split; intros H.
  - split; [apply U, H|]. intros ->. apply (proj2 D); [left; reflexivity|exact H].
  - destruct H as [H N]. destruct (in_dec str_eq_dec nm [$"Label"; $"altLabel"; $"labelRelation"; $"literalForm"; $"prefLabel"]) as [I|I]; [exact I|].
    exfalso. apply N. destruct (proj1 D (conj H I)) as [X|[]]. symmetry. exact X.
Qed.

(** ** C92 *)
Definition c_at {A} (F : concept -> list A) (w : world) (k : nat) : list A :=
  match nth_error (w_concepts w) k with Some c => F c | None => [] end.
Definition l_at {A} (F : collection -> list A) (w : world) (k : nat) : list A :=
  match nth_error (w_collections w) k with Some c => F c | None => [] end.
Lemma update_map {A B} (F : A -> B) k f l : (forall x, F (f x) = F x) -> map F (update k f l) = map F l.
Proof. intros H. revert k. induction l as [|x r IH]; intros [|k]; cbn; try reflexivity; [rewrite H|rewrite IH]; reflexivity. Qed.
Lemma nth_ge {A} (l : list A) k : (length l <= k)%nat -> nth_error l k = None.
Proof. apply nth_error_None. Qed.

Ltac at_tac :=
  unfold c_at, l_at, at_place; cbn [w_concepts w_collections w_scheme w_on_scheme w_on_concepts w_on_collections];
  rewrite ?nth_app_one, ?update_nth, ?update_length;
  repeat match goal with |- context [Nat.eqb ?a ?b] => destruct (Nat.eqb_spec a b) end;
  subst; try lia;
  repeat match goal with
    | H : (?k < length ?l)%nat |- _ =>
        let E := fresh "E" in
        lazymatch goal with
        | K : nth_error l k <> None |- _ => fail
        | _ => pose proof (proj2 (nth_error_Some l k) H) as E
        end
    end;
  rewrite ?nth_ge by lia;
  repeat match goal with |- context [nth_error ?l ?k] => destruct (nth_error l k) end;
  cbn [option_map kc_labels kc_properties kc_concepts kc_external kl_members kl_labels kl_properties
       kc_add_concept kc_add_external kc_add_label kc_add_property kl_add_member kl_add_label kl_add_property
       concept_new collection_new preferred given_label app];
  rewrite ?app_nil_r; try reflexivity; try congruence.
Lemma step_concepts w o k : on_made (length (w_concepts w)) (length (w_collections w)) o ->
  let nc := length (w_concepts w) in let nl := length (w_collections w) in
  c_at kc_labels (skos_step w o) k = c_at kc_labels w k ++ label_for k nc nl o /\
  c_at kc_properties (skos_step w o) k = c_at kc_properties w k ++ property_for k nc nl o /\
  c_at kc_concepts (skos_step w o) k = c_at kc_concepts w k ++ relation_for k nc nl o /\
  c_at kc_external (skos_step w o) k = c_at kc_external w k ++ external_for k nc nl o.
Proof.
  intros H nc nl. unfold nc, nl. clear nc nl.
  destruct o; cbn [on_made] in H; try (match type of H with _ /\ _ => destruct H as [H H'] end); unfold skos_step; cbv zeta; cbn [label_for property_for relation_for external_for];
    repeat match goal with |- context [Nat.ltb ?a ?b] => destruct (Nat.ltb_spec a b); [|lia] end;
    (split; [|split; [|split]]); at_tac.
Qed.
Lemma step_collections w o k : on_made (length (w_concepts w)) (length (w_collections w)) o ->
  let nc := length (w_concepts w) in let nl := length (w_collections w) in
  l_at kl_members (skos_step w o) k = l_at kl_members w k ++ member_for k nc nl o /\
  l_at kl_labels (skos_step w o) k = l_at kl_labels w k ++ collection_label_for k nc nl o /\
  l_at kl_properties (skos_step w o) k = l_at kl_properties w k ++ collection_property_for k nc nl o.
Proof.
  intros H nc nl. unfold nc, nl. clear nc nl.
  destruct o; cbn [on_made] in H; try (match type of H with _ /\ _ => destruct H as [H H'] end); unfold skos_step; cbv zeta; cbn [member_for collection_label_for collection_property_for];
    repeat match goal with |- context [Nat.ltb ?a ?b] => destruct (Nat.ltb_spec a b); [|lia] end;
    (split; [|split]); at_tac.
Qed.
Lemma step_rest w o : on_made (length (w_concepts w)) (length (w_collections w)) o ->
  let nc := length (w_concepts w) in let nl := length (w_collections w) in let s := w_scheme w in let s' := w_scheme (skos_step w o) in
  map kc_uri (w_concepts (skos_step w o)) = map kc_uri (w_concepts w) ++ concept_iri nc nl o /\
  map (fun c => (kl_uri c, kl_ordered c)) (w_collections (skos_step w o)) =
    map (fun c => (kl_uri c, kl_ordered c)) (w_collections w) ++ collection_iri nc nl o /\
  ks_uri s' = ks_uri s /\ ks_concepts s' = ks_concepts s ++ top_concept nc nl o /\
  ks_collections s' = ks_collections s ++ top_collection nc nl o /\
  ks_labels s' = ks_labels s ++ scheme_label nc nl o /\ ks_properties s' = ks_properties s ++ scheme_property nc nl o.
Proof.
  intros H nc nl s s'. unfold nc, nl, s, s'. clear nc nl s s'.
  destruct o; cbn [on_made] in H; try (match type of H with _ /\ _ => destruct H as [H H'] end); unfold skos_step; cbv zeta;
    repeat match goal with |- context [Nat.ltb ?a ?b] => destruct (Nat.ltb_spec a b); [|lia] end;
    cbn [concept_iri collection_iri top_concept top_collection scheme_label scheme_property w_concepts w_collections w_scheme
      w_on_scheme w_on_concepts w_on_collections ks_add_concept ks_add_collection ks_add_label ks_add_property
      ks_uri ks_concepts ks_collections ks_labels ks_properties];
    rewrite ?map_app, ?update_map by reflexivity; rewrite ?app_nil_r;
    repeat (split; [reflexivity|]); reflexivity.
Qed.
Lemma step_lengths w o : on_made (length (w_concepts w)) (length (w_collections w)) o ->
  length (w_concepts (skos_step w o)) = (length (w_concepts w) + makes_concept o)%nat /\
  length (w_collections (skos_step w o)) = (length (w_collections w) + makes_collection o)%nat.
Proof.
  intros H. destruct (step_rest w o H) as (A & B & _).
  apply (f_equal (@length _)) in A. apply (f_equal (@length _)) in B. rewrite app_length, !map_length in A, B.
  rewrite A, B. split; (f_equal; destruct o; reflexivity).
Qed.
Definition run_says (w : world) (h : list skos_op) : Prop :=
  let nc := length (w_concepts w) in let nl := length (w_collections w) in
  let w' := skos_run w h in let s := w_scheme w in let s' := w_scheme w' in
  map kc_uri (w_concepts w') = map kc_uri (w_concepts w) ++ added concept_iri nc nl h /\
  map (fun c => (kl_uri c, kl_ordered c)) (w_collections w') =
    map (fun c => (kl_uri c, kl_ordered c)) (w_collections w) ++ added collection_iri nc nl h /\
  (ks_uri s' = ks_uri s /\ ks_concepts s' = ks_concepts s ++ added top_concept nc nl h /\
   ks_collections s' = ks_collections s ++ added top_collection nc nl h /\
   ks_labels s' = ks_labels s ++ added scheme_label nc nl h /\ ks_properties s' = ks_properties s ++ added scheme_property nc nl h) /\
  (forall k, c_at kc_labels w' k = c_at kc_labels w k ++ added (label_for k) nc nl h /\
    c_at kc_properties w' k = c_at kc_properties w k ++ added (property_for k) nc nl h /\
    c_at kc_concepts w' k = c_at kc_concepts w k ++ added (relation_for k) nc nl h /\
    c_at kc_external w' k = c_at kc_external w k ++ added (external_for k) nc nl h) /\
  (forall k, l_at kl_members w' k = l_at kl_members w k ++ added (member_for k) nc nl h /\
    l_at kl_labels w' k = l_at kl_labels w k ++ added (collection_label_for k) nc nl h /\
    l_at kl_properties w' k = l_at kl_properties w k ++ added (collection_property_for k) nc nl h).
Lemma run_says_ok h : forall w, proper (length (w_concepts w)) (length (w_collections w)) h -> run_says w h.
Proof.
  induction h as [|o h IH]; intros w P.
  - unfold run_says. cbv zeta. cbn [skos_run fold_left added]. rewrite !app_nil_r. repeat (split; [reflexivity|]).
    split; [repeat (split; [reflexivity|]); reflexivity|]. split; intros k; rewrite !app_nil_r; repeat (split; [reflexivity|]); reflexivity.
  - cbn [proper] in P. destruct P as [H P]. destruct (step_lengths w o H) as [L1 L2]. rewrite <- L1, <- L2 in P. specialize (IH _ P).
    pose proof (step_rest w o H) as R. pose proof (fun k => step_concepts w o k H) as C. pose proof (fun k => step_collections w o k H) as D.
    unfold run_says in *. cbv zeta in *. change (skos_run w (o :: h)) with (skos_run (skos_step w o) h). cbn [added].
    rewrite L1, L2 in IH. destruct IH as (I1 & I2 & (I3 & I4 & I5 & I6 & I7) & I8 & I9). destruct R as (R1 & R2 & R3 & R4 & R5 & R6 & R7).
    rewrite I1, I2, I3, I4, I5, I6, I7, R1, R2, R3, R4, R5, R6, R7, <- !app_assoc. repeat (split; [reflexivity|]).
    split; [repeat (split; [reflexivity|]); reflexivity|]. split; intros k.
    + destruct (I8 k) as (a1 & a2 & a3 & a4). destruct (C k) as (b1 & b2 & b3 & b4).
      rewrite a1, a2, a3, a4, b1, b2, b3, b4, <- !app_assoc. repeat (split; [reflexivity|]); reflexivity.
    + destruct (I9 k) as (a1 & a2 & a3). destruct (D k) as (b1 & b2 & b3).
      rewrite a1, a2, a3, b1, b2, b3, <- !app_assoc. repeat (split; [reflexivity|]); reflexivity.
Qed.
Lemma c92_calls u l h : proper 0 0 h -> let w := skos_run (world_new u l) h in
  map kc_uri (w_concepts w) = added concept_iri 0 0 h /\
  (forall k c, nth_error (w_concepts w) k = Some c ->
     kc_labels c = added (label_for k) 0 0 h /\ kc_properties c = added (property_for k) 0 0 h /\
     kc_concepts c = added (relation_for k) 0 0 h /\ kc_external c = added (external_for k) 0 0 h) /\
  map (fun c => (kl_uri c, kl_ordered c)) (w_collections w) = added collection_iri 0 0 h /\
  (forall k c, nth_error (w_collections w) k = Some c ->
     kl_members c = added (member_for k) 0 0 h /\ kl_labels c = added (collection_label_for k) 0 0 h /\
     kl_properties c = added (collection_property_for k) 0 0 h) /\
  w_scheme w = MkScheme u (added top_concept 0 0 h) (added top_collection 0 0 h) (l ++ added scheme_label 0 0 h)
    (added scheme_property 0 0 h).
Proof.
  intros P w. pose proof (run_says_ok h (world_new u l) P) as (A & B & (C1 & C2 & C3 & C4 & C5) & D & E).
  fold w in A, B, C1, C2, C3, C4, C5, D, E. split; [exact A|]. split; [|split; [exact B|split]].
  - intros k c K. specialize (D k). unfold c_at in D. rewrite K in D. cbn [w_concepts world_new] in D.
    destruct k; exact D.
  - intros k c K. specialize (E k). unfold l_at in E. rewrite K in E. cbn [w_collections world_new] in E.
    destruct k; exact E.
  - destruct (w_scheme w) as [a b c d e]. cbn in C1, C2, C3, C4, C5 |- *. congruence.
Qed.

Lemma c92_has_property ps p : has_property ps p = true <-> exists q, In q ps /\ lp_predicate q = p.
Proof.
  unfold has_property. rewrite existsb_exists. split.
  - intros (q & I & E). exists q. split; [exact I|]. apply str_eqb_eq. exact E.
  - intros (q & I & E). exists q. split; [exact I|]. apply str_eqb_eq. exact E.
Qed.

(** Properties with a type or a language, not both: what the constructors make. *)
Lemma c90_statements gext printable :
  (forall p text d g, Forall one_kind [lprop_new p text; lprop_with_data_type p text d; lprop_with_language p text g]) /\
  (forall u p text d g, exists lex,
     map (property_statement gext printable u) [lprop_new p text; lprop_with_data_type p text d; lprop_with_language p text g] =
     map (fun l => MkStmt (SRes u) p (OLit l)) [Lit lex None None; Lit lex (Some d) None; Lit lex None (Some g)]) /\
  (forall u p, one_kind p -> exists lex, property_statement gext printable u p =
     MkStmt (SRes u) (lp_predicate p) (OLit (Lit lex (lp_data_type p) (lp_language p)))) /\
  (forall u v p q, one_kind p -> one_kind q ->
     property_statement gext printable u p = property_statement gext printable v q -> u = v /\ p = q).
Proof.
  assert (S : forall u p, one_kind p -> property_statement gext printable u p =
     MkStmt (SRes u) (lp_predicate p) (OLit (Lit (escape_string gext printable (lp_form p)) (lp_data_type p) (lp_language p)))).
  { intros u [p t d g] K. unfold property_statement, make_literal. cbn in *. unfold one_kind in K. cbn in K.
    destruct d, g; try reflexivity. destruct K; discriminate. }
  split; [|split; [|split]].
  - intros. constructor; [|constructor; [|constructor; [|constructor]]]; unfold one_kind; cbn; auto.
  - intros u p text d g. exists (escape_string gext printable text). reflexivity.
  - intros u p K. exists (escape_string gext printable (lp_form p)). apply S, K.
  - intros u v [p t d g] [p' t' d' g'] K K' E. rewrite (S _ _ K), (S _ _ K') in E. cbn in E.
    injection E as -> -> E -> ->. apply LiteralProofs.escape_inj in E. subst. auto.
Qed.
