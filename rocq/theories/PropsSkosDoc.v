(** Properties of the documents made for SKOS thesauri. *)
From Verif Require Import SkosSpec SkosProofs SkosDocSpec SkosDocProofs SkosDocFinal SkosDocEnds SkosDocLinks Turtle.
From Coq Require Import Lia List Relations.
Import ListNotations.

(** C94: the document shows the scheme, all collections and all concepts under the top concepts,
    each in a section with its IRI, labels, properties, relations, members and memberships. *)
Theorem C94_scheme : forall gext printable anchor short mappings turtle lang u l h fuel n d w' n',
  let w := skos_run (world_new u l) h in
  make_document gext printable anchor short mappings turtle lang fuel n w = Done (d, w', n') ->
  exists t body, is_label lang (ks_uri (w_scheme w)) (ks_labels (w_scheme w)) t /\
    section_of d 1 ($"Scheme: " ++ t) (Some (anchor t $"scheme")) body /\
    shows_resource short lang 1 (ks_uri (w_scheme w)) (ks_labels (w_scheme w)) (ks_properties (w_scheme w)) body.
Proof. exact c94_scheme. Qed.
Print Assumptions C94_scheme.
Theorem C94_collections : forall gext printable anchor short mappings turtle lang u l h fuel n d w' n',
  let w := skos_run (world_new u l) h in
  make_document gext printable anchor short mappings turtle lang fuel n w = Done (d, w', n') ->
  forall k c, nth_error (w_collections w) k = Some c -> shows_collection_section anchor short lang w c d.
Proof. exact c94_collections. Qed.
Print Assumptions C94_collections.
Theorem C94_concepts : forall gext printable anchor short mappings turtle lang u l h fuel n d w' n',
  let w := skos_run (world_new u l) h in
  make_document gext printable anchor short mappings turtle lang fuel n w = Done (d, w', n') ->
  forall k c, distinct_iris w -> in_tree w k -> nth_error (w_concepts w) k = Some c ->
  exists more, (forall rj, In rj more <-> is_inverse w k rj) /\ shows_concept anchor short lang w (kc_concepts c ++ more) c d.
Proof. exact c94_concepts. Qed.
Print Assumptions C94_concepts.
(** Without different IRIs, at least one of the concepts that are alike. *)
Theorem C94_any : forall gext printable anchor short mappings turtle lang u l h fuel n d w' n',
  let w := skos_run (world_new u l) h in
  make_document gext printable anchor short mappings turtle lang fuel n w = Done (d, w', n') ->
  forall k c, in_tree w k -> nth_error (w_concepts w) k = Some c ->
  exists j c' more, in_tree w j /\ nth_error (w_concepts w) j = Some c' /\
    kc_uri c' = kc_uri c /\ kc_labels c' = kc_labels c /\ kc_properties c' = kc_properties c /\ kc_external c' = kc_external c /\
    (forall rj, In rj more -> is_inverse w j rj) /\ shows_concept anchor short lang w (kc_concepts c' ++ more) c' d.
Proof. exact c94_any. Qed.
Print Assumptions C94_any.
Theorem C94_hierarchy : forall gext printable anchor short mappings turtle lang u l h fuel n d w' n',
  let w := skos_run (world_new u l) h in
  make_document gext printable anchor short mappings turtle lang fuel n w = Done (d, w', n') ->
  ks_concepts (w_scheme w) <> [] -> shows_hierarchy anchor lang w d.
Proof. exact c94_hierarchy. Qed.
Print Assumptions C94_hierarchy.
(** The sections are those of concepts, then those of collections, each in the order of labels. *)
Theorem C94_order : forall gext printable anchor short mappings turtle lang u l h fuel n d w' n',
  let w := skos_run (world_new u l) h in
  make_document gext printable anchor short mappings turtle lang fuel n w = Done (d, w', n') ->
  exists ks ts ls ts', headings 3 d = map (app $"Concept: ") ts ++ map (app $"Collection: ") ts' /\
  (forall k, In k ks -> in_tree w k) /\ Forall2 (concept_label lang w) ks ts /\ StronglySorted (fun a b => str_cmp a b <> Gt) ts /\
  Permutation ls (seq 0 (length (w_collections w))) /\ Forall2 (collection_label lang w) ls ts' /\
  StronglySorted (fun a b => str_cmp a b <> Gt) ts' /\
  (distinct_iris w -> forall k, in_tree w k -> In k ks) /\ (distinct_labels lang w -> NoDup ks).
Proof. exact c94_order. Qed.
Print Assumptions C94_order.

Definition ex_none : N -> bool := fun _ => false.
Definition ex_all : N -> bool := fun _ => true.
Definition ex_anchor (label prefix : str) : str := prefix ++ $"-" ++ label.
Definition ex_short (i : str) : option str := if str_eqb i $"p:note" then Some $"note" else None.
Definition ex_turtle (g : graph) : wres str := Done $"ttl".
Definition ex_en : option str := Some $"en".
Definition ex_make : nat -> N -> world -> wres (list block * world * N) :=
  make_document ex_none ex_all ex_anchor ex_short [] ex_turtle ex_en.
Definition ex_ops : list skos_op :=
  [TopConcept $"p:b" (Some ($"B", Some $"en")); SubConcept 0 RNarrower $"p:a" (Some ($"A", Some $"en"));
   Relate 1 RRelated 0; External 1 $"p:match" $"q:d"; ConceptProperty 1 (lprop_new $"p:note" $"N");
   TopCollection $"p:l" false (Some ($"L", None)); AddMember 0 1].
Definition ex_world : world := skos_run (world_new $"p:s" []) ex_ops.
Lemma ex_distinct : distinct_iris ex_world /\ distinct_labels ex_en ex_world.
Proof.
  split.
  - intros a b x y _ _ Ea Eb U. vm_compute in Ea, Eb. destruct a as [|[|[|a]]], b as [|[|[|b]]]; try discriminate; try reflexivity;
      injection Ea as <-; injection Eb as <-; vm_compute in U; discriminate.
  - intros a b t _ _ La Lb. apply SkosDocMore.concept_label_iff in La as (Xa & La). apply SkosDocMore.concept_label_iff in Lb as (Xb & Lb).
    vm_compute in Xa, Xb. destruct a as [|[|a]]; [| |lia]; (destruct b as [|[|b]]; [| |lia]); try reflexivity; vm_compute in La, Lb; congruence.
Qed.
Example C94_example : distinct_iris ex_world /\ distinct_labels ex_en ex_world /\ in_tree ex_world 1 /\
  exists d w' n', ex_make 5 0 ex_world = Done (d, w', n') /\ headings 3 d = [$"Concept: A"; $"Concept: B"; $"Collection: p:l"] /\
    In (DList [DItem [IAnchor Bold $"concept-B" $"B"]; DSub [DItem [IAnchor Normal $"concept-A" $"A"]; DSub []]]) d /\
    In (DTable [$"Relationship"; $"Concept Iri"]
      [[[IText Normal (skos $"related")]; [IAnchor Normal $"concept-B" $"B"]];
       [[IText Normal (skos $"broader")]; [IAnchor Normal $"concept-B" $"B"]];
       [[IText Normal $"p:match"]; [IExternal $"q:d" (Some $"q:d")]]]) d /\
    In (DTable [$"Predicate"; $"Literal Form"; $"Data Type"; $"Language"] [[[IText Normal $"note"]; [IText Normal $"N"]; [IText Normal []]; []]]) d.
Proof.
  split; [apply ex_distinct|]. split; [apply ex_distinct|]. split.
  - exists 0%nat. split; [left; reflexivity|]. apply rt_step. exists (match nth_error (w_concepts ex_world) 0 with Some c => c | None => concept_new [] [] end), RNarrower.
    split; [reflexivity|]. split; [left; reflexivity|]. left. reflexivity.
  - eexists _, _, _. split; [vm_compute; reflexivity|]. split; [vm_compute; reflexivity|]. repeat split; vm_compute; tauto.
Qed.

(** C94 fails for external relations of concepts without other relations, for data types whose
    IRI has no short form, and for the sections of concepts with equal labels, which can be
    repeated. *)
Theorem C94_external_refuted : ~ (forall gext printable anchor short mappings turtle lang u l h fuel n d w' n',
  let w := skos_run (world_new u l) h in
  make_document gext printable anchor short mappings turtle lang fuel n w = Done (d, w', n') ->
  forall k c p i, in_tree w k -> nth_error (w_concepts w) k = Some c -> In (p, i) (kc_external c) ->
  exists b caption, In b d /\ in_block (IExternal i caption) b).
Proof.
  intros H. set (h := [TopConcept $"p:a" None; External 0 $"p:match" $"q:d"]).
  destruct (ex_make 3 0 (skos_run (world_new $"p:s" []) h)) as [[[d w'] n']| | |] eqn:E; vm_compute in E; try discriminate E.
  pose proof (H ex_none ex_all ex_anchor ex_short [] ex_turtle ex_en $"p:s" [] h 3%nat 0%N d w' n') as G.
  destruct (fun X => G X 0%nat (MkConcept $"p:a" [] [($"p:match", $"q:d")] [] []) $"p:match" $"q:d") as (b & cap & I & B).
  - unfold ex_make in E. vm_compute. exact E.
  - exists 0%nat. split; [left; reflexivity|apply rt_refl].
  - reflexivity.
  - left. reflexivity.
  - injection E as <- _ _. revert b I B. apply (proj1 (Forall_forall (fun b => in_block (IExternal $"q:d" cap) b -> False) _)).
    repeat (constructor; [intros B; vm_compute in B; repeat match goal with
      | X : False |- _ => destruct X
      | X : _ \/ _ |- _ => destruct X
      | X : exists _, _ |- _ => destruct X
      | X : _ /\ _ |- _ => destruct X
      | X : _ = _ |- _ => (discriminate X || (subst; cbn in *))
      end; fail|]). constructor.
Qed.
Print Assumptions C94_external_refuted.
Theorem C94_type_refuted : ~ (forall gext printable anchor short mappings turtle lang u l h fuel n d w' n',
  let w := skos_run (world_new u l) h in
  make_document gext printable anchor short mappings turtle lang fuel n w = Done (d, w', n') ->
  forall p, In p (ks_properties (w_scheme w)) ->
  exists columns rows row, In (DTable columns rows) d /\ In row rows /\ shows_property short lang (shows_type short) p row).
Proof.
  intros H. set (h := [SchemeProperty (lprop_with_data_type $"p:note" $"1" DtInt)]).
  destruct (ex_make 3 0 (skos_run (world_new $"p:s" []) h)) as [[[d w'] n']| | |] eqn:E; vm_compute in E; try discriminate E.
  pose proof (H ex_none ex_all ex_anchor ex_short [] ex_turtle ex_en $"p:s" [] h 3%nat 0%N d w' n') as G.
  destruct (fun X => G X (lprop_with_data_type $"p:note" $"1" DtInt)) as (cols & rows & row & I & J & q & t & g & _ & T & _ & R).
  - vm_compute. exact E.
  - left. reflexivity.
  - injection E as <- _ _. vm_compute in I.
    repeat match type of I with _ \/ _ => destruct I as [I|I]; [try discriminate I|] | False => destruct I end.
    injection I as _ <-. destruct J as [J|[]]. rewrite R in J. injection J as _ J _. subst t. cbn in T.
    inversion T as [q' S E'|S E']; vm_compute in S; discriminate S.
Qed.
Print Assumptions C94_type_refuted.
Definition shown_iris (d : list block) : list str := flat_map (fun b => match b with DPara [IExternal i None] => [i] | _ => [] end) d.
Theorem C94_once_refuted : ~ (forall gext printable anchor short mappings turtle lang u l h fuel n d w' n',
  let w := skos_run (world_new u l) h in
  make_document gext printable anchor short mappings turtle lang fuel n w = Done (d, w', n') ->
  distinct_iris w -> NoDup (shown_iris d)).
Proof.
  intros H. set (h := [TopConcept $"p:a" None; SubConcept 0 RNarrower $"p:b" (Some ($"X", Some $"en"));
    SubConcept 0 RNarrower $"p:c" (Some ($"X", Some $"en")); Relate 0 RNarrower 1]).
  destruct (ex_make 3 0 (skos_run (world_new $"p:s" []) h)) as [[[d w'] n']| | |] eqn:E; vm_compute in E; try discriminate E.
  assert (N : NoDup (shown_iris d)).
  { apply (H ex_none ex_all ex_anchor ex_short [] ex_turtle ex_en $"p:s" [] h 3%nat 0%N d w' n'); [vm_compute; exact E|].
    intros a b x y _ _ Ea Eb U. vm_compute in Ea, Eb. destruct a as [|[|[|[|a]]]], b as [|[|[|[|b]]]]; try discriminate; try reflexivity;
      injection Ea as <-; injection Eb as <-; vm_compute in U; discriminate. }
  injection E as <- _ _. vm_compute in N.
  repeat match type of N with NoDup (?x :: ?r) =>
    tryif (assert (In x r) by (cbn; tauto)) then (inversion_clear N; contradiction) else (apply NoDup_cons_iff in N as (_ & N)) end.
Qed.
Print Assumptions C94_once_refuted.

(** C95: making the document changes the scheme: the inverses of the narrower and related concepts
    in the tree are added to its concepts, and are said in the appendix. *)
Theorem C95_change : forall gext printable anchor short mappings turtle lang u l h fuel n d w' n',
  let w := skos_run (world_new u l) h in
  make_document gext printable anchor short mappings turtle lang fuel n w = Done (d, w', n') ->
  w_collections w' = w_collections w /\ w_scheme w' = w_scheme w /\ length (w_concepts w') = length (w_concepts w) /\
  forall k c, nth_error (w_concepts w) k = Some c -> exists more,
    nth_error (w_concepts w') k = Some (MkConcept (kc_uri c) (kc_concepts c ++ more) (kc_external c) (kc_labels c) (kc_properties c)) /\
    (forall rj, In rj more -> is_inverse w k rj) /\ (distinct_iris w -> forall rj, is_inverse w k rj -> In rj more).
Proof. exact c95_change. Qed.
Print Assumptions C95_change.
(** It is as if they were added by calls, so that all theorems about schemes hold of it. *)
Theorem C95_run : forall gext printable anchor short mappings turtle lang u l h fuel n d w' n',
  let w := skos_run (world_new u l) h in
  make_document gext printable anchor short mappings turtle lang fuel n w = Done (d, w', n') ->
  exists ops, w' = skos_run (world_new u l) (h ++ ops) /\
    forall o, In o ops -> exists k r j, o = Relate k (inverse_of r) j /\ one_way r /\ in_tree w j.
Proof. exact c95_run. Qed.
Print Assumptions C95_run.
Theorem C95_same : forall gext printable anchor short mappings turtle lang u l h fuel n d w' n',
  let w := skos_run (world_new u l) h in
  make_document gext printable anchor short mappings turtle lang fuel n w = Done (d, w', n') ->
  w' = w <-> forall j r k, in_tree w j -> has_relation w j r k -> ~ one_way r.
Proof. exact c95_same. Qed.
Print Assumptions C95_same.
Theorem C95_appendix : forall gext printable anchor short mappings turtle lang u l h fuel n d w' n',
  let w := skos_run (world_new u l) h in
  make_document gext printable anchor short mappings turtle lang fuel n w = Done (d, w', n') ->
  exists sts code, section_of d 2 $"Appendix - RDF" (Some $"Appendix-RDF") [DCode code] /\
  turtle (Graph None (NonUnique sts) mappings) = Done code /\
  (forall st, (forall b, st_subject st <> SBlank b) -> In st sts <-> scheme_says gext printable w' st) /\
  (distinct_iris w -> forall st, scheme_says gext printable w' st <-> scheme_says gext printable w st \/
     exists j r k x y, in_tree w j /\ in_tree w k /\ has_relation w j r k /\ one_way r /\
       nth_error (w_concepts w) j = Some x /\ nth_error (w_concepts w) k = Some y /\
       st = link (kc_uri y) (relation_name (inverse_of r)) (kc_uri x)).
Proof. exact c95_appendix. Qed.
Print Assumptions C95_appendix.
(** It panics only for a concept related to itself, and never has a result for such a concept. *)
Theorem C95_panics : forall gext printable anchor short mappings turtle lang u l h fuel n,
  let w := skos_run (world_new u l) h in (forall g, turtle g <> Crashed) ->
  make_document gext printable anchor short mappings turtle lang fuel n w = Crashed ->
  exists k, in_tree w k /\ has_relation w k RRelated k.
Proof. exact c95_panics. Qed.
Print Assumptions C95_panics.
Theorem C95_self : forall gext printable anchor short mappings turtle lang u l h fuel n k r,
  let w := skos_run (world_new u l) h in in_tree w k -> has_relation w k r k -> one_way r ->
  forall d, make_document gext printable anchor short mappings turtle lang fuel n w <> Done d.
Proof. exact c95_self. Qed.
Print Assumptions C95_self.
Example C95_example : exists d w' n', ex_make 5 0 ex_world = Done (d, w', n') /\
  option_map kc_concepts (nth_error (w_concepts ex_world) 0) = Some [(RNarrower, 1%nat)] /\
  option_map kc_concepts (nth_error (w_concepts w') 0) = Some [(RNarrower, 1%nat); (RInverseRelated, 1%nat)] /\
  option_map kc_concepts (nth_error (w_concepts w') 1) = Some [(RRelated, 0%nat); (RBroader, 0%nat)] /\
  ex_make 5 0 (skos_run ex_world [Relate 0 RRelated 0]) = Crashed.
Proof. eexists _, _, _. split; [vm_compute; reflexivity|]. split; [|split; [|split]]; vm_compute; reflexivity. Qed.

(** So the document of a scheme is not determined by it: made twice, the relations are added twice. *)
Theorem C95_unchanged_refuted : ~ (forall gext printable anchor short mappings turtle lang u l h fuel n d w' n',
  make_document gext printable anchor short mappings turtle lang fuel n (skos_run (world_new u l) h) = Done (d, w', n') ->
  w' = skos_run (world_new u l) h) /\
  ~ (forall gext printable anchor short mappings turtle lang u l h fuel n d w' n' d2 w2 n2,
  make_document gext printable anchor short mappings turtle lang fuel n (skos_run (world_new u l) h) = Done (d, w', n') ->
  make_document gext printable anchor short mappings turtle lang fuel n w' = Done (d2, w2, n2) -> d2 = d).
Proof.
  set (h := [TopConcept $"p:a" None; SubConcept 0 RNarrower $"p:b" None]). split; intros H.
  - destruct (ex_make 3 0 (skos_run (world_new $"p:s" []) h)) as [[[d w'] n']| | |] eqn:E; vm_compute in E; try discriminate E.
    pose proof (H ex_none ex_all ex_anchor ex_short [] ex_turtle ex_en $"p:s" [] h 3%nat 0%N d w' n') as G.
    assert (Q : w' = skos_run (world_new $"p:s" []) h) by (apply G; vm_compute; exact E). injection E as _ <- _. vm_compute in Q. discriminate Q.
  - destruct (ex_make 3 0 (skos_run (world_new $"p:s" []) h)) as [[[d w'] n']| | |] eqn:E; vm_compute in E; try discriminate E.
    destruct (ex_make 3 0 w') as [[[d2 w2] n2]| | |] eqn:E2; pose proof E as E'; injection E' as _ Ew _; rewrite <- Ew in E2; vm_compute in E2; try discriminate E2.
    assert (Q : d2 = d) by (apply (H ex_none ex_all ex_anchor ex_short [] ex_turtle ex_en $"p:s" [] h 3%nat 0%N d w' n' d2 w2 n2); [vm_compute; exact E|rewrite <- Ew; vm_compute; exact E2]).
    injection E as <- _ _. injection E2 as <- _ _. discriminate Q.
Qed.
Print Assumptions C95_unchanged_refuted.

(** C96: making the document ends unless a concept is narrower than itself or one that is in the
    tree more than once reaches, by relations of any kind, a concept related to itself. *)
Theorem C96_ends : forall gext printable anchor short mappings turtle lang u l h n, let w := skos_run (world_new u l) h in
  (forall g, turtle g <> OutOfFuel) -> distinct_iris w ->
  ~ narrower_cycle w -> (forall k, listed_twice w k -> ~ reaches_cycle w k) ->
  exists fuel, make_document gext printable anchor short mappings turtle lang fuel n w <> OutOfFuel.
Proof. exact c96_ends. Qed.
Print Assumptions C96_ends.
Theorem C96_loops : forall gext printable anchor short mappings turtle lang u l h fuel n, let w := skos_run (world_new u l) h in
  distinct_labels lang w -> narrower_cycle w \/ (exists k, listed_twice w k /\ reaches_cycle w k) ->
  make_document gext printable anchor short mappings turtle lang fuel n w = OutOfFuel.
Proof. exact c96_loops. Qed.
Print Assumptions C96_loops.
(** Whatever the IRIs and labels, it ends if no concept is related to itself. *)
Theorem C96_acyclic : forall gext printable anchor short mappings turtle lang u l h n, let w := skos_run (world_new u l) h in
  (forall g, turtle g <> OutOfFuel) -> ~ relation_cycle w ->
  exists fuel, make_document gext printable anchor short mappings turtle lang fuel n w <> OutOfFuel.
Proof. exact c96_acyclic. Qed.
Print Assumptions C96_acyclic.
Theorem C96_fuel : forall gext printable anchor short mappings turtle lang w n f f' r, (f <= f')%nat ->
  make_document gext printable anchor short mappings turtle lang f n w = r -> r <> OutOfFuel ->
  make_document gext printable anchor short mappings turtle lang f' n w = r.
Proof. exact c96_fuel. Qed.
Print Assumptions C96_fuel.
(** [ex_world] has concepts related to themselves, but none more than once in the tree. *)
Lemma ex_flat f l : scheme_concepts_flattened f ex_world = Some l -> l = [1; 0]%nat.
Proof.
  intros E. destruct f as [|[|[|f]]]; vm_compute in E; congruence.
Qed.
Example C96_example : distinct_iris ex_world /\ ~ narrower_cycle ex_world /\ reaches_cycle ex_world 0 /\
  (forall k, listed_twice ex_world k -> ~ reaches_cycle ex_world k) /\ ex_make 5 0 ex_world <> OutOfFuel.
Proof.
  split; [apply ex_distinct|]. split; [|split; [|split]].
  - apply (c_cycle ex_world 5 [1; 0]%nat). vm_compute. reflexivity.
  - exists 0%nat. split; [apply rt_refl|]. eapply t_trans; apply t_step.
    + exists RNarrower. eexists. split; [reflexivity|left; reflexivity].
    + exists RRelated. eexists. split; [reflexivity|left; reflexivity].
  - intros k (f & flat & p & q & r & F & E). apply ex_flat in F. rewrite F in E. exfalso.
    destruct p as [|x [|y p]]; [injection E as Ek E|injection E as _ _ E|injection E as _ _ E; destruct p; discriminate].
    + destruct q as [|x q]; [injection E as E _; congruence|]. injection E as _ E. destruct q; discriminate E.
    + destruct q; discriminate E.
  - vm_compute. discriminate.
Qed.
(** C96 fails without the second condition: a concept with two broader concepts, and related both
    ways to another. *)
Theorem C96_hierarchy_refuted : ~ (forall gext printable anchor short mappings turtle lang u l h n,
  let w := skos_run (world_new u l) h in (forall g, turtle g <> OutOfFuel) -> distinct_iris w -> ~ narrower_cycle w ->
  exists fuel, make_document gext printable anchor short mappings turtle lang fuel n w <> OutOfFuel).
Proof.
  intros H. set (h := [TopConcept $"p:a" None; SubConcept 0 RNarrower $"p:b" None; SubConcept 0 RNarrower $"p:c" None;
    SubConcept 1 RNarrower $"p:d" None; Relate 2 RNarrower 3; SubConcept 3 RRelated $"p:e" None; Relate 4 RRelated 3]).
  set (w := skos_run (world_new $"p:s" []) h).
  assert (F : scheme_concepts_flattened 5 w = Some [3; 1; 3; 2; 0]%nat) by (vm_compute; reflexivity).
  destruct (H ex_none ex_all ex_anchor ex_short [] ex_turtle ex_en $"p:s" [] h 0%N) as (fuel & E).
  - discriminate.
  - intros a b x y _ _ Ea Eb U. vm_compute in Ea, Eb.
    destruct a as [|[|[|[|[|[|a]]]]]], b as [|[|[|[|[|[|b]]]]]]; try discriminate; try reflexivity;
      injection Ea as <-; injection Eb as <-; vm_compute in U; discriminate.
  - apply (c_cycle w 5 _ F).
  - apply E. apply C96_loops.
    + intros a b t Ia Ib La Lb. apply SkosDocMore.concept_label_iff in La as (Xa & La). apply SkosDocMore.concept_label_iff in Lb as (Xb & Lb).
      vm_compute in Xa, Xb. destruct a as [|[|[|[|[|a]]]]]; try lia; (destruct b as [|[|[|[|[|b]]]]]; try lia); try reflexivity; vm_compute in La, Lb; congruence.
    + right. exists 3%nat. split.
      * exists 5%nat, [3; 1; 3; 2; 0]%nat, [], [1]%nat, [2; 0]%nat. split; [exact F|reflexivity].
      * exists 3%nat. split; [apply rt_refl|]. eapply t_trans; apply t_step.
        -- exists RRelated. eexists. split; [reflexivity|left; reflexivity].
        -- exists RRelated. eexists. split; [reflexivity|left; reflexivity].
Qed.
Print Assumptions C96_hierarchy_refuted.

(** C97: the internal links of the document are those to its parts, to the concepts of the
    hierarchy, in relations and in members, and to collections; each caption is the label. *)
Theorem C97_links : forall gext printable anchor short mappings turtle lang u l h fuel n d w' n',
  let w := skos_run (world_new u l) h in
  make_document gext printable anchor short mappings turtle lang fuel n w = Done (d, w', n') ->
  forall a t, has_link d a t <-> link_of anchor lang w a t.
Proof. exact c97_links. Qed.
Print Assumptions C97_links.
(** Their targets exist, but for that of "Collections" and for concepts that are not in the tree. *)
Theorem C97_anchors : forall gext printable anchor short mappings turtle lang u l h fuel n d w' n',
  let w := skos_run (world_new u l) h in
  make_document gext printable anchor short mappings turtle lang fuel n w = Done (d, w', n') ->
  forall a t, has_link d a t -> has_anchor d a \/
  (a = $"Collections" /\ ks_concepts (w_scheme w) <> [] /\ ks_collections (w_scheme w) <> []) \/
  exists k, concept_label lang w k t /\ a = anchor t $"concept" /\ ~ in_tree w k /\
    ((exists j r, in_tree w j /\ has_relation w j r k) \/ (exists c, In c (w_collections w) /\ In (MConcept k) (kl_members c))).
Proof. exact c97_anchors. Qed.
Print Assumptions C97_anchors.
Example C97_example : exists d w' n', ex_make 5 0 ex_world = Done (d, w', n') /\ has_link d $"concept-A" $"A" /\ has_anchor d $"concept-A".
Proof.
  eexists _, _, _. split; [vm_compute; reflexivity|]. split.
  - eexists (DList _), _. split; [vm_compute; do 4 right; left; reflexivity|]. eexists. split; [right; left; reflexivity|]. left. left. reflexivity.
  - eexists _, _. vm_compute. do 6 right. left. reflexivity.
Qed.
(** C97 fails for those: the heading of the collections has no anchor, and a concept can be related
    to or in a collection without being in the tree. *)
Theorem C97_anchors_refuted : ~ (forall gext printable anchor short mappings turtle lang u l h fuel n d w' n',
  make_document gext printable anchor short mappings turtle lang fuel n (skos_run (world_new u l) h) = Done (d, w', n') ->
  forall t, has_link d $"Collections" t -> has_anchor d $"Collections") /\
  ~ (forall gext printable anchor short mappings turtle lang u l h fuel n d w' n',
  make_document gext printable anchor short mappings turtle lang fuel n (skos_run (world_new u l) h) = Done (d, w', n') ->
  forall a t, has_link d a t -> a <> $"Collections" -> has_anchor d a).
Proof.
  split; intros H.
  - set (h := [TopConcept $"p:a" None; TopCollection $"p:l" false None]).
    destruct (ex_make 3 0 (skos_run (world_new $"p:s" []) h)) as [[[d w'] n']| | |] eqn:E; vm_compute in E; try discriminate E.
    destruct (fun X => H ex_none ex_all ex_anchor ex_short [] ex_turtle ex_en $"p:s" [] h 3%nat 0%N d w' n' X $"Collections") as (lv & t & I).
    + vm_compute. exact E.
    + injection E as <- _ _. eexists _, Normal. split; [do 2 right; left; reflexivity|]. do 5 right. left. reflexivity.
    + injection E as <- _ _. repeat (destruct I as [I|I]; [discriminate I|]). destruct I.
  - set (h := [TopConcept $"p:a" None; SubConcept 0 RRelated $"p:b" None]).
    destruct (ex_make 3 0 (skos_run (world_new $"p:s" []) h)) as [[[d w'] n']| | |] eqn:E; vm_compute in E; try discriminate E.
    destruct (fun X => H ex_none ex_all ex_anchor ex_short [] ex_turtle ex_en $"p:s" [] h 3%nat 0%N d w' n' X $"concept-p:b" $"p:b") as (lv & t & I).
    + vm_compute. exact E.
    + apply (C97_links ex_none ex_all ex_anchor ex_short [] ex_turtle ex_en $"p:s" [] h 3%nat 0%N d w' n'); [vm_compute; exact E|].
      refine (lo_concept ex_anchor ex_en (skos_run (world_new $"p:s" []) h) 1%nat $"p:b" _ _); [apply SkosDocMore.concept_label_iff; split; [vm_compute; lia|vm_compute; reflexivity]|]. right. left. exists 0%nat, RRelated.
      split; [exists 0%nat; split; [left; reflexivity|apply rt_refl]|]. eexists. split; [reflexivity|left; reflexivity].
    + discriminate.
    + injection E as <- _ _. repeat (destruct I as [I|I]; [discriminate I|]). destruct I.
Qed.
Print Assumptions C97_anchors_refuted.
