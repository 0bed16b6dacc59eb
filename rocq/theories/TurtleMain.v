(** Whole Turtle documents. *)
From Verif Require Import Turtle TurtleSpec TurtleProofs TurtleRuns TurtleShape GraphProofs TermProofs ResourceProofs StrFacts.
From Coq Require Import Permutation Relations Sorted Lia.
Local Opaque group_predicate pg_map.

(** ** More fuel makes no difference *)
Definition more {A} (x y : wres A) : Prop := x = OutOfFuel \/ y = x.
Lemma more_refl {A} (x : wres A) : more x x.
Proof. right. reflexivity. Qed.
Lemma more_bind {A B} (x y : wres A) (f h : A -> wres B) :
  more x y -> (forall a, more (f a) (h a)) -> more (wbind x f) (wbind y h).
Proof. intros [-> | ->] H; [left; reflexivity|]. destruct x; cbn; auto using more_refl. Qed.
Definition more_action (a b : action) : Prop := forall s, more (a s) (b s).
Lemma more_seq a b c d : more_action a c -> more_action b d -> more_action (wseq a b) (wseq c d).
Proof. intros H K s. unfold wseq. apply more_bind; auto. Qed.
Lemma more_same a : more_action a a.
Proof. intros s. apply more_refl. Qed.

Section Main.
Variable modulus : N.
Variable mode : overflow.
Variable m : iri_mode.
Variable iri_parse : str -> option str.
Variable gext printable : chr -> bool.
Variable compress : str -> outcome (option str).
Variable opts : ttl_options.
Variable g : graph.
Variable ord_p : nat -> list str -> list str.
Variable ord_o : nat -> list object -> list object.
Variable ord_s : nat -> list subject -> list subject.
Hypothesis Op : any_order ord_p.
Hypothesis Oo : any_order ord_o.
Hypothesis Os : any_order ord_s.

Notation compressed := (compress_iri m iri_parse compress opts).
Notation w_obj := (write_object modulus mode m iri_parse gext printable compress opts g ord_p ord_o).
Notation w_list := (write_predicate_object_list modulus mode m iri_parse compress opts g ord_p ord_o).
Notation w_pred := (write_predicate_object modulus mode m iri_parse compress opts g ord_o).
Notation w_group := (write_group modulus mode m iri_parse compress opts g ord_o).
Notation w_groups := (write_groups modulus mode m iri_parse compress opts g ord_o).
Notation w_verb := (write_verb m iri_parse compress opts).
Notation sort_preds := (sort_predicates m iri_parse compress opts).


Notation iri_w := (word_of compressed).
Notation verb_w := (verb_word opts iri_w).
Notation lit_w := (word_of (literal_word m iri_parse gext printable compress opts)).
Notation shows := (shows g (nest_blank_nodes opts) iri_w verb_w lit_w).
Notation shows_entry := (shows_entry g (nest_blank_nodes opts) iri_w verb_w lit_w).
Notation shows_entries := (shows_entries g (nest_blank_nodes opts) iri_w verb_w lit_w).
Notation comma := [Sign $","].
Notation semicolon := [Sign $";"].
Notation pieces := (tree_pieces comma).
Notation e_pieces := (entry_pieces comma).

Notation w_block := (write_block modulus mode m iri_parse gext printable compress opts g ord_p ord_o).
Notation w_blocks := (write_blocks modulus mode m iri_parse gext printable compress opts g ord_p ord_o).
Notation w_triples := (write_triples modulus mode m iri_parse gext printable compress opts g ord_p ord_o ord_s).
Notation w_doc := (write_turtle_doc modulus mode m iri_parse gext printable compress opts g ord_p ord_o ord_s).

Section Mono.
Variable r1 r2 : object -> ttl_flags -> action.
Hypothesis M : forall o fl, more_action (r1 o fl) (r2 o fl).
Lemma more_keys l t : more (object_keys r1 l t) (object_keys r2 l t).
Proof.
  revert t. induction l as [|o l IH]; intros t; cbn [object_keys]; [apply more_refl|].
  apply more_bind.
  - destruct (M o ttl_sort_flags (WState [] ind_default t)) as [-> | ->]; [left; reflexivity|apply more_refl].
  - intros kt. apply more_bind; auto. intros ks. apply more_refl.
Qed.
Lemma more_sort l t : more (sort_objects r1 l t) (sort_objects r2 l t).
Proof.
  unfold sort_objects. destruct l as [|a [|b l]]; try apply more_refl. apply more_bind; [apply more_keys|].
  intros ks. apply more_refl.
Qed.
Lemma more_objects l k fl : more_action (write_objects modulus mode r1 l k fl) (write_objects modulus mode r2 l k fl).
Proof.
  induction l as [|o l IH]; cbn [write_objects]; [apply more_same|]. apply more_seq; auto.
  unfold write_predicate_object_object. apply more_seq; [apply M|apply more_same].
Qed.
Lemma more_pred gr subj p k fl : more_action (w_pred r1 gr subj p k fl) (w_pred r2 gr subj p k fl).
Proof.
  unfold write_predicate_object. apply more_seq; [apply more_same|]. intros s. cbn zeta.
  apply more_bind; [apply more_sort|]. intros ot. apply more_objects.
Qed.
Lemma more_group gr subj l c t k fl : more_action (w_group r1 gr subj l c t k fl) (w_group r2 gr subj l c t k fl).
Proof. revert c. induction l as [|p l IH]; intros c; cbn [write_group]; [apply more_same|]. apply more_seq; auto. apply more_pred. Qed.
Lemma more_groups subj l c t k fl : more_action (w_groups r1 subj l c t k fl) (w_groups r2 subj l c t k fl).
Proof.
  revert c. induction l as [|[gr ps] l IH]; intros c; cbn [write_groups]; [apply more_same|].
  destruct (sort_preds ps); [|apply more_same]. apply more_seq; auto. apply more_group.
Qed.
Lemma more_list subj fl : more_action (w_list r1 subj fl) (w_list r2 subj fl).
Proof.
  intros s. unfold write_predicate_object_list. cbn zeta. unfold with_io.
  match goal with |- more ((match ?x with _ => _ end) _) _ => destruct x as [[k|e]|] end; try apply more_refl.
  apply more_groups.
Qed.
Lemma more_items l fl : more_action (write_items r1 l fl) (write_items r2 l fl).
Proof.
  induction l as [|o l IH]; cbn [write_items]; [apply more_same|]. apply more_seq; [apply M|].
  apply more_seq; [apply more_same|auto].
Qed.
End Mono.
Definition ostep (rec : object -> ttl_flags -> action) (o : object) (fl : ttl_flags) : action :=
  match o with
  | OBlank b =>
      if nest_blank_nodes opts then
        if g_contains_subject g (SBlank b)
        then write_blank_node_property_list modulus mode m iri_parse compress opts g ord_p ord_o rec b fl
        else emit [Sign $"["; Sign $"]"]
      else emit [Word ($"_:" ++ b)]
  | ORes iri => write_iri m iri_parse compress opts iri
  | OLit l => write_literal m iri_parse gext printable compress opts l
  | OColl items => write_collection modulus mode opts rec items fl
  | OStmt _ => fun _ => Crashed
  end.
Lemma object_step f o fl : w_obj (S f) o fl = ostep (w_obj f) o fl.
Proof. reflexivity. Qed.
Lemma more_ostep r1 r2 o fl : (forall o fl, more_action (r1 o fl) (r2 o fl)) -> more_action (ostep r1 o fl) (ostep r2 o fl).
Proof.
  intros M. unfold ostep. destruct o as [b|iri|l|items|st]; try apply more_same.
  - destruct (nest_blank_nodes opts); [|apply more_same]. destruct (g_contains_subject g (SBlank b)); [|apply more_same].
    unfold write_blank_node_property_list. apply more_seq; [apply more_same|]. apply more_seq; [apply more_same|].
    apply more_seq; [|apply more_same]. apply more_list. exact M.
  - unfold write_collection. destruct items as [|x items]; [apply more_same|].
    apply more_seq; [apply more_same|]. apply more_seq; [apply more_same|]. apply more_seq; [apply more_same|].
    apply more_seq; [|apply more_same]. apply more_items. exact M.
Qed.
Lemma more_object f : forall o fl, more_action (w_obj f o fl) (w_obj (S f) o fl).
Proof.
  induction f as [|f IH]; intros o fl; [intros s; left; reflexivity|].
  rewrite (object_step f), (object_step (S f)). apply more_ostep. exact IH.
Qed.
Lemma more_blocks f r l : more_action (w_blocks f r l) (w_blocks (S f) r l).
Proof.
  induction l as [|x l IH]; [apply more_same|]. cbn [write_blocks]. apply more_seq; [apply more_same|].
  apply more_seq; auto. unfold write_block. apply more_seq; [apply more_same|].
  apply more_seq; [|apply more_same]. apply more_list. apply more_object.
Qed.
Lemma doc_more mappings f f' : (f <= f')%nat -> w_doc mappings f <> OutOfFuel -> w_doc mappings f' = w_doc mappings f.
Proof.
  assert (S1 : forall f, more (w_doc mappings f) (w_doc mappings (S f))).
  { intros k. unfold write_turtle_doc. apply more_bind; [|intros s; apply more_refl].
    unfold write_triples. apply more_seq; apply more_blocks. }
  intros L H. induction L as [|k L IH]; auto. destruct (S1 k) as [E|E]; [congruence|]. congruence.
Qed.

(** ** The shape of a document *)
Lemma tight_directive_end : tight (directive_end opts) = if sparql_directives opts then [] else [Sign $"."].
Proof. unfold directive_end. destruct (sparql_directives opts); reflexivity. Qed.
Lemma tight_head mappings : tight (base_pieces m opts ++ prefix_pieces m opts mappings) =
  directives opts (fun i => convert_first m (convert_base opts) (show_iri m i)) (option_map (show_iri m) (id_base opts)) mappings.
Proof.
  rewrite tight_app. unfold directives, directive. fold (sparql_directives opts). f_equal.
  - unfold base_pieces. destruct (id_base opts) as [b|]; [|reflexivity]. cbn [option_map].
    rewrite !tight_app, tight_directive_end. destruct (sparql_directives opts), (use_intellij_style opts); reflexivity.
  - unfold prefix_pieces. destruct mappings as [|e l]; [reflexivity|]. rewrite tight_app. cbn [tight filter is_blanks negb].
    rewrite app_nil_r. generalize (e :: l) as k. induction k as [|[p ns] k IH]; [reflexivity|]. cbn [flat_map fst snd].
    rewrite tight_app, IH, tight_app, tight_directive_end. f_equal. destruct (sparql_directives opts); reflexivity.
Qed.

Notation shows_block := (shows_block g (nest_blank_nodes opts) iri_w verb_w lit_w).
Notation shows_graph := (shows_graph g (nest_blank_nodes opts) iri_w verb_w lit_w).
Hypothesis Wg : writable iri_w verb_w lit_w g.
Variable f : nat.
Hypothesis keys : roomy modulus f ind_default.

Lemma tri_block subj s i : (exists p o, In (MkStmt subj p o) (g_list g)) -> w_ind s = i -> roomy modulus (S f) i ->
  offset i = 0 -> current i = 0 ->
  tri (w_block f subj) s i (fun ps => exists b, shows_block subj b /\ ps = block_pieces comma b).
Proof.
  intros I E R Z0 Z1. pose proof R as [W _]. pose proof (roomy_forth _ _ _ R) as R'. unfold write_block.
  destruct I as (p & o & I). destruct (Wg _ _ _ I) as (Ws & _). 
  destruct (subject_w iri_w subj) as [w|] eqn:Ew; [clear Ws|congruence].
  eapply tri_seq with (i1 := forth i) (P1 := eq [Word w])
    (P2 := fun ps => exists po, shows_entries subj po /\ ps = entries_pieces comma po ++ [Sign $"."]).
  - unfold write_subject, tri, runs. eapply tri_seq1 with (i1 := i).
    + destruct subj as [b|iri|st]; cbn [subject_w] in Ew; [| |discriminate].
      * injection Ew as <-. unfold is_not_indented. rewrite E, Z0, Z1. cbn [N.eqb].
        apply tri_emit; auto.
      * unfold write_iri. apply (tri_with_io _ w); [|apply tri_emit; auto].
        exact (word_of_Some compressed iri w Ew).
    + intros s1 E1. eapply tri_indent; eauto.
  - intros s1 E1. eapply tri_seq1 with (i1 := i); [|intros s2 E2; apply tri_emit; auto].
    rewrite <- (back_forth i). eapply tri_weak;
      [apply (tri_list modulus mode m iri_parse gext printable compress opts g ord_p ord_o Op Oo Wg (w_obj f) f)|]; auto.
    + intros. eapply tri_object; auto.
    + intros. eapply object_leaf; eauto.
    + eauto.
    + cbn. lia.
    + intros ps H. destruct H as (po & S & ->); [split; cbn; lia|]. exists po. split; auto.
      unfold ending. rewrite back_forth, Z1. reflexivity.
  - intros l1 l2 <- (po & S & ->). exists (w, po). split; [split; auto|reflexivity].
Qed.
Lemma tri_blocks r l s i : (forall subj, In subj l -> exists p o, In (MkStmt subj p o) (g_list g)) ->
  w_ind s = i -> roomy modulus (S f) i -> offset i = 0 -> current i = 0 ->
  tri (w_blocks f r l) s i (fun ps => exists d, Forall2 shows_block l d /\ ps = flat_map (block_pieces comma) d).
Proof.
  intros H E R Z0 Z1. revert s E. induction l as [|x l IH]; intros s E; cbn [write_blocks].
  - apply tri_skip; auto. exists []. split; [constructor|reflexivity].
  - eapply tri_seq0 with (i1 := i).
    { right. eexists. split; [reflexivity|]. destruct r; cbn [w_ind w_out].
      - split; [|exists []; rewrite app_nil_r; auto]. rewrite E. unfold reset_depth. destruct i as [o w c]. cbn in *. congruence.
      - split; [auto|exists []; rewrite app_nil_r; auto]. }
    intros s1 E1. eapply tri_seq; [apply tri_block; eauto; apply H; left; reflexivity| |].
    + intros s2 E2. apply IH; auto. intros subj I. apply H. right. exact I.
    + intros l1 l2 (b & S & ->) (d & S' & ->). exists (b :: d). split; [constructor; auto|reflexivity].
Qed.
Lemma subj_sorted l : StronglySorted (fun a b => subject_le a b = true) (stable_sort subject_le l).
Proof.
  destruct subj_total as [T1 T2 T3]. apply stable_sort_sorted; unfold subject_le.
  - intros a b H. rewrite T2. destruct (subj_cmp a b); cbn; auto; discriminate.
  - intros a b c H1 H2. destruct (subj_cmp a b) eqn:E1; [|destruct (subj_cmp b c) eqn:E2|]; try discriminate.
    + apply T1 in E1 as ->. exact H2.
    + apply T1 in E2 as ->. rewrite E1. reflexivity.
    + rewrite (T3 _ _ _ E1 E2). reflexivity.
Qed.
Lemma doc_shape mappings : roomy modulus (S f) (with_default_indent_width ind_default (indent_width opts)) ->
  w_doc mappings f = OutOfFuel \/
  exists out d, w_doc mappings f = Done out /\ shows_graph d /\
    tight out = directives opts (fun i => convert_first m (convert_base opts) (show_iri m i)) (option_map (show_iri m) (id_base opts)) mappings
                ++ flat_map (block_pieces comma) d.
Proof.
  intros R. unfold write_turtle_doc. set (s0 := WState _ _ _). set (i0 := with_default_indent_width _ _) in *.
  set (nodes := sorted_subjects g ord_s). set (blanks := ord_s 1 (g_blank_node_subjects g)).
  assert (Pn : Permutation nodes (g_node_subjects g)).
  { unfold nodes, sorted_subjects. etransitivity; [apply stable_sort_perm|apply Os]. }
  assert (Pb : Permutation blanks (g_blank_node_subjects g)) by apply Os.
  assert (An : forall s, In s nodes <-> (exists p o, In (MkStmt s p o) (g_list g)) /\ forall b, s <> SBlank b).
  { intros s. rewrite <- node_subjects_spec. split; apply Permutation_in; auto. apply Permutation_sym; auto. }
  assert (Ab : forall s, In s blanks <-> (exists p o, In (MkStmt s p o) (g_list g)) /\ exists b, s = SBlank b).
  { intros s. rewrite <- blank_node_subjects_spec. split; apply Permutation_in; auto. apply Permutation_sym; auto. }
  assert (T : tri (w_triples f) s0 i0 (fun ps => exists d, Forall2 shows_block (nodes ++ blanks) d /\ ps = flat_map (block_pieces comma) d)).
  { unfold write_triples. eapply tri_seq.
    - apply tri_blocks; [|reflexivity|exact R|reflexivity|reflexivity]. intros s I. apply An in I. apply I.
    - intros s1 E1. apply tri_blocks; [|exact E1|exact R|reflexivity|reflexivity]. intros s I. apply Ab in I. apply I.
    - intros l1 l2 (d1 & S1 & ->) (d2 & S2 & ->). exists (d1 ++ d2). split; [apply Forall2_app; auto|].
      rewrite flat_map_app. reflexivity. }
  destruct T as [T|(s' & T & _ & ps & E & d & S & ->)]; [left; rewrite T; reflexivity|right].
  exists (w_out s'), d. split; [rewrite T; reflexivity|]. split.
  - exists nodes, blanks. split.
    { apply NoDup_app'.
      - eapply Permutation_NoDup; [apply Permutation_sym, Pn|]. apply (projections_NoDup g (SBlank []) []).
      - eapply Permutation_NoDup; [apply Permutation_sym, Pb|]. apply (projections_NoDup g (SBlank []) []).
      - intros s I J. apply An in I as [_ I]. apply Ab in J as [_ [b J]]. exact (I b J). }
    split; [|split; [|split; [|split; [|exact S]]]].
    + intros s. rewrite in_app_iff, An, Ab. split; [tauto|]. intros I. destruct s; [right|left|left]; split; eauto; discriminate.
    + intros s I. apply An in I as [_ I]. destruct s; auto. exfalso. eapply I. reflexivity.
    + assert (Nd : NoDup nodes).
      { eapply Permutation_NoDup; [apply Permutation_sym, Pn|]. apply (projections_NoDup g (SBlank []) []). }
      pose proof subj_sorted (ord_s 0%nat (g_node_subjects g)) as Sd. fold (sorted_subjects g ord_s) in Sd. fold nodes in Sd.
      clear -Nd Sd. induction Sd as [|x l Sd IH F]; constructor.
      * apply IH. inversion_clear Nd. auto.
      * apply Forall_forall. intros y I. rewrite Forall_forall in F. specialize (F y I). unfold subject_le in F.
        destruct (subj_cmp x y) eqn:E; auto; [|discriminate]. apply (to_eq _ subj_total) in E as ->. inversion_clear Nd. contradiction.
    + intros s I. apply Ab in I as [_ [b ->]]. reflexivity.
  - rewrite E. f_equal. apply tight_head.
Qed.
End Main.
