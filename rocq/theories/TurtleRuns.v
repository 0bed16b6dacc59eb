(** Termination of the Turtle writer: chains of visits, cycles, and more fuel. *)
From Verif Require Import Turtle TurtleSpec TurtleProofs GraphProofs TermProofs StrFacts.
From Coq Require Import Permutation Relations Operators_Properties Lia.
Local Opaque group_predicate pg_map.

(** Objects and the objects inside them. *)
Fixpoint osize (o : object) : nat :=
  match o with OColl items => S (list_sum (map osize items)) | _ => 1 end.
Lemma osize_item x items : In x items -> (osize x < osize (OColl items))%nat.
Proof.
  intros H. cbn [osize]. induction items as [|y l IH]; [destruct H|]. cbn [map list_sum fold_right].
  fold (list_sum (map osize l)). destruct H as [H|H]; [subst; lia|]. specialize (IH H). lia.
Qed.
Fixpoint parts (o : object) : list object :=
  o :: match o with OColl items => flat_map parts items | _ => [] end.
Lemma osize_parts o : osize o = length (parts o).
Proof.
  assert (H : forall n o, (osize o < n)%nat -> osize o = length (parts o)).
  { induction n as [|n IH]; intros x L; [lia|]. destruct x as [| | |items|]; try reflexivity.
    cbn [osize parts length]. f_equal. assert (K : forall y, In y items -> osize y = length (parts y)).
    { intros y Hy. apply IH. pose proof (osize_item _ _ Hy). lia. }
    clear L. induction items as [|y items IHi]; [reflexivity|].
    cbn [map flat_map]. rewrite app_length. change (list_sum (osize y :: map osize items)) with (osize y + list_sum (map osize items))%nat. rewrite K by (left; auto).
    rewrite IHi; [reflexivity|]. intros z Hz. apply K. right. auto. }
  eapply H. constructor.
Qed.

Section Runs.
Variable modulus : N.
Variable mode : overflow.
Variable m : iri_mode.
Variable iri_parse : str -> option str.
Variable gext printable : chr -> bool.
Variable compress : str -> outcome (option str).
Variable opts : ttl_options.
Variable g : graph.
Variable ord_p : nat -> list str -> list str.
Variable ord_o : nat -> list object -> list object.
Variable ord_s : nat -> list subject -> list subject.
Hypothesis Op : any_order ord_p.
Hypothesis Oo : any_order ord_o.

Notation compressed := (compress_iri m iri_parse compress opts).
Notation w_obj := (write_object modulus mode m iri_parse gext printable compress opts g ord_p ord_o).
Notation w_list := (write_predicate_object_list modulus mode m iri_parse compress opts g ord_p ord_o).
Notation w_pred := (write_predicate_object modulus mode m iri_parse compress opts g ord_o).
Notation w_group := (write_group modulus mode m iri_parse compress opts g ord_o).
Notation w_groups := (write_groups modulus mode m iri_parse compress opts g ord_o).
Notation sort_preds := (sort_predicates m iri_parse compress opts).


Notation visits := (visits opts g).
Notation chain := (chain opts g).

(** ** What a finished run has visited *)
Section Rec.
Variable rec : object -> ttl_flags -> action.
Definition finishes (o : object) : Prop := exists fl s s', rec o fl s = Done s'.

Lemma objects_done l k fl s s' : write_objects modulus mode rec l k fl s = Done s' -> forall o, In o l -> finishes o.
Proof.
  revert s. induction l as [|o l IH]; cbn [write_objects]; intros s H x I; [destruct I|].
  apply wseq_Done in H as (s1 & H & K). destruct I as [E|I]; [subst x|eauto].
  unfold write_predicate_object_object in H. apply wseq_Done in H as (s2 & H & _). eexists _, _, _. exact H.
Qed.
Lemma pred_done gr subj p k fl s s' : w_pred rec gr subj p k fl s = Done s' ->
  forall o, In (MkStmt subj p o) (g_list g) -> finishes o.
Proof.
  unfold write_predicate_object. intros H o I. apply wseq_Done in H as (s1 & _ & H).
  apply wbind_Done in H as (r & E & H). eapply objects_done; [exact H|].
  eapply Permutation_in; [apply Permutation_sym, (sort_objects_perm rec _ _ _ E)|].
  eapply Permutation_in; [apply Permutation_sym, Oo|]. apply objects_for_spec. exact I.
Qed.
Lemma group_done gr subj l c t k fl s s' : w_group rec gr subj l c t k fl s = Done s' ->
  forall p o, In p l -> In (MkStmt subj p o) (g_list g) -> finishes o.
Proof.
  revert c s. induction l as [|p l IH]; cbn [write_group]; intros c s H q o I; [destruct I|].
  apply wseq_Done in H as (s1 & H & K). destruct I as [E|I]; [subst q; eapply pred_done; exact H|].
  eapply IH; eauto.
Qed.
Lemma groups_done subj l c t k fl s s' : w_groups rec subj l c t k fl s = Done s' ->
  forall p o, In p (members l) -> In (MkStmt subj p o) (g_list g) -> finishes o.
Proof.
  revert c s. induction l as [|[gr ps] l IH]; cbn [write_groups]; intros c s H p o I; [destruct I|].
  destruct (sort_preds ps) as [ps'|] eqn:S; [|discriminate].
  apply wseq_Done in H as (s1 & H & K). cbn in I. apply in_app_or in I as [I|I].
  - eapply group_done; [exact H|]. eapply Permutation_in; [apply Permutation_sym, (sort_predicates_perm _ _ _ _ _ _ S)|exact I].
  - eapply IH; eauto.
Qed.
Lemma list_done subj fl s s' : w_list rec subj fl s = Done s' ->
  forall p o, In (MkStmt subj p o) (g_list g) -> finishes o.
Proof.
  unfold write_predicate_object_list. intros H p o I. apply with_io_Done in H as (k & _ & H).
  eapply groups_done; [exact H| |exact I].
  eapply Permutation_in; [apply Permutation_sym, group_predicates_spec|].
  eapply Permutation_in; [apply Permutation_sym, Op|]. apply predicates_for_spec. eauto.
Qed.
Lemma items_done l fl s s' : write_items rec l fl s = Done s' -> forall o, In o l -> finishes o.
Proof.
  revert s. induction l as [|o l IH]; cbn [write_items]; intros s H x I; [destruct I|].
  apply wseq_Done in H as (s1 & H & K). apply wseq_Done in K as (s2 & _ & K).
  destruct I as [E|I]; [subst x; eexists _, _, _; exact H|]. eapply IH; eauto.
Qed.
End Rec.

Lemma object_done f o fl s s' x : w_obj (S f) o fl s = Done s' -> visits o x -> finishes (w_obj f) x.
Proof.
  cbn [write_object]. intros H V. destruct V as [x items I|b p o N I].
  - unfold write_collection in H. destruct items as [|y items]; [destruct I|].
    do 3 apply wseq_Done in H as (? & _ & H). apply wseq_Done in H as (? & H & _).
    eapply items_done; eauto.
  - rewrite N in H. destruct (g_contains_subject g (SBlank b)) eqn:C.
    + unfold write_blank_node_property_list in H. do 2 apply wseq_Done in H as (? & _ & H).
      apply wseq_Done in H as (? & H & _). eapply list_done; eauto.
    + assert (K : g_contains_subject g (SBlank b) = true) by (apply contains_subject_spec; eauto). congruence.
Qed.
Lemma finishes_pos f o : finishes (w_obj f) o -> exists k, f = S k.
Proof. intros (fl & s & s' & H). destruct f; [discriminate|eauto]. Qed.
Lemma trans_done f x y : finishes (w_obj f) x -> clos_trans object visits x y ->
  exists k, (k < f)%nat /\ finishes (w_obj k) y.
Proof.
  intros D T. apply clos_trans_t1n in T. revert f D. induction T as [x y V|x y z V T IH]; intros f D.
  - destruct (finishes_pos _ _ D) as (k & ->). destruct D as (fl & s & s' & D).
    exists k. split; [lia|]. eapply object_done; eauto.
  - destruct (finishes_pos _ _ D) as (k & ->). destruct D as (fl & s & s' & D).
    destruct (IH k) as (j & L & J); [eapply object_done; eauto|]. exists j. split; [lia|auto].
Qed.
Lemma cycle_never f x : clos_trans object visits x x -> ~ finishes (w_obj f) x.
Proof.
  intros T. induction f as [f IH] using lt_wf_ind. intros D.
  destruct (trans_done f x x D T) as (k & L & K). exact (IH k L K).
Qed.

(** ** Chains and cycles *)
Lemma inside_size a b : inside a b -> (osize a <= osize b)%nat.
Proof. induction 1; auto. pose proof (osize_item _ _ H). lia. Qed.
Lemma inside_trans a b c : inside a b -> inside b c -> inside a c.
Proof. intros H K. induction K; auto. econstructor; eauto. Qed.

Definition below (z y : object) : Prop := inside z y /\ (osize z < osize y)%nat.
Definition reaches (b : str) (z : object) : Prop :=
  exists c p o, clos_refl_trans str (leads_to g) b c /\ In (MkStmt (SBlank c) p o) (g_list g) /\ inside z o.
Lemma visits_trans x z : clos_trans object visits x z ->
  below z x \/ exists b, inside (OBlank b) x /\ reaches b z.
Proof.
  intros T. apply clos_trans_t1n in T. induction T as [x y V|x y z V T IH].
  - destruct V as [x items I|b p o N I].
    + left. split; [econstructor; [exact I|constructor]|]. apply osize_item. auto.
    + right. exists b. split; [constructor|]. exists b, p, o. split; [apply rt_refl|]. split; auto. constructor.
  - destruct V as [x items I|b p o N I].
    + destruct IH as [[IH L]|(b & IH & R)].
      * left. split; [econstructor; eauto|]. pose proof (osize_item _ _ I). lia.
      * right. exists b. split; auto. econstructor; eauto.
    + right. exists b. split; [constructor|]. destruct IH as [[IH L]|(c & IH & R)].
      * exists b, p, o. split; [apply rt_refl|]. auto.
      * destruct R as (d & q & u & R & S & J). exists d, q, u. split; auto.
        eapply rt_trans; [|exact R]. apply rt_step. exists p, o. auto.
Qed.
Lemma visits_cycle x : clos_trans object visits x x -> cyclic g.
Proof.
  intros T. apply visits_trans in T as [[_ L]|(b & I & c & p & o & R & S & J)]; [lia|].
  exists b. eapply clos_rt_t; [exact R|]. apply t_step. exists p, o. split; auto. eapply inside_trans; eauto.
Qed.
Lemma inside_visits x y : inside x y -> clos_refl_trans object visits y x.
Proof.
  induction 1 as [o|o x items I _ IH]; [apply rt_refl|]. eapply rt_trans; [|exact IH]. apply rt_step. constructor. auto.
Qed.
Lemma leads_visits b c : nest_blank_nodes opts = true -> leads_to g b c ->
  clos_trans object visits (OBlank b) (OBlank c).
Proof.
  intros N (p & o & I & J). apply inside_visits in J. apply clos_rt_rt1n in J.
  assert (V : visits (OBlank b) o) by (econstructor; eauto). clear I. revert V. generalize (OBlank b) as x.
  induction J as [z|y w z V' J IH]; intros x V; [apply t_step; auto|].
  eapply t_trans; [apply t_step; exact V|]. apply IH. auto.
Qed.
Lemma cyclic_visits : nest_blank_nodes opts = true -> cyclic g ->
  exists b p o, In (MkStmt (SBlank b) p o) (g_list g) /\ clos_trans object visits (OBlank b) (OBlank b).
Proof.
  intros N (b & T). assert (I : exists p o, In (MkStmt (SBlank b) p o) (g_list g)).
  { apply clos_trans_t1n in T. inversion T as [? (p & o & I & _)|? ? (p & o & I & _)]; eauto. }
  destruct I as (p & o & I). exists b, p, o. split; auto.
  assert (H : forall a c, clos_trans str (leads_to g) a c -> clos_trans object visits (OBlank a) (OBlank c)).
  { induction 1; [apply leads_visits; auto|eapply t_trans; eauto]. }
  auto.
Qed.

(** The objects of a graph, and the objects inside them. *)
Definition universe : list object := flat_map (fun st => parts (st_object st)) (g_list g).
Lemma parts_self o : In o (parts o).
Proof. destruct o; cbn; auto. Qed.
Lemma parts_item x items y : In x items -> In y (parts x) -> In y (parts (OColl items)).
Proof. intros H K. cbn. right. apply in_flat_map. eauto. Qed.
Lemma parts_trans b : forall a c, In a (parts b) -> In c (parts a) -> In c (parts b).
Proof.
  assert (H : forall n b, (osize b < n)%nat -> forall a c, In a (parts b) -> In c (parts a) -> In c (parts b)).
  { induction n as [|n IH]; intros x L a c Ha Hc; [lia|]. destruct x as [| | |items|];
      try (destruct Ha as [<-|[]]; exact Hc).
    destruct Ha as [<-|Ha]; [exact Hc|]. apply in_flat_map in Ha as (y & Hy & Ha).
    eapply parts_item; [exact Hy|]. pose proof (osize_item _ _ Hy). eapply IH; [lia| |]; eauto. }
  eapply H. constructor.
Qed.
Lemma universe_visits x y : In x universe -> visits x y -> In y universe.
Proof.
  intros H V. destruct V as [y items I|b p o N I].
  - unfold universe in *. apply in_flat_map in H as (st & S & H). apply in_flat_map. exists st. split; auto.
    eapply parts_trans; [exact H|]. eapply parts_item; [exact I|apply parts_self].
  - unfold universe. apply in_flat_map. exists (MkStmt (SBlank b) p o). split; auto. apply parts_self.
Qed.
Lemma chain_universe o l : chain o l -> In o universe -> incl l universe.
Proof.
  induction 1 as [o|o x l V C IH]; intros H y Y; [destruct Y|].
  pose proof (universe_visits _ _ H V) as K. destruct Y as [<-|Y]; auto. apply IH; auto.
Qed.

Lemma object_eq_dec (x y : object) : {x = y} + {x <> y}.
Proof.
  destruct (obj_eqb x y) eqn:E; [left; apply obj_eqb_eq; exact E|right; intros ->].
  rewrite (proj2 (obj_eqb_eq y y) eq_refl) in E. discriminate.
Qed.
Lemma chain_reach o l x : chain o l -> In x l -> clos_trans object visits o x.
Proof.
  induction 1 as [o|o y l V C IH]; intros I; [destruct I|]. destruct I as [<-|I]; [apply t_step; auto|].
  eapply t_trans; [apply t_step; exact V|auto].
Qed.
Lemma chain_dup o l : chain o l -> ~ NoDup l -> exists x, clos_trans object visits x x.
Proof.
  induction 1 as [o|o y l V C IH]; intros D; [destruct D; constructor|].
  destruct (in_dec object_eq_dec y l) as [I|I].
  - exists y. eapply chain_reach; eauto.
  - apply IH. intros N. apply D. constructor; auto.
Qed.
Lemma chain_cycle o l : chain o l -> In o universe -> (length universe < length l)%nat -> cyclic g.
Proof.
  intros C I L. destruct (chain_dup o l C) as (x & T); [|eapply visits_cycle; exact T].
  intros N. pose proof (NoDup_incl_length N (chain_universe _ _ C I)). lia.
Qed.
(** Without nesting only collections are followed. *)
Lemma flat_chain o l : nest_blank_nodes opts = false -> chain o l -> (length l < osize o)%nat.
Proof.
  intros F. induction 1 as [o|o x l V C IH]; [destruct o; cbn; lia|]. destruct V as [x items I|b p o N I]; [|congruence].
  pose proof (osize_item _ _ I). cbn [length]. lia.
Qed.
Lemma universe_size p s o : In (MkStmt s p o) (g_list g) -> (osize o <= length universe)%nat.
Proof.
  intros I. rewrite osize_parts. unfold universe. induction (g_list g) as [|st l IH]; [destruct I|].
  cbn [flat_map]. rewrite app_length. destruct I as [->|I]; [cbn; lia|]. specialize (IH I). lia.
Qed.

(** ** Whole documents *)
Notation w_block := (write_block modulus mode m iri_parse gext printable compress opts g ord_p ord_o).
Notation w_blocks := (write_blocks modulus mode m iri_parse gext printable compress opts g ord_p ord_o).
Notation w_triples := (write_triples modulus mode m iri_parse gext printable compress opts g ord_p ord_o ord_s).
Notation w_doc := (write_turtle_doc modulus mode m iri_parse gext printable compress opts g ord_p ord_o ord_s).

Lemma subject_never subj fl : never_oof (write_subject modulus mode m iri_parse compress opts subj fl).
Proof.
  intros s. unfold write_subject, w_indent. apply wseq_never; auto with never. destruct subj; auto with never.
  - apply with_io_never. auto with never.
  - intros s'. discriminate.
Qed.
Lemma block_oof f subj s : w_block f subj s = OutOfFuel ->
  exists p o, In (MkStmt subj p o) (g_list g) /\ starves (w_obj f) o.
Proof.
  unfold write_block. intros H. apply wseq_Oof in H as [H|(s1 & _ & H)]; [destruct (subject_never _ _ _ H)|].
  apply wseq_Oof in H as [H|(s2 & _ & H)]; [|discriminate].
  eapply (list_oof modulus mode m iri_parse compress opts g ord_p ord_o Oo). exact H.
Qed.
Lemma blocks_oof f r l s : w_blocks f r l s = OutOfFuel ->
  exists subj p o, In (MkStmt subj p o) (g_list g) /\ starves (w_obj f) o.
Proof.
  revert s. induction l as [|x l IH]; cbn [write_blocks]; intros s H; [discriminate|].
  apply wseq_Oof in H as [H|(s1 & _ & H)]; [discriminate|].
  apply wseq_Oof in H as [H|(s2 & _ & H)]; [|eapply IH; exact H].
  apply block_oof in H as (p & o & H). eauto.
Qed.
Lemma doc_oof mappings f : w_doc mappings f = OutOfFuel ->
  exists subj p o, In (MkStmt subj p o) (g_list g) /\ starves (w_obj f) o.
Proof.
  unfold write_turtle_doc. intros H. apply wbind_Oof in H as [H|(s & _ & H)]; [|discriminate].
  unfold write_triples in H. apply wseq_Oof in H as [H|(s1 & _ & H)]; eapply blocks_oof; exact H.
Qed.
Lemma doc_terminates mappings f : nest_blank_nodes opts = false \/ ~ cyclic g ->
  (length universe < f)%nat -> w_doc mappings f <> OutOfFuel.
Proof.
  intros A L H. apply doc_oof in H as (subj & p & o & I & fl & s & H). destruct f as [|f]; [lia|].
  destruct (oof_chain modulus mode m iri_parse gext printable compress opts g ord_p ord_o Oo f o fl s H) as (l & E & C).
  destruct A as [A|A].
  - pose proof (flat_chain _ _ A C). pose proof (universe_size _ _ _ I). lia.
  - apply A. eapply chain_cycle; [exact C| |lia]. unfold universe. apply in_flat_map.
    exists (MkStmt subj p o). split; auto. apply parts_self.
Qed.

Lemma blocks_done f r l s s' : w_blocks f r l s = Done s' -> forall subj, In subj l ->
  forall p o, In (MkStmt subj p o) (g_list g) -> finishes (w_obj f) o.
Proof.
  revert s. induction l as [|x l IH]; cbn [write_blocks]; intros s H subj I p o S; [destruct I|].
  apply wseq_Done in H as (s1 & _ & H). apply wseq_Done in H as (s2 & H & K).
  destruct I as [E|I]; [subst x|eauto]. unfold write_block in H. apply wseq_Done in H as (s3 & _ & H).
  apply wseq_Done in H as (s4 & H & _). eapply list_done; eauto.
Qed.
Lemma doc_cyclic mappings f out : any_order ord_s -> nest_blank_nodes opts = true -> cyclic g -> w_doc mappings f <> Done out.
Proof.
  intros Os N C H. destruct (cyclic_visits N C) as (b & p & o & I & T).
  unfold write_turtle_doc in H. apply wbind_Done in H as (s & H & _).
  unfold write_triples in H. apply wseq_Done in H as (s1 & _ & H).
  assert (B : In (SBlank b) (ord_s 1 (g_blank_node_subjects g))).
  { eapply Permutation_in; [apply Permutation_sym, Os|]. apply blank_node_subjects_spec. split; eauto. }
  assert (F : forall x, visits (OBlank b) x -> finishes (w_obj f) x).
  { intros x V. inversion_clear V as [|? q ? ? J]. eapply blocks_done; eauto. }
  apply clos_trans_t1n in T. inversion T as [y V|y z V T']; subst.
  - exact (cycle_never f (OBlank b) (t_step _ _ _ _ V) (F _ V)).
  - apply clos_t1n_trans in T'. destruct (trans_done f y (OBlank b) (F _ V) T') as (k & _ & D).
    apply (cycle_never k (OBlank b)); auto. eapply t_trans; [apply t_step; exact V|exact T'].
Qed.
End Runs.
