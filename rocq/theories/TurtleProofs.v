(** Lemmas about the Turtle writer: sorting and grouping, running out of fuel, and what a
    finished run visits. *)
From Verif Require Import Turtle TurtleSpec GraphProofs TermProofs StrFacts.
From Coq Require Import Permutation Relations Sorted Lia.

Local Opaque group_predicate pg_map.

(** ** Sorting and grouping *)
Lemma sort_insert_perm {A} (le : A -> A -> bool) x l : Permutation (sort_insert le x l) (x :: l).
Proof.
  induction l as [|y l IH]; cbn; auto. destruct (le x y); auto.
  rewrite IH. apply perm_swap.
Qed.
Lemma stable_sort_perm {A} (le : A -> A -> bool) l : Permutation (stable_sort le l) l.
Proof.
  induction l as [|x l IH]; cbn; auto. unfold stable_sort in *. rewrite sort_insert_perm. auto.
Qed.

Lemma stable_sort_sorted {A} (le : A -> A -> bool) l :
  (forall a b, le a b = false -> le b a = true) ->
  (forall a b c, le a b = true -> le b c = true -> le a c = true) ->
  StronglySorted (fun a b => le a b = true) (stable_sort le l).
Proof.
  intros T R. induction l as [|x l IH]; [constructor|]. cbn [stable_sort fold_right].
  fold (stable_sort le l). induction IH as [|y l' S IH F]; cbn [sort_insert]; [repeat constructor|].
  destruct (le x y) eqn:E.
  - constructor; [constructor; auto|]. constructor; auto. eapply Forall_impl; [|exact F]. eauto.
  - constructor; auto. eapply Permutation_Forall; [apply Permutation_sym, sort_insert_perm|]. constructor; auto.
Qed.

Lemma pg_eqb_eq a b : pg_eqb a b = true <-> a = b.
Proof. destruct a, b; cbn; split; intros; try discriminate; auto. Qed.

Definition members (l : list (pred_group * list str)) : list str := flat_map snd l.
Definition labelled (l : list (pred_group * list str)) : Prop :=
  Forall (fun e => Forall (fun p => group_predicate p = fst e) (snd e)) l.

Lemma chunk_by_members l : members (chunk_by l) = l /\ labelled (chunk_by l).
Proof.
  induction l as [|p l [IH1 IH2]]; cbn; [split; [reflexivity|constructor]|].
  unfold members, labelled in *.
  destruct (chunk_by l) as [|[gr ps] more]; cbn [flat_map snd fst app] in *.
  - subst l. split; auto. constructor; cbn; auto.
  - destruct (pg_eqb (group_predicate p) gr) eqn:E.
    + apply pg_eqb_eq in E. cbn. rewrite IH1. split; auto. inversion_clear IH2. constructor; cbn; auto.
    + cbn. rewrite IH1. split; auto. constructor; cbn; auto.
Qed.
Lemma flat_map_perm {A B} (f : A -> list B) l l' : Permutation l l' -> Permutation (flat_map f l) (flat_map f l').
Proof.
  induction 1; cbn; auto.
  - apply Permutation_app_head. auto.
  - rewrite !app_assoc. apply Permutation_app_tail, Permutation_app_comm.
  - etransitivity; eauto.
Qed.
Definition in_groups (l : list (pred_group * list str)) : Prop :=
  StronglySorted (fun a b => (pg_index (fst a) <= pg_index (fst b))%nat) l.
Lemma group_predicates_sorted l : in_groups (group_predicates l).
Proof.
  unfold group_predicates, in_groups.
  pose proof (stable_sort_sorted (fun a b : pred_group * list str => Nat.leb (pg_index (fst a)) (pg_index (fst b)))
    (chunk_by l)) as S.
  assert (K : forall k, StronglySorted (fun a b : pred_group * list str => Nat.leb (pg_index (fst a)) (pg_index (fst b)) = true) k ->
    StronglySorted (fun a b : pred_group * list str => (pg_index (fst a) <= pg_index (fst b))%nat) k).
  { induction 1 as [|x k _ IH F]; constructor; auto. eapply Forall_impl; [|exact F]. intros y. apply Nat.leb_le. }
  apply K, S.
  - intros a b H. apply Nat.leb_gt in H. apply Nat.leb_le. lia.
  - intros a b c H1 H2. apply Nat.leb_le in H1, H2. apply Nat.leb_le. lia.
Qed.
Local Transparent group_predicate pg_map.
Lemma rank_group p : rank p = pg_index (group_predicate p).
Proof.
  unfold rank. destruct (type_like_dec p) as [H|H1].
  { destruct H as [<-|[<-|[<-|[<-|[]]]]]; vm_compute; reflexivity. }
  destruct (label_like_dec p) as [H|H2].
  { destruct H as [<-|[<-|[<-|[<-|[<-|[<-|[]]]]]]]; vm_compute; reflexivity. }
  destruct (comment_like_dec p) as [H|H3].
  { destruct H as [<-|[<-|[<-|[<-|[<-|[<-|[]]]]]]]; vm_compute; reflexivity. }
  assert (N : forall k v, In (k, v) pg_map -> k <> p).
  { intros k v I ->. unfold pg_map in I.
    repeat (destruct I as [I|I]; [injection I as E _; first [apply H1; rewrite <- E; cbv [type_like In]; tauto|
      apply H2; rewrite <- E; cbv [label_like In]; tauto|apply H3; rewrite <- E; cbv [comment_like In]; tauto]|]).
    destruct I. }
  unfold group_predicate. revert N. generalize pg_map as l. induction l as [|[k v] l IH]; intros N; [reflexivity|].
  cbn [pg_lookup]. destruct (str_eqb k p) eqn:E; [|apply IH; intros k' v' I; apply (N k' v'); right; exact I].
  apply str_eqb_eq in E. destruct (N k v (or_introl eq_refl) E).
Qed.
Local Opaque group_predicate pg_map.

Lemma group_predicates_spec l : Permutation (members (group_predicates l)) l /\ labelled (group_predicates l).
Proof.
  unfold group_predicates. pose proof (stable_sort_perm (fun a b : pred_group * list str => Nat.leb (pg_index (fst a)) (pg_index (fst b))) (chunk_by l)) as P.
  destruct (chunk_by_members l) as [H1 H2]. split.
  - rewrite <- H1 at 2. apply flat_map_perm, P.
  - unfold labelled in *. eapply Permutation_Forall; [apply Permutation_sym, P|]. exact H2.
Qed.

(** ** Running actions *)
Lemma wseq_Done a b s s' : wseq a b s = Done s' <-> exists s1, a s = Done s1 /\ b s1 = Done s'.
Proof.
  unfold wseq, wbind. destruct (a s); split; intros H; try discriminate; eauto;
    destruct H as (s1 & H & K); try discriminate. injection H as <-. auto.
Qed.
Lemma wseq_Oof a b s : wseq a b s = OutOfFuel <-> a s = OutOfFuel \/ exists s1, a s = Done s1 /\ b s1 = OutOfFuel.
Proof.
  unfold wseq, wbind. destruct (a s) eqn:E; split; intros H; try discriminate; eauto;
    destruct H as [H|(s1 & H & K)]; try discriminate; auto. injection H as <-. auto.
Qed.
Lemma wbind_Done {A B} (x : wres A) (f : A -> wres B) r : wbind x f = Done r <-> exists a, x = Done a /\ f a = Done r.
Proof. destruct x; cbn; split; intros H; try discriminate; eauto; destruct H as (y & H & K); try discriminate. injection H as <-. auto. Qed.
Lemma wbind_Oof {A B} (x : wres A) (f : A -> wres B) :
  wbind x f = OutOfFuel <-> x = OutOfFuel \/ exists a, x = Done a /\ f a = OutOfFuel.
Proof.
  destruct x; cbn; split; intros H; try discriminate; eauto;
    destruct H as [H|(y & H & K)]; try discriminate; auto. injection H as <-. auto.
Qed.
Lemma with_io_Oof {A} (x : io A) f s : with_io x f s = OutOfFuel <-> exists a, x = io_ok a /\ f a s = OutOfFuel.
Proof.
  unfold with_io. destruct x as [[a|e]|]; split; intros H; try discriminate.
  - exists a. split; [reflexivity|exact H].
  - destruct H as (y & H & K). injection H as <-. exact K.
  - destruct H as (y & H & K). discriminate.
  - destruct H as (y & H & K). discriminate.
Qed.
Lemma with_io_Done {A} (x : io A) f s s' : with_io x f s = Done s' <-> exists a, x = io_ok a /\ f a s = Done s'.
Proof.
  unfold with_io. destruct x as [[a|e]|]; split; intros H; try discriminate.
  - exists a. split; [reflexivity|exact H].
  - destruct H as (y & H & K). injection H as <-. exact K.
  - destruct H as (y & H & K). discriminate.
  - destruct H as (y & H & K). discriminate.
Qed.

Definition never_oof (a : action) : Prop := forall s, a s <> OutOfFuel.
Lemma wseq_never a b : never_oof a -> never_oof b -> never_oof (wseq a b).
Proof. intros H K s E. apply wseq_Oof in E as [E|(s1 & _ & E)]; [exact (H _ E)|exact (K _ E)]. Qed.
Lemma emit_never l : never_oof (emit l).
Proof. intros s. discriminate. Qed.
Lemma skip_never : never_oof skip.
Proof. intros s. discriminate. Qed.
Lemma on_ind_never f : never_oof (on_ind f).
Proof. intros s. unfold on_ind. destruct (f (w_ind s)); discriminate. Qed.
Lemma new_line_never fl : never_oof (new_line fl).
Proof. intros s. unfold new_line. destruct (is_being_sorted fl); discriminate. Qed.
Lemma with_io_never {A} (x : io A) f : (forall a, never_oof (f a)) -> never_oof (with_io x f).
Proof. intros H s E. apply with_io_Oof in E as (a & _ & E). exact (H _ _ E). Qed.
Lemma if_never (b : bool) x y : never_oof x -> never_oof y -> never_oof (if b then x else y).
Proof. destruct b; auto. Qed.
#[export] Hint Resolve wseq_never emit_never skip_never on_ind_never new_line_never if_never : never.

Section Runs.
Variable modulus : N.
Variable mode : overflow.
Variable m : iri_mode.
Variable iri_parse : str -> option str.
Variable gext printable : chr -> bool.
Variable compress : str -> outcome (option str).
Variable opts : ttl_options.
Variable g : graph.
Variable ord_p : nat -> list str -> list str.
Variable ord_o : nat -> list object -> list object.
Hypothesis Op : any_order ord_p.
Hypothesis Oo : any_order ord_o.

Notation compressed := (compress_iri m iri_parse compress opts).
Notation w_obj := (write_object modulus mode m iri_parse gext printable compress opts g ord_p ord_o).
Notation w_list := (write_predicate_object_list modulus mode m iri_parse compress opts g ord_p ord_o).
Notation w_pred := (write_predicate_object modulus mode m iri_parse compress opts g ord_o).
Notation w_group := (write_group modulus mode m iri_parse compress opts g ord_o).
Notation w_groups := (write_groups modulus mode m iri_parse compress opts g ord_o).
Notation sort_preds := (sort_predicates m iri_parse compress opts).

(** The objects that writing an object leads to. *)
Inductive visits : object -> object -> Prop :=
| Vi_item x items : In x items -> visits (OColl items) x
| Vi_prop b p o : nest_blank_nodes opts = true -> In (MkStmt (SBlank b) p o) (g_list g) -> visits (OBlank b) o.

(** *** Sorting *)
Lemma predicate_keys_snd l ks : predicate_keys m iri_parse compress opts l = Ret ks -> map snd ks = l.
Proof.
  revert ks. induction l as [|p l IH]; cbn; intros ks H; [injection H as <-; reflexivity|].
  destruct (compressed p) as [[w|e]|]; try discriminate.
  destruct (predicate_keys _ _ _ _ l) as [ks'|]; try discriminate. injection H as <-. cbn. f_equal. auto.
Qed.
Lemma sort_predicates_perm l l' : sort_preds l = Ret l' -> Permutation l' l.
Proof.
  unfold sort_predicates. destruct l as [|a [|b l]]; intros H; try (injection H as <-; reflexivity).
  destruct (predicate_keys _ _ _ _ _) as [ks|] eqn:K; try discriminate. injection H as <-.
  apply predicate_keys_snd in K. rewrite <- K. apply Permutation_map, stable_sort_perm.
Qed.

Section Rec.
Variable rec : object -> ttl_flags -> action.

Lemma object_keys_snd l t ks : object_keys rec l t = Done ks -> map snd (fst ks) = l.
Proof.
  revert t ks. induction l as [|o l IH]; cbn; intros t ks H; [injection H as <-; reflexivity|].
  apply wbind_Done in H as (kt & _ & H). apply wbind_Done in H as (ks' & H & E). injection E as <-.
  cbn. f_equal. eapply IH. exact H.
Qed.
Lemma sort_objects_perm l t r : sort_objects rec l t = Done r -> Permutation (fst r) l.
Proof.
  unfold sort_objects. destruct l as [|a [|b l]]; intros H; try (injection H as <-; reflexivity).
  apply wbind_Done in H as (ks & H & E). injection E as <-. apply object_keys_snd in H. cbn [fst].
  rewrite <- H. apply Permutation_map, stable_sort_perm.
Qed.

(** *** Running out of fuel *)
Definition starves (o : object) : Prop := exists fl s, rec o fl s = OutOfFuel.

Lemma object_keys_oof l t : object_keys rec l t = OutOfFuel -> exists o, In o l /\ starves o.
Proof.
  revert t. induction l as [|o l IH]; cbn; intros t H; [discriminate|].
  apply wbind_Oof in H as [H|(kt & _ & H)].
  - destruct (rec o ttl_sort_flags _) eqn:E; try discriminate. exists o. split; auto. eexists _, _. exact E.
  - apply wbind_Oof in H as [H|(ks & _ & H)]; [|discriminate]. apply IH in H as (x & H & K). eauto.
Qed.
Lemma sort_objects_oof l t : sort_objects rec l t = OutOfFuel -> exists o, In o l /\ starves o.
Proof.
  unfold sort_objects. destruct l as [|a [|b l]]; intros H; try discriminate.
  apply wbind_Oof in H as [H|(ks & _ & H)]; [|discriminate]. eapply object_keys_oof. exact H.
Qed.
Lemma wpoo_oof o k fl s : write_predicate_object_object modulus mode rec o k fl s = OutOfFuel -> starves o.
Proof.
  unfold write_predicate_object_object. intros H. apply wseq_Oof in H as [H|(s1 & _ & H)]; [eexists _, _; exact H|].
  exfalso. revert H. generalize s1.
  change (never_oof (if is_last_of_predicate fl
    then wseq (if is_last_of_subject fl then w_outdent modulus mode else skip)
      (fun s => if is_not_indented (w_ind s) then wseq (emit [Blanks ttl_space; Sign $"."]) (new_line fl) s
        else if negb (is_last_of_subject fl) then emit [Blanks ttl_space; Sign $";"] s else Done s)
    else wseq (emit [Sign $","])
      (if is_next_object_blank fl then skip
       else wseq (w_indent modulus mode) (wseq (new_line fl)
              (wseq (if Nat.ltb 0 k then write_padding k else skip) (w_outdent modulus mode)))))).
  unfold w_indent, w_outdent. apply if_never.
  - apply wseq_never; [auto with never|]. intros s'. destruct (is_not_indented (w_ind s')).
    + apply wseq_never; auto with never.
    + destruct (negb _); discriminate.
  - apply wseq_never; auto with never. apply if_never; auto with never.
    repeat (apply wseq_never; auto with never). apply if_never; auto with never.
    unfold write_padding. apply if_never; auto with never.
Qed.
Lemma objects_oof l k fl s : write_objects modulus mode rec l k fl s = OutOfFuel -> exists o, In o l /\ starves o.
Proof.
  revert s. induction l as [|o l IH]; cbn [write_objects]; intros s H; [discriminate|].
  apply wseq_Oof in H as [H|(s1 & _ & H)].
  - apply wpoo_oof in H. exists o. split; [left|]; auto.
  - apply IH in H as (x & H & K). exists x. split; [right|]; auto.
Qed.
Lemma padded_never v k : never_oof (write_padded v k).
Proof. unfold write_padded. apply if_never; auto with never. Qed.
Lemma verb_never gr p k fl : never_oof (write_verb m iri_parse compress opts gr p k fl).
Proof.
  pose proof padded_never.
  destruct gr; unfold write_verb; auto with never;
    try (apply wseq_never; auto with never; apply with_io_never; auto).
  apply with_io_never. intros v. apply if_never; auto with never.
Qed.
Lemma pred_oof gr subj p k fl s : w_pred rec gr subj p k fl s = OutOfFuel ->
  exists o, In (MkStmt subj p o) (g_list g) /\ starves o.
Proof.
  unfold write_predicate_object. intros H. apply wseq_Oof in H as [H|(s1 & _ & H)]; [destruct (verb_never _ _ _ _ _ H)|].
  assert (K : exists o, In o (ord_o (w_tick s1) (g_objects_for g subj p)) /\ starves o).
  { apply wbind_Oof in H as [H|(r & E & H)]; [eapply sort_objects_oof; exact H|].
    apply objects_oof in H as (o & H & K). exists o. split; auto. eapply Permutation_in; [|exact H].
    eapply sort_objects_perm. exact E. }
  destruct K as (o & K & S). exists o. split; auto. apply objects_for_spec.
  eapply Permutation_in; [apply Oo|exact K].
Qed.
Lemma group_oof gr subj l c t k fl s : w_group rec gr subj l c t k fl s = OutOfFuel ->
  exists p o, In (MkStmt subj p o) (g_list g) /\ starves o.
Proof.
  revert c s. induction l as [|p l IH]; cbn [write_group]; intros c s H; [discriminate|].
  apply wseq_Oof in H as [H|(s1 & _ & H)]; [|eapply IH; exact H]. apply pred_oof in H as (o & H). eauto.
Qed.
Lemma groups_oof subj l c t k fl s : w_groups rec subj l c t k fl s = OutOfFuel ->
  exists p o, In (MkStmt subj p o) (g_list g) /\ starves o.
Proof.
  revert c s. induction l as [|[gr ps] l IH]; cbn [write_groups]; intros c s H; [discriminate|].
  destruct (sort_preds ps) as [ps'|]; [|discriminate].
  apply wseq_Oof in H as [H|(s1 & _ & H)]; [|eapply IH; exact H]. eapply group_oof. exact H.
Qed.
Lemma list_oof subj fl s : w_list rec subj fl s = OutOfFuel ->
  exists p o, In (MkStmt subj p o) (g_list g) /\ starves o.
Proof.
  unfold write_predicate_object_list. intros H. apply with_io_Oof in H as (k & _ & H). eapply groups_oof. exact H.
Qed.
Lemma bnpl_oof b fl s : write_blank_node_property_list modulus mode m iri_parse compress opts g ord_p ord_o rec b fl s = OutOfFuel ->
  exists p o, In (MkStmt (SBlank b) p o) (g_list g) /\ starves o.
Proof.
  unfold write_blank_node_property_list, w_indent. intros H.
  apply wseq_Oof in H as [H|(s1 & _ & H)]; [destruct (on_ind_never _ _ H)|].
  apply wseq_Oof in H as [H|(s2 & _ & H)]; [destruct (emit_never _ _ H)|].
  apply wseq_Oof in H as [H|(s3 & _ & H)]; [eapply list_oof; exact H|].
  apply wseq_never in H; [destruct H| |]; auto with never.
Qed.
Lemma items_oof l fl s : write_items rec l fl s = OutOfFuel -> exists o, In o l /\ starves o.
Proof.
  revert s. induction l as [|o l IH]; cbn [write_items]; intros s H; [discriminate|].
  apply wseq_Oof in H as [H|(s1 & _ & H)]; [exists o; split; [left|eexists _, _]; eauto|].
  apply wseq_Oof in H as [H|(s2 & _ & H)]; [destruct l; discriminate|].
  apply IH in H as (x & H & K). exists x. split; [right|]; auto.
Qed.
Lemma collection_oof l fl s : write_collection modulus mode opts rec l fl s = OutOfFuel -> exists o, In o l /\ starves o.
Proof.
  unfold write_collection, w_indent, w_outdent. destruct l as [|x l]; [discriminate|]. intros H.
  apply wseq_Oof in H as [H|(s1 & _ & H)]; [destruct (on_ind_never _ _ H)|].
  apply wseq_Oof in H as [H|(s2 & _ & H)]; [destruct (emit_never _ _ H)|].
  apply wseq_Oof in H as [H|(s3 & _ & H)]; [destruct (new_line_never _ _ H)|].
  apply wseq_Oof in H as [H|(s4 & _ & H)]; [eapply items_oof; exact H|].
  exfalso. revert H. match goal with |- ?a s4 = _ -> _ => change (a s4 <> OutOfFuel) end.
  revert s4. match goal with |- forall s, ?a s <> _ => change (never_oof a) end.
  repeat (apply wseq_never; auto with never).
Qed.
End Rec.

(** A run that is out of fuel has followed a chain as long as the fuel. *)
Inductive chain : object -> list object -> Prop :=
| Ch_nil o : chain o []
| Ch_cons o x l : visits o x -> chain x l -> chain o (x :: l).

Lemma oof_chain f : forall o fl s, w_obj (S f) o fl s = OutOfFuel -> exists l, length l = S f /\ chain o l.
Proof.
  assert (V : forall f o fl s, w_obj (S f) o fl s = OutOfFuel -> exists x, visits o x /\ starves (w_obj f) x).
  { clear f. intros f o fl s H. cbn [write_object] in H. destruct o as [b|i|l|items|st].
    - destruct (nest_blank_nodes opts) eqn:N; [|discriminate].
      destruct (g_contains_subject g (SBlank b)); [|discriminate].
      apply bnpl_oof in H as (p & o & H & K). exists o. split; auto. econstructor; eauto.
    - exfalso. revert H. apply with_io_never. auto with never.
    - exfalso. revert H. apply with_io_never. auto with never.
    - apply collection_oof in H as (o & H & K). exists o. split; auto. constructor. auto.
    - discriminate. }
  induction f as [|f IH]; intros o fl s H; apply V in H as (x & H & fl' & s' & K).
  - exists [x]. split; auto. constructor; auto. constructor.
  - apply IH in K as (l & L & C). exists (x :: l). cbn. split; [lia|]. constructor; auto.
Qed.
End Runs.
