(** Lemmas for C64: when the orders of hash sets do not show in a Turtle document. *)
From Verif Require Import Turtle TurtleSpec TurtleProofs TurtleShape TurtleMain TurtleTop GraphProofs TermProofs StrFacts.
From Coq Require Import Permutation Sorted Lia.

(** ** Sorting *)
Lemma sorted_unique {A} (le : A -> A -> bool) l l' : Permutation l l' ->
  StronglySorted (fun a b => le a b = true) l -> StronglySorted (fun a b => le a b = true) l' ->
  (forall a b, In a l -> In b l -> le a b = true -> le b a = true -> a = b) -> l = l'.
Proof.
  revert l'. induction l as [|x l IH]; intros l' P S S' D; [apply Permutation_nil in P; auto|].
  destruct l' as [|y l']; [apply Permutation_sym, Permutation_nil in P; discriminate|].
  inversion_clear S as [|? ? S1 S2]. inversion_clear S' as [|? ? S1' S2'].
  assert (E : x = y).
  { assert (Ix : In x (y :: l')) by (eapply Permutation_in; [exact P|left; reflexivity]).
    assert (Iy : In y (x :: l)) by (eapply Permutation_in; [apply Permutation_sym, P|left; reflexivity]).
    destruct Ix as [Ix|Ix]; [auto|]. destruct Iy as [Iy|Iy]; [auto|].
    rewrite Forall_forall in S2, S2'. apply D; cbn; auto. }
  subst y. f_equal. apply IH; auto; [eapply Permutation_cons_inv; exact P|].
  intros a b Ia Ib. apply D; right; assumption.
Qed.
Lemma key_sort_unique {B} (l l' : list (str * B)) : Permutation l l' ->
  (forall a b, In a l -> In b l -> fst a = fst b -> a = b) -> stable_sort key_le l = stable_sort key_le l'.
Proof.
  intros P D. destruct str_total as [T1 T2 T3].
  assert (K : forall r : list (str * B), StronglySorted (fun a b => key_le a b = true) (stable_sort key_le r)).
  { intros r. apply stable_sort_sorted; unfold key_le.
    - intros a b H. rewrite T2. destruct (str_cmp (fst a) (fst b)); cbn; auto; discriminate.
    - intros a b c H1 H2. destruct (str_cmp (fst a) (fst b)) eqn:E1; [|destruct (str_cmp (fst b) (fst c)) eqn:E2|]; try discriminate.
      + apply T1 in E1 as ->. exact H2.
      + apply T1 in E2 as <-. rewrite E1. reflexivity.
      + rewrite (T3 _ _ _ E1 E2). reflexivity. }
  apply (sorted_unique key_le); auto.
  - rewrite !stable_sort_perm. exact P.
  - intros a b Ia Ib H1 H2. apply D.
    + eapply Permutation_in; [apply stable_sort_perm|exact Ia].
    + eapply Permutation_in; [apply stable_sort_perm|exact Ib].
    + unfold key_le in *. rewrite T2 in H2. destruct (str_cmp (fst a) (fst b)) eqn:E; cbn in *; try discriminate. apply T1, E.
Qed.
Lemma subject_sort_unique l l' : Permutation l l' -> stable_sort subject_le l = stable_sort subject_le l'.
Proof.
  intros P. apply (sorted_unique subject_le); auto using subj_sorted.
  - rewrite !stable_sort_perm. exact P.
  - intros a b _ _ H1 H2. destruct subj_total as [T1 T2 T3]. unfold subject_le in *. rewrite T2 in H2.
    destruct (subj_cmp a b) eqn:E; cbn in *; try discriminate. apply T1, E.
Qed.
Lemma short_perm {A} (l l' : list A) : Permutation l l' -> NoDup l -> (forall a b, In a l -> In b l -> a = b) -> l = l'.
Proof.
  intros P N D. destruct l as [|a [|b l]].
  - apply Permutation_nil in P. auto.
  - apply Permutation_length_1_inv in P. auto.
  - exfalso. inversion_clear N as [|? ? N1 _]. apply N1. rewrite (D a b) by (cbn; auto). left. reflexivity.
Qed.

Section Stable.
Variable modulus : N.
Variable mode : overflow.
Variable m : iri_mode.
Variable iri_parse : str -> option str.
Variable gext printable : chr -> bool.
Variable compress : str -> outcome (option str).
Variable opts : ttl_options.
Variable g : graph.
Variable op op' : nat -> list str -> list str.
Variable oo oo' : nat -> list object -> list object.
Variable os os' : nat -> list subject -> list subject.
Hypothesis Op : any_order op.
Hypothesis Op' : any_order op'.
Hypothesis Oo : any_order oo.
Hypothesis Oo' : any_order oo'.
Hypothesis Os : any_order os.
Hypothesis Os' : any_order os'.

Notation compressed := (compress_iri m iri_parse compress opts).
Notation iri_w := (word_of compressed).
Notation lit_w := (word_of (literal_word m iri_parse gext printable compress opts)).
Notation sort_preds := (sort_predicates m iri_parse compress opts).

Hypothesis Words : forall s p o, In (MkStmt s p o) (g_list g) -> iri_w p <> None.
Definition o_word (o : object) : option str :=
  match o with
  | OBlank b => if nest_blank_nodes opts then None else Some ($"_:" ++ b)
  | ORes i => iri_w i
  | OLit l => lit_w l
  | _ => None
  end.
Hypothesis Preds : forall s p q o x, In (MkStmt s p o) (g_list g) -> In (MkStmt s q x) (g_list g) ->
  rank p = rank q /\ (p <> q -> exists w v, iri_w p = Some w /\ iri_w q = Some v /\ w <> v).
Hypothesis Objs : forall s p o x, In (MkStmt s p o) (g_list g) -> In (MkStmt s p x) (g_list g) -> o <> x ->
  exists w v, o_word o = Some w /\ o_word x = Some v /\ w <> v.
Hypothesis Blanks1 : forall a b p q o x, In (MkStmt (SBlank a) p o) (g_list g) -> In (MkStmt (SBlank b) q x) (g_list g) -> a = b.

Definition the (w : option str) : str := match w with Some w => w | None => [] end.
Lemma predicate_keys_map l : Forall (fun p => iri_w p <> None) l ->
  predicate_keys m iri_parse compress opts l = Ret (map (fun p => (the (iri_w p), p)) l).
Proof.
  induction 1 as [|p l H F IH]; [reflexivity|]. cbn [predicate_keys map]. destruct (word_of_ok _ _ H) as (w & E & ->).
  rewrite E, IH. reflexivity.
Qed.
Lemma max_len_map l : Forall (fun p => iri_w p <> None) l ->
  max_len_predicates m iri_parse compress opts l = io_ok (list_max (map (fun p => byte_len (the (iri_w p))) l)).
Proof.
  induction 1 as [|p l H F IH]; [reflexivity|]. cbn [max_len_predicates map]. destruct (word_of_ok _ _ H) as (w & E & ->).
  rewrite E, IH. reflexivity.
Qed.
Lemma sort_predicates_same l l' : Permutation l l' -> NoDup l -> Forall (fun p => iri_w p <> None) l ->
  (forall p q, In p l -> In q l -> p <> q -> exists w v, iri_w p = Some w /\ iri_w q = Some v /\ w <> v) ->
  sort_preds l = sort_preds l'.
Proof.
  intros P N F D. assert (F' : Forall (fun p => iri_w p <> None) l') by (eapply Permutation_Forall; eauto).
  pose proof (Permutation_length P) as L. unfold sort_predicates.
  destruct l as [|a [|b l]]; destruct l' as [|a' [|b' l']]; try discriminate L.
  - reflexivity.
  - apply Permutation_length_1 in P as ->. reflexivity.
  - rewrite !predicate_keys_map by assumption. f_equal. f_equal. apply key_sort_unique; [apply Permutation_map, P|].
    intros x y Ix Iy E. apply in_map_iff in Ix as (p & <- & Ip). apply in_map_iff in Iy as (q & <- & Iq). cbn [fst] in E.
    destruct (list_eq_dec N.eq_dec p q) as [->|Ne]; [reflexivity|]. destruct (D p q Ip Iq Ne) as (w & v & W & V & X).
    rewrite W, V in E. destruct (X E).
Qed.
Lemma groups_one l : (forall p q, In p l -> In q l -> rank p = rank q) ->
  l = [] \/ exists p, In p l /\ group_predicates l = [(group_predicate p, l)].
Proof.
  intros H. pose proof (one_group l H) as L. destruct (chunk_by_members l) as [M La].
  assert (E : group_predicates l = chunk_by l).
  { unfold group_predicates in *. rewrite (Permutation_length (stable_sort_perm _ _)) in L.
    destruct (chunk_by l) as [|x [|y r]]; [reflexivity|reflexivity|cbn in L; lia]. }
  rewrite E in *. destruct (chunk_by l) as [|[gr ps] [|y r]]; [left; rewrite <- M; reflexivity| |cbn in L; lia].
  cbn in M. rewrite app_nil_r in M. subst ps. destruct l as [|p l]; [left; reflexivity|right]. exists p.
  split; [left; reflexivity|]. inversion_clear La as [|? ? X _]. cbn [fst snd] in X. inversion_clear X as [|? ? Y _].
  rewrite Y. reflexivity.
Qed.

Section Rec.
Variable rec rec' : object -> ttl_flags -> action.
Hypothesis Same : forall o fl s, rec o fl s = rec' o fl s.
Hypothesis Leafs : (forall o fl s, rec o fl s = OutOfFuel) \/
  forall o w fl s, o_word o = Some w -> rec o fl s = Done (WState (w_out s ++ [Word w]) (w_ind s) (w_tick s)).

Lemma keys_same l : forall t, object_keys rec l t = object_keys rec' l t.
Proof.
  induction l as [|o l IH]; intros t; cbn [object_keys]; [reflexivity|]. rewrite Same. destruct (rec' _ _ _); cbn [wbind]; auto.
  - rewrite IH. reflexivity.
  - rewrite IH. reflexivity.
Qed.
Lemma keys_map l : forall t, Forall (fun o => o_word o <> None) l ->
  l <> [] /\ object_keys rec l t = OutOfFuel /\ (forall o fl s, rec o fl s = OutOfFuel) \/
  object_keys rec l t = Done (map (fun o => (the (o_word o), o)) l, t).
Proof.
  intros t F. destruct Leafs as [Z|Z].
  - destruct l as [|o l]; [right; reflexivity|left]. split; [discriminate|]. split; [|exact Z]. cbn [object_keys]. rewrite Z. reflexivity.
  - right. revert t. induction F as [|o l H F IH]; intros t; [reflexivity|]. cbn [object_keys map].
    destruct (o_word o) as [w|] eqn:E; [|congruence]. rewrite (Z o w _ _ E). cbn [wbind w_out w_tick snd fst app]. rewrite IH. cbn [wbind fst snd the].
    cbn. rewrite app_nil_r. reflexivity.
Qed.
Lemma sort_objects_same l l' t : Permutation l l' -> NoDup l ->
  (forall o x, In o l -> In x l -> o <> x -> exists w v, o_word o = Some w /\ o_word x = Some v /\ w <> v) ->
  sort_objects rec l t = sort_objects rec' l' t.
Proof.
  intros P N D. pose proof (Permutation_length P) as L. unfold sort_objects.
  destruct l as [|a [|b l]]; destruct l' as [|a' [|b' l']]; try discriminate L.
  - reflexivity.
  - apply Permutation_length_1 in P as ->. reflexivity.
  - rewrite <- keys_same.
    assert (F : Forall (fun o => o_word o <> None) (a :: b :: l)).
    { apply Forall_forall. intros o I. destruct (TurtleRuns.object_eq_dec o a) as [->|Ne].
      - destruct (D a b) as (w & v & W & _); cbn; auto; [|congruence]. intros ->. inversion_clear N as [|? ? X _]. apply X. left. reflexivity.
      - destruct (D o a I (or_introl eq_refl) Ne) as (w & v & W & _). congruence. }
    assert (F' : Forall (fun o => o_word o <> None) (a' :: b' :: l')) by (eapply Permutation_Forall; eauto).
    destruct (keys_map _ t F) as [(_ & K & Z)|K], (keys_map _ t F') as [(_ & K' & Z')|K']; rewrite K, K'.
    + reflexivity.
    + exfalso. cbn [object_keys] in K'. rewrite Z in K'. discriminate K'.
    + exfalso. cbn [object_keys] in K. rewrite Z' in K. discriminate K.
    + cbn [wbind fst snd]. rewrite (key_sort_unique _ (map (fun o => (the (o_word o), o)) (a' :: b' :: l'))); [reflexivity|apply Permutation_map, P|].
      intros x y Ix Iy E. apply in_map_iff in Ix as (p & <- & Ip). apply in_map_iff in Iy as (q & <- & Iq). cbn [fst] in E.
      destruct (TurtleRuns.object_eq_dec p q) as [->|Ne]; [reflexivity|]. destruct (D p q Ip Iq Ne) as (w & v & W & V & X).
      rewrite W, V in E. destruct (X E).
Qed.
Lemma wseq_same a b a' b' s : a s = a' s -> (forall s', b s' = b' s') -> wseq a b s = wseq a' b' s.
Proof. intros H K. unfold wseq. rewrite H. destruct (a' s); cbn [wbind]; auto. Qed.
Lemma objects_same l k fl s : write_objects modulus mode rec l k fl s = write_objects modulus mode rec' l k fl s.
Proof.
  revert s. induction l as [|o l IH]; intros s; cbn [write_objects]; [reflexivity|]. apply wseq_same; [|exact IH].
  unfold write_predicate_object_object. apply wseq_same; [apply Same|reflexivity].
Qed.
Lemma pred_same gr subj p k fl s :
  write_predicate_object modulus mode m iri_parse compress opts g oo rec gr subj p k fl s =
  write_predicate_object modulus mode m iri_parse compress opts g oo' rec' gr subj p k fl s.
Proof.
  unfold write_predicate_object. apply wseq_same; [reflexivity|]. intros s1. cbn zeta.
  rewrite (sort_objects_same _ (oo' (w_tick s1) (g_objects_for g subj p))).
  - destruct (sort_objects rec' _ _) as [[l t]|e| |]; cbn [wbind]; auto. apply objects_same.
  - rewrite (Oo _ _). symmetry. apply Oo'.
  - eapply Permutation_NoDup; [apply Permutation_sym, Oo|]. apply (projections_NoDup g subj p).
  - intros o x Io Ix. apply (Permutation_in _ (Oo _ _)), objects_for_spec in Io.
    apply (Permutation_in _ (Oo _ _)), objects_for_spec in Ix. eapply Objs; eauto.
Qed.
Lemma group_same gr subj l k fl : forall c t s,
  write_group modulus mode m iri_parse compress opts g oo rec gr subj l c t k fl s =
  write_group modulus mode m iri_parse compress opts g oo' rec' gr subj l c t k fl s.
Proof.
  induction l as [|p l IH]; intros c t s; cbn [write_group]; [reflexivity|]. apply wseq_same; [apply pred_same|]. intros s'. apply IH.
Qed.
Lemma list_same subj fl s :
  write_predicate_object_list modulus mode m iri_parse compress opts g op oo rec subj fl s =
  write_predicate_object_list modulus mode m iri_parse compress opts g op' oo' rec' subj fl s.
Proof.
  unfold write_predicate_object_list. cbn zeta.
  set (l := op (w_tick s) (g_predicates_for g subj)). set (l' := op' (w_tick s) (g_predicates_for g subj)).
  assert (P : Permutation l l') by (unfold l, l'; rewrite (Op _ _); symmetry; apply Op').
  assert (A : forall p, In p l -> exists o, In (MkStmt subj p o) (g_list g)).
  { intros p Ip. apply (Permutation_in _ (Op _ _)), predicates_for_spec in Ip. exact Ip. }
  assert (N : NoDup l).
  { eapply Permutation_NoDup; [apply Permutation_sym, Op|]. apply (projections_NoDup g subj []). }
  assert (F : Forall (fun p => iri_w p <> None) l).
  { apply Forall_forall. intros p Ip. destruct (A p Ip) as (o & I). eapply Words; eauto. }
  assert (F' : Forall (fun p => iri_w p <> None) l') by (eapply Permutation_Forall; eauto).
  rewrite !max_len_map by assumption.
  rewrite (Permutation_list_max (Permutation_map (fun p => byte_len (the (iri_w p))) P)), (Permutation_length P).
  destruct (if predicate_padding opts then _ else _) as [[k|e]|]; cbn [with_io]; auto.
  assert (One : forall p q, In p l -> In q l -> rank p = rank q).
  { intros p q Ip Iq. destruct (A p Ip) as (o & I), (A q Iq) as (x & J). apply (Preds _ _ _ _ _ I J). }
  assert (One' : forall p q, In p l' -> In q l' -> rank p = rank q).
  { intros p q Ip Iq. apply One; eapply Permutation_in; try (apply Permutation_sym, P); assumption. }
  destruct (groups_one l One) as [Z|(p & Ip & ->)].
  { rewrite Z in *. apply Permutation_nil in P. rewrite P. reflexivity. }
  destruct (groups_one l' One') as [Z|(q & Iq & ->)].
  { rewrite Z in P. apply Permutation_sym, Permutation_nil in P. rewrite P in Ip. destruct Ip. }
  assert (G : group_predicate p = group_predicate q).
  { apply (Permutation_in _ (Permutation_sym P)) in Iq. specialize (One p q Ip Iq). rewrite !rank_group in One.
    apply pg_eqb_eq. unfold pg_eqb. apply Nat.eqb_eq, One. }
  cbn [write_groups]. rewrite G, (sort_predicates_same l l' P N F).
  - destruct (sort_preds l'); [|reflexivity]. apply wseq_same; [apply group_same|reflexivity].
  - intros a b Ia Ib. destruct (A a Ia) as (o & I), (A b Ib) as (x & J). apply (Preds _ _ _ _ _ I J).
Qed.
Lemma items_same l fl s : write_items rec l fl s = write_items rec' l fl s.
Proof.
  revert s. induction l as [|o l IH]; intros s; cbn [write_items]; [reflexivity|]. apply wseq_same; [apply Same|].
  intros s1. apply wseq_same; [reflexivity|exact IH].
Qed.
Lemma collection_same l fl s : write_collection modulus mode opts rec l fl s = write_collection modulus mode opts rec' l fl s.
Proof.
  unfold write_collection. destruct l as [|x l]; [reflexivity|].
  do 3 (apply wseq_same; [reflexivity|]; intros ?). apply wseq_same; [apply items_same|reflexivity].
Qed.
End Rec.

Notation w_obj := (write_object modulus mode m iri_parse gext printable compress opts g op oo).
Notation w_obj' := (write_object modulus mode m iri_parse gext printable compress opts g op' oo').
Lemma object_words f : (forall o fl s, w_obj f o fl s = OutOfFuel) \/
  forall o w fl s, o_word o = Some w -> w_obj f o fl s = Done (WState (w_out s ++ [Word w]) (w_ind s) (w_tick s)).
Proof.
  destruct f as [|f]; [left; reflexivity|right]. intros o w fl s E. cbn [write_object]. destruct o as [b|i|l|l|st]; cbn [o_word] in E; try discriminate.
  - destruct (nest_blank_nodes opts); [discriminate|]. injection E as <-. reflexivity.
  - unfold write_iri. rewrite (word_of_Some _ _ _ E). reflexivity.
  - unfold write_literal. rewrite (word_of_Some _ _ _ E). reflexivity.
Qed.
Lemma object_same f : forall o fl s, w_obj f o fl s = w_obj' f o fl s.
Proof.
  induction f as [|f IH]; intros o fl s; [reflexivity|]. cbn [write_object]. destruct o as [b|i|l|items|st]; try reflexivity.
  - destruct (nest_blank_nodes opts); [|reflexivity]. destruct (g_contains_subject g (SBlank b)); [|reflexivity].
    unfold write_blank_node_property_list. do 2 (apply wseq_same; [reflexivity|]; intros ?).
    apply wseq_same; [|reflexivity]. apply list_same; [exact IH|apply object_words].
  - apply collection_same. exact IH.
Qed.
Lemma blocks_same f r l s :
  write_blocks modulus mode m iri_parse gext printable compress opts g op oo f r l s =
  write_blocks modulus mode m iri_parse gext printable compress opts g op' oo' f r l s.
Proof.
  revert s. induction l as [|x l IH]; intros s; cbn [write_blocks]; [reflexivity|].
  apply wseq_same; [reflexivity|]. intros s1. apply wseq_same; [|exact IH]. unfold write_block.
  apply wseq_same; [reflexivity|]. intros s2. apply wseq_same; [|reflexivity].
  apply list_same; [apply object_same|apply object_words].
Qed.
Lemma doc_same mappings f :
  write_turtle_doc modulus mode m iri_parse gext printable compress opts g op oo os mappings f =
  write_turtle_doc modulus mode m iri_parse gext printable compress opts g op' oo' os' mappings f.
Proof.
  unfold write_turtle_doc. f_equal. unfold write_triples, sorted_subjects.
  rewrite (subject_sort_unique (os 0 (g_node_subjects g)) (os' 0 (g_node_subjects g))) by (rewrite (Os _ _); symmetry; apply Os').
  rewrite (short_perm (os 1 (g_blank_node_subjects g)) (os' 1 (g_blank_node_subjects g))).
  - apply wseq_same; [apply blocks_same|]. intros s1. apply blocks_same.
  - rewrite (Os _ _). symmetry. apply Os'.
  - eapply Permutation_NoDup; [apply Permutation_sym, Os|]. apply (projections_NoDup g (SBlank []) []).
  - intros a b Ia Ib. apply (Permutation_in _ (Os _ _)), blank_node_subjects_spec in Ia as [(p & o & Ia) [x ->]].
    apply (Permutation_in _ (Os _ _)), blank_node_subjects_spec in Ib as [(q & y & Ib) [z ->]]. f_equal. eapply Blanks1; eauto.
Qed.
End Stable.

Lemma c64_settled c g op oo os mappings f : setting_ok c -> setting_ok (reordered c op oo os) -> can_write c g -> settled c g ->
  doc_of (reordered c op oo os) g mappings f = doc_of c g mappings f.
Proof.
  intros (A1 & A2 & A3) (B1 & B2 & B3) W (P & O & B). unfold doc_of, reordered in *.
  cbn [t_modulus t_mode t_iri t_parse t_gext t_printable t_compress t_opts t_predicates t_objects t_subjects] in *.
  apply doc_same; auto. intros s p o I. apply (W s p o I).
Qed.
