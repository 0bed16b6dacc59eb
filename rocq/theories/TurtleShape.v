(** The Turtle writer does not fail on writable graphs, and what it writes has the shape of
    the graph. *)
From Verif Require Import Turtle TurtleSpec TurtleProofs GraphProofs TermProofs StrFacts.
From Coq Require Import Permutation Relations Sorted Lia.
Local Opaque group_predicate pg_map.

Lemma tight_app a b : tight (a ++ b) = tight a ++ tight b.
Proof. apply filter_app. Qed.

(** The predicates of the first group are those that look like a type. *)
Lemma key_sorted {B} (l : list (str * B)) : StronglySorted not_after (map fst (stable_sort key_le l)).
Proof.
  destruct str_total as [T1 T2 T3].
  assert (S : StronglySorted (fun a b : str * B => key_le a b = true) (stable_sort key_le l)).
  { apply stable_sort_sorted; unfold key_le.
    - intros a b H. rewrite T2. destruct (str_cmp (fst a) (fst b)); cbn; auto; discriminate.
    - intros a b c H1 H2. destruct (str_cmp (fst a) (fst b)) eqn:E1; [|destruct (str_cmp (fst b) (fst c)) eqn:E2|]; try discriminate.
      + apply T1 in E1 as ->. exact H2.
      + apply T1 in E2 as <-. rewrite E1. reflexivity.
      + rewrite (T3 _ _ _ E1 E2). reflexivity. }
  induction S as [|a l' S IH F]; cbn [map]; constructor; auto. apply Forall_map. eapply Forall_impl; [|exact F].
  intros b H. unfold key_le in H. unfold not_after. destruct (str_cmp (fst a) (fst b)); congruence.
Qed.
(** Predicates of a single group are a single run. *)
Lemma one_group l : (forall p q, In p l -> In q l -> rank p = rank q) -> (length (group_predicates l) <= 1)%nat.
Proof.
  intros H. unfold group_predicates. rewrite (Permutation_length (stable_sort_perm _ _)).
  assert (K : forall r, (forall p q, In p r -> In q r -> rank p = rank q) ->
    chunk_by r = [] \/ exists p ps, In p r /\ chunk_by r = [(group_predicate p, ps)]).
  { induction r as [|p r IH]; intros R; [left; reflexivity|right]. cbn [chunk_by].
    destruct IH as [-> |(q & ps & Iq & ->)].
    - intros a b Ia Ib. apply R; right; auto.
    - exists p, [p]. split; [left; reflexivity|reflexivity].
    - unfold pg_eqb. rewrite <- !rank_group, (R p q) by (cbn; auto). rewrite Nat.eqb_refl. exists q, (p :: ps).
      split; [right; exact Iq|reflexivity]. }
  destruct (K l H) as [-> |(p & ps & _ & ->)]; cbn; lia.
Qed.
Lemma group_type p : group_predicate p = GType <-> type_like p.
Proof.
  Local Transparent group_predicate pg_map.
  unfold group_predicate, type_like. split.
  - unfold pg_map. cbn [pg_lookup].
    repeat match goal with
    | |- (if str_eqb ?k p then _ else _) = _ -> _ =>
        let E := fresh "E" in destruct (str_eqb k p) eqn:E;
        [apply str_eqb_eq in E; subst p; intros H; try discriminate H; cbn [In]; tauto|clear E]
    end. discriminate.
  - intros [H|[H|[H|[H|[]]]]]; subst p; vm_compute; reflexivity.
  Local Opaque group_predicate pg_map.
Qed.

(** ** Rules for runs *)
Definition runs (a : action) (s : wstate) (Q : wstate -> Prop) : Prop :=
  a s = OutOfFuel \/ exists s', a s = Done s' /\ Q s'.
(** [a] ends with the indenter [i] and pieces that satisfy [P]. *)
Definition tri (a : action) (s : wstate) (i : indenter) (P : list piece -> Prop) : Prop :=
  runs a s (fun s' => w_ind s' = i /\ exists l, tight (w_out s') = tight (w_out s) ++ l /\ P l).

Lemma tri_seq a b s i1 i2 (P1 P2 P : list piece -> Prop) :
  tri a s i1 P1 -> (forall s1, w_ind s1 = i1 -> tri b s1 i2 P2) ->
  (forall l1 l2, P1 l1 -> P2 l2 -> P (l1 ++ l2)) -> tri (wseq a b) s i2 P.
Proof.
  intros [H|(s1 & H & E & l1 & T1 & Q1)] K J; [left; apply wseq_Oof; auto|].
  destruct (K s1 E) as [K'|(s2 & K' & E2 & l2 & T2 & Q2)]; [left; apply wseq_Oof; eauto|].
  right. exists s2. split; [apply wseq_Done; eauto|]. split; auto. exists (l1 ++ l2).
  rewrite T2, T1, app_assoc. auto.
Qed.
Lemma tri_emit l s i (P : list piece -> Prop) : w_ind s = i -> P (tight l) -> tri (emit l) s i P.
Proof.
  intros E H. right. eexists. split; [reflexivity|]. cbn. split; auto. exists (tight l). rewrite tight_app. auto.
Qed.
Lemma tri_skip s i (P : list piece -> Prop) : w_ind s = i -> P [] -> tri skip s i P.
Proof. intros E H. right. exists s. split; auto. split; auto. exists []. rewrite app_nil_r. auto. Qed.
Lemma tri_new_line fl s i (P : list piece -> Prop) : w_ind s = i -> P [] -> tri (new_line fl) s i P.
Proof. intros E H. unfold tri, runs, new_line. destruct (is_being_sorted fl); apply tri_emit; auto. Qed.
Lemma tri_weak a s i (P Q : list piece -> Prop) : tri a s i P -> (forall l, P l -> Q l) -> tri a s i Q.
Proof.
  intros [H|(s' & H & E & l & T & K)] I; [left; auto|right]. exists s'. split; auto. split; auto. exists l. auto.
Qed.
Lemma tri_seq0 a b s i1 i2 (P : list piece -> Prop) :
  tri a s i1 (eq []) -> (forall s1, w_ind s1 = i1 -> tri b s1 i2 P) -> tri (wseq a b) s i2 P.
Proof. intros H K. eapply tri_seq; [exact H|exact K|]. intros l1 l2 <- Q. exact Q. Qed.
Lemma tri_seq1 a b s i1 i2 (P : list piece -> Prop) :
  tri a s i1 P -> (forall s1, w_ind s1 = i1 -> tri b s1 i2 (eq [])) -> tri (wseq a b) s i2 P.
Proof. intros H K. eapply tri_seq; [exact H|exact K|]. intros l1 l2 Q <-. rewrite app_nil_r. exact Q. Qed.
Lemma tri_with_io {A} (x : io A) a f s i P : x = io_ok a -> tri (f a) s i P -> tri (with_io x f) s i P.
Proof. intros -> H. exact H. Qed.
Lemma tri_ext a b s i P : a s = b s -> tri b s i P -> tri a s i P.
Proof. intros E H. unfold tri, runs in *. rewrite E. exact H. Qed.

(** [joinp] with something after the last element. *)
Fixpoint lay (sep fin : list piece) (l : list (list piece)) : list piece :=
  match l with
  | [] => []
  | [x] => x ++ fin
  | x :: r => x ++ sep ++ lay sep fin r
  end.
Lemma lay_joinp sep fin l : l <> [] -> lay sep fin l = joinp sep l ++ fin.
Proof.
  induction l as [|x l IH]; intros H; [congruence|]. destruct l as [|y l]; [reflexivity|].
  change (lay sep fin (x :: y :: l)) with (x ++ sep ++ lay sep fin (y :: l)).
  change (joinp sep (x :: y :: l)) with (x ++ sep ++ joinp sep (y :: l)).
  rewrite IH by discriminate. rewrite !app_assoc. reflexivity.
Qed.

Section Shape.
Variable modulus : N.
Variable mode : overflow.
Variable m : iri_mode.
Variable iri_parse : str -> option str.
Variable gext printable : chr -> bool.
Variable compress : str -> outcome (option str).
Variable opts : ttl_options.
Variable g : graph.
Variable ord_p : nat -> list str -> list str.
Variable ord_o : nat -> list object -> list object.
Hypothesis Op : any_order ord_p.
Hypothesis Oo : any_order ord_o.

Notation compressed := (compress_iri m iri_parse compress opts).
Notation w_obj := (write_object modulus mode m iri_parse gext printable compress opts g ord_p ord_o).
Notation w_list := (write_predicate_object_list modulus mode m iri_parse compress opts g ord_p ord_o).
Notation w_pred := (write_predicate_object modulus mode m iri_parse compress opts g ord_o).
Notation w_group := (write_group modulus mode m iri_parse compress opts g ord_o).
Notation w_groups := (write_groups modulus mode m iri_parse compress opts g ord_o).
Notation w_verb := (write_verb m iri_parse compress opts).
Notation sort_preds := (sort_predicates m iri_parse compress opts).


Notation iri_w := (word_of compressed).
Notation verb_w := (verb_word opts iri_w).
Notation lit_w := (word_of (literal_word m iri_parse gext printable compress opts)).
Notation shows := (shows g (nest_blank_nodes opts) iri_w verb_w lit_w).
Notation shows_entry := (shows_entry g (nest_blank_nodes opts) iri_w verb_w lit_w).
Notation shows_entries := (shows_entries g (nest_blank_nodes opts) iri_w verb_w lit_w).
Notation comma := [Sign $","].
Notation semicolon := [Sign $";"].
Notation pieces := (tree_pieces comma).
Notation e_pieces := (entry_pieces comma).
Hypothesis Wg : writable iri_w verb_w lit_w g.

Lemma word_of_Some {A} (f : A -> io str) a w : word_of f a = Some w -> f a = io_ok w.
Proof. unfold word_of. destruct (f a) as [[x|e]|]; intros H; try discriminate. injection H as ->. reflexivity. Qed.
Lemma word_of_ok {A} (f : A -> io str) a : word_of f a <> None -> exists w, f a = io_ok w /\ word_of f a = Some w.
Proof.
  unfold word_of. destruct (f a) as [[x|e]|]; intros H; [|congruence|congruence].
  exists x. split; reflexivity.
Qed.

(** Room for [f] more levels. *)
Definition roomy (f : nat) (i : indenter) : Prop :=
  0 < width i /\ current i + (N.of_nat f + 1) * width i < modulus.
Definition back (i : indenter) : indenter := set_current i (current i - width i).
Definition forth (i : indenter) : indenter := set_current i (current i + width i).
Lemma tri_indent f s i (P : list piece -> Prop) : w_ind s = i -> roomy f i -> P [] -> tri (w_indent modulus mode) s (forth i) P.
Proof.
  intros E [W R] H. right. unfold w_indent, on_ind, indent, indent_by, usize_add. rewrite E.
  destruct (N.ltb_spec (current i + width i) modulus) as [L|L]; [|lia].
  eexists. split; [reflexivity|]. cbn. split; [reflexivity|]. exists []. rewrite app_nil_r. auto.
Qed.
Lemma tri_outdent s i (P : list piece -> Prop) : w_ind s = i -> 0 < width i -> width i <= current i -> P [] ->
  tri (w_outdent modulus mode) s (back i) P.
Proof.
  intros E W L H. right. unfold w_outdent, on_ind, outdent, outdent_by, usize_sub. rewrite E.
  destruct (N.eqb_spec (current i) 0) as [Z|Z]; [lia|].
  destruct (N.leb_spec (width i) (current i)) as [K|K]; [|lia].
  eexists. split; [reflexivity|]. cbn. split; [reflexivity|]. exists []. rewrite app_nil_r. auto.
Qed.
Lemma back_forth i : back (forth i) = i.
Proof. destruct i as [o w c]. unfold back, forth, set_current. cbn. f_equal. lia. Qed.
Lemma roomy_S f i : roomy (S f) i -> roomy f i.
Proof. intros [H K]. split; auto. lia. Qed.
Lemma roomy_forth f i : roomy (S f) i -> roomy f (forth i).
Proof. intros [H K]. split; cbn; auto. lia. Qed.

(** Not at the start of a line. *)
Definition inner (i : indenter) : Prop := offset i = 0 /\ 0 < current i.
Lemma inner_forth f i : roomy f i -> offset i = 0 -> inner (forth i).
Proof. intros [H _] E. split; cbn; auto. lia. Qed.

(** ** The shape of what the parts of the writer write *)
Lemma tri_padded v k s i : w_ind s = i -> tri (write_padded v k) s i (eq [Word v]).
Proof. intros E. unfold write_padded. destruct (Nat.eqb k 0); apply tri_emit; auto. Qed.
Lemma tri_verb p k fl s i v : w_ind s = i -> verb_w p = Some v ->
  tri (w_verb (group_predicate p) p k fl) s i (eq [Word v]).
Proof.
  intros E H. unfold write_verb, verb_word in *. destruct (type_like_dec p) as [T|T].
  - rewrite (proj2 (group_type p) T). apply (tri_with_io _ v).
    + destruct (use_rdf_type_a opts); [injection H as <-; reflexivity|]. apply word_of_Some. exact H.
    + destruct (place_type_on_subject_line opts); [apply tri_emit; auto|].
      eapply tri_seq0; [apply tri_new_line; [exact E|reflexivity]|]. intros s1 E1. apply tri_padded. auto.
  - assert (G : group_predicate p <> GType) by (rewrite group_type; exact T).
    assert (K : tri (wseq (new_line fl) (with_io (compressed p) (fun v => write_padded v k))) s i (eq [Word v])).
    { eapply tri_seq0; [apply tri_new_line; [exact E|reflexivity]|]. intros s1 E1.
      apply (tri_with_io _ v); [apply word_of_Some; exact H|]. apply tri_padded. auto. }
    destruct (group_predicate p); auto. congruence.
Qed.

Definition ending (last : bool) (i : indenter) : list piece :=
  if last then if N.eqb (current (back i)) 0 then [Sign $"."] else [] else semicolon.

Section Rec.
Variable rec : object -> ttl_flags -> action.
Variable f : nat.
(** What is known of [write_object] with less fuel. *)
Hypothesis IHr : forall o fl s i, writable_object iri_w lit_w o -> w_ind s = i -> roomy f i ->
  tri (rec o fl) s i (fun l => inner i -> exists t, shows o t /\ l = pieces t).
Hypothesis keys : roomy f ind_default.
Hypothesis IHl : forall o w fl s, shows o (Leaf w) -> rec o fl s = OutOfFuel \/
  rec o fl s = Done (WState (w_out s ++ [Word w]) (w_ind s) (w_tick s)).

Lemma object_keys_words l : forall t r, object_keys rec l t = Done r ->
  Forall (fun k => forall w, shows (snd k) (Leaf w) -> fst k = w) (fst r).
Proof.
  induction l as [|o l IH]; cbn [object_keys]; intros t r H; [injection H as <-; constructor|].
  apply wbind_Done in H as (kt & Hk & H). apply wbind_Done in H as (ks & H & E). injection E as <-. cbn [fst].
  constructor; [|eapply IH; exact H]. cbn [fst snd]. intros w S.
  destruct (IHl o w ttl_sort_flags (WState [] ind_default t) S) as [Q|Q]; rewrite Q in Hk; [discriminate|].
  injection Hk as <-. cbn. apply app_nil_r.
Qed.
Lemma keyed_leaves (ks : list (str * object)) ts : Forall (fun k => forall w, shows (snd k) (Leaf w) -> fst k = w) ks ->
  Forall2 shows (map snd ks) ts -> StronglySorted not_after (map fst ks) -> StronglySorted not_after (leaves ts).
Proof.
  intros K. revert ts. induction K as [|[k o] ks H K IH]; intros ts F S; inversion F as [|? t ? ts' F1 F2]; subst; [constructor|].
  cbn [map fst snd] in *. inversion S as [|? ? S1 S2]; subst. specialize (IH ts' F2 S1).
  destruct t as [w|po|l]; cbn [leaves flat_map app]; auto. rewrite <- (H w F1). constructor; [exact IH|].
  clear -K F2 S2. revert K S2. generalize dependent ts'. induction ks as [|[k' o'] ks IH]; intros ts F K S;
    inversion F as [|? t ? ts' F1 F2]; subst; [constructor|]. cbn [map fst snd] in *.
  inversion_clear K as [|? ? K1 K2]. inversion_clear S as [|? ? S1 S2]. cbn [fst snd] in *.
  destruct t as [w|po|l]; cbn [leaves flat_map app]; [|apply IH; auto..]. rewrite <- (K1 w F1). constructor; [exact S1|apply IH; auto].
Qed.
Lemma sort_objects_leaves l t r ts : sort_objects rec l t = Done r -> Forall2 shows (fst r) ts ->
  StronglySorted not_after (leaves ts).
Proof.
  unfold sort_objects. destruct l as [|a [|b l]]; intros H F.
  - injection H as <-. inversion F. constructor.
  - injection H as <-. inversion F as [|? t' ? ts' _ F']; subst. inversion F'; subst. destruct t'; repeat constructor.
  - apply wbind_Done in H as (ks & H & E). injection E as <-. cbn [fst] in F. pose proof (object_keys_words _ _ _ H) as K.
    apply (keyed_leaves (stable_sort key_le (fst ks))); auto; [|apply key_sorted].
    eapply Permutation_Forall; [apply Permutation_sym, stable_sort_perm|exact K].
Qed.

Lemma object_keys_runs l t : Forall (writable_object iri_w lit_w) l ->
  object_keys rec l t = OutOfFuel \/ exists r, object_keys rec l t = Done r.
Proof.
  intros H. revert t. induction H as [|o l Ho Hl IH]; intros t; cbn [object_keys]; [eauto|].
  destruct (IHr o ttl_sort_flags (WState [] ind_default t) ind_default Ho eq_refl keys) as [E|(s' & E & _)];
    rewrite E; [left; reflexivity|]. cbn [wbind snd fst].
  destruct (IH (w_tick s')) as [E'|(r & E')]; rewrite E'; [left; reflexivity|right; eexists; reflexivity].
Qed.
Lemma sort_objects_runs l t : Forall (writable_object iri_w lit_w) l ->
  sort_objects rec l t = OutOfFuel \/ exists r, sort_objects rec l t = Done r.
Proof.
  intros H. unfold sort_objects. destruct l as [|a [|b l]]; [eauto|eauto|].
  destruct (object_keys_runs _ t H) as [E|(r & E)]; rewrite E; [left; reflexivity|right; eexists; reflexivity].
Qed.

Lemma tri_wpoo o k fl s i : writable_object iri_w lit_w o -> w_ind s = i -> roomy f i -> width i <= current i ->
  tri (write_predicate_object_object modulus mode rec o k fl) s
    (if is_last_of_predicate fl then if is_last_of_subject fl then back i else i else i)
    (fun l => inner i -> exists t, shows o t /\
       l = pieces t ++ if is_last_of_predicate fl then ending (is_last_of_subject fl) i else comma).
Proof.
  intros Wo E R L. pose proof R as [W _]. unfold write_predicate_object_object.
  eapply tri_seq with (P2 := fun l => inner i ->
    l = if is_last_of_predicate fl then ending (is_last_of_subject fl) i else comma); [eapply IHr; eauto| |].
  2:{ intros l1 l2 H1 H2 Z. destruct (H1 Z) as (t & S & ->). exists t. split; auto. f_equal. exact (H2 Z). }
  intros s1 E1. destruct (is_last_of_predicate fl).
  - eapply tri_seq0 with (i1 := if is_last_of_subject fl then back i else i).
    { destruct (is_last_of_subject fl); [apply tri_outdent; auto|apply tri_skip; auto]. }
    intros s2 E2. unfold ending, is_not_indented. unfold tri, runs. rewrite E2.
    destruct (is_last_of_subject fl); cbn [negb].
    + change (current (back i)) with (current i - width i). change (offset (back i)) with (offset i).
      destruct (N.eqb (current i - width i) (offset i)) eqn:Q.
      * eapply tri_seq1; [apply tri_emit; [exact E2|]|intros s3 E3; apply tri_new_line; auto].
        intros [Z _]. rewrite Z in Q. rewrite Q. reflexivity.
      * apply tri_skip; auto. intros [Z _]. rewrite Z in Q. rewrite Q. reflexivity.
    + destruct (N.eqb_spec (current i) (offset i)) as [Q|Q].
      * eapply tri_seq1; [apply tri_emit; [exact E2|]|intros s3 E3; apply tri_new_line; auto].
        intros [Z Z']. lia.
      * apply tri_emit; auto.
  - eapply tri_seq1 with (i1 := i); [apply tri_emit; auto|]. intros s2 E2. destruct (is_next_object_blank fl); [apply tri_skip; auto|].
    eapply tri_seq0; [eapply tri_indent; eauto|]. intros s3 E3.
    eapply tri_seq0; [apply tri_new_line; [exact E3|reflexivity]|]. intros s4 E4.
    eapply tri_seq0 with (i1 := forth i).
    { destruct (Nat.ltb 0 k); [|apply tri_skip; auto]. unfold write_padding. destruct (Nat.eqb k 0); apply tri_emit; auto. }
    intros s5 E5. rewrite <- (back_forth i). apply tri_outdent; auto; cbn; lia.
Qed.
Lemma tri_objects l k fl s i : l <> [] -> Forall (writable_object iri_w lit_w) l -> w_ind s = i -> roomy f i ->
  width i <= current i ->
  tri (write_objects modulus mode rec l k fl) s (if is_last_of_subject fl then back i else i)
    (fun ps => inner i -> exists ts, Forall2 shows l ts /\
       ps = lay comma (ending (is_last_of_subject fl) i) (map pieces ts)).
Proof.
  intros Ne Fa E R L. revert s E. induction Fa as [|o l Ho Hl IH]; intros s E; [congruence|].
  cbn [write_objects]. set (fl' := Flags _ _ _ _). destruct l as [|o' l].
  - eapply tri_seq1 with (i1 := if is_last_of_subject fl then back i else i); [|intros s1 E1; apply tri_skip; auto].
    eapply tri_weak; [exact (tri_wpoo o k fl' s i Ho E R L)|]. cbn. intros ps H Z. destruct (H Z) as (t & S & ->).
    exists [t]. split; [constructor; auto|]. reflexivity.
  - eapply tri_seq; [exact (tri_wpoo o k fl' s i Ho E R L)|cbn; intros s1 E1; apply IH; [discriminate|exact E1]|].
    intros l1 l2 H1 H2 Z. cbn in H1. destruct (H1 Z) as (t & S & ->). destruct (H2 Z) as (ts & S' & ->).
    exists (t :: ts). split; [constructor; auto|]. inversion S' as [|? ? ? ? A B]; subst. cbn [map lay].
    rewrite <- app_assoc. reflexivity.
Qed.

Lemma graph_writable subj p o : In (MkStmt subj p o) (g_list g) -> writable_object iri_w lit_w o.
Proof. intros H. apply (Wg _ _ _ H). Qed.

Lemma tri_pred subj p k fl s i : (exists o, In (MkStmt subj p o) (g_list g)) -> w_ind s = i -> roomy f i ->
  width i <= current i ->
  tri (w_pred rec (group_predicate p) subj p k fl) s (if is_last_of_subject fl then back i else i)
    (fun ps => inner i -> exists e, shows_entry subj p e /\ ps = e_pieces e ++ ending (is_last_of_subject fl) i).
Proof.
  intros (o & I) E R L. destruct (Wg _ _ _ I) as (_ & _ & V & _).
  destruct (verb_w p) as [v|] eqn:Ev; [clear V|congruence]. unfold write_predicate_object.
  eapply tri_seq with (P2 := fun l => inner i -> exists ts, shows_entry subj p (v, ts) /\
    l = joinp comma (map pieces ts) ++ ending (is_last_of_subject fl) i); [apply tri_verb; [exact E|exact Ev]| |].
  2:{ intros l1 l2 <- H Z. destruct (H Z) as (ts & H1 & ->). exists (v, ts). auto. }
  intros s1 E1. cbn beta zeta.
  set (objs := ord_o (w_tick s1) (g_objects_for g subj p)).
  assert (P : Permutation objs (g_objects_for g subj p)) by apply Oo.
  assert (A : forall x, In x objs <-> In (MkStmt subj p x) (g_list g)).
  { intros x. rewrite <- objects_for_spec. split; apply Permutation_in; auto. apply Permutation_sym; auto. }
  assert (Fa : Forall (writable_object iri_w lit_w) objs).
  { apply Forall_forall. intros x Hx. apply A in Hx. eapply graph_writable; eauto. }
  destruct (sort_objects_runs objs (S (w_tick s1)) Fa) as [Q|([l t] & Q)]; unfold tri, runs; cbn beta; fold objs; rewrite Q; [left; reflexivity|].
  cbn [wbind fst snd]. pose proof (sort_objects_perm rec _ _ _ Q) as P'. cbn [fst] in P'.
  assert (A' : forall x, In x l <-> In (MkStmt subj p x) (g_list g)).
  { intros x. rewrite <- A. split; apply Permutation_in; auto. apply Permutation_sym; auto. }
  assert (Ne : l <> []). { intros ->. destruct (proj2 (A' o) I). }
  assert (Nd : NoDup l).
  { eapply Permutation_NoDup; [apply Permutation_sym, P'|]. eapply Permutation_NoDup; [apply Permutation_sym, P|].
    apply (projections_NoDup g subj p). }
  pose proof (tri_objects l k fl (WState (w_out s1) (w_ind s1) t) i Ne) as T.
  destruct T as [T|(s' & T & E' & ps & T' & H)]; auto.
  { eapply Permutation_Forall; [apply Permutation_sym, P'|]. exact Fa. }
  right. exists s'. split; [exact T|]. split; auto. exists ps. split; [exact T'|]. intros Z.
  destruct (H Z) as (ts & S & ->). exists ts. split; [econstructor; eauto; exact (sort_objects_leaves _ _ _ _ Q S)|].
  rewrite lay_joinp; [reflexivity|]. destruct ts; [inversion S; congruence|discriminate].
Qed.

(** The predicates one after the other, without the groups. *)
Fixpoint w_flat (subj : subject) (l : list str) (count total k : nat) (fl : ttl_flags) : action :=
  match l with
  | [] => skip
  | p :: r =>
      wseq (w_pred rec (group_predicate p) subj p k
             (Flags (is_next_object_blank fl) (is_being_sorted fl) (Nat.eqb (S count) total)
                    (is_last_of_predicate fl)))
          (w_flat subj r (S count) total k fl)
  end.
Lemma wseq_assoc a b c s : wseq (wseq a b) c s = wseq a (wseq b c) s.
Proof. unfold wseq. destruct (a s); reflexivity. Qed.
Lemma wseq_ext a b c s : (forall s', b s' = c s') -> wseq a b s = wseq a c s.
Proof. intros H. unfold wseq. destruct (a s); cbn; auto. Qed.
Lemma flat_app subj l1 l2 c t k fl s :
  w_flat subj (l1 ++ l2) c t k fl s = wseq (w_flat subj l1 c t k fl) (w_flat subj l2 (c + length l1) t k fl) s.
Proof.
  revert c s. induction l1 as [|p l1 IH]; intros c s; cbn [app w_flat length].
  - rewrite Nat.add_0_r. reflexivity.
  - rewrite wseq_assoc. apply wseq_ext. intros s'. rewrite IH. rewrite Nat.add_succ_comm. reflexivity.
Qed.
Lemma group_flat gr subj l c t k fl s : Forall (fun p => group_predicate p = gr) l ->
  w_group rec gr subj l c t k fl s = w_flat subj l c t k fl s.
Proof.
  intros H. revert c s. induction H as [|p l Hp Hl IH]; intros c s; [reflexivity|]. cbn [write_group w_flat].
  rewrite Hp. apply wseq_ext. intros s'. apply IH.
Qed.
Lemma predicate_keys_ok l : Forall (fun p => iri_w p <> None) l ->
  exists ks, predicate_keys m iri_parse compress opts l = Ret ks.
Proof.
  induction 1 as [|p l Hp Hl (ks & IH)]; [eexists; reflexivity|]. cbn [predicate_keys].
  destruct (word_of_ok _ _ Hp) as (w & -> & _). rewrite IH. eexists. reflexivity.
Qed.
Lemma sort_predicates_ok l : Forall (fun p => iri_w p <> None) l -> exists l', sort_preds l = Ret l'.
Proof.
  intros H. unfold sort_predicates. destruct l as [|a [|b l]]; try (eexists; reflexivity).
  destruct (predicate_keys_ok _ H) as (ks & ->). eexists. reflexivity.
Qed.
Lemma predicate_keys_words l ks : predicate_keys m iri_parse compress opts l = Ret ks ->
  Forall (fun k => iri_w (snd k) = Some (fst k)) ks.
Proof.
  revert ks. induction l as [|p l IH]; cbn [predicate_keys]; intros ks H; [injection H as <-; constructor|].
  destruct (compressed p) as [[w|e]|] eqn:E; try discriminate.
  destruct (predicate_keys _ _ _ _ l) as [ks'|]; try discriminate. injection H as <-. constructor; auto.
  cbn [fst snd]. unfold word_of. rewrite E. reflexivity.
Qed.
Definition named (ps ws : list str) : Prop := Forall2 (fun p w => iri_w p = Some w) ps ws /\ StronglySorted not_after ws.
Lemma sort_predicates_named l l' : Forall (fun p => iri_w p <> None) l -> sort_preds l = Ret l' -> exists ws, named l' ws.
Proof.
  intros Fa H. unfold sort_predicates in H. destruct l as [|a [|b l]].
  - injection H as <-. exists []. split; constructor.
  - injection H as <-. inversion_clear Fa as [|? ? A _]. destruct (word_of_ok _ _ A) as (w & _ & W). exists [w].
    split; repeat constructor. exact W.
  - destruct (predicate_keys _ _ _ _ _) as [ks|] eqn:K; [|discriminate]. injection H as <-.
    apply predicate_keys_words in K. exists (map fst (stable_sort key_le ks)). split; [|apply key_sorted].
    apply (Permutation_Forall (Permutation_sym (stable_sort_perm key_le ks))) in K.
    induction K as [|x k H K IH]; cbn [map]; constructor; auto.
Qed.
Lemma sorted_app {A} (R : A -> A -> Prop) l1 l2 : StronglySorted R l1 -> StronglySorted R l2 ->
  (forall x y, In x l1 -> In y l2 -> R x y) -> StronglySorted R (l1 ++ l2).
Proof.
  intros H K C. induction H as [|x l1 H IH F]; auto. cbn. constructor.
  - apply IH. intros a b I. apply C. right. exact I.
  - apply Forall_app. split; auto. apply Forall_forall. intros y. apply C. left. reflexivity.
Qed.
Lemma groups_flat subj l c t k fl : labelled l -> in_groups l -> Forall (fun p => iri_w p <> None) (members l) ->
  exists l', Permutation l' (members l) /\ ranked l' /\ ((length l <= 1)%nat -> exists ws, named l' ws) /\ forall s, w_groups rec subj l c t k fl s = w_flat subj l' c t k fl s.
Proof.
  intros H G K. revert c. induction H as [|[gr ps] l Hg Hl IH]; intros c; [exists []; split; auto; split; [constructor|]; split; [intros _; exists []; split; constructor|auto]|].
  cbn [members flat_map snd fst] in *. apply Forall_app in K as [K1 K2].
  inversion G as [|? ? G1 G2]; subst. specialize (IH G1).
  destruct (sort_predicates_ok ps K1) as (ps' & S). pose proof (sort_predicates_perm _ _ _ _ _ _ S) as P.
  destruct (IH K2 (c + length ps')%nat) as (r & P' & Rk & Sn & F). exists (ps' ++ r). split; [apply Permutation_app; auto|].
  split.
  { apply sorted_app; auto.
    - assert (Q : Forall (fun p => rank p = pg_index gr) ps').
      { eapply Permutation_Forall; [apply Permutation_sym, P|]. eapply Forall_impl; [|exact Hg].
        intros p Hp. cbn in Hp. rewrite rank_group, Hp. reflexivity. }
      clear -Q. induction Q as [|p q Hp Hq IHq]; constructor; auto. eapply Forall_impl; [|exact Hq].
      intros x Hx. cbn in Hx. lia.
    - intros x y Ix Iy. apply (Permutation_in _ P) in Ix. apply (Permutation_in _ P') in Iy.
      rewrite !rank_group. rewrite Forall_forall in Hg. rewrite (Hg x Ix). apply in_flat_map in Iy as ([gr' qs] & Il & Iy).
      rewrite Forall_forall in G2. specialize (G2 _ Il). cbn in G2.
      unfold labelled in Hl. rewrite Forall_forall in Hl. specialize (Hl _ Il). rewrite Forall_forall in Hl.
      rewrite (Hl y Iy). exact G2. }
  split.
  { cbn [length]. intros L. destruct l; [|cbn [length] in L; lia]. cbn [members flat_map] in P'.
    apply Permutation_sym, Permutation_nil in P' as ->. rewrite app_nil_r. exact (sort_predicates_named ps ps' K1 S). }
  intros s. cbn [write_groups]. rewrite S, flat_app. unfold wseq at 1 2.
  rewrite (group_flat gr) by (eapply Permutation_Forall; [apply Permutation_sym, P|exact Hg]).
  destruct (w_flat subj ps' c t k fl s); cbn; auto.
Qed.

Lemma tri_flat subj l c k fl s i : (forall p, In p l -> exists o, In (MkStmt subj p o) (g_list g)) ->
  l <> [] -> w_ind s = i -> roomy f i -> width i <= current i ->
  tri (w_flat subj l c (c + length l) k fl) s (back i)
    (fun ps => inner i -> exists po, Forall2 (shows_entry subj) l po /\
       ps = lay semicolon (ending true i) (map e_pieces po)).
Proof.
  intros H Ne E R L. revert c s E. induction l as [|p l IH]; intros c s E; [congruence|].
  cbn [w_flat]. set (fl' := Flags _ _ _ _). destruct l as [|q l].
  - pose proof (tri_pred subj p k fl' s i (H p (or_introl eq_refl)) E R L) as T.
    assert (B : is_last_of_subject fl' = true).
    { cbn [fl' is_last_of_subject length]. apply Nat.eqb_eq. lia. }
    rewrite B in T. eapply tri_seq1; [|intros s1 E1; apply tri_skip; [exact E1|reflexivity]].
    eapply tri_weak; [exact T|]. intros ps K Z. destruct (K Z) as (e & S & ->).
    exists [e]. split; [constructor; auto|]. reflexivity.
  - pose proof (tri_pred subj p k fl' s i (H p (or_introl eq_refl)) E R L) as T.
    assert (B : is_last_of_subject fl' = false).
    { cbn [fl' is_last_of_subject length]. apply Nat.eqb_neq. lia. }
    rewrite B in T. eapply tri_seq; [exact T| |].
    + intros s1 E1. replace (c + length (p :: q :: l))%nat with (S c + length (q :: l))%nat by (cbn; lia).
      apply IH; [|discriminate|exact E1]. intros x Hx. apply H. right. exact Hx.
    + intros l1 l2 H1 H2 Z. destruct (H1 Z) as (e & S & ->). destruct (H2 Z) as (po & S' & ->).
      exists (e :: po). split; [constructor; auto|]. inversion S' as [|? ? ? ? A B']; subst. cbn [map lay].
      rewrite <- app_assoc. reflexivity.
Qed.

Lemma max_len_ok l : Forall (fun p => iri_w p <> None) l ->
  exists k, max_len_predicates m iri_parse compress opts l = io_ok k.
Proof.
  induction 1 as [|p l Hp Hl (k & IH)]; [eexists; reflexivity|]. cbn [max_len_predicates].
  destruct (word_of_ok _ _ Hp) as (w & -> & _). unfold io_ok. cbn [io_bind]. rewrite IH. eexists. reflexivity.
Qed.
Lemma tri_list subj fl s i : (exists p o, In (MkStmt subj p o) (g_list g)) -> w_ind s = i -> roomy f i ->
  width i <= current i ->
  tri (w_list rec subj fl) s (back i)
    (fun ps => inner i -> exists po, shows_entries subj po /\ ps = entries_pieces comma po ++ ending true i).
Proof.
  intros (p0 & o0 & I) E R L. unfold write_predicate_object_list.
  set (preds := ord_p (w_tick s) (g_predicates_for g subj)).
  assert (P : Permutation preds (g_predicates_for g subj)) by apply Op.
  assert (A : forall p, In p preds <-> exists o, In (MkStmt subj p o) (g_list g)).
  { intros p. rewrite <- predicates_for_spec. split; apply Permutation_in; auto. apply Permutation_sym; auto. }
  assert (Fa : Forall (fun p => iri_w p <> None) preds).
  { apply Forall_forall. intros p Hp. apply A in Hp as (o & Hp). apply (Wg _ _ _ Hp). }
  destruct (group_predicates_spec preds) as [P1 La].
  assert (K : exists k, (if predicate_padding opts then io_ok 0%nat
             else let? k := max_len_predicates m iri_parse compress opts preds in io_ok (S k)) = io_ok k).
  { destruct (predicate_padding opts); [eexists; reflexivity|]. destruct (max_len_ok _ Fa) as (k & ->). eexists. reflexivity. }
  destruct K as (k & K). unfold tri, runs. cbn beta zeta. fold preds. rewrite K. cbn [with_io io_ok].
  destruct (groups_flat subj (group_predicates preds) 0 (length preds) k fl La (group_predicates_sorted preds)) as (l & P2 & Rk & Sn & F).
  { eapply Permutation_Forall; [apply Permutation_sym, P1|exact Fa]. }
  rewrite F. assert (Pl : Permutation l preds) by (etransitivity; eauto).
  rewrite <- (Permutation_length Pl). assert (A' : forall p, In p l <-> exists o, In (MkStmt subj p o) (g_list g)).
  { intros p. rewrite <- A. split; apply Permutation_in; auto. apply Permutation_sym; auto. }
  assert (Ne : l <> []). { intros ->. destruct (proj2 (A' p0)). eauto. }
  pose proof (tri_flat subj l 0 k fl (tick s) i (fun p => proj1 (A' p)) Ne E R L) as T. cbn [Nat.add] in T.
  destruct T as [T|(s' & T & E' & ps & T' & H)]; [left; exact T|right].
  exists s'. split; [exact T|]. split; auto. exists ps. split; [exact T'|]. intros Z.
  destruct (H Z) as (po & S & ->). exists po. split.
  - econstructor; [|exact Rk|exact A'|exact S|].
    2:{ intros One. apply Sn, one_group. intros p q Ip Iq. apply One; apply (Permutation_in _ (Permutation_sym Pl)); assumption. } eapply Permutation_NoDup; [apply Permutation_sym, Pl|].
    eapply Permutation_NoDup; [apply Permutation_sym, P|]. apply (projections_NoDup g subj p0).
  - rewrite lay_joinp; [reflexivity|]. destruct po; [inversion S; congruence|discriminate].
Qed.

Lemma tri_bnpl b fl s i : (exists p o, In (MkStmt (SBlank b) p o) (g_list g)) -> w_ind s = i -> roomy (S f) i ->
  tri (write_blank_node_property_list modulus mode m iri_parse compress opts g ord_p ord_o rec b fl) s i
    (fun ps => inner i -> exists po, shows_entries (SBlank b) po /\ ps = Sign $"[" :: entries_pieces comma po ++ [Sign $"]"]).
Proof.
  intros I E R. unfold write_blank_node_property_list. pose proof (roomy_forth _ _ R) as R'. pose proof R as [W _].
  eapply tri_seq0; [eapply tri_indent; eauto|]. intros s1 E1.
  eapply tri_seq with (i1 := forth i) (P1 := eq [Sign $"["]) (P2 := fun ps => inner i -> exists po, shows_entries (SBlank b) po /\ ps = entries_pieces comma po ++ [Sign $"]"]);
    [apply tri_emit; [exact E1|reflexivity]| |].
  2:{ intros l1 l2 <- H Z. destruct (H Z) as (po & S & ->). exists po. auto. }
  intros s2 E2.
  eapply tri_seq with (P2 := eq [Sign $"]"]);
    [apply (tri_list (SBlank b) fl s2 (forth i) I E2 R'); cbn; lia| |].
  2:{ intros l1 l2 H <- Z. destruct H as (po & S & ->).
      - destruct Z. split; cbn; lia.
      - exists po. split; auto. unfold ending. rewrite back_forth. destruct Z as [_ Z].
        destruct (N.eqb_spec (current i) 0); [lia|]. rewrite app_nil_r. reflexivity. }
  rewrite back_forth. intros s3 E3. eapply tri_seq0; [apply tri_new_line; [exact E3|reflexivity]|].
  intros s4 E4. apply tri_emit; auto.
Qed.

Lemma tri_items l fl s i : Forall (writable_object iri_w lit_w) l -> w_ind s = i -> roomy f i ->
  tri (write_items rec l fl) s i
    (fun ps => inner i -> exists ts, Forall2 shows l ts /\ ps = joinp comma (map pieces ts)).
Proof.
  intros Fa E R. revert s E. induction Fa as [|o l Ho Hl IH]; intros s E; cbn [write_items].
  - apply tri_skip; auto. intros _. exists []. split; [constructor|reflexivity].
  - destruct l as [|o' l].
    + eapply tri_seq1; [eapply tri_weak; [apply IHr; eauto|]|].
      * intros ps H Z. destruct (H Z) as (t & S & ->). exists [t]. split; [constructor; auto|reflexivity].
      * intros s1 E1. eapply tri_seq0 with (i1 := i); [apply tri_skip; auto|]. intros s2 E2. apply tri_skip; auto.
    + eapply tri_seq with (P2 := fun ps => inner i -> exists ts, Forall2 shows (o' :: l) ts /\ ps = comma ++ joinp comma (map pieces ts));
        [apply IHr; eauto| |].
      2:{ intros l1 l2 H1 H2 Z. destruct (H1 Z) as (t & S & ->). destruct (H2 Z) as (ts & S' & ->).
          exists (t :: ts). split; [constructor; auto|]. inversion S' as [|? ? ? ? A B]; subst. reflexivity. }
      intros s1 E1. eapply tri_seq with (i1 := i) (P1 := eq comma); [apply tri_emit; auto|intros s2 E2; apply IH; exact E2|].
      intros l1 l2 <- H Z. destruct (H Z) as (ts & S & ->). exists ts. auto.
Qed.
Lemma writable_items items : writable_object iri_w lit_w (OColl items) -> Forall (writable_object iri_w lit_w) items.
Proof. cbn. induction items as [|x l IH]; cbn; intros H; constructor; [apply H|apply IH; apply H]. Qed.
Lemma tri_collection items fl s i : writable_object iri_w lit_w (OColl items) -> w_ind s = i -> roomy (S f) i ->
  tri (write_collection modulus mode opts rec items fl) s i
    (fun ps => inner i -> exists ts, Forall2 shows items ts /\ ps = Sign $"(" :: joinp comma (map pieces ts) ++ [Sign $")"]).
Proof.
  intros Wi E R. pose proof (roomy_forth _ _ R) as R'. pose proof R as [W _]. unfold write_collection.
  destruct items as [|x items]; [apply tri_emit; auto; intros _; exists []; split; [constructor|reflexivity]|].
  pose proof (writable_items _ Wi) as Fa. revert Fa. generalize (x :: items) as l. intros l Fa.
  eapply tri_seq0; [eapply tri_indent; eauto|]. intros s1 E1.
  eapply tri_seq with (P1 := eq [Sign $"("]) (P2 := fun ps => inner i -> exists ts, Forall2 shows l ts /\ ps = joinp comma (map pieces ts) ++ [Sign $")"]);
    [apply tri_emit; [exact E1|reflexivity]| |].
  2:{ intros l1 l2 <- H Z. destruct (H Z) as (ts & S & ->). exists ts. auto. }
  intros s2 E2. eapply tri_seq0; [apply tri_new_line; [exact E2|reflexivity]|]. intros s3 E3.
  eapply tri_seq with (P2 := eq [Sign $")"]); [apply (tri_items l fl s3 (forth i) Fa E3 R')| |].
  2:{ intros l1 l2 H <- Z. destruct H as (ts & S & ->); [destruct Z; split; cbn; lia|]. exists ts. auto. }
  intros s4 E4. destruct (outdent_collection_end opts).
  - eapply tri_seq0; [apply tri_outdent; [exact E4|cbn; lia|cbn; lia|reflexivity]|]. rewrite back_forth. intros s5 E5.
    eapply tri_seq0; [apply tri_new_line; [exact E5|reflexivity]|]. intros s6 E6.
    eapply tri_seq1; [apply tri_emit; [exact E6|reflexivity]|]. intros s7 E7. apply tri_skip; auto.
  - eapply tri_seq0; [apply tri_skip; [exact E4|reflexivity]|]. intros s5 E5.
    eapply tri_seq0; [apply tri_new_line; [exact E5|reflexivity]|]. intros s6 E6.
    eapply tri_seq1; [apply tri_emit; [exact E6|reflexivity]|]. intros s7 E7.
    rewrite <- (back_forth i). apply tri_outdent; [exact E7|cbn; lia|cbn; lia|reflexivity].
Qed.
End Rec.

Lemma object_leaf f o w fl s : shows o (Leaf w) -> w_obj f o fl s = OutOfFuel \/
  w_obj f o fl s = Done (WState (w_out s ++ [Word w]) (w_ind s) (w_tick s)).
Proof.
  destruct f as [|f]; [left; reflexivity|]. intros S. right. cbn [write_object]. inversion S as [i v W|l v W|b Nb| |]; subst.
  - unfold write_iri. rewrite (word_of_Some _ _ _ W). reflexivity.
  - unfold write_literal. rewrite (word_of_Some _ _ _ W). reflexivity.
  - rewrite Nb. reflexivity.
Qed.
Lemma tri_object f : forall o fl s i, roomy f ind_default -> writable_object iri_w lit_w o -> w_ind s = i -> roomy f i ->
  tri (w_obj f o fl) s i (fun l => inner i -> exists t, shows o t /\ l = pieces t).
Proof.
  induction f as [|f IH]; intros o fl s i K Wo E R; [left; reflexivity|]. cbn [write_object].
  pose proof (roomy_S _ _ K) as K'.
  assert (IHr : forall o fl s i, writable_object iri_w lit_w o -> w_ind s = i -> roomy f i ->
    tri (w_obj f o fl) s i (fun l => inner i -> exists t, shows o t /\ l = pieces t)) by (intros; apply IH; auto).
  destruct o as [b|iri|l|items|st]; cbn [writable_object] in Wo.
  - destruct (Bool.bool_dec (nest_blank_nodes opts) true) as [N|N]; [|apply Bool.not_true_is_false in N];
      (eapply tri_ext; [rewrite N; reflexivity|]).
    + destruct (g_contains_subject g (SBlank b)) eqn:C.
      * apply contains_subject_spec in C. eapply tri_weak; [apply (tri_bnpl _ f IHr K' (object_leaf f) b fl s i C E R)|].
        intros ps H Z. destruct (H Z) as (po & S & ->). exists (Props po). split; [constructor; auto|reflexivity].
      * apply tri_emit; auto. intros _. exists (Props []). split; [|reflexivity]. constructor; auto.
        apply (Sh_entries _ _ _ _ _ _ []); [constructor|constructor| |constructor|intros _; exists []; split; constructor]. intros p. split; [intros []|].
        intros (o & I). assert (g_contains_subject g (SBlank b) = true) by (apply contains_subject_spec; eauto). congruence.
    + apply tri_emit; auto. intros _. exists (Leaf ($"_:" ++ b)). split; [constructor; auto|reflexivity].
  - destruct (word_of_ok _ _ Wo) as (w & H1 & H2). unfold write_iri. apply (tri_with_io _ w); auto.
    apply tri_emit; auto. intros _. exists (Leaf w). split; [constructor; auto|reflexivity].
  - destruct (word_of_ok _ _ Wo) as (w & H1 & H2). unfold write_literal. apply (tri_with_io _ w); auto.
    apply tri_emit; auto. intros _. exists (Leaf w). split; [constructor; auto|reflexivity].
  - eapply tri_weak; [apply (tri_collection _ f IHr (object_leaf f) items fl s i Wo E R)|].
    intros ps H Z. destruct (H Z) as (ts & S & ->). exists (Items ts). split; [constructor; auto|reflexivity].
  - destruct Wo.
Qed.
End Shape.
