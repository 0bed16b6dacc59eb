(** Proofs about LayoutSpec.v. *)
From Verif Require Export LayoutSpec.
From Verif Require Import TurtleProofs TurtleShape TurtleMain TurtleTop GraphProofs TermProofs ResourceProofs StrFacts.
From Coq Require Import Permutation Lia.

(** [a] ends with the indenter [i], and has written a text that satisfies [P]. *)
Definition lays (a : action) (s : wstate) (i : indenter) (P : str -> Prop) : Prop :=
  exists s', a s = Done s' /\ w_ind s' = i /\ exists t, pieces_text (w_out s') = pieces_text (w_out s) ++ t /\ P t.

Lemma pieces_text_app a b : pieces_text (a ++ b) = pieces_text a ++ pieces_text b.
Proof. unfold pieces_text. apply flat_map_app. Qed.

Lemma lays_seq a b s i1 i2 (P1 P2 P : str -> Prop) : lays a s i1 P1 -> (forall s1, w_ind s1 = i1 -> lays b s1 i2 P2) ->
  (forall t1 t2, P1 t1 -> P2 t2 -> P (t1 ++ t2)) -> lays (wseq a b) s i2 P.
Proof.
  intros (s1 & H & E & t1 & T1 & Q1) K J. destruct (K s1 E) as (s2 & K' & E2 & t2 & T2 & Q2).
  exists s2. split; [unfold wseq; rewrite H; exact K'|]. split; [exact E2|]. exists (t1 ++ t2). split; [|auto].
  rewrite T2, T1, app_assoc. reflexivity.
Qed.
Lemma lays_weak a s i (P Q : str -> Prop) : lays a s i P -> (forall t, P t -> Q t) -> lays a s i Q.
Proof. intros (s' & H & E & t & T & K) I. exists s'. eauto 6. Qed.
Lemma lays_emit l s i : w_ind s = i -> lays (emit l) s i (eq (pieces_text l)).
Proof.
  intros E. eexists. split; [reflexivity|]. cbn [w_ind w_out]. split; [exact E|]. eexists.
  split; [apply pieces_text_app|reflexivity].
Qed.
Lemma lays_skip s i : w_ind s = i -> lays skip s i (eq []).
Proof. intros E. exists s. split; [reflexivity|]. split; [exact E|]. exists []. rewrite app_nil_r. auto. Qed.
Lemma lays_with_io {A} (x : io A) a f s i P : x = io_ok a -> lays (f a) s i P -> lays (with_io x f) s i P.
Proof. intros -> H. exact H. Qed.
Lemma lays_line fl s i : w_ind s = i -> is_being_sorted fl = false ->
  lays (new_line fl) s i (eq ([10] ++ spaces (N.to_nat (current i)))).
Proof.
  intros E F. unfold new_line. exists (WState (w_out s ++ [Blanks (ttl_eol ++ ind_show (w_ind s))]) (w_ind s) (w_tick s)).
  rewrite F. split; [reflexivity|]. split; [exact E|]. eexists. cbn [w_out]. rewrite pieces_text_app.
  split; [reflexivity|]. rewrite E. cbn [pieces_text flat_map piece_text]. rewrite app_nil_r. reflexivity.
Qed.

Section Layout.
Variable c : setting.
Variable g : graph.
Notation opts := (t_opts c).
Notation modulus := (t_modulus c).
Notation mode := (t_mode c).
Notation w_obj := (write_object modulus mode (t_iri c) (t_parse c) (t_gext c) (t_printable c) (t_compress c) opts g
  (t_predicates c) (t_objects c)).
Notation w_list := (write_predicate_object_list modulus mode (t_iri c) (t_parse c) (t_compress c) opts g (t_predicates c) (t_objects c)).
Notation w_pred := (write_predicate_object modulus mode (t_iri c) (t_parse c) (t_compress c) opts g (t_objects c)).
Notation w_flt := (w_flat modulus mode (t_iri c) (t_parse c) (t_compress c) opts g (t_objects c)).
Notation w_verb := (write_verb (t_iri c) (t_parse c) (t_compress c) opts).
Notation w_block := (write_block modulus mode (t_iri c) (t_parse c) (t_gext c) (t_printable c) (t_compress c) opts g
  (t_predicates c) (t_objects c)).
Notation w_blocks := (write_blocks modulus mode (t_iri c) (t_parse c) (t_gext c) (t_printable c) (t_compress c) opts g
  (t_predicates c) (t_objects c)).
Notation max_len := (max_len_predicates (t_iri c) (t_parse c) (t_compress c) opts).
Hypothesis Ok : setting_ok c.
Hypothesis Wg : can_write c g.
Hypothesis Fl : flat_graph c g.
Variable f : nat.
Hypothesis Room : has_room c (S f).
Notation rec := (w_obj (S f)).
Notation W := (indent_width opts).
Definition at_start : indenter := Indenter 0 W 0.
Definition in_block : indenter := Indenter 0 W W.

Lemma lays_indent s : w_ind s = at_start -> lays (w_indent modulus mode) s in_block (eq []).
Proof.
  intros E. destruct Room as [R1 R2]. unfold w_indent, on_ind, indent, indent_by, usize_add.
  exists (WState (w_out s) in_block (w_tick s)). rewrite E. cbn [current width at_start].
  destruct (N.ltb_spec (0 + W) modulus) as [L|L]; [|lia]. split; [reflexivity|]. split; [reflexivity|].
  exists []. rewrite app_nil_r. auto.
Qed.
Lemma lays_outdent s : w_ind s = in_block -> lays (w_outdent modulus mode) s at_start (eq []).
Proof.
  intros E. destruct Room as [R1 _]. unfold w_outdent, on_ind, outdent, outdent_by, usize_sub.
  exists (WState (w_out s) at_start (w_tick s)). rewrite E. cbn [current width in_block].
  destruct (N.eqb_spec W 0) as [Z|Z]; [lia|]. destruct (N.leb_spec W W) as [L|L]; [|lia].
  cbn [on_current set_current offset width current in_block]. rewrite N.sub_diag. split; [reflexivity|]. split; [reflexivity|].
  exists []. rewrite app_nil_r. auto.
Qed.
(** One level deeper for a new line, and back. *)
Definition deeper : indenter := Indenter 0 W (W + W).
Lemma lays_indent_more s : w_ind s = in_block -> lays (w_indent modulus mode) s deeper (eq []).
Proof.
  intros E. destruct Room as [R1 R2]. unfold w_indent, on_ind, indent, indent_by, usize_add.
  exists (WState (w_out s) deeper (w_tick s)). rewrite E. cbn [current width in_block].
  destruct (N.ltb_spec (W + W) modulus) as [L|L]; [|lia]. split; [reflexivity|]. split; [reflexivity|].
  exists []. rewrite app_nil_r. auto.
Qed.
Lemma lays_outdent_more s : w_ind s = deeper -> lays (w_outdent modulus mode) s in_block (eq []).
Proof.
  intros E. destruct Room as [R1 _]. unfold w_outdent, on_ind, outdent, outdent_by, usize_sub.
  exists (WState (w_out s) in_block (w_tick s)). rewrite E. cbn [current width deeper].
  destruct (N.eqb_spec (W + W) 0) as [Z|Z]; [lia|]. destruct (N.leb_spec W (W + W)) as [L|L]; [|lia].
  cbn [on_current set_current offset width current deeper]. replace (W + W - W) with W by lia. split; [reflexivity|]. split; [reflexivity|].
  exists []. rewrite app_nil_r. auto.
Qed.
Lemma lays_deeper s k : w_ind s = in_block -> forall fl, is_being_sorted fl = false ->
  lays (wseq (w_indent modulus mode) (wseq (new_line fl) (wseq (if Nat.ltb 0 k then write_padding k else skip) (w_outdent modulus mode))))
    s in_block (eq ([10] ++ spaces (2 * step c) ++ spaces k)).
Proof.
  intros E fl F. eapply lays_seq; [apply lays_indent_more, E| |intros t1 t2 <- Q; exact Q]. intros s1 E1.
  eapply lays_seq with (P2 := eq (spaces k)); [apply lays_line; [exact E1|exact F]| |].
  - intros s2 E2. eapply lays_seq with (i1 := deeper) (P1 := eq (spaces k)); [|intros s3 E3; apply lays_outdent_more, E3|].
    + destruct k as [|k]; cbn [Nat.ltb Nat.leb]; [apply lays_skip, E2|]. unfold write_padding. cbn [Nat.eqb].
      eapply lays_weak; [apply lays_emit, E2|]. intros t <-. cbn [pieces_text flat_map piece_text]. rewrite app_nil_r.
      replace (Nat.max 1 (S k)) with (S k) by lia. reflexivity.
    + intros t1 t2 <- <-. rewrite app_nil_r. reflexivity.
  - intros t1 t2 <- <-. cbn [current deeper]. rewrite <- app_assoc. unfold step.
    replace (N.to_nat (W + W)) with (2 * N.to_nat W)%nat by lia. reflexivity.
Qed.

(** ** Objects *)
Lemma flat_lays o w : flat_as c g o w -> exists l, pieces_text l = w /\
  forall fl s, rec o fl s = Done (WState (w_out s ++ l) (w_ind s) (w_tick s)).
Proof.
  intros H. destruct H as [i w H|l w H|b N|b N H|].
  - exists [Word w]. split; [cbn [pieces_text flat_map piece_text]; apply app_nil_r|]. intros fl s. cbn [write_object].
    unfold write_iri. rewrite (word_of_Some _ _ _ H). reflexivity.
  - exists [Word w]. split; [cbn [pieces_text flat_map piece_text]; apply app_nil_r|]. intros fl s. cbn [write_object].
    unfold write_literal. rewrite (word_of_Some _ _ _ H). reflexivity.
  - exists [Word ($"_:" ++ b)]. split; [cbn [pieces_text flat_map piece_text]; apply app_nil_r|]. intros fl s. cbn [write_object].
    rewrite N. reflexivity.
  - exists [Sign $"["; Sign $"]"]. split; [reflexivity|]. intros fl s. cbn [write_object]. rewrite N.
    destruct (g_contains_subject g (SBlank b)) eqn:E; [|reflexivity]. apply contains_subject_spec in E as (p & o & E). destruct (H p o E).
  - exists [Sign $"("; Sign $")"]. split; [reflexivity|]. intros fl s. reflexivity.
Qed.
Lemma flat_keys l : (forall o, In o l -> exists w, flat_as c g o w) -> forall t, exists ks, object_keys rec l t = Done ks.
Proof.
  induction l as [|o l IH]; intros H t; [eexists; reflexivity|]. cbn [object_keys].
  destruct (H o (or_introl eq_refl)) as (w & F). destruct (flat_lays o w F) as (ps & _ & R). rewrite R. cbn [wbind fst snd w_tick w_out].
  destruct (IH (fun x I => H x (or_intror I)) t) as (ks & ->). eexists. reflexivity.
Qed.
Lemma flat_sorts l t : (forall o, In o l -> exists w, flat_as c g o w) -> exists r, sort_objects rec l t = Done r.
Proof.
  intros H. unfold sort_objects. destruct l as [|a [|b l]]; try (eexists; reflexivity).
  destruct (flat_keys _ H t) as (ks & ->). eexists. reflexivity.
Qed.

Lemma laid_two gap o o' r t : objects_laid c g gap (o :: o' :: r) t <->
  exists w t', flat_as c g o w /\ objects_laid c g gap (o' :: r) t' /\ t = w ++ $"," ++ (if o_is_blank o' then [] else gap) ++ t'.
Proof. destruct o'; reflexivity. Qed.

(** What stands after the last object of a predicate. *)
Definition close (last : bool) : str := if last then $" ." ++ [10] else $" ;".
Definition after (last : bool) : indenter := if last then at_start else in_block.
Definition column (k : nat) : nat := if predicate_padding opts then 0 else k.
Definition gap (k : nat) : str := [10] ++ spaces (2 * step c) ++ spaces k.

Lemma lays_objects l k fl s : l <> [] -> (forall o, In o l -> exists w, flat_as c g o w) -> w_ind s = in_block ->
  is_being_sorted fl = false ->
  lays (write_objects modulus mode rec l k fl) s (after (is_last_of_subject fl))
    (fun t => exists t', objects_laid c g (gap k) l t' /\ t = t' ++ close (is_last_of_subject fl)).
Proof.
  intros Ne H E F. destruct Room as [R1 _]. revert s E. induction l as [|o l IH]; intros s E; [congruence|].
  destruct (H o (or_introl eq_refl)) as (w & Fo). destruct (flat_lays o w Fo) as (ps & Tp & R).
  assert (Lo : forall s fl, w_ind s = in_block -> lays (rec o fl) s in_block (eq w)).
  { intros s0 fl0 E0. eexists. split; [apply R|]. split; [exact E0|]. cbn [w_out]. exists w. rewrite pieces_text_app, Tp. auto. }
  cbn [write_objects]. destruct l as [|o' l].
  - eapply lays_seq with (i1 := after (is_last_of_subject fl)) (P2 := eq []);
      [|intros s1 E1; apply lays_skip; exact E1|intros t1 t2 Q <-; rewrite app_nil_r; exact Q].
    unfold write_predicate_object_object. eapply lays_seq with (P2 := fun t => t = close (is_last_of_subject fl));
      [apply Lo, E| |intros t1 t2 <- ->; exists w; split; [exact Fo|reflexivity]].
    cbn [is_last_of_predicate is_last_of_subject]. intros s1 E1. destruct (is_last_of_subject fl); cbn [after close negb].
    + eapply lays_seq; [apply lays_outdent, E1| |intros t1 t2 <- Q; exact Q]. intros s2 E2.
      assert (B : is_not_indented (w_ind s2) = true) by (rewrite E2; reflexivity).
      assert (K : lays (wseq (emit [Blanks ttl_space; Sign $"."]) (new_line (Flags false (is_being_sorted fl) true true))) s2 at_start
        (fun t => t = $" ." ++ [10])).
      { eapply lays_seq; [apply lays_emit, E2|intros s3 E3; apply lays_line; [exact E3|exact F]|]. intros t1 t2 <- <-. reflexivity. }
      destruct K as (s3 & K & K'). exists s3. split; [|exact K']. rewrite B. exact K.
    + eapply lays_seq; [apply lays_skip, E1| |intros t1 t2 <- Q; exact Q]. intros s2 E2.
      assert (B : is_not_indented (w_ind s2) = false).
      { rewrite E2. unfold is_not_indented. cbn [current offset in_block]. apply N.eqb_neq. lia. }
      assert (K : lays (emit [Blanks ttl_space; Sign $";"]) s2 in_block (fun t => t = $" ;")).
      { eapply lays_weak; [apply lays_emit, E2|]. intros t <-. reflexivity. }
      destruct K as (s3 & K & K'). exists s3. split; [|exact K']. rewrite B. exact K.
  - eapply lays_seq with (i1 := in_block) (P1 := fun t => t = w ++ $"," ++ if o_is_blank o' then [] else gap k).
    + unfold write_predicate_object_object. eapply lays_seq with (P2 := fun t => t = $"," ++ if o_is_blank o' then [] else gap k);
        [apply Lo, E| |intros t1 t2 <- ->; reflexivity].
      cbn [is_last_of_predicate is_next_object_blank]. intros s1 E1.
      eapply lays_seq with (P2 := fun t => t = if o_is_blank o' then [] else gap k);
        [apply lays_emit, E1| |intros t1 t2 <- ->; reflexivity]. intros s2 E2.
      destruct (o_is_blank o'); [eapply lays_weak; [apply lays_skip, E2|]; intros t <-; reflexivity|].
      eapply lays_weak; [apply lays_deeper; [exact E2|exact F]|]. intros t <-. reflexivity.
    + intros s1 E1. apply IH; [discriminate|intros x I; apply H; right; exact I|exact E1].
    + intros t1 t2 -> (t' & Q & ->). exists (w ++ $"," ++ (if o_is_blank o' then [] else gap k) ++ t').
      split; [|rewrite <- !app_assoc; reflexivity]. apply laid_two. exists w, t'. auto.
Qed.

(** ** Predicates *)
Lemma lays_verb p v k fl s : verb c p = Some v -> w_ind s = in_block -> is_being_sorted fl = false ->
  lays (w_verb (group_predicate p) p k fl) s in_block (fun t =>
    (type_like p /\ place_type_on_subject_line opts = true /\ t = $" " ++ v ++ $" ") \/
    (~ (type_like p /\ place_type_on_subject_line opts = true) /\
     t = [10] ++ spaces (step c) ++ v ++ match k with O => $" " | _ => spaces (k - length v) end)).
Proof.
  intros V E F.
  assert (P : forall s, w_ind s = in_block -> lays (write_padded v k) s in_block
    (eq (v ++ match k with O => $" " | _ => spaces (k - length v) end))).
  { intros s0 E0. unfold write_padded. destruct k as [|k]; cbn [Nat.eqb]; (eapply lays_weak; [apply lays_emit, E0|]); intros t <-;
      cbn [pieces_text flat_map piece_text]; rewrite app_nil_r; reflexivity. }
  unfold verb, verb_word in V. destruct (type_like_dec p) as [T|T].
  - unfold write_verb. rewrite (proj2 (group_type p) T). apply (lays_with_io _ v).
    + destruct (use_rdf_type_a opts); [injection V as <-; reflexivity|]. apply word_of_Some. exact V.
    + destruct (place_type_on_subject_line opts) eqn:L.
      * eapply lays_weak; [apply lays_emit, E|]. intros t <-. left. split; [exact T|]. split; [reflexivity|].
        cbn [pieces_text flat_map piece_text]. reflexivity.
      * eapply lays_seq; [apply lays_line; [exact E|exact F]|intros s1 E1; apply P, E1|]. intros t1 t2 <- <-. right.
        split; [intros [_ Q]; discriminate Q|]. rewrite <- app_assoc. reflexivity.
  - assert (G : group_predicate p <> GType) by (rewrite group_type; exact T).
    assert (K : lays (wseq (new_line fl) (with_io (compress_iri (t_iri c) (t_parse c) (t_compress c) opts p) (fun v => write_padded v k))) s in_block
      (eq ([10] ++ spaces (step c) ++ v ++ match k with O => $" " | _ => spaces (k - length v) end))).
    { eapply lays_seq; [apply lays_line; [exact E|exact F]| |].
      - intros s1 E1. apply (lays_with_io _ v); [apply word_of_Some; exact V|]. apply P, E1.
      - intros t1 t2 <- <-. rewrite <- app_assoc. reflexivity. }
    eapply lays_weak with (P := eq ([10] ++ spaces (step c) ++ v ++ match k with O => $" " | _ => spaces (k - length v) end)).
    + unfold write_verb. destruct (group_predicate p); [congruence|exact K..].
    + intros t <-. right. split; [intros [Q _]; contradiction|reflexivity].
Qed.

(** [k] is the width of the column, or nothing if none is used. *)
Lemma lays_pred subj p k fl s : (exists o, In (MkStmt subj p o) (g_list g)) -> w_ind s = in_block -> is_being_sorted fl = false ->
  (0 < k)%nat ->
  lays (w_pred rec (group_predicate p) subj p (column k) fl) s (after (is_last_of_subject fl))
    (fun t => exists os t', NoDup os /\ (forall o, In o os <-> In (MkStmt subj p o) (g_list g)) /\
       entry_laid c g k (p, os) t' /\ t = t' ++ close (is_last_of_subject fl)).
Proof.
  intros (o & I) E F Pk. destruct (Wg _ _ _ I) as (_ & _ & V & _).
  destruct (verb c p) as [v|] eqn:Ev; [clear V|destruct V; reflexivity]. unfold write_predicate_object.
  eapply lays_seq with (P2 := fun t => exists os t', NoDup os /\ (forall o, In o os <-> In (MkStmt subj p o) (g_list g)) /\
    objects_laid c g (gap (column k)) os t' /\ t = t' ++ close (is_last_of_subject fl));
    [apply (lays_verb p v (column k) fl s Ev E F)| |].
  - intros s1 E1. set (objs := t_objects c (w_tick s1) (g_objects_for g subj p)).
    assert (P : Permutation objs (g_objects_for g subj p)) by apply Ok.
    assert (A : forall x, In x objs <-> In (MkStmt subj p x) (g_list g)).
    { intros x. rewrite <- objects_for_spec. split; apply Permutation_in; auto. apply Permutation_sym; auto. }
    assert (Fo : forall x, In x objs -> exists w, flat_as c g x w) by (intros x J; apply A in J; eapply Fl; exact J).
    destruct (flat_sorts objs (S (w_tick s1)) Fo) as ([l t] & Q). pose proof (sort_objects_perm _ _ _ _ Q) as P'. cbn [fst] in P'.
    assert (A' : forall x, In x l <-> In (MkStmt subj p x) (g_list g)).
    { intros x. rewrite <- A. split; apply Permutation_in; auto. apply Permutation_sym; auto. }
    assert (Ne : l <> []) by (intros ->; destruct (proj2 (A' o) I)).
    destruct (lays_objects l (column k) fl (WState (w_out s1) (w_ind s1) t) Ne) as (s' & T & E' & tx & T' & (t' & L & ->)); auto.
    { intros x J. apply Fo, A, A', J. }
    exists s'. split; [cbn beta zeta; fold objs; rewrite Q; exact T|]. split; [exact E'|]. eexists. split; [exact T'|].
    exists l, t'. split; [|auto]. eapply Permutation_NoDup; [apply Permutation_sym, P'|].
    eapply Permutation_NoDup; [apply Permutation_sym, P|]. apply (projections_NoDup g subj p).
  - intros t1 t2 Q (os & t' & Nd & A & L & ->). exists os, (t1 ++ t'). split; [exact Nd|]. split; [exact A|].
    split; [|rewrite <- app_assoc; reflexivity]. exists v, t'. cbn [fst snd]. split; [exact Ev|].
    assert (G : objects_laid c g ([10] ++ spaces (2 * step c) ++ (if predicate_padding opts then [] else spaces k)) os t').
    { unfold gap, column in L. destruct (predicate_padding opts); exact L. }
    split; [exact G|]. destruct Q as [(T & T' & ->)|(T & ->)]; [left|right].
    + split; [exact T|]. split; [exact T'|]. rewrite <- !app_assoc. reflexivity.
    + split; [exact T|]. rewrite <- !app_assoc. unfold column. destruct (predicate_padding opts); [reflexivity|].
      destruct k; [lia|reflexivity].
Qed.

Lemma lays_flat subj l n k fl s : (forall p, In p l -> exists o, In (MkStmt subj p o) (g_list g)) -> l <> [] ->
  w_ind s = in_block -> is_being_sorted fl = false -> (0 < k)%nat ->
  lays (w_flt rec subj l n (n + length l) (column k) fl) s at_start
    (fun t => exists es ts, map fst es = l /\ (forall p os, In (p, os) es -> NoDup os /\ forall o, In o os <-> In (MkStmt subj p o) (g_list g)) /\
       Forall2 (entry_laid c g k) es ts /\ t = joined $" ;" ts ++ $" ." ++ [10]).
Proof.
  intros H Ne E F Pk. revert n s E. induction l as [|p l IH]; intros n s E; [congruence|].
  cbn [w_flat]. set (fl' := Flags _ _ _ _). pose proof (lays_pred subj p k fl' s (H p (or_introl eq_refl)) E F Pk) as T.
  destruct l as [|q l].
  - assert (B : is_last_of_subject fl' = true). { cbn [fl' is_last_of_subject length]. apply Nat.eqb_eq. lia. }
    rewrite B in T. eapply lays_seq; [exact T|intros s1 E1; apply lays_skip; exact E1|].
    intros t1 t2 (os & t' & Nd & A & L & ->) <-. rewrite app_nil_r. exists [(p, os)], [t']. split; [reflexivity|].
    split; [|split; [constructor; [exact L|constructor]|reflexivity]]. intros p' os' [Q|[]]. injection Q as <- <-. auto.
  - assert (B : is_last_of_subject fl' = false). { cbn [fl' is_last_of_subject length]. apply Nat.eqb_neq. lia. }
    rewrite B in T. eapply lays_seq; [exact T| |].
    + intros s1 E1. replace (n + length (p :: q :: l))%nat with (S n + length (q :: l))%nat by (cbn; lia).
      apply IH; [|discriminate|exact E1]. intros x Hx. apply H. right. exact Hx.
    + intros t1 t2 (os & t' & Nd & A & L & ->) (es & ts & M & A' & L' & ->). exists ((p, os) :: es), (t' :: ts).
      split; [cbn [map fst]; rewrite M; reflexivity|]. split; [|split; [constructor; auto|]].
      * intros p' os' [Q|Q]; [injection Q as <- <-; auto|apply A', Q].
      * destruct ts as [|x ts]; [inversion L'; subst; discriminate|]. cbn [joined close]. rewrite <- !app_assoc. reflexivity.
Qed.

Lemma max_len_longest l : l <> [] -> Forall (fun p => iri_word c p <> None) l -> exists n, max_len l = io_ok n /\ longest c l n.
Proof.
  intros Ne H. revert Ne. induction H as [|p l Hp Hl IH]; intros Ne; [congruence|]. cbn [max_len_predicates].
  destruct (word_of_ok _ _ Hp) as (w & E & Ew). rewrite E. unfold io_ok at 1. cbn [io_bind].
  assert (Own : forall p' w', p = p' -> iri_word c p' = Some w' -> w' = w).
  { intros p' w' <- Q. unfold iri_word in Q. congruence. }
  destruct l as [|q l].
  - cbn [max_len_predicates]. unfold io_ok. cbn [io_bind]. eexists. split; [reflexivity|]. rewrite Nat.max_0_r. split.
    + intros p' w' [Q|[]] Q'. rewrite (Own _ _ Q Q'). unfold byte_len. lia.
    + exists p, w. split; [left; reflexivity|]. split; [exact Ew|reflexivity].
  - destruct IH as (n & -> & L1 & (p' & w' & L2 & L3 & L4)); [discriminate|]. unfold io_ok. cbn [io_bind].
    eexists. split; [reflexivity|]. split.
    + intros x y [Q|Q] Q'; [rewrite (Own _ _ Q Q'); unfold byte_len; lia|]. specialize (L1 _ _ Q Q'). lia.
    + destruct (Nat.max_dec (byte_len w) n) as [M|M].
      * exists p, w. split; [left; reflexivity|]. split; [exact Ew|]. rewrite M. reflexivity.
      * exists p', w'. split; [right; exact L2|]. split; [exact L3|]. rewrite M. exact L4.
Qed.

Lemma roomy_has : roomy modulus (S f) ind_default.
Proof.
  destruct Room as [R1 R2]. assert (M : 2 <= N.max 2 W) by lia. split; cbn [width current ind_default]; [lia|]. nia.
Qed.

Lemma lays_list subj fl s : (exists p o, In (MkStmt subj p o) (g_list g)) -> w_ind s = in_block -> is_being_sorted fl = false ->
  lays (w_list rec subj fl) s at_start
    (fun t => exists n es ts, longest c (map fst es) n /\ NoDup (map fst es) /\
       (forall p, In p (map fst es) <-> exists o, In (MkStmt subj p o) (g_list g)) /\
       (forall p os, In (p, os) es -> NoDup os /\ forall o, In o os <-> In (MkStmt subj p o) (g_list g)) /\
       Forall2 (entry_laid c g (S n)) es ts /\ t = joined $" ;" ts ++ $" ." ++ [10]).
Proof.
  intros (p0 & o0 & I) E F. unfold write_predicate_object_list.
  set (preds := t_predicates c (w_tick s) (g_predicates_for g subj)).
  assert (P : Permutation preds (g_predicates_for g subj)) by apply Ok.
  assert (A : forall p, In p preds <-> exists o, In (MkStmt subj p o) (g_list g)).
  { intros p. rewrite <- predicates_for_spec. split; apply Permutation_in; auto. apply Permutation_sym; auto. }
  assert (Fa : Forall (fun p => iri_word c p <> None) preds).
  { apply Forall_forall. intros p Hp. apply A in Hp as (o & Hp). apply (Wg _ _ _ Hp). }
  assert (Np : preds <> []). { intros Z. assert (J : In p0 preds) by (apply A; eauto). rewrite Z in J. destruct J. }
  destruct (group_predicates_spec preds) as [P1 La]. destruct (max_len_longest preds Np Fa) as (n & Mn & L1 & L2).
  assert (K : (if predicate_padding opts then io_ok 0%nat else let? k := max_len preds in io_ok (S k)) = io_ok (column (S n))).
  { unfold column. destruct (predicate_padding opts); [reflexivity|]. rewrite Mn. reflexivity. }
  destruct (groups_flat modulus mode (t_iri c) (t_parse c) (t_gext c) (t_printable c) (t_compress c) opts g (t_objects c) rec (S f)
    (fun o fl s i Wo Ei Ri => tri_object modulus mode (t_iri c) (t_parse c) (t_gext c) (t_printable c) (t_compress c) opts g
       (t_predicates c) (t_objects c) (proj1 Ok) (proj1 (proj2 Ok)) Wg (S f) o fl s i roomy_has Wo Ei Ri)
    subj (group_predicates preds) 0 (length preds) (column (S n)) fl La (group_predicates_sorted preds)) as (l & P2 & _ & _ & Fq).
  { eapply Permutation_Forall; [apply Permutation_sym, P1|exact Fa]. }
  assert (Pl : Permutation l preds) by (etransitivity; eauto).
  assert (A' : forall p, In p l <-> exists o, In (MkStmt subj p o) (g_list g)).
  { intros p. rewrite <- A. split; apply Permutation_in; auto. apply Permutation_sym; auto. }
  assert (Ne : l <> []). { intros ->. destruct (proj2 (A' p0)). eauto. }
  destruct (lays_flat subj l 0 (S n) fl (tick s) (fun p => proj1 (A' p)) Ne E F) as (s' & T & E' & t & T' & (es & ts & M & Q1 & Q2 & ->)); [lia|].
  exists s'. split.
  { cbn beta zeta. fold preds. rewrite K. cbn [with_io io_ok]. rewrite Fq, <- (Permutation_length Pl). exact T. }
  split; [exact E'|]. eexists. split; [exact T'|]. exists n, es, ts. rewrite M. split; [|split; [|auto]].
  - split.
    + intros p w J. apply L1. apply (Permutation_in _ Pl), J.
    + destruct L2 as (p & w & J & L2). exists p, w. split; [|exact L2]. apply (Permutation_in _ (Permutation_sym Pl)), J.
  - eapply Permutation_NoDup; [apply Permutation_sym, Pl|]. eapply Permutation_NoDup; [apply Permutation_sym, P|].
    apply (projections_NoDup g subj p0).
Qed.

(** ** Blocks *)
(** The entries of a subject. *)
Definition own (subj : subject) (es : list (str * list object)) : Prop :=
  NoDup (map fst es) /\ (forall p, In p (map fst es) <-> exists o, In (MkStmt subj p o) (g_list g)) /\
  (forall p os, In (p, os) es -> NoDup os /\ forall o, In o os <-> In (MkStmt subj p o) (g_list g)).
Lemma lays_block subj s : (exists p o, In (MkStmt subj p o) (g_list g)) -> w_ind s = at_start ->
  lays (w_block (S f) subj) s at_start (fun t => exists es, own subj es /\ block_laid c g (subj, es) t).
Proof.
  intros I E. unfold write_block. pose proof I as (p & o & J). destruct (Wg _ _ _ J) as (Ws & _).
  set (lines_of := fun t => exists t', t = t' ++ pieces_text [Blanks ttl_eol] /\ exists n es ts, longest c (map fst es) n /\ NoDup (map fst es) /\
       (forall p, In p (map fst es) <-> exists o, In (MkStmt subj p o) (g_list g)) /\
       (forall p os, In (p, os) es -> NoDup os /\ forall o, In o os <-> In (MkStmt subj p o) (g_list g)) /\
       Forall2 (entry_laid c g (S n)) es ts /\ t' = joined $" ;" ts ++ $" ." ++ [10]).
  destruct (subject_w (iri_word c) subj) as [w|] eqn:Ew; [clear Ws|congruence].
  eapply lays_seq with (i1 := in_block) (P1 := eq ((if s_is_blank subj then [10] else []) ++ w)) (P2 := lines_of).
  - assert (K : lays (wseq (match subj with
         | SBlank b => if is_not_indented (w_ind s) then emit [Blanks ttl_eol; Word ($"_:" ++ b)] else skip
         | SRes iri => write_iri (t_iri c) (t_parse c) (t_compress c) opts iri
         | SStmt _ => fun _ => Crashed
         end) (w_indent modulus mode)) s in_block (eq ((if s_is_blank subj then [10] else []) ++ w))).
    { eapply lays_seq with (i1 := at_start) (P2 := eq []); [|intros s1 E1; apply lays_indent, E1|intros t1 t2 Q <-; rewrite app_nil_r; exact Q].
      destruct subj as [b|iri|st]; cbn [subject_w] in Ew; [| |discriminate].
      - injection Ew as <-. rewrite E. cbn [is_not_indented current offset at_start N.eqb]. eapply lays_weak; [apply lays_emit, E|].
        intros t <-. cbn [pieces_text flat_map piece_text s_is_blank]. rewrite app_nil_r. reflexivity.
      - unfold write_iri. apply (lays_with_io _ w); [exact (word_of_Some _ iri w Ew)|]. eapply lays_weak; [apply lays_emit, E|].
        intros t <-. cbn [pieces_text flat_map piece_text s_is_blank]. rewrite app_nil_r. reflexivity. }
    exact K.
  - intros s1 E1. eapply lays_seq; [apply (lays_list subj ttl_no_flags s1 I E1 eq_refl)|intros s2 E2; apply lays_emit, E2|].
    intros t1 t2 Q <-. exists t1. split; [reflexivity|exact Q].
  - intros t1 t2 <- (t & -> & (n & es & ts & L & Nd & A & Q & S & ->)). exists es. split; [split; auto|].
    exists w, n, ts. cbn [fst snd]. split; [exact Ew|]. split; [exact L|]. split; [exact S|]. rewrite <- !app_assoc. reflexivity.
Qed.
Lemma lays_blocks r l s : (forall subj, In subj l -> exists p o, In (MkStmt subj p o) (g_list g)) -> w_ind s = at_start ->
  lays (w_blocks (S f) r l) s at_start (fun t => exists bs ts, map fst bs = l /\ (forall b, In b bs -> own (fst b) (snd b)) /\
    Forall2 (block_laid c g) bs ts /\ t = concat ts).
Proof.
  intros H. revert s. induction l as [|x l IH]; intros s E; cbn [write_blocks].
  - eapply lays_weak; [apply lays_skip, E|]. intros t <-. exists [], []. split; [reflexivity|]. split; [intros b []|]. split; [constructor|reflexivity].
  - eapply lays_seq with (i1 := at_start) (P1 := eq []) (P2 := fun t => exists bs ts, map fst bs = x :: l /\
      (forall b, In b bs -> own (fst b) (snd b)) /\ Forall2 (block_laid c g) bs ts /\ t = concat ts).
    + eexists. split; [reflexivity|]. split; [destruct r; cbn [w_ind]; rewrite E; reflexivity|].
      exists []. rewrite app_nil_r. destruct r; auto.
    + intros s1 E1. eapply lays_seq; [apply lays_block; [apply H; left; reflexivity|exact E1]| |].
      * intros s2 E2. apply IH; [|exact E2]. intros y J. apply H. right. exact J.
      * intros t1 t2 (es & Q & L) (bs & ts & M & Q' & L' & ->). exists ((x, es) :: bs), (t1 :: ts).
        split; [cbn [map fst]; rewrite M; reflexivity|]. split; [intros b [<-|J]; [exact Q|apply Q', J]|].
        split; [constructor; auto|reflexivity].
    + intros t1 t2 <- Q. exact Q.
Qed.
End Layout.

(** ** Documents *)
Lemma directive_text c t sp ws : pieces_text (directive_end (t_opts c)) =
  (if sparql_directives (t_opts c) then [10] else $" ." ++ [10]) /\
  line_of c t sp ws = joined $" " ((if sparql_directives (t_opts c) then sp else t) :: ws) ++
    if sparql_directives (t_opts c) then [10] else $" ." ++ [10].
Proof.
  unfold directive_end, line_of. fold (sparql_directives (t_opts c)). destruct (sparql_directives (t_opts c)); split; reflexivity.
Qed.
Lemma head_laid c mappings :
  pieces_text (base_pieces (t_iri c) (t_opts c) ++ prefix_pieces (t_iri c) (t_opts c) mappings) = head_text c mappings.
Proof.
  rewrite pieces_text_app. unfold head_text. f_equal.
  - unfold base_pieces. destruct (id_base (t_opts c)) as [b|]; [|reflexivity]. rewrite !pieces_text_app.
    destruct (directive_text c $"@base" $"BASE" [angle (show_iri (t_iri c) b)]) as [-> ->]. cbn [joined].
    cbn [pieces_text flat_map piece_text]. rewrite app_nil_r. unfold angle, ttl_space. rewrite <- !app_assoc.
    destruct (use_intellij_style (t_opts c)); reflexivity.
  - unfold prefix_pieces. destruct mappings as [|e l]; [reflexivity|]. rewrite pieces_text_app. f_equal.
    generalize (e :: l) as k. induction k as [|[p ns] k IH]; [reflexivity|]. cbn [flat_map fst snd].
    rewrite pieces_text_app, IH, pieces_text_app.
    destruct (directive_text c $"@prefix" $"PREFIX" [p ++ $":"; angle (convert_first (t_iri c) (convert_base (t_opts c)) (show_iri (t_iri c) ns))]) as [-> ->].
    cbn [joined]. cbn [pieces_text flat_map piece_text]. rewrite app_nil_r. unfold angle, ttl_space. rewrite <- !app_assoc. reflexivity.
Qed.

Lemma c116_layout c g mappings f : can_be_written c g f -> flat_graph c g ->
  exists out bs ts, doc_of c g mappings f = Done out /\ arranged g bs /\ Forall2 (block_laid c g) bs ts /\
    pieces_text out = head_text c mappings ++ concat ts.
Proof.
  intros (S & W & R & L & _) Fl. destruct f as [|f]; [lia|].
  unfold doc_of, write_turtle_doc. set (s0 := WState _ _ _).
  set (nodes := sorted_subjects g (t_subjects c)). set (blanks := t_subjects c 1%nat (g_blank_node_subjects g)).
  assert (Pn : Permutation nodes (g_node_subjects g)).
  { unfold nodes, sorted_subjects. etransitivity; [apply stable_sort_perm|apply S]. }
  assert (Pb : Permutation blanks (g_blank_node_subjects g)) by apply S.
  assert (An : forall s, In s nodes <-> (exists p o, In (MkStmt s p o) (g_list g)) /\ forall b, s <> SBlank b).
  { intros s. rewrite <- node_subjects_spec. split; apply Permutation_in; auto. apply Permutation_sym; auto. }
  assert (Ab : forall s, In s blanks <-> (exists p o, In (MkStmt s p o) (g_list g)) /\ exists b, s = SBlank b).
  { intros s. rewrite <- blank_node_subjects_spec. split; apply Permutation_in; auto. apply Permutation_sym; auto. }
  assert (T : lays (write_triples (t_modulus c) (t_mode c) (t_iri c) (t_parse c) (t_gext c) (t_printable c) (t_compress c) (t_opts c) g
    (t_predicates c) (t_objects c) (t_subjects c) (Datatypes.S f)) s0 (at_start c)
    (fun t => exists bs ts, map fst bs = nodes ++ blanks /\ (forall b, In b bs -> own g (fst b) (snd b)) /\
       Forall2 (block_laid c g) bs ts /\ t = concat ts)).
  { unfold write_triples. eapply lays_seq.
    - apply lays_blocks; auto. intros s I. apply An in I. apply I.
    - intros s1 E1. apply lays_blocks; auto. intros s I. apply Ab in I. apply I.
    - intros t1 t2 (b1 & x1 & M1 & O1 & F1 & ->) (b2 & x2 & M2 & O2 & F2 & ->). exists (b1 ++ b2), (x1 ++ x2).
      split; [rewrite map_app, M1, M2; reflexivity|]. split; [intros b [I|I]%in_app_iff; auto|].
      split; [apply Forall2_app; auto|]. rewrite concat_app. reflexivity. }
  destruct T as (s' & -> & _ & t & T & (bs & ts & M & O & F & ->)). exists (w_out s'), bs, ts. split; [reflexivity|].
  split; [|split; [exact F|]].
  - split; [|split].
    + rewrite M. apply NoDup_app'.
      * eapply Permutation_NoDup; [apply Permutation_sym, Pn|]. apply (projections_NoDup g (SBlank []) []).
      * eapply Permutation_NoDup; [apply Permutation_sym, Pb|]. apply (projections_NoDup g (SBlank []) []).
      * intros s I J. apply An in I as [_ I]. apply Ab in J as [_ [b J]]. exact (I b J).
    + apply Forall_forall. intros b I. destruct (O b I) as (N1 & _ & N2). split; [exact N1|].
      apply Forall_forall. intros [p os] J. apply (N2 p os J).
    + intros s p o. split.
      * intros I. assert (J : In s (map fst bs)).
        { rewrite M, in_app_iff, An, Ab. destruct s; [right|left|left]; split; eauto; discriminate. }
        apply in_map_iff in J as ([x es] & E & J). cbn [fst] in E. subst x. destruct (O _ J) as (_ & N1 & N2). cbn [fst snd] in *.
        assert (K : In p (map fst es)) by (apply N1; eauto). apply in_map_iff in K as ([p' os] & E & K). cbn [fst] in E. subst p'.
        exists es, os. split; [exact J|]. split; [exact K|]. apply (N2 p os K), I.
      * intros (es & os & J & K & I). destruct (O _ J) as (_ & _ & N2). cbn [fst snd] in N2. apply (N2 p os K), I.
  - rewrite T. f_equal. apply head_laid.
Qed.
