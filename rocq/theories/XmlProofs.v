From Coq Require Import Lia Arith.
From Verif Require Import StrFacts GraphProofs SimplifyProofs TermProofs NTriplesWrite JsonProofs.
From Verif Require Export XmlSpec.

(** ** Splitting *)
Lemma is_separator_iff c : is_separator c = true <-> separator c.
Proof. unfold is_separator, separator. rewrite orb_true_iff, !N.eqb_eq. reflexivity. Qed.
Lemma is_separator_false c : is_separator c = false <-> ~ separator c.
Proof. rewrite <- is_separator_iff. destruct (is_separator c); intuition discriminate. Qed.
Lemma byte_len_app a b : byte_len (a ++ b) = (byte_len a + byte_len b)%nat.
Proof. unfold byte_len. rewrite flat_map_app, app_length. reflexivity. Qed.
Lemma byte_len_cons c b : byte_len (c :: b) = (length (utf8 c) + byte_len b)%nat.
Proof. unfold byte_len. cbn [flat_map]. rewrite app_length. reflexivity. Qed.
Lemma byte_len_ge s : (length s <= byte_len s)%nat.
Proof. induction s as [|c s IH]; [cbn; lia|]. rewrite byte_len_cons. pose proof (utf8_length c). cbn [length]. lia. Qed.
Lemma byte_len_ascii s : Forall (fun c => c < 128) s -> byte_len s = length s.
Proof.
  induction 1 as [|c s H _ IH]; [reflexivity|]. rewrite byte_len_cons, IH. unfold utf8.
  destruct (N.ltb_spec c 128); [reflexivity|lia].
Qed.

Lemma find_separator_spec l : forall i k, find_separator l i = Some k <->
  exists a c b, l = a ++ c :: b /\ k = (i + length a)%nat /\ separator c /\ Forall (fun c => ~ separator c) a.
Proof.
  induction l as [|x l IH]; intros i k; cbn [find_separator].
  - split; [discriminate|]. intros (a & c & b & E & _). destruct a; discriminate.
  - destruct (is_separator x) eqn:X.
    + apply is_separator_iff in X. split.
      * intros E. injection E as <-. exists [], x, l. cbn. repeat split; auto.
      * intros (a & c & b & E & -> & C & A). destruct a as [|y a]; cbn in E; injection E as -> ->; [cbn; f_equal; lia|].
        inversion A; subst. contradiction.
    + apply is_separator_false in X. rewrite IH. split.
      * intros (a & c & b & -> & -> & C & A). exists (x :: a), c, b. split; [reflexivity|]. split; [cbn; lia|]. auto.
      * intros (a & c & b & E & -> & C & A). destruct a as [|y a]; cbn in E; injection E as -> ->; [contradiction|].
        inversion A; subst. exists a, c, b. split; [reflexivity|]. split; [cbn; lia|]. auto.
Qed.
Lemma find_separator_cut t k : find_separator (rev t) 0 = Some k <->
  exists head tail, cut t head tail /\ length tail = k.
Proof.
  rewrite find_separator_spec. split.
  - intros (a & c & b & E & -> & C & A). exists (rev (c :: b)), (rev a). split; [|rewrite rev_length; reflexivity].
    split; [|split].
    + rewrite <- rev_app_distr, <- E, rev_involutive. reflexivity.
    + exists (rev b), c. split; [reflexivity|exact C].
    + apply Forall_rev. exact A.
  - intros (head & tail & (-> & (h & c & -> & C) & A) & <-). exists (rev tail), c, (rev h).
    split; [rewrite !rev_app_distr; reflexivity|]. rewrite rev_length. split; [reflexivity|]. split; [exact C|]. apply Forall_rev, A.
Qed.
Lemma split_bytes_spec s : forall k a b, split_bytes s k = Ret (a, b) <-> s = a ++ b /\ byte_len a = k.
Proof.
  induction s as [|c s IH]; intros k a b; cbn [split_bytes].
  - destruct k as [|k].
    + split.
      * intros E. injection E as <- <-. split; reflexivity.
      * intros [E L]. symmetry in E. apply app_eq_nil in E as [-> ->]. reflexivity.
    + split; [discriminate|]. intros [E L]. symmetry in E. apply app_eq_nil in E as [-> ->]. discriminate.
  - destruct k as [|k].
    + split.
      * intros E. injection E as <- <-. split; reflexivity.
      * intros [E L]. destruct a as [|x a]; [cbn in E; subst; reflexivity|]. rewrite byte_len_cons in L. pose proof (utf8_length x). lia.
    + split.
      * destruct (Nat.leb_spec (length (utf8 c)) (S k)) as [L|L]; [|discriminate].
        destruct (split_bytes s (S k - length (utf8 c))) as [[a' b']|] eqn:B; [|discriminate].
        intros E. injection E as <- <-. apply IH in B as [-> B]. split; [reflexivity|]. rewrite byte_len_cons. lia.
      * intros [E L]. destruct a as [|x a]; [discriminate|]. cbn in E. injection E as <- ->. rewrite byte_len_cons in L.
        destruct (Nat.leb_spec (length (utf8 c)) (S k)) as [L'|L']; [|lia].
        rewrite (proj2 (IH (S k - length (utf8 c))%nat a b)); [reflexivity|]. split; [reflexivity|lia].
Qed.
Lemma cut_unique t h1 t1 h2 t2 : cut t h1 t1 -> cut t h2 t2 -> h1 = h2 /\ t1 = t2.
Proof.
  intros C1 C2. assert (L : length t1 = length t2).
  { pose proof (proj2 (find_separator_cut t (length t1)) (ex_intro _ h1 (ex_intro _ t1 (conj C1 eq_refl)))) as A.
    pose proof (proj2 (find_separator_cut t (length t2)) (ex_intro _ h2 (ex_intro _ t2 (conj C2 eq_refl)))) as B. congruence. }
  destruct C1 as [E1 _], C2 as [E2 _]. subst t. symmetry in E2.
  rename E2 into E. apply (f_equal (@rev _)) in E. rewrite !rev_app_distr in E.
  assert (R : rev t2 = rev t1 /\ rev h2 = rev h1).
  { clear -E L. rewrite <- (rev_length t1), <- (rev_length t2) in L.
    revert E L. generalize (rev t1) (rev t2) (rev h1) (rev h2). induction l as [|x l IH]; intros [|y l0] u v E L; cbn in *; try discriminate; auto.
    injection E as -> E. injection L as L. destruct (IH _ _ _ E L) as [-> ->]. auto. }
  destruct R as [R1 R2]. rewrite <- (rev_involutive h1), <- (rev_involutive h2), <- (rev_involutive t1), <- (rev_involutive t2).
  rewrite R1, R2. auto.
Qed.
Lemma split_uri_spec t ns local : split_uri t = Ret (ns, local) <-> divided t ns local.
Proof.
  unfold split_uri, divided. split.
  - destruct (find_separator (rev t) 0) as [k|] eqn:F; [|discriminate]. apply find_separator_cut in F as (head & tail & C & <-).
    destruct (Nat.eqb_spec (length tail) (byte_len t)) as [E|E]; [discriminate|]. intros S.
    apply split_bytes_spec in S as [-> L]. split; [reflexivity|]. exists head, tail. split; [exact C|].
    rewrite byte_len_app in L. destruct C as [C _]. pose proof (byte_len_ge (ns ++ local)) as G. rewrite byte_len_app in G.
    assert (length tail <= length (ns ++ local))%nat by (rewrite C, app_length; lia). lia.
  - intros [-> (head & tail & C & L)].
    rewrite (proj2 (find_separator_cut (ns ++ local) (length tail)) (ex_intro _ head (ex_intro _ tail (conj C eq_refl)))).
    destruct (Nat.eqb_spec (length tail) (byte_len (ns ++ local))) as [E|E].
    + exfalso. pose proof (byte_len_ge (ns ++ local)). destruct C as (C & (h & c & -> & _) & _). rewrite C in *.
      rewrite !app_length in *. cbn in *. lia.
    + apply split_bytes_spec. split; [reflexivity|]. rewrite byte_len_app. lia.
Qed.
Lemma split_uri_panic t : split_uri t = Panic <-> forall ns local, ~ divided t ns local.
Proof.
  split.
  - intros E ns local D. apply split_uri_spec in D. congruence.
  - intros N. destruct (split_uri t) as [[ns local]|] eqn:E; [|reflexivity]. apply split_uri_spec in E. destruct (N _ _ E).
Qed.
Lemma divided_unique t n1 l1 n2 l2 : divided t n1 l1 -> divided t n2 l2 -> n1 = n2 /\ l1 = l2.
Proof. intros A B. apply split_uri_spec in A, B. rewrite A in B. injection B as -> ->. auto. Qed.
Lemma cut_exists t : (exists c, In c t /\ separator c) -> exists head tail, cut t head tail.
Proof.
  intros (c & I & S). destruct (find_separator (rev t) 0) as [k|] eqn:F.
  - apply find_separator_cut in F as (h & tl & C & _). eauto.
  - exfalso. apply in_rev in I. revert F I. generalize (rev t) 0%nat. induction l as [|x l IH]; intros i F I; [destruct I|].
    cbn [find_separator] in F. destruct (is_separator x) eqn:X; [discriminate|]. destruct I as [->|I]; [|eapply IH; eauto].
    apply is_separator_iff in S. congruence.
Qed.
Lemma divided_ascii t head tail : cut t head tail -> Forall (fun c => c < 128) tail -> divided t head tail.
Proof.
  intros C A. split; [apply C|]. exists head, tail. split; [exact C|apply byte_len_ascii; exact A].
Qed.
Lemma no_separator_panics t : Forall (fun c => ~ separator c) t -> split_uri t = Panic.
Proof.
  intros F. apply split_uri_panic. intros ns local (_ & head & tail & (E & (h & c & -> & S) & _) & _). rewrite Forall_forall in F.
  apply (F c); [|exact S]. rewrite E, !in_app_iff. left. right. left. reflexivity.
Qed.
(** The namespace is never empty, the name may be. *)
Lemma divided_ns t ns local : divided t ns local -> ns <> [].
Proof.
  intros (E & head & tail & (C & (h & c & -> & S) & _) & L) ->. cbn in E. subst local. rewrite C, !byte_len_app in L.
  pose proof (byte_len_ge tail). pose proof (utf8_length c). cbn in L. rewrite app_nil_r in L. lia.
Qed.

(** ** Prefixes *)
Lemma prefix_for_mappings m ns : assoc_get ns (xml_mappings m) = prefix_for m ns.
Proof. reflexivity. Qed.
Lemma element_name_S prefix p k local : prefix = Some p ->
  p ++ $":" ++ concat (repeat (p ++ $":") k) ++ local = element_name prefix k local.
Proof. intros ->. cbn [element_name repeat concat]. rewrite <- !app_assoc. reflexivity. Qed.

(** ** The writer, when it is done *)
Scheme shows_node_mut := Minimality for shows_node Sort Prop
with shows_groups_mut := Minimality for shows_groups Sort Prop
with shows_objects_mut := Minimality for shows_objects Sort Prop
with shows_object_mut := Minimality for shows_object Sort Prop.
Combined Scheme shows_mutind from shows_node_mut, shows_groups_mut, shows_objects_mut, shows_object_mut.

Section Writer.
Variable m : iri_mode.
Variable g : graph.
Variable ord_p : nat -> list str -> list str.
Variable ord_o : nat -> list object -> list object.
Variable flatly : bool.
Hypothesis HP : any_order ord_p.
Hypothesis HO : any_order ord_o.
Notation node := (shows_node m g flatly).
Notation adds st st' ev := (x_out st' = x_out st ++ ev).

Lemma write_property_done wb name ns o st st' :
  (forall b st st', wb b st = Done st' -> exists ev, adds st st' ev /\ node (SBlank b) ev) ->
  write_property m wb flatly name ns o st = Done st' ->
  exists attrs inner, shows_object m g flatly o attrs inner /\
    adds st st' ([XStart name ns attrs] ++ inner ++ [XEnd name]).
Proof.
  intros WB. unfold write_property, xemit, xseq, xfail. destruct o as [b|i|l|items|t]; try discriminate.
  - destruct flatly eqn:F.
    + intros E. injection E as <-. exists [($"rdf:nodeID", b)], []. split; [constructor; reflexivity|reflexivity].
    + cbn [wbind]. destruct (wb b _) as [s1| | |] eqn:W; cbn [wbind]; try discriminate. intros E. injection E as <-.
      apply WB in W as (ev & W & N). cbn [x_out] in W. exists [], ev. split; [constructor; auto|]. cbn [x_out].
      rewrite W, <- !app_assoc. reflexivity.
  - intros E. injection E as <-. exists [($"rdf:resource", show_iri m i)], []. split; [constructor|reflexivity].
  - intros E. injection E as <-. eexists _, [XText (lexical_form l)]. split; [|reflexivity]. constructor. unfold literal_start, literal_attrs.
    destruct (lit_language l) as [[|]|]; reflexivity.
Qed.
Lemma write_properties_done wb ns local l : forall k st st',
  (forall b st st', wb b st = Done st' -> exists ev, adds st st' ev /\ node (SBlank b) ev) ->
  write_properties m wb flatly ns
    (match prefix_for m ns with Some p => concat (repeat (p ++ $":") k) ++ local | None => local end) l st = Done st' ->
  exists ev, adds st st' ev /\ shows_objects m g flatly ns local k l ev.
Proof.
  induction l as [|o l IH]; intros k st st' WB; cbn [write_properties].
  - intros E. injection E as <-. exists []. split; [rewrite app_nil_r; reflexivity|constructor].
  - rewrite prefix_for_mappings.
    assert (X : forall name decl, name = element_name (prefix_for m ns) k local -> decl = declares (prefix_for m ns) ns ->
      (forall st st', write_properties m wb flatly ns name l st = Done st' ->
         exists ev, adds st st' ev /\ shows_objects m g flatly ns local (S k) l ev) ->
      xseq (write_property m wb flatly name decl o) (write_properties m wb flatly ns name l) st = Done st' ->
      exists ev, adds st st' ev /\ shows_objects m g flatly ns local k (o :: l) ev).
    { intros name decl -> -> R E. unfold xseq in E. destruct (write_property _ _ _ _ _ _ st) as [s1| | |] eqn:W; cbn [wbind] in E; try discriminate.
      apply write_property_done in W as (attrs & inner & O & A1); [|exact WB]. apply R in E as (ev & A2 & SO).
      eexists. split; [rewrite A2, A1, <- !app_assoc; reflexivity|]. constructor; assumption. }
    destruct (prefix_for m ns) as [p|] eqn:P.
    + cbv zeta. rewrite (element_name_S (Some p)) by reflexivity. apply X; try reflexivity. intros s1 s2 E.
      apply IH; [exact WB|]. exact E.
    + apply X; try reflexivity. intros s1 s2 E. apply IH; assumption.
Qed.
Lemma write_predicates_done wb s l : forall st st',
  (forall b st st', wb b st = Done st' -> exists ev, adds st st' ev /\ node (SBlank b) ev) ->
  write_predicates m g ord_o wb flatly s l st = Done st' ->
  exists gs ev, map fst gs = l /\ Forall (fun e => Permutation (snd e) (g_objects_for g s (fst e))) gs /\
    adds st st' ev /\ shows_groups m g flatly gs ev.
Proof.
  induction l as [|p l IH]; intros st st' WB; cbn [write_predicates].
  - intros E. injection E as <-. exists [], []. split; [reflexivity|]. split; [constructor|]. split; [rewrite app_nil_r; reflexivity|constructor].
  - destruct (split_uri (show_iri m p)) as [[ns local]|] eqn:D; [|discriminate]. apply split_uri_spec in D.
    unfold xseq. destruct (write_properties _ _ _ _ _ _ _) as [s1| | |] eqn:W; cbn [wbind]; try discriminate. intros E.
    assert (W' : write_properties m wb flatly ns
      (match prefix_for m ns with Some p => concat (repeat (p ++ $":") 0) ++ local | None => local end)
      (ord_o (x_tick st) (g_objects_for g s p)) (XState (x_out st) (S (x_tick st))) = Done s1)
      by (destruct (prefix_for m ns); exact W).
    apply write_properties_done in W' as (e1 & A1 & S1); [|exact WB]. apply IH in E as (gs & e2 & <- & F & A2 & S2); [|exact WB].
    exists ((p, ord_o (x_tick st) (g_objects_for g s p)) :: gs), (e1 ++ e2). split; [reflexivity|]. split; [|split].
    + constructor; [apply HO|exact F].
    + rewrite A2, A1. cbn [x_out]. rewrite <- app_assoc. reflexivity.
    + econstructor; eauto.
Qed.
Lemma perm_groups s l gs : Permutation l (g_predicates_for g s) -> map fst gs = l ->
  Forall (fun e => Permutation (snd e) (g_objects_for g s (fst e))) gs -> groups g s gs.
Proof.
  intros P <- F. rewrite Forall_forall in F. split; [|split].
  - eapply perm_NoDup; [exact P|]. apply (projections_NoDup g s []).
  - intros p os I. apply F in I as Q. cbn [fst snd] in Q. split.
    + intros ->. apply Permutation_nil in Q.
      assert (J : In p (map fst gs)) by (apply in_map_iff; exists (p, []); auto).
      apply (Permutation_in _ P) in J. apply predicates_for_spec in J as (o & J). apply objects_for_spec in J. rewrite Q in J. destruct J.
    + eapply perm_NoDup; [exact Q|]. apply (projections_NoDup g s p).
  - intros p o. split.
    + intros (os & I & J). apply F in I. cbn [fst snd] in I. apply (Permutation_in _ I) in J. apply objects_for_spec. exact J.
    + intros J. assert (K : In p (g_predicates_for g s)) by (apply predicates_for_spec; eauto).
      apply (Permutation_in _ (Permutation_sym P)) in K. apply in_map_iff in K as ([p' os] & E & K). cbn in E. subst p'.
      exists os. split; [exact K|]. apply F in K. cbn [fst snd] in K. apply (Permutation_in _ (Permutation_sym K)). apply objects_for_spec, J.
Qed.
Lemma write_subject_done fuel : forall s st st', write_subject m g ord_p ord_o fuel flatly s st = Done st' ->
  exists ev, adds st st' ev /\ node s ev.
Proof.
  induction fuel as [|fuel IH]; intros s st st'; cbn [write_subject]; [discriminate|].
  assert (X : forall attrs, node_start flatly s attrs ->
    xseq (xemit [XStart RDF_DESCRIPTION [] attrs])
      (fun st => xseq (write_predicates m g ord_o (fun b => write_subject m g ord_p ord_o fuel flatly (SBlank b)) flatly s
                (ord_p (x_tick st) (g_predicates_for g s)))
             (xemit [XEnd RDF_DESCRIPTION]) (XState (x_out st) (S (x_tick st)))) st = Done st' ->
    exists ev, adds st st' ev /\ node s ev).
  { intros attrs NS. unfold xseq, xemit. cbn [wbind x_out x_tick].
    destruct (write_predicates _ _ _ _ _ _ _ _) as [s1| | |] eqn:W; cbn [wbind]; try discriminate. intros E. injection E as <-.
    apply write_predicates_done in W as (gs & ev & L & F & A & SG).
    - cbn [x_out] in A. eexists. split; [cbn [x_out]; rewrite A, <- !app_assoc; reflexivity|].
      apply Xs_node with (gs := gs); [exact NS|eapply perm_groups; [|exact L|exact F]; apply HP|exact SG].
    - intros b s2 s3 E. apply IH in E. exact E. }
  destruct s as [b|i|t]; [| |discriminate].
  - apply X. destruct flatly; reflexivity.
  - apply X. reflexivity.
Qed.
Lemma write_subjects_done fuel l : forall st st', write_subjects m g ord_p ord_o fuel flatly l st = Done st' ->
  exists blocks, adds st st' (concat blocks) /\ Forall2 node l blocks.
Proof.
  induction l as [|s l IH]; intros st st'; cbn [write_subjects].
  - intros E. injection E as <-. exists []. split; [rewrite app_nil_r; reflexivity|constructor].
  - unfold xseq. destruct (write_subject _ _ _ _ _ _ s st) as [s1| | |] eqn:W; cbn [wbind]; try discriminate. intros E.
    apply write_subject_done in W as (ev & A1 & N). apply IH in E as (bl & A2 & F). exists (ev :: bl). split; [|constructor; assumption].
    rewrite A2, A1. cbn [concat]. rewrite <- app_assoc. reflexivity.
Qed.

(** ** When it is done *)
Lemma write_properties_progress wb ns l : forall name,
  (flatly = false -> forall b, In (OBlank b) l -> forall st, exists st', wb b st = Done st') ->
  (forall o, In o l -> flat_object o) ->
  forall st, exists st', write_properties m wb flatly ns name l st = Done st'.
Proof.
  induction l as [|o l IH]; intros name WB F st; cbn [write_properties]; [eexists; reflexivity|].
  assert (X : forall nm decl, exists st', xseq (write_property m wb flatly nm decl o) (write_properties m wb flatly ns nm l) st = Done st').
  { intros nm decl. unfold xseq.
    assert (P : exists s1, write_property m wb flatly nm decl o st = Done s1).
    { unfold write_property, xemit, xseq. pose proof (F o (or_introl eq_refl)) as FO.
      destruct o as [b|i|lt|it|t]; try destruct FO; try (eexists; reflexivity).
      destruct (Bool.bool_dec flatly true) as [H|H].
      - rewrite H. eexists. reflexivity.
      - apply Bool.not_true_is_false in H. rewrite H. cbn [wbind].
        destruct (WB H b (or_introl eq_refl) (XState (x_out st ++ [XStart nm decl []]) (x_tick st))) as [s2 E].
        rewrite E. cbn [wbind]. eexists. reflexivity. }
    destruct P as [s1 ->]. cbn [wbind]. apply IH.
    - intros H b I. apply WB; [exact H|right; exact I].
    - intros o' I. apply F. right. exact I. }
  destruct (assoc_get ns (xml_mappings m)); apply X.
Qed.
Lemma write_predicates_progress wb s l :
  (flatly = false -> forall p b, In (MkStmt s p (OBlank b)) (g_list g) -> forall st, exists st', wb b st = Done st') ->
  (forall p o, In (MkStmt s p o) (g_list g) -> flat_object o) ->
  (forall p, In p l -> exists ns local, divided (show_iri m p) ns local) ->
  forall st, exists st', write_predicates m g ord_o wb flatly s l st = Done st'.
Proof.
  intros WB F. induction l as [|p l IH]; intros D st; cbn [write_predicates]; [eexists; reflexivity|].
  destruct (D p (or_introl eq_refl)) as (ns & local & E). apply split_uri_spec in E. rewrite E. unfold xseq.
  assert (O : forall o, In o (ord_o (x_tick st) (g_objects_for g s p)) -> In (MkStmt s p o) (g_list g)).
  { intros o I. apply objects_for_spec. eapply Permutation_in; [apply HO|exact I]. }
  destruct (write_properties_progress wb ns (ord_o (x_tick st) (g_objects_for g s p)) local) with (st := XState (x_out st) (S (x_tick st))) as [s1 ->].
  - intros H b I. eapply WB; [exact H|apply O; exact I].
  - intros o I. eapply F. apply O. exact I.
  - cbn [wbind]. apply IH. intros q I. apply D. right. exact I.
Qed.
End Writer.

(** Flat documents. *)
Lemma write_subject_flat m g ord_p ord_o fuel s : any_order ord_p -> any_order ord_o ->
  Forall flat (g_list g) -> divisible m (g_list g) -> s_is_statement s = false ->
  forall st, exists st', write_subject m g ord_p ord_o (S fuel) true s st = Done st'.
Proof.
  intros HP HO F D S st. cbn [write_subject].
  assert (X : forall attrs, exists st', xseq (xemit [XStart RDF_DESCRIPTION [] attrs])
      (fun st => xseq (write_predicates m g ord_o (fun b => write_subject m g ord_p ord_o fuel true (SBlank b)) true s
                (ord_p (x_tick st) (g_predicates_for g s)))
             (xemit [XEnd RDF_DESCRIPTION]) (XState (x_out st) (Datatypes.S (x_tick st)))) st = Done st').
  { intros attrs. unfold xseq at 1, xemit at 1. cbn [wbind x_out x_tick]. unfold xseq.
    edestruct write_predicates_progress as [s1 E]; [exact HO| | | |rewrite E; cbn [wbind]; eexists; reflexivity].
    - discriminate.
    - intros p o I. rewrite Forall_forall in F. apply F in I. apply I.
    - intros p I. apply (Permutation_in _ (HP _ _)) in I. apply predicates_for_spec in I as (o & I). apply (D _ I). }
  destruct s; [apply X|apply X|discriminate].
Qed.
Lemma write_subjects_flat m g ord_p ord_o fuel l : any_order ord_p -> any_order ord_o ->
  Forall flat (g_list g) -> divisible m (g_list g) -> (forall s, In s l -> s_is_statement s = false) ->
  forall st, exists st', write_subjects m g ord_p ord_o (S fuel) true l st = Done st'.
Proof.
  intros HP HO F D. induction l as [|s l IH]; intros S st; cbn [write_subjects]; [eexists; reflexivity|]. unfold xseq.
  destruct (write_subject_flat m g ord_p ord_o fuel s HP HO F D (S s (or_introl eq_refl)) st) as [s1 ->]. cbn [wbind].
  apply IH. intros t T. apply S. right. exact T.
Qed.
