From Coq Require Import Lia Arith.
From Verif Require Import StrFacts GraphProofs SimplifyProofs TermProofs NTriplesWrite XmlProofs XmlMain.
From Verif Require Export XmlSpec.

(** ** Enough fuel *)
Lemma write_subject_striped m g ord_p ord_o fuel s : any_order ord_p -> any_order ord_o ->
  Forall flat (g_list g) -> divisible m (g_list g) -> s_is_statement s = false ->
  (forall p b, In (MkStmt s p (OBlank b)) (g_list g) -> forall st, exists st', write_subject m g ord_p ord_o fuel false (SBlank b) st = Done st') ->
  forall st, exists st', write_subject m g ord_p ord_o (S fuel) false s st = Done st'.
Proof.
  intros HP HO F D S WB st. cbn [write_subject].
  assert (X : forall attrs, exists st', xseq (xemit [XStart RDF_DESCRIPTION [] attrs])
      (fun st => xseq (write_predicates m g ord_o (fun b => write_subject m g ord_p ord_o fuel false (SBlank b)) false s
                (ord_p (x_tick st) (g_predicates_for g s)))
             (xemit [XEnd RDF_DESCRIPTION]) (XState (x_out st) (Datatypes.S (x_tick st)))) st = Done st').
  { intros attrs. unfold xseq at 1, xemit at 1. cbn [wbind x_out x_tick]. unfold xseq.
    edestruct write_predicates_progress as [s1 E]; [exact HO| | | |rewrite E; cbn [wbind]; eexists; reflexivity].
    - intros _ p b I. eapply WB, I.
    - intros p o I. rewrite Forall_forall in F. apply F in I. apply I.
    - intros p I. apply (Permutation_in _ (HP _ _)) in I. apply predicates_for_spec in I as (o & I). apply (D _ I). }
  destruct s; [apply X|apply X|discriminate].
Qed.
Lemma write_blank_striped m g ord_p ord_o depth : any_order ord_p -> any_order ord_o ->
  Forall flat (g_list g) -> divisible m (g_list g) -> acyclic g depth ->
  forall fuel b, (depth b < fuel)%nat -> forall st, exists st', write_subject m g ord_p ord_o fuel false (SBlank b) st = Done st'.
Proof.
  intros HP HO F D A. induction fuel as [|fuel IH]; intros b L; [lia|]. apply write_subject_striped; try assumption; [reflexivity|].
  intros p c I. apply IH. apply A in I. lia.
Qed.
Lemma write_subjects_striped m g ord_p ord_o depth fuel l : any_order ord_p -> any_order ord_o ->
  Forall flat (g_list g) -> divisible m (g_list g) -> acyclic g depth ->
  (forall s p b, In (MkStmt s p (OBlank b)) (g_list g) -> (depth b < fuel)%nat) ->
  (forall s, In s l -> s_is_statement s = false) ->
  forall st, exists st', write_subjects m g ord_p ord_o (S fuel) false l st = Done st'.
Proof.
  intros HP HO F D A L. induction l as [|s l IH]; intros S st; cbn [write_subjects]; [eexists; reflexivity|]. unfold xseq.
  destruct (write_subject_striped m g ord_p ord_o fuel s) with (st := st) as [s1 ->]; try assumption.
  - apply S. left. reflexivity.
  - intros p b I. eapply write_blank_striped; eauto.
  - cbn [wbind]. apply IH. intros t T. apply S. right. exact T.
Qed.
Lemma c67_done m ord_s ord_p ord_o ho n depth fuel g :
  let simple := fst (g_simplify ho n g) in
  (forall l, Permutation (ord_s l) l) -> any_order ord_p -> any_order ord_o -> hash_order ho ->
  Forall simplifiable (g_list g) -> divisible m (g_list g) -> acyclic simple depth ->
  (forall s p b, In (MkStmt s p (OBlank b)) (g_list simple) -> (depth b < fuel)%nat) ->
  exists doc, xml_write m XStriped ord_s ord_p ord_o ho n (S fuel) g = Done doc.
Proof.
  intros simple HS HP HO Ho S D A L. unfold xml_write. cbv zeta. fold simple.
  destruct (write_subjects_striped m simple ord_p ord_o depth fuel (filter s_is_resource (ord_s (g_subjects simple)))) with
    (st := XState [XStart RDF_RDF [($"rdf", rdf [])] []] 0) as [st ->]; try assumption.
  - apply simplify_flat_iff; assumption.
  - apply simplified_divisible; assumption.
  - intros s I. apply filter_In in I as [_ I]. destruct s; [discriminate|reflexivity|discriminate].
  - cbn [wbind]. eexists. reflexivity.
Qed.
Lemma c67_shows m ord_s ord_p ord_o ho n fuel g doc :
  let simple := fst (g_simplify ho n g) in
  (forall l, Permutation (ord_s l) l) -> any_order ord_p -> any_order ord_o ->
  xml_write m XStriped ord_s ord_p ord_o ho n fuel g = Done doc ->
  exists iris, NoDup iris /\ (forall i, In i iris <-> exists p o, In (MkStmt (SRes i) p o) (g_list simple)) /\
    shows_document m simple false (map SRes iris) doc.
Proof.
  intros simple HS HP HO W. destruct (xml_write_done m XStriped ord_s ord_p ord_o ho n fuel g doc HS HP HO W) as (subjects & N & I & SD). fold simple in I, SD.
  assert (X : exists iris, subjects = map SRes iris).
  { assert (A : forall s, In s subjects -> s_is_resource s = true) by (intros s J; apply I in J; apply J; reflexivity).
    clear - A. induction subjects as [|s l IH]; [exists []; reflexivity|]. destruct IH as [is ->]; [intros s' J; apply A; right; exact J|].
    specialize (A s (or_introl eq_refl)). destruct s as [|i|]; try discriminate. exists (i :: is). reflexivity. }
  destruct X as [iris ->]. exists iris. split; [eapply NoDup_map_inv; exact N|]. split; [|exact SD].
  intros i. transitivity (In (SRes i) (map SRes iris)).
  - split; [apply in_map|]. intros J. apply in_map_iff in J as (j & E & J). injection E as <-. exact J.
  - rewrite I. intuition.
Qed.

(** ** Only what is reached counts *)
Lemma groups_agree g g' s gs : (forall p o, In (MkStmt s p o) (g_list g) <-> In (MkStmt s p o) (g_list g')) ->
  groups g s gs -> groups g' s gs.
Proof. intros A (N & O & I). split; [exact N|]. split; [exact O|]. intros p o. rewrite I. apply A. Qed.
Lemma shows_agree m g g' :
  (forall s, reached g s -> forall p o, In (MkStmt s p o) (g_list g) <-> In (MkStmt s p o) (g_list g')) ->
  (forall s ev, shows_node m g false s ev -> reached g s -> shows_node m g' false s ev) /\
  (forall gs ev, shows_groups m g false gs ev -> (forall p os b, In (p, os) gs -> In (OBlank b) os -> reached g (SBlank b)) -> shows_groups m g' false gs ev) /\
  (forall ns local k os ev, shows_objects m g false ns local k os ev -> (forall b, In (OBlank b) os -> reached g (SBlank b)) -> shows_objects m g' false ns local k os ev) /\
  (forall o attrs ev, shows_object m g false o attrs ev -> (forall b, o = OBlank b -> reached g (SBlank b)) -> shows_object m g' false o attrs ev).
Proof.
  intros A. apply shows_mutind.
  - intros s gs attrs body NS G _ IH R. econstructor; [exact NS|eapply groups_agree; [apply A, R|exact G]|]. apply IH.
    intros p os b I J. eapply Re_blank; [exact R|]. apply (proj2 (proj2 G)). eauto.
  - intros _. constructor.
  - intros p os r ns local b1 b2 D _ I1 _ I2 R. econstructor; [exact D| |].
    + apply I1. intros b J. eapply R; [left; reflexivity|exact J].
    + apply I2. intros q os' b J K. eapply R; [right; exact J|exact K].
  - intros. constructor.
  - intros ns local k o os attrs inner b _ I1 _ I2 R. constructor.
    + apply I1. intros c ->. apply R. left. reflexivity.
    + apply I2. intros c J. apply R. right. exact J.
  - intros. constructor.
  - intros b E. discriminate.
  - intros b inner _ _ IH R. constructor; [reflexivity|]. apply IH, R. reflexivity.
  - intros. constructor. assumption.
Qed.
Lemma c67_lost m g g' iris doc :
  (forall s p o, reached g s -> (In (MkStmt s p o) (g_list g) <-> In (MkStmt s p o) (g_list g'))) ->
  (forall i, In i iris -> exists p o, In (MkStmt (SRes i) p o) (g_list g)) ->
  shows_document m g false (map SRes iris) doc -> shows_document m g' false (map SRes iris) doc.
Proof.
  intros A S (blocks & F & ->). exists blocks. split; [|reflexivity].
  assert (SA := proj1 (shows_agree m g g' (fun s R p o => A s p o R))).
  revert blocks F. induction iris as [|i l IH]; intros blocks F; inversion F; subst; constructor.
  - apply SA; [assumption|]. destruct (S i (or_introl eq_refl)) as (p & o & J). econstructor; exact J.
  - apply IH; [intros j J; apply S; right; exact J|assumption].
Qed.

(** ** Cycles *)
Lemma objects_in m g ns local k os ev b : shows_objects m g false ns local k os ev -> In (OBlank b) os ->
  exists inner, shows_node m g false (SBlank b) inner /\ (length inner <= length ev)%nat.
Proof.
  induction 1 as [|ns local k o os attrs inner ev SO _ IH]; intros I; [destruct I|]. destruct I as [->|I].
  - inversion SO as [|b' E|b' inner' E SN|]; [discriminate|]. subst. exists inner. split; [exact SN|]. rewrite !app_length. cbn [length]. lia.
  - destruct (IH I) as (x & SX & L). exists x. split; [exact SX|]. rewrite !app_length. cbn [length]. lia.
Qed.
Lemma groups_in m g gs ev p os b : shows_groups m g false gs ev -> In (p, os) gs -> In (OBlank b) os ->
  exists inner, shows_node m g false (SBlank b) inner /\ (length inner <= length ev)%nat.
Proof.
  induction 1 as [|q os' r ns local b1 b2 D SO _ IH]; intros I J; [destruct I|]. rewrite app_length. destruct I as [E|I].
  - injection E as -> ->. destruct (objects_in _ _ _ _ _ _ _ _ SO J) as (x & X & L). exists x. split; [exact X|lia].
  - destruct (IH I J) as (x & X & L). exists x. split; [exact X|lia].
Qed.
Lemma node_in m g s ev p b : shows_node m g false s ev -> In (MkStmt s p (OBlank b)) (g_list g) ->
  exists inner, shows_node m g false (SBlank b) inner /\ (length inner < length ev)%nat.
Proof.
  intros SN I. inversion SN as [s' gs attrs body NS G SG]; subst. destruct (proj2 (proj2 (proj2 G) p (OBlank b)) I) as (os & K & J).
  destruct (groups_in _ _ _ _ _ _ _ SG K J) as (x & X & L). exists x. split; [exact X|]. rewrite !app_length. cbn [length]. lia.
Qed.
Lemma reached_node m g iris doc s : shows_document m g false (map SRes iris) doc ->
  (forall i p o, In (MkStmt (SRes i) p o) (g_list g) -> In i iris) -> reached g s ->
  exists ev, shows_node m g false s ev.
Proof.
  intros (blocks & F & _) S R. induction R as [i p o I|s p b _ [ev IH] I].
  - apply S in I. clear - F I. revert blocks F. induction iris as [|j l IH]; intros blocks F; [destruct I|].
    inversion F; subst. destruct I as [->|I]; eauto.
  - destruct (node_in _ _ _ _ _ _ IH I) as (x & X & _). eauto.
Qed.
(** The way along blank nodes. *)
Lemma path_node m g a b : leads g a b -> forall ev, shows_node m g false (SBlank a) ev ->
  exists inner, shows_node m g false (SBlank b) inner /\ (length inner < length ev)%nat.
Proof.
  induction 1 as [a p b I|a p b c I _ IH]; intros ev SN.
  - eapply node_in; eauto.
  - destruct (node_in _ _ _ _ _ _ SN I) as (x & X & L). destruct (IH x X) as (y & Y & L'). exists y. split; [exact Y|lia].
Qed.
Lemma cycle_node m g a : leads g a a -> forall k ev, (length ev < k)%nat -> ~ shows_node m g false (SBlank a) ev.
Proof.
  intros C. induction k as [|k IH]; intros ev L SN; [lia|]. destruct (path_node m g a a C ev SN) as (x & X & L').
  apply (IH x); [lia|exact X].
Qed.
Lemma c67_cycle m ord_s ord_p ord_o ho n fuel g b :
  let simple := fst (g_simplify ho n g) in
  (forall l, Permutation (ord_s l) l) -> any_order ord_p -> any_order ord_o ->
  reached simple (SBlank b) -> leads simple b b ->
  forall doc, xml_write m XStriped ord_s ord_p ord_o ho n fuel g <> Done doc.
Proof.
  intros simple HS HP HO R C doc W. destruct (c67_shows m ord_s ord_p ord_o ho n fuel g doc HS HP HO W) as (iris & _ & I & SD). fold simple in I, SD.
  destruct (reached_node m simple iris doc (SBlank b) SD) as (ev & SN); [intros i p o J; apply I; eauto|exact R|].
  eapply (cycle_node m simple b C (S (length ev))); [|exact SN]. lia.
Qed.
