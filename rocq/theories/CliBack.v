(** Proofs of C107. *)
From Coq Require Import Permutation Lia.
From Verif Require Import StrFacts GraphProofs SimplifyProofs LiteralProofs NTriplesProofs NTriplesRead NTriplesDocs NTriplesWrite NTriplesReject
  NTriplesMain JsonProofs JsonMain XmlProofs XmlMain XmlBack XmlTrip CliMain CliMore.
From Verif Require TurtleTop TurtleRead.
From Verif Require Export CliBackSpec.

(** Lines for any graph of statements that are shown in full. *)
Lemma full_lines e n g sts : env_ok e -> Forall shown_in_full sts -> (forall st, In st (g_list g) <-> In st sts) ->
  lines_of (e_mode e) sts (nt_write (e_mode e) false (e_orders e) (e_order e) n g).
Proof.
  intros [O1 O2] F E. assert (Fg : Forall shown_in_full (g_list g)).
  { apply Forall_forall. intros st J. rewrite Forall_forall in F. apply F, E, J. }
  unfold nt_write. set (g' := fst (g_simplify (e_order e) n g)).
  assert (I : forall st, In st (write_order (e_orders e) g') <-> In st sts).
  { intros st. rewrite write_order_In by exact O1. unfold g'. rewrite simplify_flat_list; [|exact O2|].
    - rewrite g_iter_In by exact O2. apply E.
    - eapply Forall_impl; [|exact Fg]. intros x [X _]. exact X. }
  exists (write_order (e_orders e) g'), (map (nt_line (e_mode e) false) (write_order (e_orders e) g')).
  split; [apply write_order_NoDup, O1|]. split; [exact I|]. split; [|apply flat_map_concat_map].
  assert (W : Forall shown_in_full (write_order (e_orders e) g')).
  { apply Forall_forall. intros st J. apply I in J. rewrite Forall_forall in F. apply F, J. }
  clear I. induction W as [|st w FU W IH]; cbn [map]; constructor; [apply full_line; exact FU|exact IH].
Qed.

(** ** RDF/JSON *)
Lemma json_kept e s l sts : normalises e -> doc_at triple_at l s -> Forall labelled_triple l -> triples_say e l sts ->
  Forall json_keeps sts -> Forall (Forall (prints_as_itself (e_gext e) (e_printable e))) (quoted_texts l) ->
  Forall (js_readable (e_iri e) (e_lang e) (e_label e)) sts /\ Forall (js_stable (e_gext e) (e_printable e)) sts.
Proof.
  intros NF (s' & _ & IT) L F K Q. assert (X := items_each _ _ _ IT). clear IT.
  induction F as [|t st l sts M F IH]; [split; constructor|]. apply Forall_inv in L as L1. apply Forall_inv_tail in L.
  apply Forall_inv in K as K1. apply Forall_inv_tail in K. rewrite texts_cons in Q. apply Forall_app in Q as [Q1 Q].
  destruct IH as [IH1 IH2]; [exact L|exact K|exact Q|intros u J; apply X; right; exact J|].
  destruct (X t (or_introl eq_refl)) as (a & b & AT). destruct (statement_read e NF t st a b AT L1 M) as (S & (_ & P) & O).
  destruct K1 as ((bl & Sb) & Ob). rewrite Sb in S. destruct S as [_ S].
  split; (constructor; [|assumption]).
  - split; [exists bl; auto|]. split; [exact P|]. unfold js_object_readable. destruct (st_object st) as [c|i|lt|cs|q]; try contradiction.
    + destruct (text_of (src_o t)); [contradiction|]. apply O.
    + destruct (text_of (src_o t)) as [x|]; [|contradiction]. destruct O as [_ O].
      destruct (lit_data_type lt) as [d|]; [destruct d; try contradiction; destruct (lit_language lt); [contradiction|]; apply O|].
      destruct (lit_language lt); [apply O|exact I].
  - unfold js_stable. destruct (st_object st) as [c|i|lt|cs|q]; try contradiction; [exact I|].
    destruct (text_of (src_o t)) as [x|]; [|contradiction]. destruct O as [O _]. split.
    + rewrite O. apply escape_itself_iff. inversion Q1; assumption.
    + destruct (lit_data_type lt) as [d|]; [apply Ob; reflexivity|exact I].
Qed.
Lemma c107_json e s l sts : normalises e -> env_ok e -> e_mode e = Bare -> doc_at triple_at l s -> Forall labelled_triple l ->
  triples_say e l sts -> Forall json_keeps sts -> Forall (Forall (prints_as_itself (e_gext e) (e_printable e))) (quoted_texts l) ->
  exists v out, convert e FNTriples (Some FJson) (text_input s) = Exits true (Some (OutJson v)) /\
    convert e FJson (Some FNTriples) (json_input v) = Exits true (Some (OutText out)) /\ lines_of Bare sts out.
Proof.
  intros NF EO M D L F K Q. destruct (json_kept e s l sts NF D L F K Q) as [R S].
  assert (T : text_says e s sts) by (exists l; auto). destruct (says_read e s sts T) as (g & Rd & Lg & _). pose proof (says_full e s sts T) as Fu.
  destruct EO as [O1 O2]. rewrite <- Lg in R, S.
  destruct (c46_stable (e_iri e) (e_lang e) (e_label e) (e_gext e) (e_printable e) (e_orders e) (e_order e) (e_counter e) g O1 O2 R S) as (v & g' & W & B & _ & E).
  exists v, (nt_write Bare false (e_orders e) (e_order e) (e_counter e) g'). split; [|split].
  - unfold convert. rewrite read_graph_text, Rd. cbn. rewrite M, W. reflexivity.
  - unfold convert. cbn. rewrite B. cbn. rewrite M. reflexivity.
  - rewrite <- M. apply full_lines; [split; assumption|exact Fu|]. intros st. rewrite E, Lg. reflexivity.
Qed.
Lemma c107_json_fails e s sts st i : env_ok e -> (forall t, e_iri e (60 :: t) = None) -> text_says e s sts -> In st sts ->
  st_subject st = SRes i ->
  exists v, convert e FNTriples (Some FJson) (text_input s) = Exits true (Some (OutJson v)) /\
    forall to, convert e FJson to (json_input v) = Exits false None.
Proof.
  intros [O1 O2] X T J S. destruct (says_read e s sts T) as (g & Rd & Lg & _). pose proof (says_full e s sts T) as Fu.
  destruct (c46_fails (e_iri e) (e_lang e) (e_label e) (e_gext e) (e_printable e) (e_mode e) (e_orders e) (e_order e) (e_counter e) g O1 O2 X) as (v & W & B & _).
  - rewrite Lg. eapply Forall_impl; [|exact Fu]. intros x [Y _]. exact Y.
  - rewrite Lg. intros ->. destruct J.
  - exists v. split.
    + unfold convert. rewrite read_graph_text, Rd. cbn. rewrite W. reflexivity.
    + intros to. unfold convert. cbn. rewrite B; [reflexivity|]. exists st, i. rewrite Lg. auto.
Qed.

(** ** RDF/XML *)
Lemma xml_written e s sts g f : env_orders e -> e_fuel e = S f -> text_says e s sts -> e_nt_read e s = Ret (Ok g) -> g_list g = sts ->
  divisible (e_mode e) sts -> exists doc,
  xml_write (e_mode e) XFlat (e_ord_s e 0%nat) (e_ord_p e) (e_ord_o e) (e_order e) (e_counter e) (e_fuel e) g = Done doc /\
  convert e FNTriples (Some FXml) (text_input s) = Exits true (Some (OutXml doc)) /\
  (forall st, In st (g_list (fst (g_simplify (e_order e) (e_counter e) g))) <-> In st sts).
Proof.
  intros ((O1 & O2) & OP & OO & OS & OV) FU T R L D. pose proof (says_full e s sts T) as F.
  assert (FL : Forall flat (g_list g)) by (rewrite L; eapply Forall_impl; [|exact F]; intros x [X _]; exact X).
  destruct (c66 (e_mode e) (e_ord_s e O) (e_ord_p e) (e_ord_o e) (e_order e) (e_counter e) f g) as (doc & subjects & W & _);
    [intros l; apply OS|exact OP|exact OO|exact O2|eapply Forall_impl; [|exact FL]; apply flat_simplifiable|rewrite L; exact D|].
  exists doc. rewrite FU. split; [exact W|]. split.
  - unfold convert. rewrite read_graph_text, R. cbn. rewrite FU, W. reflexivity.
  - intros st. rewrite (simplify_flat_list _ _ _ O2 FL), g_iter_In by exact O2. rewrite L. reflexivity.
Qed.
Lemma c107_xml e s sts : env_orders e -> e_mode e = Bare -> e_fuel e <> 0%nat -> text_says e s sts ->
  (forall st, In st sts -> statement_carried (e_iri e) (e_lang e) (e_label e) st /\ xml_stable (e_gext e) (e_printable e) st) ->
  prefixed_once sts ->
  exists doc, convert e FNTriples (Some FXml) (text_input s) = Exits true (Some (OutXml doc)) /\
    forall items, parses_to doc items -> (length items < e_fuel e)%nat ->
    exists out, convert e FXml (Some FNTriples) (xml_input items) = Exits true (Some (OutText out)) /\ lines_of Bare sts out.
Proof.
  intros EO M Fz T C P. destruct (e_fuel e) as [|f] eqn:Ef; [congruence|]. destruct (says_read e s sts T) as (g & Rd & Lg & _).
  assert (D : divisible (e_mode e) sts).
  { intros st J. destruct (C st J) as [(_ & (_ & (ns & local & Dv & _)) & _) _]. exists ns, local. rewrite M. exact Dv. }
  destruct (xml_written e s sts g f EO Ef T Rd Lg D) as (doc & W & Cv & I). exists doc. split; [exact Cv|]. intros items Pi Len.
  destruct EO as (EO & OP & OO & OS & OV). rewrite M in W.
  destruct (c68_stable (e_ord_s e 0%nat) (e_ord_p e) (e_ord_o e) (e_order e) (e_counter e) (e_fuel e) g doc items (e_iri e) (e_lang e) (e_label e)
    (e_gext e) (e_printable e) (OS 0%nat) OP OO) as (sts' & _ & I' & B).
  - intros st J. apply C, I, J.
  - intros s' p o o' ns local J1 J2. apply (P s' p o o'); apply I; assumption.
  - exact W.
  - exact Pi.
  - exists (nt_write Bare false (e_orders e) (e_order e) (e_counter e) (g_from_iter sts')). split.
    + unfold convert. cbn [read_graph xml_input in_events]. rewrite B by (rewrite Ef; exact Len). cbn. rewrite M. reflexivity.
    + rewrite <- M. apply full_lines; [exact EO|apply (says_full e s sts T)|]. intros st. rewrite <- I, <- I'. reflexivity.
Qed.
Lemma c107_xml_fails e s sts a p i b q j : env_orders e -> e_mode e = Bare -> e_fuel e <> 0%nat -> text_says e s sts -> divisible Bare sts ->
  In (MkStmt a p (ORes i)) sts -> In (MkStmt b q (ORes j)) sts -> a <> b ->
  exists doc, convert e FNTriples (Some FXml) (text_input s) = Exits true (Some (OutXml doc)) /\
    forall items to o, parses_to doc items -> convert e FXml to (xml_input items) <> Exits true o.
Proof.
  intros EO M Fz T D J1 J2 N. destruct (e_fuel e) as [|f] eqn:Ef; [congruence|]. destruct (says_read e s sts T) as (g & Rd & Lg & _).
  rewrite <- M in D. destruct (xml_written e s sts g f EO Ef T Rd Lg D) as (doc & W & Cv & I). exists doc. split; [exact Cv|].
  intros items to o Pi H. destruct EO as (EO & OP & OO & OS & OV). unfold convert in H. cbn [read_graph xml_input in_events] in H.
  destruct (xml_read (e_mode e) (e_iri e) (e_lang e) (e_label e) (e_gext e) (e_printable e) (e_emitted e) (e_fuel e) (e_counter e) items) as [x| | |] eqn:R; try discriminate H.
  rewrite M in W. revert R. eapply c68_iris; [apply (OS 0%nat)|exact OP|exact OO|apply I; exact J1|apply I; exact J2|exact N|exact W|exact Pi].
Qed.

Lemma c107_angled e s sts : env_orders e -> (forall t, e_iri e (60 :: t) = None) -> e_mode e = Angled -> e_fuel e <> 0%nat ->
  text_says e s sts -> sts <> [] -> divisible Angled sts ->
  (exists v, convert e FNTriples (Some FJson) (text_input s) = Exits true (Some (OutJson v)) /\
     forall to, convert e FJson to (json_input v) = Exits false None) /\
  (exists doc, convert e FNTriples (Some FXml) (text_input s) = Exits true (Some (OutXml doc)) /\
     forall items to o, parses_to doc items -> convert e FXml to (xml_input items) <> Exits true o).
Proof.
  intros EO X M Fz T NE D. destruct (says_read e s sts T) as (g & Rd & Lg & _). pose proof (says_full e s sts T) as Fu. split.
  - destruct EO as ((O1 & O2) & _).
    destruct (c46_fails (e_iri e) (e_lang e) (e_label e) (e_gext e) (e_printable e) (e_mode e) (e_orders e) (e_order e) (e_counter e) g O1 O2 X) as (v & W & _ & B).
    + rewrite Lg. eapply Forall_impl; [|exact Fu]. intros x [Y _]. exact Y.
    + rewrite Lg. exact NE.
    + exists v. split.
      * unfold convert. rewrite read_graph_text, Rd. cbn. rewrite W. reflexivity.
      * intros to. unfold convert. cbn. destruct (B M) as (er & -> & _). reflexivity.
  - destruct (e_fuel e) as [|f] eqn:Ef; [congruence|]. rewrite <- M in D.
    destruct (xml_written e s sts g f EO Ef T Rd Lg D) as (doc & W & Cv & I). exists doc. split; [exact Cv|].
    intros items to o Pi H. destruct EO as (EO & OP & OO & OS & OV). unfold convert in H. cbn [read_graph xml_input in_events] in H.
    destruct (xml_read (e_mode e) (e_iri e) (e_lang e) (e_label e) (e_gext e) (e_printable e) (e_emitted e) (e_fuel e) (e_counter e) items) as [x| | |] eqn:R; try discriminate H.
    rewrite M in W. revert R. eapply (c68_angled XFlat); [apply (OS 0%nat)|exact OP|exact OO| |exact W|exact Pi].
    destruct sts as [|[a p b] sts]; [congruence|]. exists a, p, b. split; [apply I; left; reflexivity|discriminate].
Qed.

(** ** Turtle *)
Lemma c107_turtle e s sts base : hash_order (e_order e) -> text_says e s sts ->
  exists g, g_list g = sts /\
  (readable_graph (turtle_setting e g) base (e_mappings e g) g -> TurtleSpec.has_room (turtle_setting e g) (e_fuel e) ->
   (TurtleSpec.graph_size g < e_fuel e)%nat ->
   exists out l read, convert e FNTriples None (text_input s) = Exits true (Some (OutTurtle out)) /\
     NoDup l /\ (forall st, In st l <-> In st sts) /\ turtle_reads (Turtle.pieces_text out) read /\
     Forall2 (statement_means g true) l read).
Proof.
  intros O T. destruct (says_read e s sts T) as (g & R & L & _). pose proof (says_full e s sts T) as F. exists g. split; [exact L|].
  intros Rg Rm Sz. destruct (TurtleRead.c100_written _ _ _ _ (e_fuel e) (e_order e) (e_counter e) Rg) as (out & l & read & W & N & A & X & Y);
    [|exact Rm|exact Sz|exact O|].
  - intros st items J Q. rewrite L in J. rewrite Forall_forall in F. apply F in J as [[_ FO] _]. exfalso.
    destruct (st_object st); try contradiction; inversion Q.
  - exists out, l, read. rewrite L in A. split; [|auto]. unfold convert. rewrite read_graph_text, R. cbn [of_io wbind and_then].
    unfold TurtleSpec.written in W.
    cbn [turtle_setting TurtleSpec.t_modulus TurtleSpec.t_mode TurtleSpec.t_iri TurtleSpec.t_parse TurtleSpec.t_gext TurtleSpec.t_printable TurtleSpec.t_compress TurtleSpec.t_opts TurtleSpec.t_predicates TurtleSpec.t_objects TurtleSpec.t_subjects] in W.
    unfold write_graph. rewrite W. reflexivity.
Qed.

(** A text that is read says what is read. *)
Lemma read_says e s g : e_nt_read e s = Ret (Ok g) -> text_says e s (g_list g).
Proof.
  intros R. destruct (proj1 (read_iff e s) (ex_intro _ g R)) as (l & D & _). exists l. split; [exact D|]. apply (read_back e s l g D R).
Qed.
Lemma one_line m st out : lines_of m [st] out -> line_of m st out.
Proof.
  intros (each & lines & N & I & F & ->). destruct each as [|x each]; [destruct (proj2 (I st) (or_introl eq_refl))|].
  destruct (proj1 (I x) (or_introl eq_refl)) as [<-|[]]. destruct each as [|y each].
  - inversion F as [|? ? ? ? L F']; subst. inversion F'; subst. cbn. rewrite app_nil_r. exact L.
  - exfalso. destruct (proj1 (I y) (or_intror (or_introl eq_refl))) as [<-|[]]. apply NoDup_cons_iff in N as [N _]. apply N. left. reflexivity.
Qed.
