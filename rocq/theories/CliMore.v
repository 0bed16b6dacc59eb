(** Proofs of what the command line tool writes (C78). *)
From Coq Require Import Permutation Lia.
From Verif Require Import StrFacts GraphProofs SimplifyProofs LiteralProofs NTriplesProofs NTriplesRead NTriplesDocs NTriplesWrite NTriplesReject
  NTriplesMain JsonProofs JsonMain DotProofs DotMain XmlProofs XmlMain.
From Verif Require TurtleTop.
From Verif Require Import CliMain.
From Verif Require Export CliMoreSpec.

Lemma says_read e s sts : text_says e s sts -> exists g, e_nt_read e s = Ret (Ok g) /\ g_list g = sts /\ g_name g = None.
Proof.
  intros (l & D & F).
  assert (U : text_understood e s).
  { exists l. split; [exact D|]. clear D. induction F; constructor; eauto. }
  apply read_iff in U as (g & R). exists g. split; [exact R|]. destruct (read_back e s l g D R) as [N F'].
  split; [|exact N]. clear -F F'. revert F'. generalize (g_list g). induction F as [|t st l w M F IH]; intros w' F'; inversion F'; subst; [reflexivity|].
  f_equal; [|apply IH; assumption]. match goal with A : _ = io_ok st, B : _ = io_ok ?y |- _ => rewrite A in B; injection B; auto end.
Qed.
(** Literals that are read have a data type without a name of its own, and no language. *)
Definition shown_in_full (st : statement) : Prop :=
  flat st /\ match st_object st with
  | OLit l => match lit_data_type l, lit_language l with None, _ | Some (DtOther _), None => True | _, _ => False end
  | _ => True
  end.
Lemma says_full e s sts : text_says e s sts -> Forall shown_in_full sts.
Proof.
  intros S. destruct (says_read e s sts S) as (g & R & L & _). destruct S as (l & D & F).
  pose proof (read_flat e s l g D R) as FL. rewrite L in FL. clear R L D. induction F as [|t st l w M F IH]; [constructor|].
  inversion FL; subst. constructor; [|apply IH; assumption]. split; [assumption|].
  unfold triple_meaning in M. destruct (node_meaning _ _ SRes SBlank (src_s t)) as [[sb|y]|]; cbn in M; try discriminate.
  destruct (iri_meaning (e_iri e) (src_p t)) as [[p|y]|]; cbn in M; try discriminate.
  destruct (object_meaning _ _ _ _ _ (src_o t)) as [[ob|y]|] eqn:E3; cbn in M; try discriminate. injection M as <-. cbn [st_object].
  destruct (src_o t) as [n'|ps x']; cbn [object_meaning] in E3.
  - destruct n' as [l1|c|c]; cbn in E3; [destruct (iri_meaning _ l1) as [[i|y]|]|destruct (blank_meaning _ c) as [[i|y]|]|destruct (blank_meaning _ _) as [[i|y]|]];
      cbn in E3; try discriminate; injection E3 as <-; exact I.
  - destruct (suffix_meaning _ _ _ x') as [[lt|y]|] eqn:E4; cbn in E3; try discriminate. injection E3 as <-.
    destruct x' as [|w0 ws|tl]; cbn in E4.
    + injection E4 as <-. exact I.
    + destruct (e_lang e (tag_text w0 ws)) as [u|]; [|discriminate]. injection E4 as <-. exact I.
    + destruct (iri_meaning (e_iri e) tl) as [[i|y]|]; cbn in E4; try discriminate. injection E4 as <-. exact I.
Qed.
Lemma full_line m st : shown_in_full st -> line_of m st (nt_line m false st).
Proof.
  destruct st as [s p o]. intros [[FS FO] LO]. cbn [st_subject st_object st_predicate] in *. unfold nt_line. cbn [st_subject st_object st_predicate].
  change ($" <") with ($" " ++ $"<"). change ($"> ") with ($">" ++ $" ").
  replace (subj_show m s ++ ($" " ++ $"<") ++ show_iri m p ++ ($">" ++ $" ") ++ obj_show m false o ++ $" ." ++ [10])
    with (subj_show m s ++ $" " ++ iri_text m p ++ $" " ++ obj_show m false o ++ $" ." ++ [10])
    by (unfold iri_text; rewrite <- !app_assoc; reflexivity).
  constructor.
  - destruct s; try discriminate; constructor.
  - destruct o as [b|i|l|cs|t]; try contradiction; try constructor.
    replace (obj_show m false (OLit l)) with (literal_text m l); [constructor|].
    cbn [obj_show]. unfold lit_show, literal_text, lit_show_quoted, iri_text.
    destruct (lit_data_type l) as [d|]; [destruct d; destruct (lit_language l); try contradiction; reflexivity|destruct (lit_language l); reflexivity].
Qed.
Lemma nq_nt_line m st : nq_line m None st = nt_line m false st.
Proof. reflexivity. Qed.
Lemma lines_written e s sts g : env_ok e -> text_says e s sts -> e_nt_read e s = Ret (Ok g) -> g_list g = sts ->
  lines_of (e_mode e) sts (nt_write (e_mode e) false (e_orders e) (e_order e) (e_counter e) g).
Proof.
  intros [O1 O2] T R L. pose proof (says_full e s sts T) as F. unfold nt_write.
  set (g' := fst (g_simplify (e_order e) (e_counter e) g)).
  assert (I : forall st, In st (write_order (e_orders e) g') <-> In st sts).
  { intros st. rewrite write_order_In by exact O1. unfold g'. rewrite simplify_flat_list; [|exact O2|].
    - rewrite g_iter_In by exact O2. rewrite L. reflexivity.
    - rewrite L. eapply Forall_impl; [|exact F]. intros x [X _]. exact X. }
  exists (write_order (e_orders e) g'), (map (nt_line (e_mode e) false) (write_order (e_orders e) g')).
  split; [apply write_order_NoDup, O1|]. split; [exact I|]. split; [|apply flat_map_concat_map].
  assert (W : Forall shown_in_full (write_order (e_orders e) g')).
  { apply Forall_forall. intros st J. apply I in J. rewrite Forall_forall in F. apply F, J. }
  clear I. induction W as [|st w FU W IH]; cbn [map]; constructor; [apply full_line; exact FU|exact IH].
Qed.

Lemma c78_lines e s sts : env_ok e -> text_says e s sts -> exists out, lines_of (e_mode e) sts out /\
  convert e FNTriples (Some FNTriples) (text_input s) = Exits true (Some (OutText out)) /\
  convert e FNTriples (Some FNQuads) (text_input s) = Exits true (Some (OutText out)).
Proof.
  intros EO T. destruct (says_read e s sts T) as (g & R & L & N). eexists. split; [apply (lines_written e s sts g); eassumption|].
  split; [apply convert_nt, R|]. unfold convert. rewrite read_graph_text, R. cbn. do 3 f_equal.
  unfold nq_write, nt_write. rewrite simplify_name, N. apply flat_map_ext. intros st. apply nq_nt_line.
Qed.
Lemma c78_json e s sts : env_ok e -> text_says e s sts -> exists doc, JsonSpec.describes (e_mode e) doc sts /\
  convert e FNTriples (Some FJson) (text_input s) = Exits true (Some (OutJson doc)).
Proof.
  intros [O1 O2] T. destruct (says_read e s sts T) as (g & R & L & N). pose proof (says_full e s sts T) as F.
  destruct (c47_flat (e_mode e) (e_orders e) (e_order e) (e_counter e) g O1 O2) as (doc & W & D).
  { rewrite L. eapply Forall_impl; [|exact F]. intros x [X _]. exact X. }
  exists doc. rewrite <- L. split; [exact D|]. unfold convert. rewrite read_graph_text, R. cbn. rewrite W. reflexivity.
Qed.
Lemma flat_simplifiable st : flat st -> simplifiable st.
Proof.
  destruct st as [s p o]. intros [FS FO]. unfold simplifiable. cbn [st_subject st_object] in *.
  destruct s; try discriminate; destruct o; try contradiction; exact I.
Qed.
Lemma c78_xml e s sts f : env_orders e -> e_fuel e = S f -> text_says e s sts ->
  (divisible (e_mode e) sts -> exists g doc subjects, (forall st, In st (g_list g) <-> In st sts) /\
     NoDup subjects /\ (forall s', In s' subjects <-> exists p o, In (MkStmt s' p o) sts) /\
     shows_document (e_mode e) g true subjects doc /\
     convert e FNTriples (Some FXml) (text_input s) = Exits true (Some (OutXml doc))) /\
  (~ divisible (e_mode e) sts -> convert e FNTriples (Some FXml) (text_input s) = Panics).
Proof.
  intros ((O1 & O2) & OP & OO & OS & OV) FU T. destruct (says_read e s sts T) as (g & R & L & N). pose proof (says_full e s sts T) as F.
  assert (FL : Forall flat (g_list g)) by (rewrite L; eapply Forall_impl; [|exact F]; intros x [X _]; exact X).
  assert (SI : Forall simplifiable (g_list g)) by (eapply Forall_impl; [|exact FL]; apply flat_simplifiable).
  unfold convert. rewrite read_graph_text, R. cbn. rewrite FU. split; intros D.
  - destruct (c66 (e_mode e) (e_ord_s e O) (e_ord_p e) (e_ord_o e) (e_order e) (e_counter e) f g) as (doc & subjects & W & ND & IN & SD);
      [intros l; apply OS|exact OP|exact OO|exact O2|exact SI|rewrite L; exact D|].
    rewrite (simplify_flat_list _ _ _ O2 FL) in IN.
    exists (fst (g_simplify (e_order e) (e_counter e) g)), doc, subjects.
    assert (I : forall st, In st (g_iter (e_order e) g) <-> In st sts) by (intros st; rewrite g_iter_In by exact O2; rewrite L; reflexivity).
    split; [rewrite (simplify_flat_list _ _ _ O2 FL); exact I|]. split; [exact ND|]. split.
    + intros s'. rewrite IN. split; intros (p & o & J); exists p, o; apply I, J.
    + split; [exact SD|]. rewrite W. reflexivity.
  - rewrite c50_panics; [reflexivity|intros l; apply OS|exact OP|exact OO|exact O2|exact SI|rewrite L; exact D].
Qed.
Lemma c78_arrows e s sts : env_orders e -> (forall g i, e_compress e g i <> Panic) -> text_says e s sts ->
  exists g d, g_list g = sts /\ arrows_of (e_mode e) (e_compress e g) sts d /\
    draw e FNTriples (text_input s) = Exits true (Some (OutDot d)).
Proof.
  intros ((O1 & O2) & OP & OO & OS & OV) C T. destruct (says_read e s sts T) as (g & R & L & N). pose proof (says_full e s sts T) as F.
  unfold draw. cbn [is_dataset_representation]. rewrite read_graph_text, R. cbn.
  destruct (dot_write (e_mode e) (e_compress e g) dot_default_options (e_order e) (e_ord_v e) [] g) as [[d nodes]|] eqn:W.
  2: { apply c52_written in W as (st & _ & W); [|exact O2]. destruct (C _ _ W). }
  exists g, d. split; [exact L|]. split; [|reflexivity].
  destruct (c52_exact (e_mode e) (e_compress e) dot_default_options (e_order e) (e_ord_v e) [] [] [] g d nodes O2 OV eq_refl W)
    as (terms & node & _ & _ & _ & _ & I & _ & E).
  assert (DR : forall st x, In st sts -> x = to_object (st_subject st) \/ x = st_object st -> drawn x).
  { intros st x J X. rewrite Forall_forall in F. apply F in J as [[FS FO] _]. destruct X as [-> | ->].
    - destruct (st_subject st); try discriminate; exact Logic.I.
    - destruct (st_object st); try contradiction; exact Logic.I. }
  exists (g_iter (e_order e) g), node. split; [rewrite <- L; apply g_iter_perm, O2|]. split.
  - intros st x y J X. apply (I g x y (or_introl eq_refl)); [exists st; rewrite L; auto|eapply DR; eassumption].
  - assert (S : forall st, In st (g_iter (e_order e) g) -> In st sts) by (intros st J; apply g_iter_In in J; [rewrite <- L; exact J|exact O2]).
    clear -E S DR. induction E as [|st a l es (A & B & P) E IH]; constructor.
    + pose proof (S st (or_introl eq_refl)) as J. split; [apply A, (DR st); auto|]. split; [apply B, (DR st); auto|exact P].
    + apply IH. intros st' J. apply S. right. exact J.
Qed.

(** ** Turtle *)
Import TurtleSpec.
Lemma size_perm l l' : Permutation l l' ->
  list_sum (map (fun st => object_size (st_object st)) l) = list_sum (map (fun st => object_size (st_object st)) l').
Proof. induction 1; cbn [map list_sum fold_right] in *; unfold list_sum in *; cbn [map fold_right]; lia. Qed.
Lemma cyclic_In g g' : (forall st, In st (g_list g') -> In st (g_list g)) -> cyclic g' -> cyclic g.
Proof.
  intros I (b & C). exists b. clear -I C. revert C. generalize b at 1 3. generalize b. intros y0 x0 C. induction C as [x y S|x y z _ IH1 _ IH2]; [|eapply Relation_Operators.t_trans; eassumption].
  apply Relation_Operators.t_step. destruct S as (p & o & J & Q). exists p, o. split; [apply I, J|exact Q].
Qed.
Lemma can_be_written_perm c g g' f : Permutation (g_list g') (g_list g) -> can_be_written c g f -> can_be_written c g' f.
Proof.
  intros P (S & W & R & L & A). split; [exact S|]. split; [|split; [exact R|split]].
  - intros s p o J. apply W. eapply Permutation_in; [exact P|exact J].
  - unfold graph_size in *. rewrite (size_perm _ _ P). exact L.
  - destruct A as [A|A]; [left; exact A|right]. intros C. apply A. eapply cyclic_In; [|exact C]. intros st J. eapply Permutation_in; [exact P|exact J].
Qed.
Lemma c78_turtle e s sts : hash_order (e_order e) -> text_says e s sts ->
  exists g, g_list g = sts /\
  (can_be_written (turtle_setting e g) g (e_fuel e) -> exists out d g',
     Permutation (g_list g') sts /\ document (turtle_setting e g) g' d /\
     tight out = head_of (turtle_setting e g) (e_mappings e g) ++ flat_map (block_pieces [Sign $","]) d /\
     convert e FNTriples None (text_input s) = Exits true (Some (OutTurtle out)) /\
     convert e FNTriples (Some FTurtle) (text_input s) = Exits true (Some (OutTurtle out))).
Proof.
  intros O T. destruct (says_read e s sts T) as (g & R & L & N). pose proof (says_full e s sts T) as F.
  exists g. split; [exact L|]. intros W.
  assert (NN : forall st, In st (g_list g) -> is_nested st = false).
  { intros st J. rewrite L in J. rewrite Forall_forall in F. apply F in J as [[FS FO] _]. destruct st as [s' p o]. unfold is_nested.
    cbn [st_subject st_object] in *. destruct s'; try discriminate; destruct o; try contradiction; reflexivity. }
  destruct (TurtleTop.c63_plain (e_order e) (e_counter e) g O NN) as [P _].
  destruct (TurtleTop.written_document _ _ (e_mappings e g) _ (can_be_written_perm _ _ _ _ P W)) as (d & (out & E & TI) & D).
  exists out, d, (ttl_denest (e_order e) (e_counter e) g). split; [rewrite <- L; exact P|]. split; [exact D|]. split; [exact TI|].
  assert (X : write_graph e (e_counter e) g FTurtle = Done (OutTurtle out)).
  { unfold doc_of in E. cbn [turtle_setting t_modulus t_mode t_iri t_parse t_gext t_printable t_compress t_opts t_predicates t_objects t_subjects] in E.
    unfold write_graph, ttl_write. rewrite E. reflexivity. }
  unfold convert. rewrite read_graph_text, R. cbn [of_io wbind and_then]. rewrite X. split; reflexivity.
Qed.

(** ** RDF/JSON *)
Lemma denoted_flat iri_parse lang_parse label_ok gext printable doc st :
  lists iri_parse lang_parse label_ok gext printable doc st -> flat st.
Proof.
  intros (k & p & x & _ & S & _ & D). split.
  - destruct S as [(b & _ & _ & ->)|(i & _ & _ & ->)]; reflexivity.
  - inversion D; exact I.
Qed.
Lemma c78_json_in e v to : env_ok e -> js_wf v -> In to line_formats ->
  let sense := sensible (e_iri e) (e_lang e) (e_label e) (e_gext e) (e_printable e) v in
  (sense -> exists o, convert e FJson (Some to) (json_input v) = Exits true (Some o)) /\
  (~ sense -> forall f, convert e FJson f (json_input v) = Exits false None \/
     convert e FJson f (json_input v) = Panics /\ exists k p m t, has_entry v k p (JObject m) /\
       entry_value m $"type" $"bnode" /\ entry_value m $"value" t /\ forall w, ~ after_two_bytes t w).
Proof.
  intros [O1 O2] WF T sense. destruct (c61_reads (e_iri e) (e_lang e) (e_label e) (e_gext e) (e_printable e) v WF) as [A B].
  unfold convert. cbn [read_graph in_json json_input]. split.
  - intros S. apply A in S as (g & R). rewrite R. cbn [of_io wbind and_then]. destruct (B g R) as [_ L].
    assert (FL : Forall flat (g_list g)) by (apply Forall_forall; intros st J; apply L in J; eapply denoted_flat; exact J).
    assert (W : exists o, write_graph e (e_counter e) g to = Done o).
    { cbn in T. destruct T as [<-|[<-|[<-|[<-|[]]]]]; cbn; try (eexists; reflexivity).
      destruct (c47_flat (e_mode e) (e_orders e) (e_order e) (e_counter e) g O1 O2 FL) as (doc & E & _). rewrite E. eexists. reflexivity. }
    destruct W as (o & W). rewrite W. cbn. eauto.
  - intros S f. destruct (js_read _ _ _ _ _ v) as [[g|x]|] eqn:R; cbn [of_io and_then];
      [exfalso; apply S, A; eauto|left; reflexivity|right; split; [reflexivity|exact (c61_panic _ _ _ _ _ v WF R)]].
Qed.
Lemma c78_json_json e v : env_ok e -> js_wf v -> sensible (e_iri e) (e_lang e) (e_label e) (e_gext e) (e_printable e) v ->
  exists sts doc, (forall st, In st sts <-> lists (e_iri e) (e_lang e) (e_label e) (e_gext e) (e_printable e) v st) /\
    JsonSpec.describes (e_mode e) doc sts /\ convert e FJson (Some FJson) (json_input v) = Exits true (Some (OutJson doc)).
Proof.
  intros [O1 O2] WF S. destruct (c61_reads (e_iri e) (e_lang e) (e_label e) (e_gext e) (e_printable e) v WF) as [A B].
  apply A in S as (g & R). destruct (B g R) as [_ L].
  assert (FL : Forall flat (g_list g)) by (apply Forall_forall; intros st J; apply L in J; eapply denoted_flat; exact J).
  destruct (c47_flat (e_mode e) (e_orders e) (e_order e) (e_counter e) g O1 O2 FL) as (doc & E & D).
  exists (g_list g), doc. split; [exact L|]. split; [exact D|]. unfold convert. cbn [read_graph in_json json_input]. rewrite R. cbn. rewrite E. reflexivity.
Qed.
Lemma c79_json e s sts i p o : env_ok e -> (forall t, e_iri e (60 :: t) = None) -> text_says e s sts -> In (MkStmt (SRes i) p o) sts ->
  exists v, convert e FNTriples (Some FJson) (text_input s) = Exits true (Some (OutJson v)) /\
    forall to, convert e FJson to (json_input v) = Exits false None.
Proof.
  intros [O1 O2] NB T J. destruct (says_read e s sts T) as (g & R & L & N). pose proof (says_full e s sts T) as F.
  assert (FL : Forall flat (g_list g)) by (rewrite L; eapply Forall_impl; [|exact F]; intros x [X _]; exact X).
  destruct (c46_fails (e_iri e) (e_lang e) (e_label e) (e_gext e) (e_printable e) (e_mode e) (e_orders e) (e_order e) (e_counter e) g O1 O2 NB FL)
    as (doc & W & X & _).
  { rewrite L. intros Z. rewrite Z in J. destruct J. }
  exists doc. unfold convert. rewrite read_graph_text, R. cbn. rewrite W. split; [reflexivity|]. intros to. rewrite X; [reflexivity|].
  exists (MkStmt (SRes i) p o), i. rewrite L. auto.
Qed.
