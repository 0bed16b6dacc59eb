(** Property theorems C78 and C79 (the command line tool).  Statements only; proofs in
    CliMain.v and CliMore.v.

    [e] is everything the readers and writers depend on besides their input: the parsers of
    IRIs, language tags and labels, the tables behind the printing of strings, the iteration
    orders of the hash sets, and the counter of blank node labels. *)
From Verif Require Import Str Literal Term Graph NTriples NTriplesSpec NTriplesWriteSpec LiteralSpec Cli CliSpec CliMain CliMore.

(** ** Examples used below *)
Definition cli_iri (t : str) : option str :=
  if forallb (fun c => N.ltb 32 c && negb (existsb (N.eqb c) [60; 62; 34; 123; 125; 124; 94; 96; 92])) t then Some t else None.
Definition cli_lang (t : str) : option str :=
  match t with [] => None | _ => if forallb is_alpha t then Some t else None end.
Definition cli_env (m : iri_mode) : env :=
  Env cli_iri cli_lang (fun _ => true) (fun _ => false) (fun c => N.leb 32 c && N.leb c 126) m
    (Orders (@rev _) (fun _ l => l) (fun _ _ => @rev _)) (@rev _) 0 256 Wrapping (fun _ _ => Ret None) (fun _ => [])
    (fun _ l => l) (fun _ l => l) (fun _ l => l) (@rev _) (fun _ => []) 10%nat.
Lemma cli_ok m : env_ok (cli_env m).
Proof.
  split; [split; [|split]|]; intros; cbn; try (apply Permutation_sym, Permutation_rev); try apply Permutation_refl.
  intros l. apply Permutation_sym, Permutation_rev.
Qed.
Lemma cli_normalises m : normalises (cli_env m).
Proof.
  split.
  - intros t i. cbn. unfold cli_iri at 1. destruct (forallb _ t) eqn:F; [|discriminate]. intros E. injection E as <-.
    split; [|unfold cli_iri; rewrite F; reflexivity]. rewrite forallb_forall in F. apply Forall_forall. intros c J. apply F in J.
    apply andb_prop in J as [J1 J2]. split; [apply N.ltb_lt, J1|]. intros K. apply Bool.negb_true_iff in J2.
    assert (X : existsb (N.eqb c) [60; 62; 34; 123; 125; 124; 94; 96; 92] = true) by (apply existsb_exists; exists c; split; [right; exact K|apply N.eqb_refl]).
    congruence.
  - intros t u. cbn. destruct t as [|c t]; [discriminate|]. unfold cli_lang at 1. destruct (forallb is_alpha (c :: t)) eqn:F; [|discriminate].
    intros E. injection E as <-. split; [|unfold cli_lang; rewrite F; reflexivity]. exists (c :: t), [].
    split; [discriminate|]. split; [exact F|]. split; [constructor|]. unfold tag_text. cbn. rewrite app_nil_r. reflexivity.
Qed.
(** The document [_:s<p:q> "..." .] *)
Definition cli_src (l : list piece) : list triple_src := [TripleSrc (NLabel $"s") (map Plain $"p:q") (OString l NoSuffix)].
Definition cli_doc (l : list piece) : str := $"_:s<p:q> """ ++ pieces_text l ++ $""" .".
Lemma cli_doc_at l : Forall string_piece l -> doc_at triple_at (cli_src l) (cli_doc l).
Proof.
  intros F. exists (cli_doc l). split; [apply gap_none|]. eapply at_item with (s1 := []) (s2 := []); [|apply gap_none|constructor].
  eapply at_triple with (s1 := $" ."); [|apply gap_white; [cbn; auto|apply gap_none]].
  eapply at_spo with (s1 := $"<p:q> """ ++ pieces_text l ++ $""" .") (s2 := $" """ ++ pieces_text l ++ $""" .")
    (s3 := $"""" ++ pieces_text l ++ $""" .").
  - apply (at_label $"s"); [cbn; auto|]. split; [reflexivity|discriminate].
  - repeat (apply Forall_cons; [cbn; split; [reflexivity|intuition discriminate]|]); apply Forall_nil.
  - apply gap_none.
  - apply gap_white; [cbn; auto|apply gap_none].
  - apply (at_string l); [exact F|apply at_none].
Qed.
Lemma cli_labelled l : Forall labelled_triple (cli_src l).
Proof. repeat constructor. Qed.

(** ** C78 *)

(** C78: a conversion that reports success has read N-Triples, RDF/JSON or RDF/XML and has
    written a format other than JSON-LD and N3. *)
Theorem C78_success : forall e from to i o, convert e from to i = Exits true o ->
  In from [FJson; FNTriples; FXml] /\ ~ In to [Some FJsonLd; Some FN3] /\ o <> None.
Proof. exact c78_success. Qed.
Print Assumptions C78_success.

(** C78: N-Triples are converted to RDF/JSON, N-Quads, N-Triples and TriG if every statement
    can be understood; otherwise nothing is written and a failure is reported, whatever the
    target, unless reading panics (C44). *)
Theorem C78_converted : forall e s to, env_ok e -> In to line_formats ->
  (text_understood e s -> exists o, convert e FNTriples (Some to) (text_input s) = Exits true (Some o)) /\
  (~ text_understood e s -> forall f, convert e FNTriples f (text_input s) = Exits false None \/
     convert e FNTriples f (text_input s) = Panics /\ e_nt_read e s = Panic).
Proof. exact c78_text. Qed.
Print Assumptions C78_converted.

(** C78: and they are drawn under the same condition (unless shortening an IRI panics). *)
Theorem C78_drawn : forall e s, hash_order (e_order e) -> (forall g i, e_compress e g i <> Panic) ->
  (text_understood e s -> exists d, draw e FNTriples (text_input s) = Exits true (Some (OutDot d))) /\
  (~ text_understood e s -> draw e FNTriples (text_input s) = Exits false None \/
     draw e FNTriples (text_input s) = Panics /\ e_nt_read e s = Panic).
Proof. exact c78_draw. Qed.
Print Assumptions C78_drawn.

(** C78: what is written as N-Triples and as N-Quads is one line for each statement of the
    text. *)
Theorem C78_lines : forall e s sts, env_ok e -> text_says e s sts -> exists out, lines_of (e_mode e) sts out /\
  convert e FNTriples (Some FNTriples) (text_input s) = Exits true (Some (OutText out)) /\
  convert e FNTriples (Some FNQuads) (text_input s) = Exits true (Some (OutText out)).
Proof. exact c78_lines. Qed.
Print Assumptions C78_lines.

(** C78: as RDF/JSON, one entry for each statement (C47). *)
Theorem C78_json : forall e s sts, env_ok e -> text_says e s sts -> exists doc, JsonSpec.describes (e_mode e) doc sts /\
  convert e FNTriples (Some FJson) (text_input s) = Exits true (Some (OutJson doc)).
Proof. exact c78_json. Qed.
Print Assumptions C78_json.

(** C78: as RDF/XML, one node for each subject with one element for each of its statements
    (C66), if all predicates can be divided; otherwise the tool panics (C50). *)
Theorem C78_xml : forall e s sts f, env_orders e -> e_fuel e = S f -> text_says e s sts ->
  (divisible (e_mode e) sts -> exists g doc subjects, (forall st, In st (g_list g) <-> In st sts) /\
     NoDup subjects /\ (forall s', In s' subjects <-> exists p o, In (MkStmt s' p o) sts) /\
     shows_document (e_mode e) g true subjects doc /\
     convert e FNTriples (Some FXml) (text_input s) = Exits true (Some (OutXml doc))) /\
  (~ divisible (e_mode e) sts -> convert e FNTriples (Some FXml) (text_input s) = Panics).
Proof. exact c78_xml. Qed.
Print Assumptions C78_xml.

(** C78: Turtle is the default; it is written if there is a word for every term and no blank
    node leads back to itself (C62). *)
Theorem C78_turtle : forall e s sts, hash_order (e_order e) -> text_says e s sts ->
  exists g, g_list g = sts /\
  (TurtleSpec.can_be_written (turtle_setting e g) g (e_fuel e) -> exists out d g',
     Permutation (g_list g') sts /\ TurtleSpec.document (turtle_setting e g) g' d /\
     TurtleSpec.tight out = TurtleSpec.head_of (turtle_setting e g) (e_mappings e g)
       ++ flat_map (TurtleSpec.block_pieces [Turtle.Sign $","]) d /\
     convert e FNTriples None (text_input s) = Exits true (Some (OutTurtle out)) /\
     convert e FNTriples (Some FTurtle) (text_input s) = Exits true (Some (OutTurtle out))).
Proof. exact c78_turtle. Qed.
Print Assumptions C78_turtle.

(** C78: and the picture has one arrow for each statement. *)
Theorem C78_arrows : forall e s sts, env_orders e -> (forall g i, e_compress e g i <> Panic) -> text_says e s sts ->
  exists g d, g_list g = sts /\ arrows_of (e_mode e) (e_compress e g) sts d /\
    draw e FNTriples (text_input s) = Exits true (Some (OutDot d)).
Proof. exact c78_arrows. Qed.
Print Assumptions C78_arrows.

(** C78: RDF/JSON is converted if all of it makes sense (C61); otherwise a failure is reported,
    or the tool panics at a label of a blank node that has no third byte. *)
Theorem C78_from_json : forall e v to, env_ok e -> js_wf v -> In to line_formats ->
  let sense := sensible (e_iri e) (e_lang e) (e_label e) (e_gext e) (e_printable e) v in
  (sense -> exists o, convert e FJson (Some to) (json_input v) = Exits true (Some o)) /\
  (~ sense -> forall f, convert e FJson f (json_input v) = Exits false None \/
     convert e FJson f (json_input v) = Panics /\ exists k p m t, has_entry v k p (JObject m) /\
       entry_value m $"type" $"bnode" /\ entry_value m $"value" t /\ forall w, ~ after_two_bytes t w).
Proof. exact c78_json_in. Qed.
Print Assumptions C78_from_json.
Theorem C78_json_json : forall e v, env_ok e -> js_wf v -> sensible (e_iri e) (e_lang e) (e_label e) (e_gext e) (e_printable e) v ->
  exists sts doc, (forall st, In st sts <-> lists (e_iri e) (e_lang e) (e_label e) (e_gext e) (e_printable e) v st) /\
    JsonSpec.describes (e_mode e) doc sts /\ convert e FJson (Some FJson) (json_input v) = Exits true (Some (OutJson doc)).
Proof. exact c78_json_json. Qed.
Print Assumptions C78_json_json.
Example C78_json_example :
  let doc t := JObject [($"p:/s", JObject [($"p:/q", JArray [JObject [($"type", JString $"bnode"); ($"value", JString t)]])])] in
  let run t := convert (cli_env Bare) FJson (Some FNTriples) (json_input (doc t)) in
  run $"_:o" = Exits true (Some (OutText ($"<p:/s> <p:/q> _:o ." ++ [10]))) /\ run $"o" = Panics /\
  convert (cli_env Bare) FJson None (json_input (JArray [])) = Exits false None.
Proof. vm_compute. repeat split. Qed.

(** C78 fails for the other formats: every input in JSON-LD, N3, N-Quads and TriG, and every
    Turtle text, ends the conversion with a panic, and so does JSON-LD or N3 as the target. *)
Theorem C78_panics_refuted : forall e,
  (forall from to i, In from [FJsonLd; FN3; FNQuads; FTrig] -> convert e from to i = Panics) /\
  (forall to s, convert e FTurtle to (text_input s) = Panics /\ draw e FTurtle (text_input s) = Panics) /\
  (forall s to, text_understood e s -> In to [FJsonLd; FN3] -> convert e FNTriples (Some to) (text_input s) = Panics).
Proof. exact c78_panics. Qed.
Print Assumptions C78_panics_refuted.

(** Drawing refuses the formats for datasets, whatever the input, and panics on the two that have
    no reader. *)
Theorem C78_draw_others : forall e from i, (In from [FNQuads; FTrig] -> draw e from i = Exits false None) /\
  (In from [FJsonLd; FN3] -> draw e from i = Panics).
Proof. exact c78_draw_others. Qed.
Print Assumptions C78_draw_others.

(** C78 fails for TriG: success is reported, but no statement is written. *)
Theorem C78_trig_refuted : forall e s, text_understood e s ->
  convert e FNTriples (Some FTrig) (text_input s) = Exits true (Some (OutText ($"{" ++ [10] ++ $"}" ++ [10]))).
Proof. exact c78_trig. Qed.
Print Assumptions C78_trig_refuted.

Example C78_example :
  let e := cli_env Bare in
  text_understood e (cli_doc [Plain 120]) /\ ~ text_understood e $"_:s <p q> _:o ." /\
  convert e FNTriples (Some FNQuads) (text_input (cli_doc [Plain 120])) =
    Exits true (Some (OutText ($"_:s <p:q> ""x"" ." ++ [10]))) /\
  convert e FNTriples (Some FNQuads) (text_input $"_:s <p q> _:o .") = Exits false None /\
  (exists d, draw e FNTriples (text_input (cli_doc [Plain 120])) = Exits true (Some (OutDot d))).
Proof.
  cbv zeta. split; [|split; [|split; [vm_compute; reflexivity|split; [vm_compute; reflexivity|vm_compute; eexists; reflexivity]]]].
  - eexists. split; [apply cli_doc_at; constructor; [cbn; intuition discriminate|constructor]|].
    repeat constructor. eexists. vm_compute. reflexivity.
  - intros U. apply read_iff in U as (g & R). vm_compute in R. discriminate R.
Qed.

(** The document [<p:/s><p:/q>_:o .] *)
Definition cli_text : str := $"<p:/s><p:/q>_:o .".
Definition cli_st : statement := MkStmt (SRes $"p:/s") $"p:/q" (OBlank $"o").
Lemma cli_says m : text_says (cli_env m) cli_text [cli_st].
Proof.
  exists [TripleSrc (NIri (map Plain $"p:/s")) (map Plain $"p:/q") (ONode (NLabel $"o"))]. split.
  - exists cli_text. split; [apply gap_none|]. eapply at_item with (s1 := []) (s2 := []); [|apply gap_none|constructor].
    eapply at_triple with (s1 := $" ."); [|apply gap_white; [cbn; auto|apply gap_none]].
    eapply at_spo with (s1 := $"<p:/q>_:o .") (s2 := $"_:o .") (s3 := $"_:o ."); [|repeat (apply Forall_cons; [cbn; split; [reflexivity|intuition discriminate]|]); apply Forall_nil|apply gap_none|apply gap_none|].
    + apply (at_iri (map Plain $"p:/s")). repeat (apply Forall_cons; [cbn; split; [reflexivity|intuition discriminate]|]); apply Forall_nil.
    + apply (at_node (NLabel $"o")). apply (at_label $"o"); [cbn; auto|]. split; [reflexivity|discriminate].
  - constructor; [|constructor]. vm_compute. reflexivity.
Qed.
Lemma cli_env_orders m : env_orders (cli_env m).
Proof.
  split; [apply cli_ok|]. split; [intros k l; apply Permutation_refl|]. split; [intros k l; apply Permutation_refl|].
  split; [intros k l; apply Permutation_refl|]. intros l. apply Permutation_sym, Permutation_rev.
Qed.
Example C78_written_example :
  let e := cli_env Bare in
  text_says e cli_text [cli_st] /\ env_orders e /\ lines_of Bare [cli_st] ($"<p:/s> <p:/q> _:o ." ++ [10]) /\
  divisible Bare [cli_st] /\ ~ divisible Bare [MkStmt (SBlank $"s") $"p:q" (OBlank $"o")] /\
  TurtleSpec.can_be_written (turtle_setting e (g_from_iter [cli_st])) (g_from_iter [cli_st]) (e_fuel e) /\
  match convert e FNTriples None (text_input cli_text) with
  | Exits true (Some (OutTurtle out)) => Turtle.pieces_text out = $"<p:/s>" ++ [10] ++ $"    <p:/q> [] ." ++ [10; 10]
  | _ => False
  end /\
  (forall t, e_iri e (60 :: t) = None).
Proof.
  cbv zeta. split; [apply cli_says|]. split; [apply cli_env_orders|]. split; [|split; [|split; [|split; [|split]]]].
  - exists [cli_st], [$"<p:/s> <p:/q> _:o ." ++ [10]]. split; [repeat constructor; intros []|]. split; [reflexivity|]. split; [|reflexivity].
    constructor; [|constructor]. apply (Line Bare (SRes $"p:/s") $"p:/q" (OBlank $"o") $"<p:/s>" $"_:o"); constructor.
  - intros st [<-|[]]. exists $"p:/", $"q". apply XmlProofs.split_uri_spec. vm_compute. reflexivity.
  - intros D. destruct (D _ (or_introl eq_refl)) as (ns & local & H). apply XmlProofs.split_uri_spec in H. vm_compute in H. discriminate H.
  - split; [split; [|split]; intros k l; apply Permutation_refl|]. split.
    + intros s p o [E|[]]. injection E as <- <- <-. cbn [TurtleSpec.writable_object]. repeat split; vm_compute; discriminate.
    + split; [split; vm_compute; reflexivity|]. split; [vm_compute; repeat constructor|]. right. intros (b & C).
      assert (X : forall x y, Relation_Operators.clos_trans str (TurtleSpec.leads_to (g_from_iter [cli_st])) x y -> False).
      { induction 1 as [x y (p & o & [E|[]] & _)|]; [discriminate E|assumption]. }
      exact (X _ _ C).
  - vm_compute. reflexivity.
  - intros t. reflexivity.
Qed.

(** ** C79 *)

(** C79: when N-Triples are converted to N-Triples and every character in quotes can be
    read back, the result is read as the same statements with the literals escaped once more
    (C40), which are the same statements if and only if no character in quotes has to be
    escaped.  Otherwise the result cannot be read. *)
Theorem C79_again : forall e s l g, normalises e -> env_ok e -> e_mode e = Bare ->
  doc_at triple_at l s -> Forall labelled_triple l -> e_nt_read e s = Ret (Ok g) ->
  exists out, convert e FNTriples (Some FNTriples) (text_input s) = Exits true (Some (OutText out)) /\
  (Forall (Forall (readable_char (e_gext e) (e_printable e))) (quoted_texts l) ->
     exists g', e_nt_read e out = Ret (Ok g') /\
       (forall st', In st' (g_list g') <-> exists st, In st (g_list g) /\ st' = reread (e_gext e) (e_printable e) st) /\
       ((forall st, In st (g_list g') <-> In st (g_list g)) <->
        Forall (Forall (prints_as_itself (e_gext e) (e_printable e))) (quoted_texts l))) /\
  (~ Forall (Forall (readable_char (e_gext e) (e_printable e))) (quoted_texts l) -> e_nt_read e out = Ret (Err Tokenizer)).
Proof. exact c79_again. Qed.
Print Assumptions C79_again.

(** C79 fails for the code as it is, which prints IRIs with brackets of their own: no
    document with a statement can be read again after conversion. *)
Theorem C79_brackets_refuted : forall e s l, normalises e -> env_ok e -> e_mode e = Angled ->
  doc_at triple_at l s -> Forall labelled_triple l -> l <> [] -> text_understood e s ->
  exists out, convert e FNTriples (Some FNTriples) (text_input s) = Exits true (Some (OutText out)) /\
    e_nt_read e out = Ret (Err Tokenizer).
Proof. exact c79_angled. Qed.
Print Assumptions C79_brackets_refuted.

(** C79 fails for escapes: a backslash becomes two, then four; a letter outside the tables is
    written in a form that cannot be read. *)
Theorem C79_escapes_refuted :
  let e := cli_env Bare in
  convert e FNTriples (Some FNTriples) (text_input $"_:s<p:q> ""a\tb"" .") =
    Exits true (Some (OutText ($"_:s <p:q> ""a\\tb"" ." ++ [10]))) /\
  convert e FNTriples (Some FNTriples) (text_input ($"_:s<p:q> ""a\\tb"" ." ++ [10])) =
    Exits true (Some (OutText ($"_:s <p:q> ""a\\\\tb"" ." ++ [10]))) /\
  exists out, convert e FNTriples (Some FNTriples) (text_input ($"_:s<p:q> """ ++ [233] ++ $""" .")) = Exits true (Some (OutText out)) /\
    e_nt_read e out = Ret (Err Tokenizer).
Proof. split; [|split]; [vm_compute; reflexivity|vm_compute; reflexivity|eexists; split; [vm_compute; reflexivity|vm_compute; reflexivity]]. Qed.
Print Assumptions C79_escapes_refuted.

Example C79_example : forall m,
  let e := cli_env m in let l := [Plain 120; Plain 32; Plain 121] in
  normalises e /\ env_ok e /\ doc_at triple_at (cli_src l) (cli_doc l) /\ Forall labelled_triple (cli_src l) /\
  (exists g, e_nt_read e (cli_doc l) = Ret (Ok g)) /\ text_understood e (cli_doc l) /\
  Forall (Forall (readable_char (e_gext e) (e_printable e))) (quoted_texts (cli_src l)) /\
  Forall (Forall (prints_as_itself (e_gext e) (e_printable e))) (quoted_texts (cli_src l)) /\
  convert (cli_env Bare) FNTriples (Some FNTriples) (text_input (cli_doc l)) =
    Exits true (Some (OutText ($"_:s <p:q> ""x y"" ." ++ [10]))) /\
  convert (cli_env Angled) FNTriples (Some FNTriples) (text_input (cli_doc l)) =
    Exits true (Some (OutText ($"_:s <<p:q>> ""x y"" ." ++ [10]))).
Proof.
  intros m. cbv zeta. set (l := [Plain 120; Plain 32; Plain 121]).
  assert (D : doc_at triple_at (cli_src l) (cli_doc l)).
  { apply cli_doc_at. repeat (apply Forall_cons; [cbn; intuition discriminate|]). apply Forall_nil. }
  assert (S : Forall (Forall (prints_as_itself (e_gext (cli_env m)) (e_printable (cli_env m)))) (quoted_texts (cli_src l))).
  { constructor; [|constructor]. repeat (apply Forall_cons; [split; [cbn; intuition discriminate|split; reflexivity]|]). apply Forall_nil. }
  split; [apply cli_normalises|]. split; [apply cli_ok|]. split; [exact D|]. split; [apply cli_labelled|].
  split; [eexists; destruct m; vm_compute; reflexivity|].
  split; [exists (cli_src l); split; [exact D|]; repeat constructor; eexists; destruct m; vm_compute; reflexivity|].
  split; [eapply Forall_impl; [|exact S]; intros t F; eapply Forall_impl; [|exact F]; intros c P; left; exact P|].
  split; [exact S|]. split; vm_compute; reflexivity.
Qed.

(** C79 fails for RDF/JSON: what is written of a text with an IRI as subject is refused when
    it is to be converted back, as the keys are in angle brackets (C46). *)
Theorem C79_json_refuted : forall e s sts i p o, env_ok e -> (forall t, e_iri e (60 :: t) = None) -> text_says e s sts ->
  In (MkStmt (SRes i) p o) sts ->
  exists v, convert e FNTriples (Some FJson) (text_input s) = Exits true (Some (OutJson v)) /\
    forall to, convert e FJson to (json_input v) = Exits false None.
Proof. exact c79_json. Qed.
Print Assumptions C79_json_refuted.
