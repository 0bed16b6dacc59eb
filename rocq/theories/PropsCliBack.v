(** C107: converting to another format and back. *)
From Coq Require Import Permutation Relation_Operators Lia.
From Verif Require Import CliBack CliXml PropsCli.
From Verif Require XmlProofs TurtleProofs PropsTurtleRead.

(** The environment of the examples, with room for longer documents. *)
Definition cb_env : env :=
  let e := cli_env Bare in
  Env (e_iri e) (e_lang e) (e_label e) (e_gext e) (e_printable e) Bare (e_orders e) (e_order e) 0 256 Wrapping (e_compress e) (e_mappings e)
    (e_ord_p e) (e_ord_o e) (e_ord_s e) (e_ord_v e) (e_emitted e) 60%nat.
Lemma cb_env_orders : env_orders cb_env. Proof. exact (cli_env_orders Bare). Qed.

(** C107: N-Triples about blank nodes, with IRIs and literals as objects, converted to RDF/JSON
    and that converted back, are the same statements again, if no character in quotes has to
    be escaped and no data type has a name of its own in the library. *)
Theorem C107_json : forall e s l sts, normalises e -> env_ok e -> e_mode e = Bare -> doc_at triple_at l s -> Forall labelled_triple l ->
  triples_say e l sts -> Forall json_keeps sts -> Forall (Forall (prints_as_itself (e_gext e) (e_printable e))) (quoted_texts l) ->
  exists v out, convert e FNTriples (Some FJson) (text_input s) = Exits true (Some (OutJson v)) /\
    convert e FJson (Some FNTriples) (json_input v) = Exits true (Some (OutText out)) /\ lines_of Bare sts out.
Proof. exact c107_json. Qed.
Print Assumptions C107_json.

(** C107 fails if any subject is an IRI: the tool does not accept the RDF/JSON it has
    written itself. *)
Theorem C107_json_refuted : forall e s sts st i, env_ok e -> (forall t, e_iri e (60 :: t) = None) -> text_says e s sts -> In st sts ->
  st_subject st = SRes i ->
  exists v, convert e FNTriples (Some FJson) (text_input s) = Exits true (Some (OutJson v)) /\
    forall to, convert e FJson to (json_input v) = Exits false None.
Proof. exact c107_json_fails. Qed.
Print Assumptions C107_json_refuted.

(** C107 fails for a data type with a name of its own: success is reported both times, but
    what is written in the end is not N-Triples. *)
Definition cb_int : str := $"_:s <p:q> ""7""^^<http://www.w3.org/2001/XMLSchema#int> .".
Theorem C107_types_refuted : exists e s sts v out, normalises e /\ env_orders e /\ e_mode e = Bare /\ text_says e s sts /\
  convert e FNTriples (Some FJson) (text_input s) = Exits true (Some (OutJson v)) /\
  convert e FJson (Some FNTriples) (json_input v) = Exits true (Some (OutText out)) /\
  ~ lines_of Bare sts out /\ forall to, convert e FNTriples to (text_input out) = Exits false None.
Proof.
  set (st := MkStmt (SBlank $"s") $"p:q" (OLit (Lit $"7" (Some (DtOther $"http://www.w3.org/2001/XMLSchema#int")) None))).
  exists cb_env, cb_int, [st]. do 2 eexists. split; [exact (cli_normalises Bare)|]. split; [exact cb_env_orders|]. split; [reflexivity|].
  split; [apply (read_says cb_env cb_int (g_from_iter [st])); vm_compute; reflexivity|].
  split; [vm_compute; reflexivity|]. split; [vm_compute; reflexivity|]. split.
  - intros L. apply one_line in L. inversion L as [? ? ? a b A B]. inversion A; subst. inversion B; subst. match goal with E : _ = _ |- _ => vm_compute in E; discriminate E end.
  - intros to. vm_compute. reflexivity.
Qed.
Print Assumptions C107_types_refuted.


Example C107_json_example :
  let e := cb_env in let l := cli_src [Plain 120] in
  doc_at triple_at l (cli_doc [Plain 120]) /\ Forall labelled_triple l /\
  triples_say e l [MkStmt (SBlank $"s") $"p:q" (OLit (Lit $"x" None None))] /\
  Forall json_keeps [MkStmt (SBlank $"s") $"p:q" (OLit (Lit $"x" None None))] /\
  Forall (Forall (prints_as_itself (e_gext e) (e_printable e))) (quoted_texts l) /\
  json_keeps (MkStmt (SBlank $"s") $"p:q" (OLit (Lit $"x" (Some (DtOther $"p:t")) None))) /\
  ~ json_keeps (MkStmt (SBlank $"s") $"p:q" (OLit (Lit $"7" (Some (DtOther $"http://www.w3.org/2001/XMLSchema#int")) None))).
Proof.
  cbv zeta. split; [apply cli_doc_at; constructor; [cbn; intuition discriminate|constructor]|].
  split; [repeat constructor|]. split; [constructor; [vm_compute; reflexivity|constructor]|].
  split; [constructor; [split; [eexists; reflexivity|discriminate]|constructor]|].
  split; [repeat constructor; cbn; intuition discriminate|]. split.
  - split; [eexists; reflexivity|]. intros d E. injection E as <-. vm_compute. reflexivity.
  - intros [_ H]. specialize (H _ eq_refl). vm_compute in H. discriminate H.
Qed.

(** C107: N-Triples whose objects are literals without data type, in names, labels and texts
    that XML can carry, converted to RDF/XML and that converted back, are the same
    statements again. *)
Theorem C107_xml : forall e s sts, env_orders e -> e_mode e = Bare -> e_fuel e <> 0%nat -> text_says e s sts ->
  (forall st, In st sts -> statement_carried (e_iri e) (e_lang e) (e_label e) st /\ xml_stable (e_gext e) (e_printable e) st) ->
  prefixed_once sts ->
  exists doc, convert e FNTriples (Some FXml) (text_input s) = Exits true (Some (OutXml doc)) /\
    forall items, parses_to doc items -> (length items < e_fuel e)%nat ->
    exists out, convert e FXml (Some FNTriples) (xml_input items) = Exits true (Some (OutText out)) /\ lines_of Bare sts out.
Proof. exact c107_xml. Qed.
Print Assumptions C107_xml.

(** C107 fails if IRIs are objects of two subjects: the tool never accepts the RDF/XML it
    has written itself. *)
Theorem C107_xml_refuted : forall e s sts a p i b q j, env_orders e -> e_mode e = Bare -> e_fuel e <> 0%nat -> text_says e s sts -> divisible Bare sts ->
  In (MkStmt a p (ORes i)) sts -> In (MkStmt b q (ORes j)) sts -> a <> b ->
  exists doc, convert e FNTriples (Some FXml) (text_input s) = Exits true (Some (OutXml doc)) /\
    forall items to o, parses_to doc items -> convert e FXml to (xml_input items) <> Exits true o.
Proof. exact c107_xml_fails. Qed.
Print Assumptions C107_xml_refuted.

(** C107 fails for everything with the [Display] of this commit, that is, with IRIs in
    brackets. *)
Theorem C107_angled_refuted : forall e s sts, env_orders e -> (forall t, e_iri e (60 :: t) = None) -> e_mode e = Angled -> e_fuel e <> 0%nat ->
  text_says e s sts -> sts <> [] -> divisible Angled sts ->
  (exists v, convert e FNTriples (Some FJson) (text_input s) = Exits true (Some (OutJson v)) /\
     forall to, convert e FJson to (json_input v) = Exits false None) /\
  (exists doc, convert e FNTriples (Some FXml) (text_input s) = Exits true (Some (OutXml doc)) /\
     forall items to o, parses_to doc items -> convert e FXml to (xml_input items) <> Exits true o).
Proof. exact c107_angled. Qed.
Print Assumptions C107_angled_refuted.

Example C107_angled_example :
  let e := cli_env Angled in
  env_orders e /\ (forall t, e_iri e (60 :: t) = None) /\ text_says e cli_text [cli_st] /\ divisible Angled [cli_st].
Proof.
  cbv zeta. split; [apply cli_env_orders|]. split; [reflexivity|]. split; [apply cli_says|].
  intros st [<-|[]]. exists $"<p:/", $"q>". apply XmlProofs.split_uri_spec. vm_compute. reflexivity.
Qed.

(** C107: Turtle cannot be converted back by the tool (see C78), but where its words can be
    read, the text it writes says the same by the grammar of Turtle, blank nodes that are
    objects apart (see C100). *)
Theorem C107_turtle : forall e s sts base, hash_order (e_order e) -> text_says e s sts ->
  exists g, g_list g = sts /\
  (readable_graph (turtle_setting e g) base (e_mappings e g) g -> TurtleSpec.has_room (turtle_setting e g) (e_fuel e) ->
   (TurtleSpec.graph_size g < e_fuel e)%nat ->
   exists out l read, convert e FNTriples None (text_input s) = Exits true (Some (OutTurtle out)) /\
     NoDup l /\ (forall st, In st l <-> In st sts) /\ turtle_reads (Turtle.pieces_text out) read /\
     Forall2 (statement_means g true) l read).
Proof. exact c107_turtle. Qed.
Print Assumptions C107_turtle.

Definition cb_text : str := $"<p:/a> <p:/q> ""x""@en . <p:/a> <p:/r> ""y"" . _:b <p:/q> ""z"" .".
Definition cb_sts : list statement :=
  [MkStmt (SRes $"p:/a") $"p:/q" (OLit (Lit $"x" None (Some $"en"))); MkStmt (SRes $"p:/a") $"p:/r" (OLit (Lit $"y" None None));
   MkStmt (SBlank $"b") $"p:/q" (OLit (Lit $"z" None None))].
Definition cb_iris : str := $"<p:/a> <p:/q> <p:/b> . <p:/b> <p:/q> <p:/a> .".
Definition cb_iri_sts : list statement := [MkStmt (SRes $"p:/a") $"p:/q" (ORes $"p:/b"); MkStmt (SRes $"p:/b") $"p:/q" (ORes $"p:/a")].
Lemma cb_attr s : forallb (fun c => N.leb 32 c && N.leb c 126) s = true -> Forall attr_char s.
Proof.
  intros F. apply Forall_forall. intros c I. rewrite forallb_forall in F. apply F in I. apply andb_prop in I as [L U].
  apply N.leb_le in L, U. split; [|split; intros ->; destruct (L eq_refl)]. right. right. left. split; assumption.
Qed.
Lemma cb_carried s : s <> [] -> forallb (fun c => N.leb 33 c && N.leb c 126) s = true -> text_carried s.
Proof.
  intros NE F. split.
  - apply Forall_forall. intros c I. rewrite forallb_forall in F. apply F in I. apply andb_prop in I as [L U].
    apply N.leb_le in L, U. right. right. left. split; [|exact U]. apply N.le_trans with 33; [discriminate|exact L].
  - right. destruct s as [|c s]; [destruct (NE eq_refl)|]. exists c. split; [left; reflexivity|]. cbn [forallb] in F. apply andb_prop in F as [F _].
    apply andb_prop in F as [L U]. apply N.leb_le in L, U. unfold xml_space.
    destruct (N.eqb_spec c 32) as [->|_]; [destruct (L eq_refl)|]. destruct (N.eqb_spec c 9) as [->|_]; [destruct (L eq_refl)|].
    destruct (N.eqb_spec c 10) as [->|_]; [destruct (L eq_refl)|]. destruct (N.eqb_spec c 13) as [->|_]; [destruct (L eq_refl)|]. reflexivity.
Qed.
Lemma cb_predicate p : cli_iri p = Some p -> forallb (fun c => N.leb 32 c && N.leb c 126) p = true ->
  match split_uri p with Ret (_, l) => ncname l | Panic => false end = true -> predicate_carried cli_iri p.
Proof.
  intros IP AP SP. split; [split; [exact IP|apply cb_attr, AP]|]. destruct (split_uri p) as [[ns local]|] eqn:E; [|discriminate].
  apply XmlProofs.split_uri_spec in E. exists ns, local. split; assumption.
Qed.
Example C107_xml_example :
  let e := cb_env in
  text_says e cb_text cb_sts /\ prefixed_once cb_sts /\
  (forall st, In st cb_sts -> statement_carried (e_iri e) (e_lang e) (e_label e) st /\ xml_stable (e_gext e) (e_printable e) st) /\
  (match convert e FNTriples (Some FXml) (text_input cb_text) with
   | Exits true (Some (OutXml doc)) =>
       match convert e FXml (Some FNTriples) (xml_input (IOther :: parsed [] doc)) with
       | Exits true (Some (OutText out)) => out =
           $"_:b <p:/q> ""z"" ." ++ [10] ++ $"<p:/a> <p:/q> ""x""@en ." ++ [10] ++ $"<p:/a> <p:/r> ""y"" ." ++ [10]
       | _ => False
       end
   | _ => False
   end) /\
  text_says e cb_iris cb_iri_sts /\ divisible Bare cb_iri_sts.
Proof.
  cbv zeta. split; [apply (read_says cb_env cb_text (g_from_iter cb_sts)); vm_compute; reflexivity|].
  assert (D : forall p, p = $"p:/q" \/ p = $"p:/r" -> exists l, divided p $"p:/" l).
  { intros p [-> | ->]; eexists; apply XmlProofs.split_uri_spec; vm_compute; reflexivity. }
  split; [|split; [|split; [|split]]].
  - intros s p o o' ns local J1 J2 Dv _. cbn in J1, J2.
    destruct J1 as [E|[E|[E|[]]]]; injection E as <- <- <-; destruct J2 as [E|[E|[E|[]]]]; try discriminate E; injection E as E; try discriminate; congruence.
  - intros st J. destruct J as [<-|[<-|[<-|[]]]].
    + split; [split; [|split]|].
      * split; [reflexivity|apply cb_attr; vm_compute; reflexivity].
      * apply cb_predicate; vm_compute; reflexivity.
      * split; [apply cb_carried; [discriminate|vm_compute; reflexivity]|]. split; [discriminate|]. split; [reflexivity|apply cb_attr; vm_compute; reflexivity].
      * eexists. split; [reflexivity|]. split; [reflexivity|]. repeat constructor; try discriminate; vm_compute; intuition discriminate.
    + split; [split; [|split]|].
      * split; [reflexivity|apply cb_attr; vm_compute; reflexivity].
      * apply cb_predicate; vm_compute; reflexivity.
      * split; [apply cb_carried; [discriminate|vm_compute; reflexivity]|exact I].
      * eexists. split; [reflexivity|]. split; [reflexivity|]. repeat constructor; try discriminate; vm_compute; intuition discriminate.
    + split; [split; [|split]|].
      * split; [reflexivity|]; apply cb_attr; vm_compute; reflexivity.
      * apply cb_predicate; vm_compute; reflexivity.
      * split; [apply cb_carried; [discriminate|vm_compute; reflexivity]|exact I].
      * eexists. split; [reflexivity|]. split; [reflexivity|]. repeat constructor; try discriminate; vm_compute; intuition discriminate.
  - vm_compute. reflexivity.
  - apply (read_says cb_env cb_iris (g_from_iter cb_iri_sts)); vm_compute; reflexivity.
  - intros st [<-|[<-|[]]]; destruct (D $"p:/q") as (l & Dl); auto; exists $"p:/", l; exact Dl.
Qed.

Lemma cb_iri i : forallb iri_char i = true -> cli_iri i = Some i -> TurtleSpec.absolute i ->
  readable_iri (turtle_setting cb_env (g_from_iter cb_sts)) None [] i.
Proof. intros C P A. split; [exact C|]. split; [split; [exact P|split; [exact A|exact I]]|left; reflexivity]. Qed.
Example C107_turtle_example :
  let e := cb_env in let g := g_from_iter cb_sts in
  readable_graph (turtle_setting e g) None (e_mappings e g) g /\ TurtleSpec.has_room (turtle_setting e g) (e_fuel e) /\
  (TurtleSpec.graph_size g < e_fuel e)%nat /\
  match convert e FNTriples None (text_input cb_text) with
  | Exits true (Some (OutTurtle out)) => Turtle.pieces_text out = flat_map (fun x => x ++ [10])
      [$"<p:/a>"; $"    <p:/q> ""x""@en ;"; $"    <p:/r> ""y"" ."; []; []; $"_:b"; $"    <p:/q> ""z"" ."; []]
  | _ => False
  end.
Proof.
  cbv zeta. split; [|split; [|split]].
  - split; [split; [|split]; intros t l; apply Permutation_refl|]. split; [|split].
    + split; [split; [|split]; reflexivity|]. split; [reflexivity|]. split; [exact I|]. split; [constructor|intros p ns []].
    + right. intros (b & C).
      assert (X : forall x y, clos_trans str (TurtleSpec.leads_to (g_from_iter cb_sts)) x y -> False).
      { induction 1 as [x y (p & o & J & K)|]; [|assumption]. change (In (MkStmt (SBlank x) p o) cb_sts) in J.
        destruct J as [E|[E|[E|[]]]]; try discriminate E. injection E as <- <- <-. inversion K. }
      exact (X _ _ C).
    + intros st J. change (In st cb_sts) in J. destruct J as [<-|[<-|[<-|[]]]].
      all: split; [first [apply cb_iri; [reflexivity|reflexivity|exists $"p", $"/a"; reflexivity]|apply PropsTurtleRead.rx_local; reflexivity]|].
      all: split; [apply cb_iri; [reflexivity|reflexivity|first [exists $"p", $"/q"; reflexivity|exists $"p", $"/r"; reflexivity]]|].
      all: split; [intros T; exfalso; destruct T as [T|[T|[T|[T|[]]]]]; discriminate|].
      all: apply Ro_literal; left; split; [|split; [constructor; [left; split; [cbn; intuition discriminate|split; reflexivity]|constructor]|exact I]].
      * exists $"en", []. split; [reflexivity|split; [discriminate|split; [reflexivity|constructor]]].
      * exact I.
      * exact I.
  - split; vm_compute; reflexivity.
  - cbn. lia.
  - vm_compute. reflexivity.
Qed.

(** C78 for RDF/XML: a document of nodes with attributes, and elements with text (C69), is
    converted to N-Triples and N-Quads with one line for each of its statements, and to RDF/JSON
    with one entry for each of them. *)
Theorem C78_from_xml : forall e items sts n', env_ok e ->
  document_says (e_iri e) (e_label e) (e_gext e) (e_printable e) is_chars (language_says (e_lang e)) (e_counter e) items sts n' ->
  (length items < e_fuel e)%nat ->
  exists out doc, lines_of (e_mode e) sts out /\ JsonSpec.describes (e_mode e) doc sts /\
    convert e FXml (Some FNTriples) (xml_input items) = Exits true (Some (OutText out)) /\
    convert e FXml (Some FNQuads) (xml_input items) = Exits true (Some (OutText out)) /\
    convert e FXml (Some FJson) (xml_input items) = Exits true (Some (OutJson doc)).
Proof. exact c78_from_xml. Qed.
Print Assumptions C78_from_xml.

Example C78_from_xml_example :
  let name l := XName (Some $"p:/") l in
  let node := [IStart (name $"T") ([(rdf_name $"about", $"p:/s")] ++ [(name $"q", $"x")])] ++ [ISpace $" "] ++ [IEnd (name $"T")] in
  let items := [] ++ [IStart (rdf_name $"RDF") []] ++ ([] ++ node ++ []) ++ [IEnd (rdf_name $"RDF")] ++ [] ++ [IDocEnd] ++ [] in
  document_says (e_iri cb_env) (e_label cb_env) (e_gext cb_env) (e_printable cb_env) is_chars (language_says (e_lang cb_env)) (e_counter cb_env) items
    [MkStmt (SRes $"p:/s") (rdf $"type") (ORes $"p:/T"); MkStmt (SRes $"p:/s") $"p:/q" (OLit (Lit $"x" None None))] 0 /\
  env_ok cb_env /\ (length items < e_fuel cb_env)%nat /\
  convert cb_env FXml (Some FNTriples) (xml_input items) = Exits true (Some (OutText
    ($"<p:/s> <http://www.w3.org/1999/02/22-rdf-syntax-ns#type> <p:/T> ." ++ [10] ++ $"<p:/s> <p:/q> ""x"" ." ++ [10]))).
Proof.
  cbv zeta. split; [|split; [exact (cli_ok Bare)|split; [cbn; lia|vm_compute; reflexivity]]].
  eexists [], [], _, _, [], []. split; [constructor|]. split; [|split; [constructor|split; [constructor|split; [left; reflexivity|reflexivity]]]].
  eapply (Ns_more _ _ _ _ _ _ 0 0 0 [] _ [_; _] [] []); [constructor| |constructor; constructor].
  eapply (No_node _ _ _ _ _ _ 0 _ _ (SRes $"p:/s") 0 [_] [_] [_] [_] [_] []).
  - constructor. vm_compute. reflexivity.
  - constructor; [discriminate|]. eexists. split; [reflexivity|vm_compute; reflexivity].
  - constructor; [|constructor]. exists $"p:/q". split; [discriminate|]. split; [discriminate|]. split; [eexists; split; [reflexivity|vm_compute; reflexivity]|vm_compute; reflexivity].
  - constructor. repeat constructor.
Qed.
