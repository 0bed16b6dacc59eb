(** Property theorems C50, C66-C71 (RDF/XML).  Statements only; proofs in XmlMain.v,
    XmlStriped.v, XmlRead.v, XmlSafe.v, XmlTrip.v and XmlBack.v. *)
From Verif Require Import Xml XmlSpec GraphSpec XmlProofs XmlMain XmlStriped XmlRead XmlSafe XmlTrip XmlBack.
From Coq Require Import Permutation Lia.

(** ** Examples used below *)
Definition x (s : str) : str := $"http://e/v#" ++ s.
Definition foaf (s : str) : str := $"http://xmlns.com/foaf/0.1/" ++ s.
Definition xl (s : str) : object := OLit (Lit s None None).
Definition x1 : statement := MkStmt (SRes (x $"a")) (x $"p") (OLit (Lit $"hello" None (Some $"en"))).
Definition x2 : statement := MkStmt (SRes (x $"a")) (foaf $"name") (xl $"A").
Definition x3 : statement := MkStmt (SBlank $"b") (x $"p") (xl $"B").
Definition x4 : statement := MkStmt (SRes (x $"a")) (x $"q") (OBlank $"b").
Definition x5 : statement := MkStmt (SBlank $"b") (x $"q") (OBlank $"b").
Definition x6 : statement := MkStmt (SRes (x $"a")) (x $"q") (ORes (x $"c")).
Definition x7 : statement := MkStmt (SRes (x $"c")) (x $"q") (ORes (x $"a")).
Definition x8 : statement := MkStmt (SRes (x $"a")) (foaf $"name") (xl $"C").
Definition any {A} (_ : nat) (l : list A) : list A := l.
Definition xw (m : iri_mode) (style : xml_style) (l : list statement) : wres (list xml_event) :=
  xml_write m style (fun l => l) any any (fun l => l) 0 9 (g_from_iter l).
Definition x_iri (s : str) : option str := if is_nil s then None else Some s.
Definition xr (items : list xml_item) : wres (graph * N) :=
  xml_read Bare x_iri Some (fun _ => true) (fun _ => false) (fun c => N.leb 32 c) (fun _ => []) 99 0 items.
Definition events (r : wres (list xml_event)) : list xml_event := match r with Done d => d | _ => [] end.
Lemma any_ok A : @any_order A any.
Proof. intros t l. apply Permutation_refl. Qed.
Lemma id_ok A (l : list A) : Permutation ((fun l => l) l) l.
Proof. apply Permutation_refl. Qed.
(** The RDF/XML document with the nodes [l]. *)
Definition xdoc (l : list xml_item) : list xml_item :=
  IOther :: [IStart (rdf_name $"RDF") []] ++ l ++ [IEnd (rdf_name $"RDF"); IDocEnd].
Definition xnode (attrs : list (xname * str)) (l : list xml_item) : list xml_item :=
  [IStart (rdf_name $"Description") attrs] ++ l ++ [IEnd (rdf_name $"Description")].
Definition xn (s : str) : xname := XName (Some $"http://e/v#") s.
Definition xprop (s : str) (attrs : list (xname * str)) (l : list xml_item) : list xml_item :=
  [IStart (xn s) attrs] ++ l ++ [IEnd (xn s)].
Definition about (s : str) : list (xname * str) := [(rdf_name $"about", x s)].

(** ** C50 *)

(** C50: an IRI is divided after its last ['#'] or ['/'] (if the rest is ASCII), and the
    parts together are the IRI. *)
Theorem C50_split : forall t ns local, split_uri t = Ret (ns, local) <-> divided t ns local.
Proof. exact split_uri_spec. Qed.
Print Assumptions C50_split.

Theorem C50_ascii : forall t head tail, cut t head tail -> Forall (fun c => c < 128) tail -> split_uri t = Ret (head, tail).
Proof. intros t head tail C A. apply C50_split. exact (divided_ascii t head tail C A). Qed.
Print Assumptions C50_ascii.

(** C50: there is no error: the writer panics for every graph with a predicate that cannot be
    divided. *)
Theorem C50_panics_refuted : forall m ord_s ord_p ord_o ho n fuel g,
  (forall l, Permutation (ord_s l) l) -> any_order ord_p -> any_order ord_o -> hash_order ho ->
  Forall simplifiable (g_list g) -> ~ divisible m (g_list g) ->
  xml_write m XFlat ord_s ord_p ord_o ho n (S fuel) g = Crashed.
Proof. exact c50_panics. Qed.
Print Assumptions C50_panics_refuted.

(** C50: the name of the element is the name divided off if that is an XML name, and if the
    namespace has no prefix or the object is the first of its predicate. *)
Theorem C50_element : forall m ns k local scope,
  element_xname (declares (prefix_for m ns) ns ++ scope) (element_name (prefix_for m ns) k local) = Some (XName (Some ns) local)
  <-> ncname local = true /\ (prefix_for m ns = None \/ k = 0%nat).
Proof. exact c50_element. Qed.
Print Assumptions C50_element.

(** C50: for the other objects of such a predicate it is no name at all. *)
Theorem C50_repeated_refuted : forall m ns p k local, prefix_for m ns = Some p -> qname (element_name (Some p) (S k) local) = None.
Proof. intros m ns p k local P. exact (twice_qname (Some p) p k local eq_refl (proj1 (prefix_ncname m ns p P))). Qed.
Print Assumptions C50_repeated_refuted.

Example C50_example :
  split_uri (x $"name") = Ret ($"http://e/v#", $"name") /\ split_uri $"http://e/v/" = Ret ($"http://e/v/", []) /\
  cut (x $"name") $"http://e/v#" $"name" /\
  split_uri (x [97; 233]) = Ret ($"http://e/v#a", [233]) /\ split_uri (x [233]) = Panic /\
  split_uri $"urn:isbn:1" = Panic /\ ~ divisible Bare [MkStmt (SBlank $"b") $"urn:isbn:1" (xl $"B")] /\
  xw Bare XFlat [MkStmt (SBlank $"b") $"urn:isbn:1" (xl $"B")] = Crashed /\
  prefix_for Bare (foaf []) = Some $"foaf" /\ element_name (Some $"foaf") 1 $"name" = $"foaf:foaf:name".
Proof.
  split; [vm_compute; reflexivity|]. split; [vm_compute; reflexivity|]. split.
  { split; [reflexivity|]. split; [exists $"http://e/v", 35; split; [reflexivity|left; reflexivity]|].
    repeat constructor; intros [E|E]; discriminate. }
  split; [vm_compute; reflexivity|]. split; [vm_compute; reflexivity|]. split; [vm_compute; reflexivity|].
  split; [|split; [vm_compute; reflexivity|split; reflexivity]].
  intros D. destruct (D _ (or_introl eq_refl)) as (ns & local & E). cbn [st_predicate show_iri] in E. apply C50_split in E. vm_compute in E. discriminate.
Qed.

(** ** C66 *)

(** C66: a graph that can be simplified to plain triples, and whose predicates can be divided,
    is written as a document with one node for each subject of the simplified graph, and
    with one element for each of its statements. *)
Theorem C66_document : forall m ord_s ord_p ord_o ho n fuel g,
  (forall l, Permutation (ord_s l) l) -> any_order ord_p -> any_order ord_o -> hash_order ho ->
  Forall simplifiable (g_list g) -> divisible m (g_list g) ->
  exists doc subjects, xml_write m XFlat ord_s ord_p ord_o ho n (S fuel) g = Done doc /\ NoDup subjects /\
    (forall s, In s subjects <-> exists p o, In (MkStmt s p o) (g_list (fst (g_simplify ho n g)))) /\
    shows_document m (fst (g_simplify ho n g)) true subjects doc.
Proof. exact c66. Qed.
Print Assumptions C66_document.

(** C66: other graphs are refused. *)
Theorem C66_refused : forall m ord_s ord_p ord_o ho n fuel g,
  (forall l, Permutation (ord_s l) l) -> any_order ord_p -> any_order ord_o -> hash_order ho ->
  ~ Forall simplifiable (g_list g) -> divisible m (g_list g) ->
  xml_write m XFlat ord_s ord_p ord_o ho n (S fuel) g = Failed RdfStarNotSupported.
Proof. exact c66_failed. Qed.
Print Assumptions C66_refused.

Example C66_example :
  Forall simplifiable [x1; x2; x4] /\ divisible Bare [x1; x2; x4] /\
  xw Bare XFlat [x1; x2; x4] = Done
    [XStart $"rdf:RDF" [($"rdf", rdf [])] [];
     XStart $"rdf:Description" [] [($"rdf:about", x $"a")];
     XStart $"p" [([], $"http://e/v#")] [($"xml:lang", $"en")]; XText $"hello"; XEnd $"p";
     XStart $"foaf:name" [($"foaf", foaf [])] []; XText $"A"; XEnd $"foaf:name";
     XStart $"q" [([], $"http://e/v#")] [($"rdf:nodeID", $"b")]; XEnd $"q";
     XEnd $"rdf:Description"; XEnd $"rdf:RDF"] /\
  ~ Forall simplifiable [MkStmt (SStmt x1) (x $"p") (OStmt x2)] /\
  xw Bare XFlat [MkStmt (SStmt x1) (x $"p") (OStmt x2)] = Failed RdfStarNotSupported.
Proof.
  split; [|split; [|split; [vm_compute; reflexivity|split; [|vm_compute; reflexivity]]]].
  - repeat constructor.
  - intros st I. apply divides_iff. destruct I as [<-|[<-|[<-|[]]]]; vm_compute; reflexivity.
  - intros F. inversion F as [|? ? H _]; subst. vm_compute in H. tauto.
Qed.

(** ** C67 *)

(** C67: a striped document has a node for each IRI that is a subject, with the blank nodes
    nested in place of their labels. *)
Theorem C67_document : forall m ord_s ord_p ord_o ho n fuel g doc,
  let simple := fst (g_simplify ho n g) in
  (forall l, Permutation (ord_s l) l) -> any_order ord_p -> any_order ord_o ->
  xml_write m XStriped ord_s ord_p ord_o ho n fuel g = Done doc ->
  exists iris, NoDup iris /\ (forall i, In i iris <-> exists p o, In (MkStmt (SRes i) p o) (g_list simple)) /\
    shows_document m simple false (map SRes iris) doc.
Proof. exact c67_shows. Qed.
Print Assumptions C67_document.

(** C67: it is written if no blank node leads back to itself. *)
Theorem C67_acyclic : forall m ord_s ord_p ord_o ho n depth fuel g,
  let simple := fst (g_simplify ho n g) in
  (forall l, Permutation (ord_s l) l) -> any_order ord_p -> any_order ord_o -> hash_order ho ->
  Forall simplifiable (g_list g) -> divisible m (g_list g) -> acyclic simple depth ->
  (forall s p b, In (MkStmt s p (OBlank b)) (g_list simple) -> (depth b < fuel)%nat) ->
  exists doc, xml_write m XStriped ord_s ord_p ord_o ho n (S fuel) g = Done doc.
Proof. exact c67_done. Qed.
Print Assumptions C67_acyclic.

(** C67 fails for every other graph, if one comes to the blank node. *)
Theorem C67_cyclic_refuted : forall m ord_s ord_p ord_o ho n fuel g b,
  let simple := fst (g_simplify ho n g) in
  (forall l, Permutation (ord_s l) l) -> any_order ord_p -> any_order ord_o ->
  reached simple (SBlank b) -> leads simple b b ->
  forall doc, xml_write m XStriped ord_s ord_p ord_o ho n fuel g <> Done doc.
Proof. exact c67_cycle. Qed.
Print Assumptions C67_cyclic_refuted.

(** C67: what one does not come to from an IRI is not in the document: it shows every other
    graph with the same statements about what one comes to. *)
Theorem C67_unreached_refuted : forall m g g' iris doc,
  (forall s p o, reached g s -> (In (MkStmt s p o) (g_list g) <-> In (MkStmt s p o) (g_list g'))) ->
  (forall i, In i iris -> exists p o, In (MkStmt (SRes i) p o) (g_list g)) ->
  shows_document m g false (map SRes iris) doc -> shows_document m g' false (map SRes iris) doc.
Proof. exact c67_lost. Qed.
Print Assumptions C67_unreached_refuted.

(** C67: nor does it tell a blank node that is the object of two statements from two blank
    nodes, and statements about blank nodes alone give an empty document. *)
Theorem C67_shared_refuted : exists l l' doc, length l <> length l' /\
  xw Bare XStriped l = Done doc /\ xw Bare XStriped l' = Done doc.
Proof.
  exists [x4; MkStmt (SRes (x $"c")) (x $"q") (OBlank $"b"); x3],
    [x4; MkStmt (SRes (x $"c")) (x $"q") (OBlank $"c"); x3; MkStmt (SBlank $"c") (x $"p") (xl $"B")].
  eexists. split; [discriminate|]. split; vm_compute; reflexivity.
Qed.
Print Assumptions C67_shared_refuted.

Example C67_example :
  let simple l := fst (g_simplify (fun l => l) 0 (g_from_iter l)) in
  acyclic (simple [x4; x3]) (fun _ => 0%nat) /\
  xw Bare XStriped [x4; x3] = Done
    [XStart $"rdf:RDF" [($"rdf", rdf [])] [];
     XStart $"rdf:Description" [] [($"rdf:about", x $"a")];
     XStart $"q" [([], $"http://e/v#")] [];
     XStart $"rdf:Description" [] [];
     XStart $"p" [([], $"http://e/v#")] []; XText $"B"; XEnd $"p";
     XEnd $"rdf:Description"; XEnd $"q"; XEnd $"rdf:Description"; XEnd $"rdf:RDF"] /\
  reached (simple [x4; x5]) (SBlank $"b") /\ leads (simple [x4; x5]) $"b" $"b" /\ xw Bare XStriped [x4; x5] = OutOfFuel /\
  xw Bare XStriped [x3] = Done [XStart $"rdf:RDF" [($"rdf", rdf [])] []; XEnd $"rdf:RDF"].
Proof.
  cbv zeta. split; [|split; [vm_compute; reflexivity|split; [|split; [|split; vm_compute; reflexivity]]]].
  - intros a p b I. vm_compute in I. destruct I as [E|[E|[]]]; discriminate.
  - eapply Re_blank; [eapply Re_iri; left; reflexivity|left; reflexivity].
  - eapply Le_step. right. left. reflexivity.
Qed.

(** ** C68 *)

(** C68: what is read of a flat document, if no object is an IRI, and if all its terms can be
    carried by XML: every statement once, without its data type, its text escaped again, and
    the empty text for a blank node. *)
Theorem C68_exact : forall ord_s ord_p ord_o ho n fuel g doc items iri_parse lang_parse label_ok gext printable,
  let simple := fst (g_simplify ho n g) in
  (forall l, Permutation (ord_s l) l) -> any_order ord_p -> any_order ord_o ->
  (forall st, In st (g_list simple) -> statement_carried iri_parse lang_parse label_ok st /\ forall i, st_object st <> ORes i) ->
  prefixed_once (g_list simple) ->
  xml_write Bare XFlat ord_s ord_p ord_o ho n fuel g = Done doc -> parses_to doc items ->
  exists sts, NoDup sts /\ (forall st, In st sts <-> In st (g_list simple)) /\
    forall m emitted fuel' k, (length items < fuel')%nat ->
    xml_read m iri_parse lang_parse label_ok gext printable emitted fuel' k items
      = Done (g_from_iter (map (xml_reread gext printable) sts), k).
Proof. exact c68_exact. Qed.
Print Assumptions C68_exact.

(** C68: so literals without data type and without characters to escape come back. *)
Theorem C68_round_trip : forall ord_s ord_p ord_o ho n fuel g doc items iri_parse lang_parse label_ok gext printable,
  let simple := fst (g_simplify ho n g) in
  (forall l, Permutation (ord_s l) l) -> any_order ord_p -> any_order ord_o ->
  (forall st, In st (g_list simple) -> statement_carried iri_parse lang_parse label_ok st /\ xml_stable gext printable st) ->
  prefixed_once (g_list simple) ->
  xml_write Bare XFlat ord_s ord_p ord_o ho n fuel g = Done doc -> parses_to doc items ->
  exists sts, NoDup sts /\ (forall st, In st sts <-> In st (g_list simple)) /\
    forall m emitted fuel' k, (length items < fuel')%nat ->
    xml_read m iri_parse lang_parse label_ok gext printable emitted fuel' k items = Done (g_from_iter sts, k).
Proof. exact c68_stable. Qed.
Print Assumptions C68_round_trip.

(** C68 fails if two subjects have an IRI as object: the document cannot be read. *)
Theorem C68_iris_refuted : forall ord_s ord_p ord_o ho n fuel g doc s t p q i j,
  let simple := fst (g_simplify ho n g) in
  (forall l, Permutation (ord_s l) l) -> any_order ord_p -> any_order ord_o ->
  In (MkStmt s p (ORes i)) (g_list simple) -> In (MkStmt t q (ORes j)) (g_list simple) -> s <> t ->
  xml_write Bare XFlat ord_s ord_p ord_o ho n fuel g = Done doc ->
  forall items, parses_to doc items -> forall m' iri_parse lang_parse label_ok gext printable emitted fuel' k x,
    xml_read m' iri_parse lang_parse label_ok gext printable emitted fuel' k items <> Done x.
Proof. exact c68_iris. Qed.
Print Assumptions C68_iris_refuted.

(** C68 fails if a predicate with a known prefix has two objects. *)
Theorem C68_repeated_refuted : forall m style ord_s ord_p ord_o ho n fuel g doc s p o o' ns local,
  let simple := fst (g_simplify ho n g) in
  (forall l, Permutation (ord_s l) l) -> any_order ord_p -> any_order ord_o ->
  In (MkStmt s p o) (g_list simple) -> In (MkStmt s p o') (g_list simple) -> o <> o' ->
  (style = XStriped -> exists i, s = SRes i) -> divided (show_iri m p) ns local -> prefix_for m ns <> None ->
  xml_write m style ord_s ord_p ord_o ho n fuel g = Done doc ->
  forall items, parses_to doc items -> forall m' iri_parse lang_parse label_ok gext printable emitted fuel' k x,
    xml_read m' iri_parse lang_parse label_ok gext printable emitted fuel' k items <> Done x.
Proof. exact c68_repeated. Qed.
Print Assumptions C68_repeated_refuted.

(** C68 fails for every graph with a statement, with the [Display] of this commit. *)
Theorem C68_angled_refuted : forall style ord_s ord_p ord_o ho n fuel g doc,
  let simple := fst (g_simplify ho n g) in
  (forall l, Permutation (ord_s l) l) -> any_order ord_p -> any_order ord_o ->
  (exists s p o, In (MkStmt s p o) (g_list simple) /\ (style = XStriped -> exists i, s = SRes i)) ->
  xml_write Angled style ord_s ord_p ord_o ho n fuel g = Done doc ->
  forall items, parses_to doc items -> forall m' iri_parse lang_parse label_ok gext printable emitted fuel' k x,
    xml_read m' iri_parse lang_parse label_ok gext printable emitted fuel' k items <> Done x.
Proof. exact c68_angled. Qed.
Print Assumptions C68_angled_refuted.

Example C68_example :
  let back l := xr (IOther :: parsed [] (events (xw Bare XFlat l))) in
  (forall st, In st [x1; x2; x3] -> statement_carried x_iri Some (fun _ => true) st /\ xml_stable (fun _ => false) (fun c => N.leb 32 c) st) /\
  prefixed_once [x1; x2; x3] /\ back [x1; x2; x3] = Done (g_from_iter [x1; x2; x3], 0) /\
  back [x1; x4] = Done (g_from_iter [x1; MkStmt (SRes (x $"a")) (x $"q") (xl [])], 0) /\
  back [x6; x7] = Failed Tokenizer /\ back [x2; x8] = Failed Tokenizer /\
  xr (IOther :: parsed [] (events (xw Angled XFlat [x1]))) = Failed Tokenizer.
Proof.
  cbv zeta. split; [|split; [|split; [|split; [|split; [|split]]]]]; try (vm_compute; reflexivity).
  - assert (A : forall s, forallb (fun c => N.leb 32 c && N.leb c 126) s = true -> Forall attr_char s).
    { intros s F. apply Forall_forall. intros c I. rewrite forallb_forall in F. apply F in I. apply andb_prop in I as [L U].
      apply N.leb_le in L, U. split; [|split; intros ->; destruct (L eq_refl)]. right. right. left. split; assumption. }
    assert (T : forall s, s <> [] -> forallb (fun c => N.leb 33 c && N.leb c 126) s = true -> text_carried s).
    { intros s NE F. split.
      - apply Forall_forall. intros c I. rewrite forallb_forall in F. apply F in I. apply andb_prop in I as [L U].
        apply N.leb_le in L, U. right. right. left. split; [|exact U]. apply N.le_trans with 33; [discriminate|exact L].
      - right. destruct s as [|c s]; [destruct (NE eq_refl)|]. exists c. split; [left; reflexivity|]. cbn [forallb] in F. apply andb_prop in F as [F _].
        apply andb_prop in F as [L U]. apply N.leb_le in L, U. unfold xml_space.
        destruct (N.eqb_spec c 32) as [->|_]; [destruct (L eq_refl)|]. destruct (N.eqb_spec c 9) as [->|_]; [destruct (L eq_refl)|].
        destruct (N.eqb_spec c 10) as [->|_]; [destruct (L eq_refl)|]. destruct (N.eqb_spec c 13) as [->|_]; [destruct (L eq_refl)|]. reflexivity. }
    assert (P : forall p, x_iri p = Some p -> forallb (fun c => N.leb 32 c && N.leb c 126) p = true ->
      match split_uri p with Ret (_, l) => ncname l | Panic => false end = true -> predicate_carried x_iri p).
    { intros p IP AP SP. split; [split; [exact IP|apply A, AP]|]. destruct (split_uri p) as [[ns local]|] eqn:E; [|discriminate].
      apply C50_split in E. exists ns, local. split; assumption. }
    intros st I. destruct I as [<-|[<-|[<-|[]]]].
    + split; [split; [|split]|].
      * split; [reflexivity|apply A; vm_compute; reflexivity].
      * apply P; vm_compute; reflexivity.
      * split; [apply T; [discriminate|vm_compute; reflexivity]|]. split; [discriminate|]. split; [reflexivity|apply A; vm_compute; reflexivity].
      * eexists. split; [reflexivity|]. split; [reflexivity|]. repeat constructor; try discriminate; vm_compute; intuition discriminate.
    + split; [split; [|split]|].
      * split; [reflexivity|apply A; vm_compute; reflexivity].
      * apply P; vm_compute; reflexivity.
      * split; [apply T; [discriminate|vm_compute; reflexivity]|exact Logic.I].
      * eexists. split; [reflexivity|]. split; [reflexivity|]. repeat constructor; try discriminate; vm_compute; intuition discriminate.
    + split; [split; [|split]|].
      * split; [reflexivity|apply A; vm_compute; reflexivity].
      * apply P; vm_compute; reflexivity.
      * split; [apply T; [discriminate|vm_compute; reflexivity]|exact Logic.I].
      * eexists. split; [reflexivity|]. split; [reflexivity|]. repeat constructor; try discriminate; vm_compute; intuition discriminate.
  - intros s p o o' ns local I J _ _. destruct I as [E|[E|[E|[]]]], J as [F|[F|[F|[]]]]; injection E as <- <- <-; injection F; intros; subst; try reflexivity; discriminate.
Qed.

(** ** C69 *)

(** C69: documents of untyped and typed nodes with attributes, and elements with text, are
    read as what they say. *)
Theorem C69_reads : forall m iri_parse lang_parse label_ok gext printable emitted n items sts n' fuel,
  document_says iri_parse label_ok gext printable is_chars (language_says lang_parse) n items sts n' ->
  (length items < fuel)%nat ->
  xml_read m iri_parse lang_parse label_ok gext printable emitted fuel n items = Done (g_from_iter sts, n').
Proof. exact c69. Qed.
Print Assumptions C69_reads.

(** C69: what is outside of that part of RDF/XML is not: what follows a property with an IRI
    is about another node, and a node after it an error; a label as object and a data type
    are lost; a nested node is lost, and so is its contents. *)
Theorem C69_resource_refuted :
  xr (xdoc (xnode (about $"a") (xprop $"q" [(rdf_name $"resource", x $"c")] [] ++ xprop $"p" [] [IChars $"B"])))
    = Done (g_from_iter [x6; MkStmt (SBlank (gen_label 0)) (rdf $"type") (ORes (x $"p"))], 1) /\
  xr (xdoc (xnode (about $"a") (xprop $"q" [(rdf_name $"resource", x $"c")] []) ++ xnode (about $"c") [])) = Failed Tokenizer.
Proof. split; vm_compute; reflexivity. Qed.
Print Assumptions C69_resource_refuted.
Theorem C69_label_refuted :
  xr (xdoc (xnode (about $"a") (xprop $"q" [(rdf_name $"nodeID", $"b")] [])))
    = Done (g_from_iter [MkStmt (SRes (x $"a")) (x $"q") (xl [])], 0).
Proof. vm_compute. reflexivity. Qed.
Print Assumptions C69_label_refuted.
Theorem C69_data_type_refuted :
  xr (xdoc (xnode (about $"a") (xprop $"q" [(rdf_name $"datatype", dt_as_iri DtInt)] [IChars $"7"])))
    = Done (g_from_iter [MkStmt (SRes (x $"a")) (x $"q") (xl $"7")], 0).
Proof. vm_compute. reflexivity. Qed.
Print Assumptions C69_data_type_refuted.
Theorem C69_nested_refuted :
  xr (xdoc (xnode (about $"a") (xprop $"q" [] (xnode (about $"c") []))))
    = Done (g_from_iter [MkStmt (SRes (x $"a")) (x $"q") (xl [])], 1) /\
  xr (xdoc (xnode (about $"a") (xprop $"q" [(rdf_name $"parseType", $"Resource")] (xprop $"p" [] [IChars $"B"]))))
    = Done (g_from_iter [MkStmt (SBlank (gen_label 1)) (rdf $"type") (ORes (x $"p"))], 2).
Proof. split; vm_compute; reflexivity. Qed.
Print Assumptions C69_nested_refuted.
(** C69: text of white space only is lost, and [rdf:ID] is joined to the base without ['#']. *)
Theorem C69_space_refuted :
  xr (xdoc (xnode (about $"a") (xprop $"q" [] (text_items $" "))))
    = Done (g_from_iter [MkStmt (SRes (x $"a")) (x $"q") (xl [])], 0).
Proof. vm_compute. reflexivity. Qed.
Print Assumptions C69_space_refuted.
Theorem C69_id_refuted :
  xr ([IStart (rdf_name $"RDF") [(XName (Some XML_NAMESPACE) $"base", $"http://e/v")]]
      ++ xnode [(rdf_name $"ID", $"a")] (xprop $"q" [] [IChars $"B"]) ++ [IEnd (rdf_name $"RDF"); IDocEnd])
    = Done (g_from_iter [MkStmt (SRes $"http://e/va") (x $"q") (xl $"B")], 0).
Proof. vm_compute. reflexivity. Qed.
Print Assumptions C69_id_refuted.

Example C69_example :
  let items := xdoc ([IStart (xn $"T") [(xn $"q", $"one")]] ++ xprop $"p" [(XName (Some XML_NAMESPACE) $"lang", $"en")] [IChars $"two"; ICData $"three"]
                      ++ [ISpace $" "; IEnd (xn $"T")]) in
  let b := SBlank (gen_label 0) in
  let sts := [MkStmt b (rdf $"type") (ORes (x $"T")); MkStmt b (x $"q") (xl $"one");
              MkStmt b (x $"p") (OLit (Lit $"twothree" None (Some $"en")))] in
  document_says x_iri (fun _ => true) (fun _ => false) (fun c => N.leb 32 c) is_chars (language_says Some) 0 items sts 1 /\
  xr items = Done (g_from_iter sts, 1).
Proof.
  cbv zeta. split; [|vm_compute; reflexivity].
  exists [IOther], [], ([IStart (xn $"T") ([] ++ [(xn $"q", $"one")])] ++ ([] ++ xprop $"p" [(XName (Some XML_NAMESPACE) $"lang", $"en")] [IChars $"two"; ICData $"three"] ++ [ISpace $" "]) ++ [IEnd (xn $"T")]), (rdf_name $"RDF"), [], [].
  split; [repeat constructor|]. split; [|split; [constructor|split; [constructor|split; [left; reflexivity|reflexivity]]]].
  pose proof (No_node x_iri (fun _ => true) (fun _ => false) (fun c => N.leb 32 c) is_chars (language_says Some) 0 (xn $"T") (xn $"T") (SBlank (gen_label 0)) 1
     [] [(xn $"q", $"one")]
     [MkStmt (SBlank (gen_label 0)) (rdf $"type") (ORes (x $"T"))]
     [MkStmt (SBlank (gen_label 0)) (x $"q") (xl $"one")]
     ([] ++ xprop $"p" [(XName (Some XML_NAMESPACE) $"lang", $"en")] [IChars $"two"; ICData $"three"] ++ [ISpace $" "])
     [MkStmt (SBlank (gen_label 0)) (x $"p") (OLit (Lit $"twothree" None (Some $"en")))]) as NN.
  cut (node_says x_iri (fun _ => true) (fun _ => false) (fun c => N.leb 32 c) is_chars (language_says Some) 0
    ([IStart (xn $"T") ([] ++ [(xn $"q", $"one")])] ++ ([] ++ xprop $"p" [(XName (Some XML_NAMESPACE) $"lang", $"en")] [IChars $"two"; ICData $"three"] ++ [ISpace $" "]) ++ [IEnd (xn $"T")])
    [MkStmt (SBlank (gen_label 0)) (rdf $"type") (ORes (x $"T")); MkStmt (SBlank (gen_label 0)) (x $"q") (xl $"one"); MkStmt (SBlank (gen_label 0)) (x $"p") (OLit (Lit $"twothree" None (Some $"en")))] 1).
  { intros NO. pose proof (Ns_more x_iri (fun _ => true) (fun _ => false) (fun c => N.leb 32 c) is_chars (language_says Some) 0 1 1 [] _ _ [] []
      (Forall_nil _) NO (Ns_end _ _ _ _ _ _ 1 [] (Forall_nil _))) as NS. rewrite !app_nil_r, app_nil_l in NS. exact NS. }
  apply NN; clear NN.
  - apply (As_none x_iri (fun _ => true) 0).
  - apply Ty_some; [discriminate|]. exists $"http://e/v#". split; reflexivity.
  - constructor; [|constructor]. exists (x $"q"). split; [discriminate|]. split; [discriminate|]. split; [exists $"http://e/v#"; split; reflexivity|vm_compute; reflexivity].
  - apply Ps_more; [constructor| |apply Ps_end; repeat constructor].
    change $"twothree" with (escape_string (fun _ => false) (fun c => N.leb 32 c) (flat_map chars [IChars $"two"; ICData $"three"])).
    apply Pr_text; [exists $"http://e/v#"; split; reflexivity|constructor; reflexivity|repeat constructor].
Qed.

(** ** C70 *)

(** C70: the reader comes to an end, for all that is well formed. *)
Theorem C70_terminates : forall m iri_parse lang_parse label_ok gext printable emitted fuel n items,
  nested 0 items -> (length items < fuel)%nat ->
  xml_read m iri_parse lang_parse label_ok gext printable emitted fuel n items <> OutOfFuel.
Proof. exact c70. Qed.
Print Assumptions C70_terminates.

Example C70_example :
  let items := xdoc (xnode (about $"a") (xprop $"q" [] (xnode [] (xprop $"p" [(rdf_name $"resource", x $"c")] [])))) in
  nested 0 items /\ length items = 12%nat /\ exists g, xr items = Done (g, 2).
Proof. cbv zeta. split; [vm_compute; reflexivity|]. split; [vm_compute; reflexivity|]. eexists. vm_compute. reflexivity. Qed.

(** ** C71 *)

(** C71: the reader panics only if there is a name without namespace, an [rdf:ID], or an
    [rdf:parseType] other than Resource; and every one of these can make it panic. *)
Theorem C71_panics : forall m iri_parse lang_parse label_ok gext printable emitted fuel n items,
  xml_read m iri_parse lang_parse label_ok gext printable emitted fuel n items = Crashed -> Exists panics_at items.
Proof. exact c71. Qed.
Print Assumptions C71_panics.

Theorem C71_panics_refuted :
  xr (xdoc [IStart (XName None $"a") []; IEnd (XName None $"a")]) = Crashed /\
  xr (xdoc (xnode [(XName None $"a", $"b")] [])) = Crashed /\
  xr (xdoc (xnode [(rdf_name $"ID", $"b")] [])) = Crashed /\
  xr (xdoc (xnode (about $"a") (xprop $"p" [(rdf_name $"parseType", $"Collection")] []))) = Crashed /\
  xr (xdoc (xnode (about $"a") (xprop $"p" [(rdf_name $"parseType", $"Triple")] []))) = Crashed /\
  xr (xdoc (xnode (about $"a") (xprop $"p" [(rdf_name $"parseType", $"Literal")] [IChars $"a"]))) = Crashed.
Proof. repeat split; vm_compute; reflexivity. Qed.
Print Assumptions C71_panics_refuted.

Example C71_example :
  Exists panics_at (xdoc (xnode [(rdf_name $"ID", $"b")] [])) /\
  ~ Exists panics_at (xdoc (xnode (about $"a") (xprop $"q" [(rdf_name $"parseType", $"Resource")] []))).
Proof.
  split.
  - apply Exists_cons_tl, Exists_cons_tl, Exists_cons_hd. right. exists (rdf_name $"ID"), $"b". split; [left; reflexivity|right; left; reflexivity].
  - intros E. repeat match goal with H : Exists _ _ |- _ => apply Exists_cons in H as [H|H] || (apply Exists_nil in H; destruct H) end;
      cbn [panics_at] in E; try exact E; destruct E as [E|(a & v & J & P)]; try discriminate;
      cbn [In] in J; repeat (destruct J as [J|J]; [injection J as <- <-; destruct P as [P|[P|[P Q]]]; try discriminate; try (apply Q; reflexivity)|]); try destruct J.
Qed.
