(** Property theorems C69 (more of RDF/XML).  Statements only; proofs in XmlMore.v. *)
From Verif Require Import Xml XmlSpec XmlMore PropsXml.

(** C69: with a base in the document element or in nodes, [rdf:ID] if the base ends in
    ['#'], and a property with an IRI, or with an XML literal that ends in its only element, where it
    is the last of the document.  The angle brackets of the literal are escaped. *)
Theorem C69_reads_more : forall iri_parse lang_parse label_ok gext printable emitted n items sts n' fuel,
  more_document iri_parse label_ok gext printable (language_says lang_parse) emitted n items sts n' ->
  (length items < fuel)%nat ->
  xml_read Bare iri_parse lang_parse label_ok gext printable emitted fuel n items = Done (g_from_iter sts, n').
Proof. exact c69_more. Qed.
Print Assumptions C69_reads_more.

Example C69_more_example :
  let items := [IStart (rdf_name $"RDF") [base_attribute $"http://e/v#"]]
      ++ xnode (about $"a" ++ [base_attribute $"http://z/#"]) (xprop $"p" [] [IChars $"B"])
      ++ xnode [(rdf_name $"ID", $"b")] (xprop $"p" [] [IChars $"C"] ++ xprop $"q" [(rdf_name $"resource", x $"c")] [])
      ++ [IEnd (rdf_name $"RDF"); IDocEnd] in
  let sts := [MkStmt (SRes (x $"a")) (x $"p") (xl $"B"); MkStmt (SRes (x $"b")) (x $"p") (xl $"C");
              MkStmt (SRes (x $"b")) (x $"q") (ORes (x $"c"))] in
  more_document x_iri (fun _ => true) (fun _ => false) (fun c => N.leb 32 c) (language_says Some) (fun _ => []) 0 items sts 0 /\
  xr items = Done (g_from_iter sts, 0).
Proof.
  cbv zeta. split; [|vm_compute; reflexivity].
  exists [], [base_attribute $"http://e/v#"], (Some $"http://e/v#"),
    (xnode (about $"a" ++ [base_attribute $"http://z/#"]) (xprop $"p" [] [IChars $"B"])
      ++ xnode [(rdf_name $"ID", $"b")] (xprop $"p" [] [IChars $"C"] ++ xprop $"q" [(rdf_name $"resource", x $"c")] [])),
    (rdf_name $"RDF"), [], [].
  split; [constructor|]. split; [|split; [constructor|split; [constructor|split]]].
  2: right; exists $"http://e/v#", $"http://e/v#"; auto.
  2: reflexivity.
  assert (T : forall s t, property_says x_iri (fun _ => false) (fun c => N.leb 32 c) is_chars (language_says Some) s (xprop $"p" [] [IChars t])
                (MkStmt s (x $"p") (OLit (Lit (escape_string (fun _ => false) (fun c => N.leb 32 c) (flat_map chars [IChars t])) None None)))).
  { intros s t. apply (Pr_text x_iri (fun _ => false) (fun c => N.leb 32 c) is_chars (language_says Some) s (xn $"p") (xn $"p") (x $"p") [] None [IChars t]).
    - exists $"http://e/v#". split; reflexivity.
    - constructor.
    - repeat constructor. }
  pose proof (Mn_last x_iri (fun _ => true) (fun _ => false) (fun c => N.leb 32 c) (language_says Some) (fun _ => []) (Some $"http://e/v#") 0 0 []
    (rdf_name $"Description") (rdf_name $"Description") [(rdf_name $"ID", $"b")] [] (SRes (x $"b")) [] []
    ([] ++ xprop $"p" [] [IChars $"C"] ++ []) [MkStmt (SRes (x $"b")) (x $"p") (xl $"C")]
    (xprop $"q" [(rdf_name $"resource", x $"c")] []) (MkStmt (SRes (x $"b")) (x $"q") (ORes (x $"c"))) [] []) as L.
  pose proof (fun b y => Mn_more x_iri (fun _ => true) (fun _ => false) (fun c => N.leb 32 c) (language_says Some) (fun _ => []) (Some $"http://e/v#") 0 0 0 []
    (rdf_name $"Description") (rdf_name $"Description") (about $"a" ++ [base_attribute $"http://z/#"]) [] (SRes (x $"a")) [] []
    ([] ++ xprop $"p" [] [IChars $"B"] ++ []) [MkStmt (SRes (x $"a")) (x $"p") (xl $"B")] b y) as M.
  refine (M _ _ (Forall_nil _) _ (Ty_none _ _) (Forall2_nil _) _ (L (Forall_nil _) _ (Ty_none _ _) (Forall2_nil _) _ _ (Forall_nil _) (Forall_nil _))).
  - apply (Ma_base _ _ _ 0 (about $"a") (SRes (x $"a")) 0 $"http://z/#" $"http://z/#"); [|reflexivity].
    apply (As_about x_iri (fun _ => true) 0 (x $"a") (x $"a")). reflexivity.
  - apply Ps_more; [constructor|exact (T (SRes (x $"a")) $"B")|apply Ps_end; constructor].
  - apply (Ma_id _ _ _ 0 $"b" $"http://e/v" (x $"b")); reflexivity.
  - apply Ps_more; [constructor|exact (T (SRes (x $"b")) $"C")|apply Ps_end; constructor].
  - apply (Rf_iri x_iri (fun _ => false) (fun c => N.leb 32 c) (fun _ => []) (SRes (x $"b")) (xn $"q") (xn $"q") (x $"q") (x $"c") (x $"c") []); [exists $"http://e/v#"; split; reflexivity|reflexivity|constructor].
Qed.

(** C69: what follows the first element of an XML literal is lost, a second element is read as a
    property of the node, and the property after it is about another node; without an element the
    reader panics. *)
Definition tags (l : list xml_item) : str :=
  flat_map (fun i => match i with IStart n _ => $"<" ++ xn_local n ++ $">" | IEnd n => $"</" ++ xn_local n ++ $">"
                                | IChars s => s | _ => [] end) l.
Definition xr_tags (items : list xml_item) : wres (graph * N) :=
  xml_read Bare x_iri Some (fun _ => true) (fun _ => false) (fun c => N.leb 32 c) tags 100 0 items.
Definition as_xml : list (xname * str) := [(rdf_name $"parseType", $"Literal")].
Definition xml_literal (s : str) : object := OLit (Lit s (Some DtXmlLiteral) None).
Theorem C69_xml_literal_refuted :
  xr_tags (xdoc (xnode (about $"a") (xprop $"q" as_xml (xprop $"b" [] [IChars $"B"] ++ [IChars $"C"]))))
    = Done (g_from_iter [MkStmt (SRes (x $"a")) (x $"q") (xml_literal $"&lt;b&gt;B&lt;/b&gt;")], 0) /\
  xr_tags (xdoc (xnode (about $"a") (xprop $"q" as_xml (xprop $"b" [] []) ++ xprop $"p" [] [IChars $"B"])))
    = Done (g_from_iter [MkStmt (SRes (x $"a")) (x $"q") (xml_literal $"&lt;b&gt;&lt;/b&gt;");
                         MkStmt (SBlank (gen_label 0)) (rdf $"type") (ORes (x $"p"))], 1) /\
  xr_tags (xdoc (xnode (about $"a") (xprop $"q" as_xml (xprop $"b" [] [] ++ xprop $"c" [] [IChars $"C"]))))
    = Done (g_from_iter [MkStmt (SRes (x $"a")) (x $"q") (xml_literal $"&lt;b&gt;&lt;/b&gt;");
                         MkStmt (SRes (x $"a")) (x $"c") (xl $"C")], 0) /\
  xr_tags (xdoc (xnode (about $"a") (xprop $"q" as_xml [IChars $"B"]))) = Crashed.
Proof. split; [vm_compute; reflexivity|]. split; [vm_compute; reflexivity|]. split; vm_compute; reflexivity. Qed.
Print Assumptions C69_xml_literal_refuted.

Example C69_xml_example :
  let items := xdoc (xnode (about $"a") (xprop $"q" as_xml ([IChars $"A"] ++ xprop $"b" [] [IChars $"B"]))) in
  let sts := [MkStmt (SRes (x $"a")) (x $"q") (xml_literal $"A&lt;b&gt;B&lt;/b&gt;")] in
  more_document x_iri (fun _ => true) (fun _ => false) (fun c => N.leb 32 c) (language_says Some) tags 0 items sts 0 /\
  xr_tags items = Done (g_from_iter sts, 0).
Proof.
  cbv zeta. split; [|vm_compute; reflexivity].
  exists [IOther], [], None, (xnode (about $"a") (xprop $"q" as_xml ([IChars $"A"] ++ xprop $"b" [] [IChars $"B"]))), (rdf_name $"RDF"), [], [].
  split; [repeat constructor|]. split; [|split; [constructor|split; [constructor|split]]].
  2: left; auto.
  2: reflexivity.
  pose proof (Mn_last x_iri (fun _ => true) (fun _ => false) (fun c => N.leb 32 c) (language_says Some) tags None 0 0 []
    (rdf_name $"Description") (rdf_name $"Description") (about $"a") [] (SRes (x $"a")) [] [] [] []
    (xprop $"q" as_xml ([IChars $"A"] ++ xprop $"b" [] [IChars $"B"])) (MkStmt (SRes (x $"a")) (x $"q") (xml_literal $"A&lt;b&gt;B&lt;/b&gt;")) [] []) as L.
  refine (L (Forall_nil _) _ (Ty_none _ _) (Forall2_nil _) _ _ (Forall_nil _) (Forall_nil _)).
  - apply Ma_plain. apply (As_about x_iri (fun _ => true) 0 (x $"a") (x $"a")). reflexivity.
  - apply Ps_end. constructor.
  - pose proof (Rf_xml x_iri (fun _ => false) (fun c => N.leb 32 c) tags (SRes (x $"a")) (xn $"q") (xn $"q") (x $"q") [IChars $"A"]
      (xn $"b") [] [IChars $"B"] (xn $"b") []) as R.
    refine (R _ _ _ (Forall_nil _)).
    + exists $"http://e/v#". split; reflexivity.
    + repeat constructor.
    + repeat constructor.
Qed.

(** C69: a base is inherited: for [rdf:ID] of a node inside a property, the base is that of the
    nearest element around it that has one.  The element the property itself has is lost, and
    its value with it: the object is an empty text. *)
Theorem C69_inherited_base : forall iri_parse lang_parse label_ok gext printable emitted n v0 v1 v2 o0 o1 o2 b about s id i p q w w' e1 e2 e3 e4 body sts fuel,
  own_base iri_parse v0 o0 -> own_base iri_parse v1 o1 -> own_base iri_parse v2 o2 -> nearest_base [o2; o1; o0] b ->
  iri_parse about = Some s -> iri_parse (b ++ id) = Some i -> names iri_parse p q ->
  properties_say iri_parse gext printable is_chars (language_says lang_parse) (SRes i) body sts ->
  let items := [IStart (rdf_name $"RDF") v0; IStart (rdf_name $"Description") ((rdf_name $"about", about) :: v1); IStart p []; IStart w v2;
                IStart (rdf_name $"Description") [(rdf_name $"ID", id)]] ++ body ++ [IEnd w'; IEnd e1; IEnd e2; IEnd e3; IEnd e4; IDocEnd] in
  (length items < fuel)%nat ->
  xml_read Bare iri_parse lang_parse label_ok gext printable emitted fuel n items =
  Done (g_from_iter (sts ++ [MkStmt (SRes s) q (OLit (Lit [] None None))]), n + 1).
Proof. exact c69_inherited. Qed.
Print Assumptions C69_inherited_base.

Example C69_inherited_example :
  own_base x_iri [base_attribute $"http://e/v#"] (Some $"http://e/v#") /\ own_base x_iri [] None /\
  nearest_base [None; None; Some $"http://e/v#"] $"http://e/v#" /\ nearest_base [None; Some $"http://z/#"; Some $"http://e/v#"] $"http://z/#" /\
  names x_iri (xn $"q") (x $"q") /\
  (let doc v1 := [IStart (rdf_name $"RDF") [base_attribute $"http://e/v#"]]
      ++ xnode (about $"a" ++ v1) (xprop $"q" [] (xprop $"w" [] (xnode [(rdf_name $"ID", $"b")] (xprop $"p" [] [IChars $"C"]))))
      ++ [IEnd (rdf_name $"RDF"); IDocEnd] in
   xr (doc []) = Done (g_from_iter [MkStmt (SRes (x $"b")) (x $"p") (xl $"C"); MkStmt (SRes (x $"a")) (x $"q") (xl [])], 1) /\
   xr (doc [base_attribute $"http://z/#"]) =
     Done (g_from_iter [MkStmt (SRes $"http://z/#b") (x $"p") (xl $"C"); MkStmt (SRes (x $"a")) (x $"q") (xl [])], 1)).
Proof.
  split; [right; exists $"http://e/v#", $"http://e/v#"; auto|]. split; [left; auto|]. split; [repeat constructor|]. split; [repeat constructor|].
  split; [exists $"http://e/v#"; split; reflexivity|]. split; vm_compute; reflexivity.
Qed.
