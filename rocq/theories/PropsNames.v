(** C73, C74: the vocabularies of rdftk_names. *)
From Verif Require Import IriProofs NamesProofs PrefixMap Literal.

(** For any use of [namespace!]: each function returns the namespace followed by the name. *)
Theorem C73_member : forall parse t f nm, parser_ok parse -> sound t -> assoc f (tb_members t) = Some nm ->
  call_str t f = Some nm /\ call_qname parse t f = Some (Ret (tb_prefix t ++ $":" ++ nm)) /\
  exists i, call parse t f = Some (Ret i) /\ url_ser i = tb_ns t ++ nm /\ wf_url i = true.
Proof. exact (fun parse t f nm P => c73_member parse P t f nm). Qed.
Print Assumptions C73_member.

Theorem C73_distinct : forall parse t f f' i j, parser_ok parse -> sound t ->
  call parse t f = Some (Ret i) -> call parse t f' = Some (Ret j) -> (i = j <-> call_str t f = call_str t f').
Proof. exact (fun parse t f f' i j P => c73_distinct parse P t f f' i j). Qed.
Print Assumptions C73_distinct.

(** The namespace: it looks like one, and the IRIs of the members begin with it. *)
Theorem C73_namespace : forall parse t, parser_ok parse -> sound t ->
  exists ns, namespace_fn parse t = Ret ns /\ url_ser ns = namespace_str t /\ looks_like_namespace ns = true /\
  forall f i, call parse t f = Some (Ret i) -> exists nm, call_str t f = Some nm /\ url_ser i = url_ser ns ++ nm.
Proof. exact (fun parse t P => c73_namespace parse P t). Qed.
Print Assumptions C73_namespace.

(** When a function panics; one bad member is enough for all of them. *)
Theorem C73_panics : forall parse t f nm, assoc f (tb_members t) = Some nm ->
  (call parse t f = Some Panic <->
   iri_from_str parse (tb_ns t) = None \/
   (exists f' nm', In (f', nm') (tb_members t) /\ forall n, name_from_str nm' <> Ok n) \/
   (exists u, iri_from_str parse (tb_ns t) = Some u /\ closed_namespace u)).
Proof. exact c73_panics. Qed.
Print Assumptions C73_panics.

(** All shipped vocabularies are well-formed, and so all their functions return. *)
Theorem C73_shipped : forall t, In t shipped -> sound t /\ distinct_functions t /\
  default_prefix_fn t = Ret (MkName (tb_prefix t)) /\
  namespace_from_str (tb_prefix t ++ $":") = Ok (MkNamespace (tb_prefix t ++ $":")).
Proof. exact c73_shipped. Qed.
Print Assumptions C73_shipped.

Theorem C73_functions : forall parse t f nm, parser_ok parse -> In t shipped -> In (f, nm) (tb_members t) ->
  call_str t f = Some nm /\ call_qname parse t f = Some (Ret (tb_prefix t ++ $":" ++ nm)) /\
  exists i, call parse t f = Some (Ret i) /\ url_ser i = tb_ns t ++ nm /\ wf_url i = true.
Proof. exact c73_functions. Qed.
Print Assumptions C73_functions.

(** No two functions of a vocabulary return the same IRI. *)
Theorem C73_one_each : forall parse t f f' i, parser_ok parse -> In t shipped ->
  call parse t f = Some (Ret i) -> call parse t f' = Some (Ret i) -> f = f'.
Proof. exact c73_one_each. Qed.
Print Assumptions C73_one_each.

(** The qualified name, in any prefix map that has the prefix for the namespace. *)
Theorem C73_prefix_map : forall parse t f nm s h m u, parser_ok parse -> In t shipped -> In (f, nm) (tb_members t) ->
  Forall op_ok h -> pm_run parse s h = Ret m ->
  In (MkNamespace (tb_prefix t ++ $":"), u) (pm_mappings m) -> url_ser u = tb_ns t ->
  exists q l i, call_qname parse t f = Some (Ret q) /\ local_name_from_str q = Ok l /\
    call parse t f = Some (Ret i) /\ pm_expand m l = Some i /\ pm_compress m i = Ret (Some l).
Proof. exact c73_prefix_map. Qed.
Print Assumptions C73_prefix_map.

(** [rdf:_1], [rdf:_2], ... *)
Theorem C73_container : forall parse n, parser_ok parse ->
  exists i, member_fn parse tb_rdf (dec_N n) = Ret i /\
    url_ser i = $"http://www.w3.org/1999/02/22-rdf-syntax-ns#_" ++ dec_N n /\
    member_qname tb_rdf (dec_N n) = $"rdf:_" ++ dec_N n.
Proof. exact c73_container. Qed.
Print Assumptions C73_container.

Theorem C73_container_distinct : forall parse n m i, parser_ok parse ->
  member_fn parse tb_rdf (dec_N n) = Ret i -> member_fn parse tb_rdf (dec_N m) = Ret i -> n = m.
Proof. exact c73_container_distinct. Qed.
Print Assumptions C73_container_distinct.

Definition bad_table : table := Table $"b" $"http://example.org/b#" [($"foo", $"Foo"); ($"bar", $"no name")].
Example C73_example :
  parser_ok url_reparse /\ In tb_dc_terms shipped /\
  option_map (fun o => match o with Ret i => url_ser i | Panic => [] end) (call url_reparse tb_dc_terms $"iso_639_2") =
    Some $"http://purl.org/dc/terms/ISO639-2" /\
  call_qname url_reparse tb_dc_terms $"iso_639_2" = Some (Ret $"dcterms:ISO639-2") /\
  call url_reparse bad_table $"foo" = Some Panic /\
  call_str bad_table $"foo" = Some $"Foo" /\
  (exists m u, pm_run url_reparse StartCommon [] = Ret m /\ url_ser u = tb_ns tb_dc_terms /\
     In (MkNamespace (tb_prefix tb_dc_terms ++ $":"), u) (pm_mappings m)) /\
  member_qname tb_rdf (dec_N 12) = $"rdf:_12".
Proof.
  split; [intros u; apply url_reparse_ser|]. split; [cbn; tauto|]. split; [vm_compute; reflexivity|]. split; [vm_compute; reflexivity|].
  split; [vm_compute; reflexivity|]. split; [vm_compute; reflexivity|]. split; [|vm_compute; reflexivity].
  exists (match pm_run url_reparse StartCommon [] with Ret m => m | Panic => pm_empty end).
  exists (match url_reparse (tb_ns tb_dc_terms) with Some u => u | None => MkUrl [] None [] None None end).
  split; [vm_compute; reflexivity|]. split; [vm_compute; reflexivity|]. vm_compute. tauto.
Qed.

(** RDF and SKOS: the names are exactly those of the vocabulary. *)
Theorem C74_rdf : forall nm, In nm (map snd (tb_members tb_rdf)) <-> In nm rdf_terms.
Proof. exact c74_rdf. Qed.
Print Assumptions C74_rdf.
Theorem C74_skos : forall nm, In nm (map snd (tb_members tb_skos)) <-> In nm skos_terms.
Proof. exact c74_skos. Qed.
Print Assumptions C74_skos.

(** RDF Schema: five names it does not define (all of them are RDF's). *)
Theorem C74_rdfs_refuted : forall nm, In nm (map snd (tb_members tb_rdfs)) /\ ~ In nm rdfs_terms <->
  In nm [$"langString"; $"HTML"; $"XMLLiteral"; $"Property"; $"value"].
Proof. exact c74_rdfs. Qed.
Print Assumptions C74_rdfs_refuted.
Theorem C74_rdfs_complete : forall nm, In nm rdfs_terms -> In nm (map snd (tb_members tb_rdfs)).
Proof. exact c74_rdfs_complete. Qed.
Print Assumptions C74_rdfs_complete.

(** XML Schema: two undefined names, and what is missing. *)
Theorem C74_xsd_refuted : forall nm, In nm (map snd (tb_members tb_xsd)) /\ ~ In nm xsd_terms <-> In nm [$"entity"; $"NS"].
Proof. exact c74_xsd. Qed.
Print Assumptions C74_xsd_refuted.
Theorem C74_xsd_missing : forall nm, In nm xsd_terms /\ ~ In nm (map snd (tb_members tb_xsd)) <->
  In nm [$"anySimpleType"; $"anyAtomicType"; $"negativeInteger"; $"ENTITY"; $"ENTITIES"].
Proof. exact c74_xsd_missing. Qed.
Print Assumptions C74_xsd_missing.

(** OWL: two undefined names, and what is missing. *)
Theorem C74_owl_refuted : forall nm, In nm (map snd (tb_members tb_owl)) /\ ~ In nm owl_terms <->
  In nm [$"incompatible_with"; $"version"].
Proof. exact c74_owl. Qed.
Print Assumptions C74_owl_refuted.
Theorem C74_owl_missing : forall nm, In nm owl_terms /\ ~ In nm (map snd (tb_members tb_owl)) <->
  In nm [$"bottomDataProperty"; $"bottomObjectProperty"; $"incompatibleWith"; $"topDataProperty"; $"topObjectProperty"; $"Annotation";
         $"DataRange"; $"onDataRange"; $"onProperties"; $"versionIRI"].
Proof. exact c74_owl_missing. Qed.
Print Assumptions C74_owl_missing.

(** Dublin Core: the elements, types and the abstract model exactly; of the terms, two are
    missing. *)
Theorem C74_dc : forall nm, (In nm (map snd (tb_members tb_dc_elements)) <-> In nm dc_elements_terms) /\
  (In nm (map snd (tb_members tb_dcmi_type)) <-> In nm dcmi_type_terms) /\
  (In nm (map snd (tb_members tb_dcam)) <-> In nm dcam_terms) /\
  (In nm (map snd (tb_members tb_dc_terms)) -> In nm dc_terms_terms).
Proof. exact c74_dc. Qed.
Print Assumptions C74_dc.
Theorem C74_dc_missing : forall nm, In nm dc_terms_terms /\ ~ In nm (map snd (tb_members tb_dc_terms)) <->
  In nm [$"tableOfContents"; $"ProvenanceStatement"].
Proof. exact c74_dc_missing. Qed.
Print Assumptions C74_dc_missing.

(** WGS84: defined names only.  FOAF: one name it does not define (isPrimaryTopicOf is meant). *)
Theorem C74_geo : forall nm, In nm (map snd (tb_members tb_geo)) -> In nm geo_terms.
Proof. exact c74_geo. Qed.
Print Assumptions C74_geo.
Theorem C74_foaf_refuted : forall nm, In nm (map snd (tb_members tb_foaf)) /\ ~ In nm foaf_terms <-> In nm [$"primaryTopicOf"].
Proof. exact c74_foaf. Qed.
Print Assumptions C74_foaf_refuted.

(** In all of them the function is spelled like the name it stands for. *)
Theorem C74_spelled : forall t f nm, In t shipped -> In (f, nm) (tb_members t) -> spelled_like f nm.
Proof. exact c74_spelled. Qed.
Print Assumptions C74_spelled.

(** All of them use the customary prefix for their namespace. *)
Theorem C74_prefixes : forall t, In t shipped -> In (tb_prefix t, tb_ns t) customary_prefixes.
Proof. exact c74_prefixes. Qed.
Print Assumptions C74_prefixes.

(** rdftk_names and the vocabularies of rdftk_iri agree on prefixes and namespaces. *)
Theorem C74_agree : forall t v, In t shipped -> In v all_vocabularies ->
  (tb_prefix t = voc_prefix v <-> tb_ns t = voc_iri v).
Proof. exact c74_agree. Qed.
Print Assumptions C74_agree.

Example C74_example :
  In $"langString" (map snd (tb_members tb_rdfs)) /\ In $"langString" rdf_terms /\
  call_str tb_owl $"incompatible_with" = Some $"incompatible_with" /\
  call_str tb_skos $"member_list" = Some $"memberList" /\
  tb_prefix tb_skos = voc_prefix VOCABULARY_SKOS /\
  spelled_like $"iso_639_2" $"ISO639-2" /\ spelled_like $"a_type" $"type".
Proof.
  split; [cbn; tauto|]. split; [cbn; tauto|]. split; [reflexivity|]. split; [reflexivity|]. split; [reflexivity|].
  split; [exists [], []|exists $"a", []]; (split; [vm_compute; reflexivity|cbn; tauto]).
Qed.
