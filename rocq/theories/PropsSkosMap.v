(** Property theorems C118 (the prefixes for thesauri).  Statements only; proofs in
    SkosMapProofs.v. *)
From Verif Require Import Str PName Url Iri PrefixMap Names Term SkosMapProofs IriProofs PropsPrefixMap PropsSkos.

(** C118: making the map never panics, whatever it starts from; it has the eight prefixes, and of
    what was there before it keeps exactly what uses none of them and none of their namespaces. *)
Theorem C118_mappings : forall parse, parser_ok parse -> forall s h m, Forall op_ok h -> pm_run parse s h = Ret m ->
  exists m', standard_mappings parse m = Ret m' /\ forall p i, pm_get_namespace m' p = Some i <->
    (exists x ns, In (x, ns) standard_pairs /\ p = MkNamespace (x ++ $":") /\ url_ser i = ns /\ wf_url i = true) \/
    (pm_get_namespace m p = Some i /\ forall x ns, In (x, ns) standard_pairs -> p <> MkNamespace (x ++ $":") /\ url_ser i <> ns).
Proof. exact c118_mappings. Qed.
Print Assumptions C118_mappings.

(** C118: every predicate and every class that the library itself puts into the graph of a
    thesaurus is shortened by the map, and can be had back. *)
Theorem C118_thesaurus : forall parse s h m m' gext printable u l ops fuel n sts n' st, parser_ok parse ->
  Forall op_ok h -> pm_run parse s h = Ret m -> standard_mappings parse m = Ret m' -> let w := skos_run (world_new u l) ops in
  scheme_statements gext printable fuel n w = Some (sts, n') -> In st sts -> ~ given w (st_predicate st) ->
  shortened m' (st_predicate st) /\ forall c, st_predicate st = rdf $"type" -> st_object st = ORes c -> shortened m' c.
Proof. exact c118_thesaurus. Qed.
Print Assumptions C118_thesaurus.

(** C118: so are the predicates of the properties that have constructors of their own. *)
Theorem C118_constructors : forall parse s h m m' fn p, parser_ok parse ->
  Forall op_ok h -> pm_run parse s h = Ret m -> standard_mappings parse m = Ret m' ->
  assoc fn constructor_names = Some p \/ assoc fn constructor_names_with = Some p -> shortened m' p.
Proof. exact c118_constructors. Qed.
Print Assumptions C118_constructors.

(** The predicate of a label of one's own is not shortened, and a prefix of one's own for the
    namespace of SKOS is lost. *)
Definition sm_url (p : str) : url := MkUrl $"http" (Some $"www.w3.org") p None (Some []).
Definition sm_history : list pm_op := [PrefixMap.OpInsert (MkNamespace $"k:") (sm_url $"/2004/02/skos/core"); PrefixMap.OpInsert (MkNamespace $"e:") (sm_url $"/e")].
Definition sm_map : prefix_map := match pm_run url_reparse StartDefault sm_history with Ret m => m | Panic => pm_empty end.
Definition sm_standard : prefix_map := match standard_mappings url_reparse sm_map with Ret m => m | Panic => pm_empty end.
Example C118_example :
  parser_ok url_reparse /\ Forall op_ok sm_history /\ pm_run url_reparse StartDefault sm_history = Ret sm_map /\
  standard_mappings url_reparse sm_map = Ret sm_standard /\
  map (fun q => (ns_text (fst q), url_ser (snd q))) (pm_mappings sm_standard) =
    [($"dcterms:", $"http://purl.org/dc/terms/"); ($"e:", $"http://www.w3.org/e#"); ($"isothes:", $"http://purl.org/iso25964/skos-thes#");
     ($"owl:", $"http://www.w3.org/2002/07/owl#"); ($"rdf:", $"http://www.w3.org/1999/02/22-rdf-syntax-ns#");
     ($"rdfs:", $"http://www.w3.org/2000/01/rdf-schema#"); ($"skos:", $"http://www.w3.org/2004/02/skos/core#");
     ($"skosxl:", $"http://www.w3.org/2008/05/skos-xl#"); ($"status:", $"http://www.w3.org/2003/06/sw-vocab-status/ns#");
     ($"xsd:", $"http://www.w3.org/2001/XMLSchema#")] /\
  option_map namespace_display (pm_get_prefix sm_map (sm_url $"/2004/02/skos/core")) = Some $"k:" /\
  (exists sts n', scheme_statements ex_none ex_all 5 0 ex_world = Some (sts, n') /\
     In (link $"p:a" (skos $"topConceptOf") $"p:s") sts /\ ~ given ex_world (skos $"topConceptOf") /\ given ex_world $"p:match") /\
  pm_compress sm_standard (MkUrl $"http" (Some $"www.w3.org") $"/2004/02/skos/core" None (Some $"topConceptOf")) =
    Ret (Some (MkLocalName (MkNamespace $"skos:") (MkName $"topConceptOf"))) /\
  assoc $"scope_note" constructor_names = Some (skos $"scopeNote").
Proof.
  split; [intros u; apply url_reparse_ser|]. split; [repeat constructor|]. split; [vm_compute; reflexivity|].
  split; [vm_compute; reflexivity|]. split; [vm_compute; reflexivity|]. split; [vm_compute; reflexivity|].
  split; [|split; vm_compute; reflexivity].
  eexists. eexists. split; [vm_compute; reflexivity|]. split; [vm_compute; tauto|]. split.
  - assert (L : forall ls, has_labels ex_world ls -> forallb (fun x => match sl_kind x with LkOther _ => false | _ => true end) ls = true).
    { intros ls [->|[(c & I & ->)|(c & I & ->)]]; [vm_compute; reflexivity| |];
        vm_compute in I; repeat (destruct I as [<-|I]; [vm_compute; reflexivity|]); destruct I. }
    assert (Q : forall ps, has_properties ex_world ps -> forallb (fun q => negb (str_eqb (lp_predicate q) (skos $"topConceptOf"))) ps = true).
    { intros ps [->|[(c & I & ->)|(c & I & ->)]]; [vm_compute; reflexivity| |];
        vm_compute in I; repeat (destruct I as [<-|I]; [vm_compute; reflexivity|]); destruct I. }
    intros [(ls & t & g & H & I)|[(ps & q & H & I & E)|(c & i & I & J)]].
    + apply L in H. rewrite forallb_forall in H. apply H in I. discriminate I.
    + apply Q in H. rewrite forallb_forall in H. apply H in I. rewrite E in I. vm_compute in I. discriminate I.
    + assert (X : forallb (fun c => forallb (fun q => negb (str_eqb (fst q) (skos $"topConceptOf"))) (kc_external c)) (w_concepts ex_world) = true)
        by (vm_compute; reflexivity).
      rewrite forallb_forall in X. apply X in I. rewrite forallb_forall in I. apply I in J. vm_compute in J. discriminate J.
  - right. right. eexists. exists $"q:d". split; [apply (nth_error_In _ 3); vm_compute; reflexivity|left; vm_compute; reflexivity].
Qed.
