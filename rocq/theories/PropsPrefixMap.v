(** Property theorems C11-C17 (prefix maps and vocabularies).  Statements only; proofs in
    PrefixMapProofs.v, abstract specification in PrefixMapSpec.v. *)
From Coq Require Import Sorting.Sorted Permutation.
From Verif Require Import Str PName Url Iri IriSpec IriProofs AMap PrefixMap PrefixMapSpec PrefixMapProofs.

(** C11: after any history the two lookups are inverse and all listings agree. *)
Theorem C11_bijection : forall parse, parser_ok parse -> forall s h m,
  Forall op_ok h -> pm_run parse s h = Ret m ->
  (forall p i, wf_url i = true -> (pm_get_namespace m p = Some i <-> pm_get_prefix m i = Some p)) /\
  (forall p i, pm_get_namespace m p = Some i -> wf_url i = true) /\
  (forall p i, In (p, i) (pm_mappings m) <-> pm_get_namespace m p = Some i) /\
  pm_prefixes m = map fst (pm_mappings m) /\
  Permutation (pm_iris m) (map snd (pm_mappings m)) /\
  NoDup (pm_prefixes m) /\ NoDup (pm_iris m) /\
  pm_len m = length (pm_mappings m) /\ (pm_is_empty m = true <-> pm_mappings m = []).
Proof. exact c11_bijection. Qed.
Print Assumptions C11_bijection.

(** C12: no history panics and the result is the relation obtained by replaying it. *)
Theorem C12_refines_relation : forall parse, parser_ok parse -> forall s h, Forall op_ok h ->
  exists m, pm_run parse s h = Ret m /\
    (forall p i, pm_get_namespace m p = Some i <-> rel_replay s h p i) /\
    (forall p i, wf_url i = true -> (pm_get_prefix m i = Some p <-> rel_replay s h p i)) /\
    (forall p i, In (p, i) (pm_mappings m) <-> rel_replay s h p i) /\
    (forall i, pm_get_default_namespace m = Some i <-> rel_replay s h default_prefix i).
Proof. exact c12_refines. Qed.
Print Assumptions C12_refines_relation.

(** C12: effect of each single operation on a reachable map. *)
Theorem C12_operation_effects : forall parse, parser_ok parse -> forall s h m,
  Forall op_ok h -> pm_run parse s h = Ret m ->
  (forall p i, wf_url i = true -> exists m', pm_insert m p i = Ret m' /\
     pm_get_namespace m' p = Some i /\ pm_get_prefix m' i = Some p /\
     (forall p', p' <> p -> pm_get_namespace m' p' =
        (if match pm_get_namespace m p' with Some j => iri_eqb j i | None => false end
         then None else pm_get_namespace m p'))) /\
  (forall p, exists m', pm_remove m p = Ret m' /\ pm_get_namespace m' p = None /\
     (forall p', p' <> p -> pm_get_namespace m' p' = pm_get_namespace m p')) /\
  (forall p, pm_get_namespace (pm_clear m) p = None) /\
  (forall i, pm_set_default_namespace m i = pm_insert m default_prefix i) /\
  pm_remove_default_namespace m = pm_remove m default_prefix.
Proof. exact c12_effects. Qed.
Print Assumptions C12_operation_effects.

Definition ex_ns : url := MkUrl $"https" (Some $"example.org") $"/ns/" None None.
Definition ex_ns2 : url := MkUrl $"https" (Some $"example.org") $"/ns2" None (Some []).
Definition ex_p (s : str) : namespace := MkNamespace (s ++ $":").
(** "b" takes over the IRI of "a", then "b" is rebound. *)
Definition ex_history : list pm_op :=
  [OpInsert (ex_p $"a") ex_ns; OpInsert (ex_p $"b") ex_ns; OpInsertVocabulary VOCABULARY_FOAF;
   OpSetDefault ex_ns2; OpRemove (ex_p $"rdf")].

Example C11_example :
  Forall op_ok ex_history /\
  exists m, pm_run url_reparse StartDefault ex_history = Ret m /\
    pm_get_namespace m (ex_p $"a") = None /\ pm_get_namespace m (ex_p $"b") = Some ex_ns /\
    pm_get_prefix m ex_ns2 = Some default_prefix /\ pm_len m = 6%nat /\
    map (fun p => ns_text p) (pm_prefixes m) = [ $":"; $"b:"; $"foaf:"; $"owl:"; $"rdfs:"; $"xsd:"].
Proof.
  split.
  - repeat constructor; cbn; try (vm_compute; reflexivity).
    + exists (ex_p $"foaf"). vm_compute. reflexivity.
    + exists (MkUrl $"http" (Some $"xmlns.com") $"/foaf/0.1/" None None). vm_compute. repeat split.
  - eexists. split; [vm_compute; reflexivity|]. vm_compute. repeat split.
Qed.

(** C13 is false for IRIs that end in a bare '#'. *)
Theorem C13_compress_expand_refuted :
  exists h m i l, Forall op_ok h /\ pm_run url_reparse StartEmpty h = Ret m /\ wf_url i = true /\
    pm_compress m i = Ret (Some l) /\ pm_expand m l <> Some i.
Proof.
  exists [OpInsert (ex_p $"a") (MkUrl $"https" (Some $"e") $"/ns/" None (Some []))]. eexists.
  exists (MkUrl $"https" (Some $"e") $"/ns/Name" None (Some [])), (MkLocalName (ex_p $"a") (MkName $"Name")).
  split; [repeat constructor|]. split; [vm_compute; reflexivity|]. vm_compute. repeat split. discriminate.
Qed.
Print Assumptions C13_compress_expand_refuted.

(** C13, exactly when it holds. *)
Theorem C13_compress_expand : forall parse, parser_ok parse -> forall s h m i l,
  Forall op_ok h -> pm_run parse s h = Ret m ->
  wf_url i = true -> pm_compress m i = Ret (Some l) ->
  (pm_expand m l = Some i <-> u_frag i <> Some []).
Proof. exact c13_compress_expand. Qed.
Print Assumptions C13_compress_expand.

Example C13_example : exists m, pm_run url_reparse StartCommon [] = Ret m /\
  pm_compress m (MkUrl $"http" (Some $"www.w3.org") $"/2002/07/owl" None (Some $"Class")) =
    Ret (Some (MkLocalName (ex_p $"owl") (MkName $"Class"))) /\
  pm_compress m (MkUrl $"http" (Some $"purl.org") $"/dc/terms/title" None None) =
    Ret (Some (MkLocalName (ex_p $"dcterms") (MkName $"title"))).
Proof. eexists. split; [vm_compute; reflexivity|]. vm_compute. repeat split. Qed.

(** C14 is false for non-ASCII names. *)
Theorem C14_expand_compress_refuted :
  exists h m l ns i sn, Forall op_ok h /\ pm_run url_reparse StartEmpty h = Ret m /\
    name_from_str sn = Ok (ln_name l) /\ pm_get_namespace m (ln_namespace l) = Some ns /\ namespace_like ns /\
    pm_expand m l = Some i /\ pm_compress m i = Ret None.
Proof.
  exists [OpInsert (ex_p $"a") ex_ns]. eexists.
  exists (MkLocalName (ex_p $"a") (MkName [0xE9])), ex_ns. eexists. exists [0xE9].
  split; [repeat constructor|]. split; [vm_compute; reflexivity|].
  split; [vm_compute; reflexivity|]. split; [vm_compute; reflexivity|].
  split; [right; repeat split|]. split; [vm_compute; reflexivity|vm_compute; reflexivity].
Qed.
Print Assumptions C14_expand_compress_refuted.

(** C14, exactly when it holds. *)
Theorem C14_expand_compress : forall parse, parser_ok parse -> forall s h m l ns sn,
  Forall op_ok h -> pm_run parse s h = Ret m ->
  name_from_str sn = Ok (ln_name l) ->
  pm_get_namespace m (ln_namespace l) = Some ns -> namespace_like ns ->
  exists i, pm_expand m l = Some i /\
    (pm_compress m i = Ret (Some l) <-> forallb is_ascii sn = true) /\
    (forallb is_ascii sn = false -> pm_compress m i = Ret None).
Proof. exact c14_expand_compress. Qed.
Print Assumptions C14_expand_compress.

Example C14_example : exists m, pm_run url_reparse StartEmpty ex_history = Ret m /\
  pm_get_namespace m (ex_p $"b") = Some ex_ns /\ namespace_like ex_ns /\
  pm_expand m (MkLocalName (ex_p $"b") (MkName $"x")) = Some (MkUrl $"https" (Some $"example.org") $"/ns/x" None None) /\
  pm_compress m (MkUrl $"https" (Some $"example.org") $"/ns/x" None None) = Ret (Some (MkLocalName (ex_p $"b") (MkName $"x"))).
Proof.
  eexists. split; [vm_compute; reflexivity|]. split; [vm_compute; reflexivity|].
  split; [right; repeat split|]. vm_compute. repeat split.
Qed.

(** C15: panics exactly for the IRIs [split] panics on; otherwise, unless the IRI ends in a
    bare '#', the IRI is not lost. *)
Theorem C15_compress_to_iriref : forall parse, parser_ok parse -> forall s h m i,
  Forall op_ok h -> pm_run parse s h = Ret m -> wf_url i = true ->
  (pm_compress_to_iriref m i = Panic <-> opaque_with_last_segment i) /\
  (forall r, pm_compress_to_iriref m i = Ret r -> u_frag i <> Some [] ->
     r = RIri i \/ exists l, r = RPrefixed (PLocal l) /\ pm_expand m l = Some i).
Proof. exact c15_iriref. Qed.
Print Assumptions C15_compress_to_iriref.

(** C15: a prefixed name is given whenever the map has the namespace of the IRI; never a
    bare prefix. *)
Theorem C15_prefixed : forall parse, parser_ok parse -> forall s h m i,
  Forall op_ok h -> pm_run parse s h = Ret m -> wf_url i = true ->
  (forall p n, pm_compress_to_iriref m i = Ret (RPrefixed (PLocal (MkLocalName p n))) <->
     exists ns, split i = Ret (Some (ns, n)) /\ In (p, ns) (pm_mappings m)) /\
  (forall ns, pm_compress_to_iriref m i <> Ret (RPrefixed (PNamespace ns))).
Proof. exact c15_prefixed. Qed.
Print Assumptions C15_prefixed.

(** C15 is false in full: the bare '#' case and the panic. *)
Theorem C15_compress_to_iriref_refuted :
  (exists h m i l, Forall op_ok h /\ pm_run url_reparse StartEmpty h = Ret m /\ wf_url i = true /\
     pm_compress_to_iriref m i = Ret (RPrefixed (PLocal l)) /\ pm_expand m l <> Some i) /\
  (exists m i, pm_run url_reparse StartCommon [] = Ret m /\ wf_url i = true /\ pm_compress_to_iriref m i = Panic).
Proof.
  split.
  - exists [OpInsert (ex_p $"a") (MkUrl $"https" (Some $"e") $"/ns/" None (Some []))]. eexists.
    exists (MkUrl $"https" (Some $"e") $"/ns/Name" None (Some [])), (MkLocalName (ex_p $"a") (MkName $"Name")).
    split; [repeat constructor|]. split; [vm_compute; reflexivity|]. vm_compute. repeat split. discriminate.
  - eexists. exists (MkUrl $"urn" None $"isbn:42" None None).
    split; [vm_compute; reflexivity|]. split; vm_compute; reflexivity.
Qed.
Print Assumptions C15_compress_to_iriref_refuted.

Example C15_example : exists m, pm_run url_reparse StartCommon [] = Ret m /\
  pm_compress_to_iriref m (MkUrl $"http" (Some $"www.w3.org") $"/2002/07/owl" None (Some $"Class")) =
    Ret (RPrefixed (PLocal (MkLocalName (ex_p $"owl") (MkName $"Class")))) /\
  pm_compress_to_iriref m ex_ns = Ret (RIri ex_ns).
Proof. eexists. split; [vm_compute; reflexivity|]. vm_compute. repeat split. Qed.

(** C16: the conversions of every built-in vocabulary succeed and give a namespace. *)
Theorem C16_vocabularies_valid : forall parse, parser_ok parse -> forall v, In v all_vocabularies ->
  voc_prefix_as_namespace v = Ret (MkNamespace (voc_prefix v ++ $":")) /\
  exists u, voc_iri_as_iri parse v = Ret u /\ url_ser u = voc_iri v /\ looks_like_namespace u = true.
Proof. exact c16_vocabulary_values. Qed.
Print Assumptions C16_vocabularies_valid.

(** C16: they are the 21 published ones, each once. *)
Theorem C16_published : forall p i,
  In (p, i) published <-> exists v, In v all_vocabularies /\ p = voc_prefix v /\ i = voc_iri v.
Proof. exact c16_published. Qed.
Print Assumptions C16_published.
Theorem C16_each_once : length all_vocabularies = 21%nat /\
  NoDup (map voc_prefix all_vocabularies) /\ NoDup (map voc_iri all_vocabularies).
Proof. exact c16_each_once. Qed.
Print Assumptions C16_each_once.

(** C16: [default] and [common] hold exactly the documented mappings. *)
Theorem C16_stock_maps : forall parse, parser_ok parse ->
  exists d c, pm_default parse = Ret d /\ pm_common parse = Ret c /\
    (forall p i, In (p, i) (pm_mappings d) <-> rel_init StartDefault p i) /\
    (forall p i, In (p, i) (pm_mappings c) <-> rel_init StartCommon p i) /\
    pm_len d = 4%nat /\ pm_len c = 7%nat.
Proof. exact c16_stock. Qed.
Print Assumptions C16_stock_maps.

(** C16: inserting built-in vocabularies in any order, any number of times, never panics and
    never evicts one. *)
Theorem C16_no_eviction : forall parse, parser_ok parse -> forall vs, incl vs all_vocabularies ->
  exists m, pm_with_vocabularies parse (Ret pm_empty) vs = Ret m /\
  (forall p i, In (p, i) (pm_mappings m) <-> rel_of_vocabularies vs p i) /\
  (forall v, In v vs -> exists u, url_ser u = voc_iri v /\
      pm_get_namespace m (MkNamespace (voc_prefix v ++ $":")) = Some u /\ looks_like_namespace u = true).
Proof.
  intros parse Hp vs Hi. destruct (c16_never_panics parse Hp vs Hi) as [m Hm].
  exists m. exact (conj Hm (c16_all_insertable parse Hp vs m Hi Hm)).
Qed.
Print Assumptions C16_no_eviction.

Example C16_example : exists m, pm_common url_reparse = Ret m /\
  map (fun q => (ns_text (fst q), url_ser (snd q))) (pm_mappings m) =
  [($"dcterms:", $"http://purl.org/dc/terms/"); ($"owl:", $"http://www.w3.org/2002/07/owl#");
   ($"rdf:", $"http://www.w3.org/1999/02/22-rdf-syntax-ns#"); ($"rdfs:", $"http://www.w3.org/2000/01/rdf-schema#");
   ($"skos:", $"http://www.w3.org/2004/02/skos/core#"); ($"void:", $"http://rdfs.org/ns/void#");
   ($"xsd:", $"http://www.w3.org/2001/XMLSchema#")].
Proof. eexists. split; vm_compute; reflexivity. Qed.

(** C17: listings are strictly increasing. *)
Theorem C17_sorted_listings : forall parse, parser_ok parse -> forall s h m,
  Forall op_ok h -> pm_run parse s h = Ret m ->
  StronglySorted (fun a b => str_cmp (ns_text a) (ns_text b) = Lt) (pm_prefixes m) /\
  StronglySorted (fun a b => str_cmp (ns_text (fst a)) (ns_text (fst b)) = Lt) (pm_mappings m) /\
  StronglySorted (fun a b => str_cmp (url_ser a) (url_ser b) = Lt) (pm_iris m).
Proof. exact c17_sorted. Qed.
Print Assumptions C17_sorted_listings.

(** C17: same content, same everything, whatever the two histories were. *)
Theorem C17_canonical : forall parse, parser_ok parse -> forall s1 h1 m1 s2 h2 m2,
  Forall op_ok h1 -> Forall op_ok h2 -> pm_run parse s1 h1 = Ret m1 -> pm_run parse s2 h2 = Ret m2 ->
  (forall p i, rel_replay s1 h1 p i <-> rel_replay s2 h2 p i) ->
  pm_eq m1 m2 /\ pm_mappings m1 = pm_mappings m2 /\ pm_iris m1 = pm_iris m2 /\ pm_display m1 = pm_display m2.
Proof. exact c17_canonical. Qed.
Print Assumptions C17_canonical.

Example C17_example : exists m,
  pm_run url_reparse StartEmpty [OpInsert (ex_p $"b") ex_ns; OpInsert (ex_p $"a") ex_ns2] = Ret m /\
  pm_run url_reparse StartEmpty [OpInsert (ex_p $"a") ex_ns; OpInsert (ex_p $"b") ex_ns; OpInsert (ex_p $"a") ex_ns2] = Ret m /\
  pm_display m = $"Prefixes(" ++ [10] ++ $"    a:  <https://example.org/ns2#> ," ++ [10]
                 ++ $"    b:  <https://example.org/ns/> ," ++ [10] ++ $")" ++ [10].
Proof. eexists. split; [vm_compute; reflexivity|]. split; vm_compute; reflexivity. Qed.

(** C57: expansion is a look-up among the current mappings followed by joining ... *)
Theorem C57_expand_is_lookup : forall parse, parser_ok parse -> forall s h m l v,
  Forall op_ok h -> pm_run parse s h = Ret m ->
  pm_expand m l = Some v <->
  exists ns, In (ln_namespace l, ns) (pm_mappings m) /\ make_name ns (ln_name l) = Some v.
Proof. exact c57_expand. Qed.
Print Assumptions C57_expand_is_lookup.

(** ... and fails exactly if the prefix is unmapped or mapped to an IRI that cannot be
    extended by a name. *)
Theorem C57_expand_fails : forall parse, parser_ok parse -> forall s h m l,
  Forall op_ok h -> pm_run parse s h = Ret m ->
  pm_expand m l = None <->
  forall ns, In (ln_namespace l, ns) (pm_mappings m) ->
    u_frag ns = None /\ (ends_with_chr 47 (u_path ns) = false \/ u_query ns <> None).
Proof. exact c57_expand_fails. Qed.
Print Assumptions C57_expand_fails.

Theorem C57_compress_is_lookup : forall parse, parser_ok parse -> forall s h m i p n,
  Forall op_ok h -> pm_run parse s h = Ret m -> wf_url i = true ->
  pm_compress m i = Ret (Some (MkLocalName p n)) <->
  exists ns, split i = Ret (Some (ns, n)) /\ In (p, ns) (pm_mappings m).
Proof. exact c57_compress. Qed.
Print Assumptions C57_compress_is_lookup.

Theorem C57_compress_fails : forall parse, parser_ok parse -> forall s h m i,
  Forall op_ok h -> pm_run parse s h = Ret m -> wf_url i = true ->
  pm_compress m i = Ret None <->
  split i = Ret None \/ exists ns n, split i = Ret (Some (ns, n)) /\ forall p, ~ In (p, ns) (pm_mappings m).
Proof. exact c57_compress_none. Qed.
Print Assumptions C57_compress_fails.

Example C57_example : exists m, pm_run url_reparse StartDefault ex_history = Ret m /\
  pm_expand m (MkLocalName (ex_p $"zz") (MkName $"n")) = None /\
  pm_expand m (MkLocalName (ex_p $"owl") (MkName $"n")) <> None /\
  pm_compress m (MkUrl $"https" (Some $"unknown") $"/a/b" None None) = Ret None.
Proof. eexists. split; [vm_compute; reflexivity|]. split; [vm_compute; reflexivity|]. split; [vm_compute; discriminate|vm_compute; reflexivity]. Qed.
