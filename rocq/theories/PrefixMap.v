(** Model of rdftk_iri/src/map.rs ([IriPrefixMap]) and rdftk_iri/src/vocab.rs. *)
From Verif Require Import Str PName Url Iri AMap.

(** map.rs:45-47 [struct IriPrefixMap { map: BiBTreeMap<Namespace, Iri> }] *)
Definition prefix_map := bimap namespace iri.

(** pname.rs:99 derived [Ord for Namespace]: order of the text. *)
Definition ns_cmp (a b : namespace) : comparison := str_cmp (ns_text a) (ns_text b).

(** map.rs:87-91 [empty], 150-152 [is_empty], 157-159 [len] *)
Definition pm_empty : prefix_map := bi_empty.
Definition pm_is_empty (m : prefix_map) : bool := Nat.eqb (bi_len m) 0.
Definition pm_len (m : prefix_map) : nat := bi_len m.

(** map.rs:194-196 [get_namespace], 201-203 [get_prefix], 167-169 [get_default_namespace] *)
Definition pm_get_namespace (m : prefix_map) (p : namespace) : option iri := bi_get_by_left ns_cmp p m.
Definition pm_get_prefix (m : prefix_map) (i : iri) : option namespace := bi_get_by_right iri_cmp i m.
Definition pm_get_default_namespace (m : prefix_map) : option iri := pm_get_namespace m namespace_new_default.

(** map.rs:208-210 [mappings], 215-217 [prefixes], 222-224 [iris] *)
Definition pm_mappings (m : prefix_map) : list (namespace * iri) := left2right m.
Definition pm_prefixes (m : prefix_map) : list namespace := map fst (left2right m).
Definition pm_iris (m : prefix_map) : list iri := map fst (right2left m).

(** map.rs:229-231 [insert], 127-130 [with] *)
Definition pm_insert (m : prefix_map) (p : namespace) (i : iri) : outcome prefix_map := bi_insert ns_cmp iri_cmp p i m.

(** map.rs:177-179 [set_default_namespace], 119-122 [with_default] *)
Definition pm_set_default_namespace (m : prefix_map) (i : iri) : outcome prefix_map :=
  bi_insert ns_cmp iri_cmp namespace_new_default i m.

(** map.rs:244-246 [remove], 187-189 [remove_default_namespace], 251-253 [clear] *)
Definition pm_remove (m : prefix_map) (p : namespace) : outcome prefix_map := bi_remove_by_left ns_cmp iri_cmp p m.
Definition pm_remove_default_namespace (m : prefix_map) : outcome prefix_map :=
  bi_remove_by_left ns_cmp iri_cmp namespace_new_default m.
Definition pm_clear (m : prefix_map) : prefix_map := bi_empty.

(** map.rs:264-272 [expand] *)
Definition pm_expand (m : prefix_map) (l : local_name) : option iri :=
  match option_map (fun ns => make_name ns (ln_name l)) (pm_get_namespace m (ln_namespace l)) with
  | Some expanded => expanded
  | None => None
  end.

(** map.rs:295-305 [compress]; a panic of [split] propagates. *)
Definition pm_compress (m : prefix_map) (i : iri) : outcome (option local_name) :=
  match split i with
  | Panic => Panic
  | Ret None => Ret None
  | Ret (Some (ns, n)) =>
      match pm_get_prefix m ns with
      | None => Ret None
      | Some p => Ret (Some (MkLocalName p n))
      end
  end.

(** map.rs:336-341 [compress_to_iriref] *)
Definition pm_compress_to_iriref (m : prefix_map) (i : iri) : outcome iri_ref :=
  match pm_compress m i with
  | Panic => Panic
  | Ret None => Ret (RIri i)
  | Ret (Some l) => Ret (RPrefixed (PLocal l))
  end.

(** map.rs:53-61 [Display]; [writeln!] ends each line with LF. *)
Definition pm_display (m : prefix_map) : str :=
  $"Prefixes(" ++ [10]
  ++ concat (map (fun pi => $"    " ++ namespace_display (fst pi) ++ $"  " ++ iri_display false (snd pi) ++ $" ," ++ [10])
                 (pm_mappings m))
  ++ $")" ++ [10].

(** map.rs:43 derived [PartialEq]: [BiBTreeMap] compares [left2right]. *)
Definition pm_eq (a b : prefix_map) : Prop := left2right a = left2right b.

(** ** Vocabularies (vocab.rs:39-44) *)
Record vocabulary := MkVocabulary { voc_prefix : str; voc_iri : str }.
(* The description is only ever returned unchanged and is left out. *)

(** vocab.rs:377-380 [prefix_as_namespace]; [expect] panics. *)
Definition voc_prefix_as_namespace (v : vocabulary) : outcome namespace :=
  match namespace_from_str (voc_prefix v ++ $":") with Ok n => Ret n | Err _ => Panic end.

(** vocab.rs:397-399 [iri_as_iri]; [expect] panics. [parse] stands for [Url::from_str]. *)
Definition voc_iri_as_iri (parse : str -> option url) (v : vocabulary) : outcome iri :=
  match iri_from_str parse (voc_iri v) with Some i => Ret i | None => Panic end.

(** map.rs:236-238 [insert_vocabulary], 135-141 [with_vocabulary] *)
Definition pm_insert_vocabulary (parse : str -> option url) (m : prefix_map) (v : vocabulary) : outcome prefix_map :=
  match voc_prefix_as_namespace v with
  | Panic => Panic
  | Ret p => match voc_iri_as_iri parse v with
             | Panic => Panic
             | Ret i => pm_insert m p i
             end
  end.

Definition pm_with_vocabularies parse (m : outcome prefix_map) (vs : list vocabulary) : outcome prefix_map :=
  fold_left (fun acc v => match acc with Panic => Panic | Ret m => pm_insert_vocabulary parse m v end) vs m.

(** vocab.rs:58-345, the public constants, in order of appearance. *)
Definition VOCABULARY_CAL := MkVocabulary $"cal" $"http://www.w3.org/2002/12/cal/ical#".
Definition VOCABULARY_DBPEDIA := MkVocabulary $"dbpedia" $"http://dbpedia.org/ontology/".
Definition VOCABULARY_DC_ELEMENTS := MkVocabulary $"dc" $"http://purl.org/dc/elements/1.1/".
Definition VOCABULARY_DC_TERMS := MkVocabulary $"dcterms" $"http://purl.org/dc/terms/".
Definition VOCABULARY_DOAP := MkVocabulary $"doap" $"http://usefulinc.com/ns/doap#".
Definition VOCABULARY_FOAF := MkVocabulary $"foaf" $"http://xmlns.com/foaf/0.1/".
Definition VOCABULARY_GEO_NAMES := MkVocabulary $"geonames" $"http://www.geonames.org/ontology#".
Definition VOCABULARY_ISO_SKOS := MkVocabulary $"isothes" $"http://purl.org/iso25964/skos-thes#".
Definition VOCABULARY_OPEN_GIS := MkVocabulary $"opengis" $"http://www.opengis.net/ont/geosparql#".
Definition VOCABULARY_ORG := MkVocabulary $"org" $"http://www.w3.org/ns/org#".
Definition VOCABULARY_OWL := MkVocabulary $"owl" $"http://www.w3.org/2002/07/owl#".
Definition VOCABULARY_RDF := MkVocabulary $"rdf" $"http://www.w3.org/1999/02/22-rdf-syntax-ns#".
Definition VOCABULARY_RDF_SCHEMA := MkVocabulary $"rdfs" $"http://www.w3.org/2000/01/rdf-schema#".
Definition VOCABULARY_SIOC := MkVocabulary $"sioc" $"http://rdfs.org/sioc/ns#".
Definition VOCABULARY_SKOS := MkVocabulary $"skos" $"http://www.w3.org/2004/02/skos/core#".
Definition VOCABULARY_SKOS_XL := MkVocabulary $"skosxl" $"http://www.w3.org/2008/05/skos-xl#".
Definition VOCABULARY_VANN := MkVocabulary $"vann" $"http://purl.org/vocab/vann/".
Definition VOCABULARY_VOID := MkVocabulary $"void" $"http://rdfs.org/ns/void#".
Definition VOCABULARY_WOT := MkVocabulary $"wot" $"http://xmlns.com/wot/0.1/".
Definition VOCABULARY_XML := MkVocabulary $"xml" $"http://www.w3.org/XML/1998/namespace#".
Definition VOCABULARY_XML_SCHEMA := MkVocabulary $"xsd" $"http://www.w3.org/2001/XMLSchema#".

Definition all_vocabularies : list vocabulary :=
  [VOCABULARY_CAL; VOCABULARY_DBPEDIA; VOCABULARY_DC_ELEMENTS; VOCABULARY_DC_TERMS; VOCABULARY_DOAP;
   VOCABULARY_FOAF; VOCABULARY_GEO_NAMES; VOCABULARY_ISO_SKOS; VOCABULARY_OPEN_GIS; VOCABULARY_ORG;
   VOCABULARY_OWL; VOCABULARY_RDF; VOCABULARY_RDF_SCHEMA; VOCABULARY_SIOC; VOCABULARY_SKOS;
   VOCABULARY_SKOS_XL; VOCABULARY_VANN; VOCABULARY_VOID; VOCABULARY_WOT; VOCABULARY_XML; VOCABULARY_XML_SCHEMA].

(** map.rs:69-75 [Default::default], map.rs:109-114 [common] *)
Definition pm_default parse : outcome prefix_map :=
  pm_with_vocabularies parse (Ret pm_empty)
    [VOCABULARY_RDF; VOCABULARY_RDF_SCHEMA; VOCABULARY_XML_SCHEMA; VOCABULARY_OWL].
Definition pm_common parse : outcome prefix_map :=
  pm_with_vocabularies parse (pm_default parse) [VOCABULARY_DC_TERMS; VOCABULARY_SKOS; VOCABULARY_VOID].

(** ** Histories of public calls *)
Inductive pm_start := StartEmpty | StartDefault | StartCommon.
Inductive pm_op :=
| OpInsert (p : namespace) (i : iri)
| OpInsertVocabulary (v : vocabulary)
| OpSetDefault (i : iri)
| OpRemove (p : namespace)
| OpRemoveDefault
| OpClear.

Definition pm_init parse (s : pm_start) : outcome prefix_map :=
  match s with
  | StartEmpty => Ret pm_empty
  | StartDefault => pm_default parse
  | StartCommon => pm_common parse
  end.

Definition pm_step parse (m : prefix_map) (o : pm_op) : outcome prefix_map :=
  match o with
  | OpInsert p i => pm_insert m p i
  | OpInsertVocabulary v => pm_insert_vocabulary parse m v
  | OpSetDefault i => pm_set_default_namespace m i
  | OpRemove p => pm_remove m p
  | OpRemoveDefault => pm_remove_default_namespace m
  | OpClear => Ret (pm_clear m)
  end.

Fixpoint pm_exec parse (m : prefix_map) (h : list pm_op) : outcome prefix_map :=
  match h with
  | [] => Ret m
  | o :: r => match pm_step parse m o with Panic => Panic | Ret m' => pm_exec parse m' r end
  end.

Definition pm_run parse (s : pm_start) (h : list pm_op) : outcome prefix_map :=
  match pm_init parse s with Panic => Panic | Ret m => pm_exec parse m h end.
