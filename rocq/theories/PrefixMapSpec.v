(** Abstract specification of prefix maps: a plain relation between prefixes and IRIs. *)
From Verif Require Import Str PName Url PrefixMap.

Definition rel := namespace -> url -> Prop.

Definition rel_empty : rel := fun _ _ => False.

(** Adding a pair drops every other pair that uses its prefix or its IRI. *)
Definition rel_insert (p : namespace) (i : url) (R : rel) : rel :=
  fun p' i' => (p' = p /\ i' = i) \/ (R p' i' /\ p' <> p /\ i' <> i).

Definition rel_remove (p : namespace) (R : rel) : rel := fun p' i' => R p' i' /\ p' <> p.

Definition default_prefix : namespace := MkNamespace $":".

(** The pair a vocabulary stands for. *)
Definition voc_pair (v : vocabulary) (p : namespace) (i : url) : Prop :=
  p = MkNamespace (voc_prefix v ++ $":") /\ url_ser i = voc_iri v /\ wf_url i = true.

Definition rel_step (R : rel) (o : pm_op) : rel :=
  match o with
  | OpInsert p i => rel_insert p i R
  | OpInsertVocabulary v =>
      fun p' i' => voc_pair v p' i' \/
                   (R p' i' /\ p' <> MkNamespace (voc_prefix v ++ $":") /\ url_ser i' <> voc_iri v)
  | OpSetDefault i => rel_insert default_prefix i R
  | OpRemove p => rel_remove p R
  | OpRemoveDefault => rel_remove default_prefix R
  | OpClear => rel_empty
  end.

Definition rel_of_vocabularies (vs : list vocabulary) : rel := fun p i => exists v, In v vs /\ voc_pair v p i.

Definition rel_init (s : pm_start) : rel :=
  match s with
  | StartEmpty => rel_empty
  | StartDefault => rel_of_vocabularies [VOCABULARY_OWL; VOCABULARY_RDF; VOCABULARY_RDF_SCHEMA; VOCABULARY_XML_SCHEMA]
  | StartCommon => rel_of_vocabularies [VOCABULARY_OWL; VOCABULARY_RDF; VOCABULARY_RDF_SCHEMA; VOCABULARY_XML_SCHEMA;
                                         VOCABULARY_DC_TERMS; VOCABULARY_SKOS; VOCABULARY_VOID]
  end.

(** The relation after replaying a history. *)
Definition rel_replay (s : pm_start) (h : list pm_op) : rel := fold_left rel_step h (rel_init s).

(** Arguments a program can pass: parsed IRIs, vocabularies whose two texts parse. *)
Definition vocabulary_ok (v : vocabulary) : Prop :=
  (exists n, namespace_from_str (voc_prefix v ++ $":") = Ok n) /\
  (exists u, wf_url u = true /\ voc_iri v = url_ser u).

Definition op_ok (o : pm_op) : Prop :=
  match o with
  | OpInsert _ i | OpSetDefault i => wf_url i = true
  | OpInsertVocabulary v => vocabulary_ok v
  | _ => True
  end.

(** What is assumed of [url::Url::parse]. *)
Definition parser_ok (parse : str -> option url) : Prop :=
  forall u, wf_url u = true -> parse (url_ser u) = Some u.

(** The published prefixes and namespaces. *)
Definition published : list (str * str) :=
  [($"cal", $"http://www.w3.org/2002/12/cal/ical#");
   ($"dbpedia", $"http://dbpedia.org/ontology/");
   ($"dc", $"http://purl.org/dc/elements/1.1/");
   ($"dcterms", $"http://purl.org/dc/terms/");
   ($"doap", $"http://usefulinc.com/ns/doap#");
   ($"foaf", $"http://xmlns.com/foaf/0.1/");
   ($"geonames", $"http://www.geonames.org/ontology#");
   ($"isothes", $"http://purl.org/iso25964/skos-thes#");
   ($"opengis", $"http://www.opengis.net/ont/geosparql#");
   ($"org", $"http://www.w3.org/ns/org#");
   ($"owl", $"http://www.w3.org/2002/07/owl#");
   ($"rdf", $"http://www.w3.org/1999/02/22-rdf-syntax-ns#");
   ($"rdfs", $"http://www.w3.org/2000/01/rdf-schema#");
   ($"sioc", $"http://rdfs.org/sioc/ns#");
   ($"skos", $"http://www.w3.org/2004/02/skos/core#");
   ($"skosxl", $"http://www.w3.org/2008/05/skos-xl#");
   ($"vann", $"http://purl.org/vocab/vann/");
   ($"void", $"http://rdfs.org/ns/void#");
   ($"wot", $"http://xmlns.com/wot/0.1/");
   ($"xml", $"http://www.w3.org/XML/1998/namespace#");
   ($"xsd", $"http://www.w3.org/2001/XMLSchema#")].
