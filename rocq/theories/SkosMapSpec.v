(** What is said about the prefixes for thesauri. *)
From Verif Require Import Str PName Url Iri PrefixMap Names Term.
From Verif Require Export SkosMap SkosSpec PrefixMapSpec.

(** The prefixes and namespaces. *)
Definition standard_pairs : list (str * str) :=
  [($"skos", $"http://www.w3.org/2004/02/skos/core#"); ($"skosxl", $"http://www.w3.org/2008/05/skos-xl#");
   ($"isothes", $"http://purl.org/iso25964/skos-thes#"); ($"status", $"http://www.w3.org/2003/06/sw-vocab-status/ns#");
   ($"dcterms", $"http://purl.org/dc/terms/"); ($"rdf", $"http://www.w3.org/1999/02/22-rdf-syntax-ns#");
   ($"owl", $"http://www.w3.org/2002/07/owl#"); ($"xsd", $"http://www.w3.org/2001/XMLSchema#")].

(** The IRI is shortened to one of these prefixes and a name, and can be had back. *)
Definition shortened (m : prefix_map) (iri : str) : Prop :=
  exists x ns nm i l, In (x, ns) standard_pairs /\ iri = ns ++ nm /\ url_ser i = iri /\
    local_name_from_str (x ++ $":" ++ nm) = Ok l /\ pm_compress m i = Ret (Some l) /\ pm_expand m l = Some i.

(** Labels and properties of something in the thesaurus. *)
Definition has_labels (w : world) (ls : list slabel) : Prop :=
  ls = ks_labels (w_scheme w) \/ (exists c, In c (w_concepts w) /\ ls = kc_labels c) \/
  (exists c, In c (w_collections w) /\ ls = kl_labels c).
Definition has_properties (w : world) (ps : list lprop) : Prop :=
  ps = ks_properties (w_scheme w) \/ (exists c, In c (w_concepts w) /\ ps = kc_properties c) \/
  (exists c, In c (w_collections w) /\ ps = kl_properties c).
(** Predicates that the program has chosen. *)
Definition given (w : world) (p : str) : Prop :=
  (exists ls t g, has_labels w ls /\ In (MkLabel (LkOther p) t g) ls) \/
  (exists ps q, has_properties w ps /\ In q ps /\ lp_predicate q = p) \/
  (exists c i, In c (w_concepts w) /\ In (p, i) (kc_external c)).
