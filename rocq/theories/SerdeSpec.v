(** What is read from JSON, without reference to the readers.  No proofs here. *)
From Verif Require Export Str PName PNameSpec Url Iri PrefixMap PrefixMapSpec Serde.
From Verif Require Json.
Export Json(json(..)).

(** A key that occurs once in an object. *)
Definition once (k : str) (v : json) (m : list (str * json)) : Prop :=
  exists a b, m = a ++ (k, v) :: b /\ ~ In k (map fst a) /\ ~ In k (map fst b).

Inductive local_name_json : json -> local_name -> Prop :=
| Lj_object m ns n : once $"namespace" (JString ns) m -> once $"name" (JString n) m ->
    local_name_json (JObject m) (MkLocalName (MkNamespace ns) (MkName n))
| Lj_array ns n : local_name_json (JArray [JString ns; JString n]) (MkLocalName (MkNamespace ns) (MkName n)).
Inductive prefixed_name_json : json -> prefixed_name -> Prop :=
| Pj_namespace ns : prefixed_name_json (JObject [($"Namespace", JString ns)]) (PNamespace (MkNamespace ns))
| Pj_local v l : local_name_json v l -> prefixed_name_json (JObject [($"Local", v)]) (PLocal l).

Section Json.
Variable parse : str -> option url.
Inductive iri_json : json -> iri -> Prop :=
| Ij_text s i : parse s = Some i -> iri_json (JString s) i.
Inductive iri_ref_json : json -> iri_ref -> Prop :=
| Rj_iri v i : iri_json v i -> iri_ref_json (JObject [($"Iri", v)]) (RIri i)
| Rj_name v p : prefixed_name_json v p -> iri_ref_json (JObject [($"PrefixedName", v)]) (RPrefixed p).
(** Prefixes and IRIs in the order of the text. *)
Definition pairs_json (l : list (str * json)) (pairs : list (namespace * iri)) : Prop :=
  Forall2 (fun e p => fst e = ns_text (fst p) /\ iri_json (snd e) (snd p)) l pairs.
Inductive prefix_map_json : json -> list (namespace * iri) -> Prop :=
| Mj_object m l pairs : once $"map" (JObject l) m -> pairs_json l pairs -> prefix_map_json (JObject m) pairs
| Mj_array l pairs : pairs_json l pairs -> prefix_map_json (JArray [JObject l]) pairs.
End Json.

(** A pair stays unless a later one has its prefix or its IRI. *)
Definition stays (pairs : list (namespace * iri)) (p : namespace) (i : iri) : Prop :=
  exists a b, pairs = a ++ (p, i) :: b /\ forall q j, In (q, j) b -> q <> p /\ j <> i.

(** [Url::parse] gives well-formed URLs, and each of them for its own text. *)
Definition url_parser (parse : str -> option url) : Prop :=
  parser_ok parse /\ forall s u, parse s = Some u -> wf_url u = true.
