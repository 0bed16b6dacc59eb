(** Model of the prefixes for thesauri in rdftk_skos. *)
From Verif Require Import Str PName Url Iri PrefixMap Names.
From Verif Require Export Skos.

(** rdftk_skos/src/model/mod.rs:163-182: one call of [insert].  [default_prefix()] is a name
    without colon, and the prefixes of the map have one. *)
Definition insert_table (parse : str -> option url) (m : prefix_map) (t : table) : outcome prefix_map :=
  and_then (default_prefix_fn t) (fun p => and_then (namespace_fn parse t) (fun i =>
    pm_insert m (MkNamespace (name_text p ++ $":")) i)).

(** mod.rs:159-185 [standard_mappings]; [m] is what [rdftk_core::simple::mapping::default_mappings]
    returns, which is not in the repository. *)
Definition standard_mappings (parse : str -> option url) (m : prefix_map) : outcome prefix_map :=
  fold_left (fun acc t => and_then acc (fun m => insert_table parse m t))
    [tb_sk; tb_sk_xl; tb_sk_iso; tb_sk_status; tb_dc_terms; tb_rdf; tb_owl; tb_xsd] (Ret m).
