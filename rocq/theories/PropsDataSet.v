(** Property theorems C32 (data sets).  Statements only; proofs in DataSetProofs.v. *)
From Verif Require Import Str Literal Term Graph GraphSpec DataSet DataSetSpec DataSetProofs.

Definition ex_st : statement := MkStmt (SRes $"http://e/a") $"http://e/p" (OLit (Lit $"1" None None)).
Definition ex_n : graph_name := GnIri $"http://e/g".
Definition ex_g1 : graph := g_named ex_n.
Definition ex_g2 : graph := g_insert (g_named ex_n) ex_st.
Definition ex_g0 : graph := g_from_iter [ex_st].

(** C32: every history is a history of a catalogue from names to graphs. *)
Theorem C32_catalogue : forall d ops, ds_start d ->
  forall k, ds_graph (ds_run d ops) k = cat_run (ds_graph d) ops k.
Proof. exact c32_refines. Qed.
Print Assumptions C32_catalogue.

(** C32: what a new data set contains; of several graphs with a name the last is kept. *)
Theorem C32_start : forall l k,
  ds_graph (ds_from_iter l) k = latest l k /\ ds_graph (ds_from_vec l) k = latest l k /\
  ds_graph ds_default k = None /\
  forall g, ds_graph (ds_from_graph g) k = if key_eqb (g_name g) k then Some g else None.
Proof. exact c32_start. Qed.
Print Assumptions C32_start.

(** C32: a graph is found under its own name only, unless it is renamed in place. *)
Theorem C32_own_name : forall d ops, ds_start d -> Forall keeps_names ops ->
  forall k g, ds_graph (ds_run d ops) k = Some g -> g_name g = k.
Proof. exact c32_names. Qed.
Print Assumptions C32_own_name.

(** C32: listing, size and the other queries agree with [graph]. *)
Theorem C32_listing : forall d ops ho, ds_start d -> (forall l, Permutation (ho l) l) ->
  let d' := ds_run d ops in
  (forall g, In g (ds_graphs ho d') <-> exists k, ds_graph d' k = Some g) /\
  ds_len d' = length (ds_graphs ho d') /\
  (ds_is_empty d' = true <-> forall k, ds_graph d' k = None) /\
  (forall k, ds_contains_graph d' k = true <-> ds_graph d' k <> None) /\
  ds_has_default_graph d' = ds_contains_graph d' None /\ ds_default_graph d' = ds_graph d' None /\
  (forall n, ds_has_graph_named d' n = ds_contains_graph d' (Some n) /\ ds_graph_named d' n = ds_graph d' (Some n)) /\
  (Forall keeps_names ops -> NoDup (map g_name (ds_graphs ho d')) /\
     forall g, In g (ds_graphs ho d') <-> ds_graph d' (g_name g) = Some g).
Proof. exact c32_listing. Qed.
Print Assumptions C32_listing.

(** C32 is false when a graph is renamed through [graph_mut], or the data set is made from
    a ready-made map. *)
Theorem C32_rename_refuted :
  (exists ops k g, ds_graph (ds_run ds_default ops) k = Some g /\ g_name g <> k) /\
  (exists m k g, NoDup (map fst m) /\ ds_graph (ds_from_map m) k = Some g /\ g_name g <> k).
Proof.
  split.
  - exists [DsInsert ex_g1; DsMutate (Some ex_n) [OpUnsetName]], (Some ex_n), g_default.
    split; [vm_compute; reflexivity|discriminate].
  - exists [(Some ex_n, g_default)], (Some ex_n), g_default.
    split; [repeat constructor; simpl; tauto|]. split; [vm_compute; reflexivity|discriminate].
Qed.
Print Assumptions C32_rename_refuted.

Example C32_example :
  let ops := [DsInsert ex_g1; DsExtend [ex_g0; ex_g2]; DsMutate None [OpClear]; DsRemove (Some (GnBlank $"x"))] in
  ds_start (ds_from_vec [ex_g2; g_default; ex_g1]) /\ Forall keeps_names ops /\
  ds_run (ds_from_vec [ex_g2; g_default; ex_g1]) ops = [(Some ex_n, ex_g2); (None, g_default)] /\
  ds_run ds_default [DsInsert ex_g1; DsRemove (Some ex_n)] = [].
Proof.
  split; [right; eexists; reflexivity|]. split; [repeat constructor|]. vm_compute. auto.
Qed.

(** C39 is false of data sets too: they report no feature, whatever their graphs report. *)
Theorem C39_data_set_refuted : forall d f, ds_supports_feature d f = false /\
  forall k g, In (k, g) d -> g_supports_feature g (feature $"graph/rdf_star") = true.
Proof. exact c39_data_set. Qed.
Print Assumptions C39_data_set_refuted.
