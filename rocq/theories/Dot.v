(** Model of rdftk_io/src/dot/writer.rs and rdftk_io/src/trig/writer.rs.  No proofs here. *)
From Verif Require Export NTriples.

(** ** DOT *)

(** dot/writer.rs:20-38 [DotOptions]. *)
Record dot_options : Type := DotOptions {
  blank_shape : str;
  blank_color : str;
  blank_labels : bool;
  iri_shape : str;
  iri_color : str;
  literal_shape : str;
  literal_color : str;
  node_prefix : str
}.
(** dot/writer.rs:72-85 [Default for DotOptions]. *)
Definition dot_default_options : dot_options :=
  DotOptions $"circle" $"green" false $"ellipse" $"blue" $"record" $"black" $"node_".

(** dot/writer.rs:54-66 [NodeKind], [Node]. *)
Inductive node_kind : Type := KBlank | KIri | KLiteral.
Record dot_node : Type := DotNode { dn_id : str; dn_kind : node_kind; dn_label : str }.

(** dot/writer.rs:46 [nodes]: the entries of the [HashMap] in the order of insertion; the
    code only inserts under keys that are not there. *)
Definition dot_nodes : Type := list (str * dot_node).
Fixpoint dn_get (k : str) (l : dot_nodes) : option dot_node :=
  match l with
  | [] => None
  | (k', n) :: r => if str_eqb k k' then Some n else dn_get k r
  end.
(** dot/writer.rs:374, 404: [format!("{}", nodes.len() + 1)]. *)
Definition next_id (l : dot_nodes) : str := dec_N (N.of_nat (length l) + 1).

(** dot/writer.rs:369-397 [subject_id].  [to_string] of a subject is [subj_show]. *)
Definition subject_id (m : iri_mode) (nodes : dot_nodes) (s : subject) : str * dot_nodes :=
  match dn_get (subj_show m s) nodes with
  | Some n => (dn_id n, nodes)
  | None =>
      let id := next_id nodes in
      (id,
       match s with
       | SBlank b => nodes ++ [(subj_show m s, DotNode id KBlank b)]
       | SRes i => nodes ++ [(subj_show m s, DotNode id KIri (show_iri m i))]
       | SStmt _ => nodes
       end)
  end.

(** dot/writer.rs:399-440 [object_id]. *)
Definition object_id (m : iri_mode) (nodes : dot_nodes) (o : object) : str * dot_nodes :=
  match dn_get (obj_show m false o) nodes with
  | Some n => (dn_id n, nodes)
  | None =>
      let id := next_id nodes in
      (id,
       match o with
       | OBlank b => nodes ++ [(obj_show m false o, DotNode id KBlank b)]
       | ORes i => nodes ++ [(obj_show m false o, DotNode id KIri (show_iri m i))]
       | OLit l => nodes ++ [(obj_show m false o, DotNode id KLiteral (lexical_form l))]
       | OColl _ | OStmt _ => nodes
       end)
  end.

(** What one line says.  dot/writer.rs:294-302: an edge.  *)
Record dot_edge : Type := DotEdge { e_from : str; e_to : str; e_label : str }.
(** dot/writer.rs:309-354: a node. *)
Record dot_decl : Type := DotDecl {
  d_name : str;
  d_url : option str;
  d_label : str;
  d_shape : str;
  d_color : str
}.
Record dot_doc : Type := DotDoc { doc_edges : list dot_edge; doc_decls : list dot_decl }.

(** The text of the lines. *)
Definition quote (s : str) : str := [34] ++ s ++ [34].
Definition edge_text (e : dot_edge) : str :=
  $"    " ++ quote (e_from e) ++ $" -> " ++ quote (e_to e) ++ $" [label=" ++ quote (e_label e) ++ $"];" ++ [10].
Definition decl_text (d : dot_decl) : str :=
  $"    " ++ quote (d_name d) ++ $" [" ++
  match d_url d with Some u => $"URL=" ++ quote u ++ $"," | None => [] end ++
  $"label=" ++ quote (d_label d) ++ $",shape=" ++ d_shape d ++ $",color=" ++ d_color d ++ $"];" ++ [10].
(** dot/writer.rs:282-287, 305, 357. *)
Definition dot_text (d : dot_doc) : str :=
  $"digraph {" ++ [10] ++ $"    rankdir=BT" ++ [10] ++ $"    charset=" ++ quote $"utf-8" ++ $";" ++ [10] ++
  [10] ++ flat_map edge_text (doc_edges d) ++ [10] ++ flat_map decl_text (doc_decls d) ++ $"}" ++ [10].

Section DotWriter.
Variable m : iri_mode.
(** [IriPrefixMap::compress] of the mappings of the graph, as text (see PrefixMap.v). *)
Variable compress : str -> outcome (option str).
Variable opts : dot_options.

(** dot/writer.rs:290-303, the arguments in the order of their evaluation.  A panic leaves
    the state behind, but nobody has the document then. *)
Fixpoint dot_edges (nodes : dot_nodes) (l : list statement) : outcome (list dot_edge * dot_nodes) :=
  match l with
  | [] => Ret ([], nodes)
  | st :: r =>
      let '(s, nodes) := subject_id m nodes (st_subject st) in
      let '(o, nodes) := object_id m nodes (st_object st) in
      match compress (st_predicate st) with
      | Panic => Panic
      | Ret c =>
          let label := match c with Some q => q | None => show_iri m (st_predicate st) end in
          match dot_edges nodes r with
          | Panic => Panic
          | Ret (es, nodes) => Ret (DotEdge (node_prefix opts ++ s) ($"node_" ++ o) label :: es, nodes)
          end
      end
  end.

(** dot/writer.rs:307-356: one node. *)
Definition decl_of (n : dot_node) : dot_decl :=
  let name := node_prefix opts ++ dn_id n in
  match dn_kind n with
  | KBlank => DotDecl name None (if blank_labels opts then name else []) (blank_shape opts) (blank_color opts)
  | KIri => DotDecl name (Some (dn_label n)) (dn_label n) (iri_shape opts) (iri_color opts)
  | KLiteral => DotDecl name None (dn_label n) (literal_shape opts) (literal_color opts)
  end.

(** dot/writer.rs:278-359 [write].  [ho] is the order of the statements, [hv] that of the
    values of [nodes]. *)
Definition dot_write (ho : list statement -> list statement) (hv : list dot_node -> list dot_node)
    (nodes : dot_nodes) (g : graph) : outcome (dot_doc * dot_nodes) :=
  match dot_edges nodes (g_iter ho g) with
  | Panic => Panic
  | Ret (es, nodes) => Ret (DotDoc es (map decl_of (hv (map snd nodes))), nodes)
  end.
End DotWriter.

(** The same writer used for one graph after the other (with the mappings of each). *)
Fixpoint dot_session (m : iri_mode) (compress : graph -> str -> outcome (option str)) (opts : dot_options)
    (ho : list statement -> list statement) (hv : list dot_node -> list dot_node)
    (nodes : dot_nodes) (gs : list graph) : outcome (list dot_doc * dot_nodes) :=
  match gs with
  | [] => Ret ([], nodes)
  | g :: r =>
      match dot_write m (compress g) opts ho hv nodes g with
      | Panic => Panic
      | Ret (d, nodes) =>
          match dot_session m compress opts ho hv nodes r with
          | Panic => Panic
          | Ret (ds, nodes) => Ret (d :: ds, nodes)
          end
      end
  end.

(** ** TriG *)

(** trig/writer.rs:85-107 [write] of a graph; [omit] is the option
    [omit_graph_keyword]. *)
Definition trig_write_graph (m : iri_mode) (omit : bool) (g : graph) : str :=
  match g_name g with
  | Some n => (if omit then [] else $"GRAPH ") ++ gn_show m n ++ $" "
  | None => []
  end ++ $"{" ++ [10] ++ $"}" ++ [10].
(** trig/writer.rs:69-80 [write] of a data set. *)
Definition trig_write (m : iri_mode) (omit : bool) (hd : list graph -> list graph) (d : data_set) : str :=
  flat_map (trig_write_graph m omit) (ds_graphs hd d).
