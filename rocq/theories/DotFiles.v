(** The DOT and TriG writers (Dot.v) with outputs that fail (Files.v).  No proofs here. *)
From Verif Require Export Dot Files.

(** dot/writer.rs:282-287: the text before the edges, one [writeln!] each. *)
Definition dot_head : list str :=
  [$"digraph {" ++ [10] ++ $"    rankdir=BT" ++ [10] ++ $"    charset=" ++ quote $"utf-8" ++ $";" ++ [10]; [10]].

Section DotOutput.
Variable out : output.
Variable parts : str -> list (list N).
Variable m : iri_mode.
Variable compress : str -> outcome (option str).
Variable opts : dot_options.

(** dot/writer.rs:290-303.  The arguments of [writeln!] are evaluated before any of the line
    is handed over; the nodes stay in the writer ([RefCell], 46) whatever becomes of the line.
    The result is what was accepted, the nodes, and whether all was well. *)
Fixpoint dot_put_edges (nodes : dot_nodes) (l : list statement) (w : progress) : progress * dot_nodes * outcome bool :=
  match l with
  | [] => (w, nodes, Ret true)
  | st :: r =>
      let '(s, nodes) := subject_id m nodes (st_subject st) in
      let '(o, nodes) := object_id m nodes (st_object st) in
      match compress (st_predicate st) with
      | Panic => (w, nodes, Panic)
      | Ret c =>
          let label := match c with Some q => q | None => show_iri m (st_predicate st) end in
          let '(w, ok) := put_parts out (parts (edge_text (DotEdge (node_prefix opts ++ s) ($"node_" ++ o) label))) w in
          if ok then dot_put_edges nodes r w else (w, nodes, Ret false)
      end
  end.

(** dot/writer.rs:278-359 [write]: the bytes the output has accepted, the nodes the writer has
    afterwards, and the result. *)
Definition dot_write_to (ho : list statement -> list statement) (hv : list dot_node -> list dot_node)
    (nodes : dot_nodes) (g : graph) : list N * dot_nodes * outcome (result unit file_error) :=
  let '(w, ok) := put_lines out parts dot_head nothing in
  if negb ok then (accepted w, nodes, Ret (Err FileIo))
  else
    let '(w, nodes, r) := dot_put_edges nodes (g_iter ho g) w in
    match r with
    | Panic => (accepted w, nodes, Panic)
    | Ret false => (accepted w, nodes, Ret (Err FileIo))
    | Ret true =>
        let (kept, res) :=
          written (put_lines out parts ([10] :: map (fun n => decl_text (decl_of opts n)) (hv (map snd nodes)) ++ [$"}" ++ [10]]) w) in
        (kept, nodes, Ret res)
    end.
End DotOutput.

(** trig/writer.rs:85-107 [write] of a graph: calls of [write_all]. *)
Definition trig_calls (m : iri_mode) (omit : bool) (g : graph) : list str :=
  match g_name g with
  | Some n => (if omit then [] else [$"GRAPH "]) ++ [gn_show m n; $" "]
  | None => []
  end ++ [$"{" ++ [10]; $"}" ++ [10]].
Definition trig_put_graph (out : output) (m : iri_mode) (omit : bool) (g : graph) (w : progress) : progress * bool :=
  put_parts out (map (flat_map utf8) (trig_calls m omit g)) w.
(** trig/writer.rs:69-80 [write] of a data set. *)
Fixpoint trig_put_all (out : output) (m : iri_mode) (omit : bool) (l : list graph) (w : progress) : progress * bool :=
  match l with
  | [] => (w, true)
  | g :: r => let (w', ok) := trig_put_graph out m omit g w in if ok then trig_put_all out m omit r w' else (w', false)
  end.
Definition trig_write_to (out : output) (m : iri_mode) (omit : bool) (hd : list graph -> list graph) (d : data_set)
    : list N * result unit file_error :=
  written (trig_put_all out m omit (ds_graphs hd d) nothing).
