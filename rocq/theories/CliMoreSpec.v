(** What the command line tool should write.  No proofs here. *)
From Verif Require Export JsonSpec XmlSpec DotSpec CliSpec.
From Verif Require TurtleSpec.

(** One line of N-Triples. *)
Definition iri_text (m : iri_mode) (i : str) : str := $"<" ++ show_iri m i ++ $">".
Definition literal_text (m : iri_mode) (l : literal) : str :=
  $"""" ++ lexical_form l ++ $"""" ++
  match lit_language l, lit_data_type l with
  | Some t, _ => $"@" ++ t
  | None, Some d => $"^^" ++ iri_text m (dt_as_iri d)
  | None, None => []
  end.
Inductive line_of (m : iri_mode) : statement -> str -> Prop :=
| Line s p o a b : subject_text m s a -> object_text m o b ->
    line_of m (MkStmt s p o) (a ++ $" " ++ iri_text m p ++ $" " ++ b ++ $" ." ++ [10])
with subject_text (m : iri_mode) : subject -> str -> Prop :=
| St_iri i : subject_text m (SRes i) (iri_text m i)
| St_blank b : subject_text m (SBlank b) ($"_:" ++ b)
with object_text (m : iri_mode) : object -> str -> Prop :=
| Ot_iri i : object_text m (ORes i) (iri_text m i)
| Ot_blank b : object_text m (OBlank b) ($"_:" ++ b)
| Ot_literal l : object_text m (OLit l) (literal_text m l).

(** A text and the statements in it, in order. *)
Definition text_says (e : env) (s : str) (sts : list statement) : Prop :=
  exists l, doc_at triple_at l s /\
    Forall2 (fun t st => triple_meaning (e_iri e) (e_lang e) (e_label e) (e_gext e) (e_printable e) t = io_ok st) l sts.

(** A text with one line for each of the statements. *)
Definition lines_of (m : iri_mode) (sts : list statement) (out : str) : Prop :=
  exists each lines, NoDup each /\ (forall st, In st each <-> In st sts) /\ Forall2 (line_of m) each lines /\ out = concat lines.

(** A picture with one arrow for each of the statements, between the nodes of its subject and
    its object, with its predicate as label. *)
Definition arrows_of (m : iri_mode) (compress : str -> outcome (option str)) (sts : list statement) (d : dot_doc) : Prop :=
  exists each (node : object -> str), Permutation each sts /\
    (forall st x y, In st sts -> x = to_object (st_subject st) \/ x = st_object st ->
       (node x = node y <-> obj_show m false x = obj_show m false y)) /\
    Forall2 (fun st a => e_from a = $"node_" ++ node (to_object (st_subject st)) /\ e_to a = $"node_" ++ node (st_object st) /\
      predicate_shown m compress (st_predicate st) (Dot.e_label a)) each (doc_edges d).

(** The Turtle writer as the tool uses it, with the default options. *)
Definition turtle_setting (e : env) (g : graph) : TurtleSpec.setting :=
  TurtleSpec.Setting (e_modulus e) (e_overflow e) (e_mode e) (e_iri e) (e_gext e) (e_printable e) (e_compress e g)
    ttl_default_options (e_ord_p e) (e_ord_o e) (e_ord_s e).

(** The hash sets the writers of RDF/XML and of pictures iterate over. *)
Definition env_orders (e : env) : Prop :=
  env_ok e /\ any_order (e_ord_p e) /\ any_order (e_ord_o e) /\ any_order (e_ord_s e) /\ forall l, Permutation (e_ord_v e l) l.

(** A JSON document as input. *)
Definition json_input (v : json) : input := Input None (Some v) [].
