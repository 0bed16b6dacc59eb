(** Vocabulary for the statements about the DOT and TriG writers, independent of the
    model's helper functions. *)
From Coq Require Import Permutation.
From Verif Require Export Dot GraphSpec LiteralSpec.

(** The terms DOT has a node for. *)
Definition drawn (o : object) : Prop :=
  match o with ORes _ | OBlank _ | OLit _ => True | OColl _ | OStmt _ => False end.
(** The terms at the ends of the statements of a graph. *)
Definition end_of (g : graph) (x : object) : Prop :=
  exists st, In st (g_list g) /\ (x = to_object (st_subject st) \/ x = st_object st).
Definition all_drawn (g : graph) : Prop := forall x, end_of g x -> drawn x.
(** Two terms that are shown alike are the same term. *)
Definition told_apart (m : iri_mode) (g : graph) : Prop :=
  forall x y, end_of g x -> end_of g y -> obj_show m false x = obj_show m false y -> x = y.

(** What the line for a node is to say. *)
Definition depicts (m : iri_mode) (opts : dot_options) (name : str) (x : object) : dot_decl :=
  match x with
  | ORes i => DotDecl name (Some (show_iri m i)) (show_iri m i) (iri_shape opts) (iri_color opts)
  | OLit l => DotDecl name None (lexical_form l) (literal_shape opts) (literal_color opts)
  | _ => DotDecl name None (if blank_labels opts then name else []) (blank_shape opts) (blank_color opts)
  end.
(** The same without options. *)
Inductive default_look : object -> str -> str -> Prop :=
| dl_blank b : default_look (OBlank b) $"circle" $"green"
| dl_iri i : default_look (ORes i) $"ellipse" $"blue"
| dl_literal l : default_look (OLit l) $"record" $"black".
(** The name of a predicate. *)
Definition predicate_shown (m : iri_mode) (compress : str -> outcome (option str)) (p label : str) : Prop :=
  compress p = Ret (Some label) \/ (compress p = Ret None /\ label = show_iri m p).

(** Literals told apart by the way they are shown: quoted text with a language or with a data
    type of its own. *)
Definition own_look (l : literal) : Prop :=
  quotable (lexical_form l) = true /\
  match lit_data_type l with
  | None => True
  | Some d =>
      lit_language l = None /\ bare_type d = false /\ d <> DtIri /\
      forall i d', d = DtOther i -> (forall j, d' <> DtOther j) -> dt_as_iri d' <> i
  end.

(** What can be put into the text as it is. *)
Definition edge_clean (e : dot_edge) : Prop := quotable (e_from e) = true /\ quotable (e_to e) = true /\ quotable (e_label e) = true.
Definition decl_clean (d : dot_decl) : Prop :=
  quotable (d_name d) = true /\ (forall u, d_url d = Some u -> quotable u = true) /\ quotable (d_label d) = true /\
  ~ In 44 (d_shape d) /\ ~ In 93 (d_color d).

(** The text of a graph in TriG without its statements. *)
Inductive trig_block (m : iri_mode) : bool -> option graph_name -> str -> Prop :=
| tb_default omit : trig_block m omit None ($"{" ++ [10] ++ $"}" ++ [10])
| tb_keyword n : trig_block m false (Some n) ($"GRAPH " ++ gn_show m n ++ $" {" ++ [10] ++ $"}" ++ [10])
| tb_plain n : trig_block m true (Some n) (gn_show m n ++ $" {" ++ [10] ++ $"}" ++ [10]).
