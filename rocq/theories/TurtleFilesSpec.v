(** Graphs in whose Turtle documents a full stop is only found at the end of what is said, in
    brackets and in quotes.  No proofs here. *)
From Verif Require Export TurtleFiles.
From Verif Require Import TurtleSpec TurtleLitSpec.

Definition dotless_iri (c : setting) (i : str) : Prop := forall q, t_compress c i = Ret (Some q) -> ~ In 46 q.
Definition dotless_literal (c : setting) (l : literal) : Prop :=
  forall d, lit_data_type l = Some d ->
    (unquoted d -> ~ In 46 (lexical_form l)) /\ (~ unquoted d -> dotless_iri c (dt_as_iri d)).
Definition dotless_object (c : setting) (o : object) : Prop :=
  forall x, inside x o ->
    match x with
    | OBlank b => nest_blank_nodes (t_opts c) = false -> ~ In 46 b
    | ORes i => dotless_iri c i
    | OLit l => dotless_literal c l
    | _ => True
    end.
Definition dotless_statement (c : setting) (st : statement) : Prop :=
  match st_subject st with
  | SBlank b => ~ In 46 b
  | SRes i => dotless_iri c i
  | SStmt _ => True
  end /\
  dotless_iri c (st_predicate st) /\ dotless_object c (st_object st).
Definition dotless_graph (c : setting) (mappings : list (str * str)) (g : graph) : Prop :=
  (forall p ns, In (p, ns) mappings -> ~ In 46 p) /\ forall st, In st (g_list g) -> dotless_statement c st.
