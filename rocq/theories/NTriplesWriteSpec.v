(** Which graphs N-Triples and N-Quads can carry, and what becomes of them. *)
From Verif Require Export NTriplesSpec LiteralSpec DataSetSpec.

(** The hash sets are iterated in some order, but completely. *)
Definition orders_ok (h : orders) : Prop :=
  (forall l, Permutation (ord_subjects h l) l) /\
  (forall s l, Permutation (ord_predicates h s l) l) /\
  (forall s p l, Permutation (ord_objects h s p l) l).

(** Text that may stand between the quotes of a string. *)
Definition string_text (t : str) : Prop := exists l, Forall string_piece l /\ t = pieces_text l.
Definition tag_syntax (t : str) : Prop :=
  exists w ws, w <> [] /\ forallb is_alpha w = true /\
    Forall (fun w => w <> [] /\ forallb is_alnum w = true) ws /\ t = tag_text w ws.

Section Writable.
Variable iri_parse : str -> option str.
Variable lang_parse : str -> option str.
Variable label_ok : str -> bool.
Variable gext printable : chr -> bool.

Definition iri_writable (i : str) : Prop :=
  Forall (fun c => iri_piece (Plain c)) i /\ iri_parse i = Some i.
Definition label_writable (b : str) : Prop := label_src b /\ bn_from_str label_ok b = Some b.
Definition tag_writable (t : str) : Prop := tag_syntax t /\ lang_parse t = Some t.

(** [force] is the writer's option to quote numbers and booleans. *)
Definition literal_writable (force : bool) (l : literal) : Prop :=
  match lit_data_type l with
  | Some DtIri => iri_writable (lexical_form l)
  | Some d => string_text (lexical_form l) /\ (bare_type d = true -> force = true) /\
      (lit_language l = None -> iri_writable (dt_as_iri d))
  | None => string_text (lexical_form l) /\
      match lit_language l with Some t => tag_writable t | None => True end
  end.
Definition subject_writable (s : subject) : Prop :=
  match s with SRes i => iri_writable i | SBlank b => label_writable b | SStmt _ => False end.
Definition object_writable (force : bool) (o : object) : Prop :=
  match o with
  | ORes i => iri_writable i
  | OBlank b => label_writable b
  | OLit l => literal_writable force l
  | OColl _ | OStmt _ => False
  end.
Definition statement_writable (force : bool) (st : statement) : Prop :=
  subject_writable (st_subject st) /\ iri_writable (st_predicate st) /\
  object_writable force (st_object st).
Definition name_writable (n : graph_name) : Prop :=
  match n with GnIri i => iri_writable i | GnBlank b => label_writable b end.

(** What a statement becomes on the way out and back. *)
Definition reread_literal (l : literal) : object :=
  let lex := escape_string gext printable (lexical_form l) in
  match lit_data_type l, lit_language l with
  | Some DtIri, _ => ORes (lexical_form l)
  | Some d, None => OLit (Lit lex (Some (DtOther (dt_as_iri d))) None)
  | Some _, Some _ => OLit (Lit lex None None)
  | None, t => OLit (Lit lex None t)
  end.
Definition reread (st : statement) : statement :=
  MkStmt (st_subject st) (st_predicate st)
    match st_object st with OLit l => reread_literal l | o => o end.

(** Literals which survive: untyped or of a data type without a name of its own, and
    without any character that is escaped. *)
Definition stable_literal (l : literal) : Prop :=
  Forall (prints_as_itself gext printable) (lexical_form l) /\
  match lit_data_type l, lit_language l with
  | None, _ => True
  | Some (DtOther _), None => True
  | _, _ => False
  end.
Definition stable (st : statement) : Prop :=
  match st_object st with OLit l => stable_literal l | _ => True end.

(** A data set that N-Quads can carry: graphs are filed under their own names. *)
Definition ds_writable (d : data_set) : Prop :=
  NoDup (map fst d) /\
  (forall k g, ds_graph d k = Some g -> g_name g = k /\
     Forall (statement_writable false) (g_list g) /\
     match k with Some n => name_writable n | None => True end).

(** Characters a literal may contain without making the document unreadable. *)
Definition readable_char (c : chr) : Prop :=
  prints_as_itself gext printable c \/ In c [9; 10; 13; 34; 92].
(** Literals that make a document unreadable: a number or boolean without quotes, or a text
    with a character that is escaped in Rust's own notation. *)
Definition bare_text (t : str) : Prop :=
  match t with c :: _ => is_alnum c = true \/ c = 43 \/ c = 45 | [] => False end.
Definition literal_unreadable (force : bool) (l : literal) : Prop :=
  match lit_data_type l with
  | Some DtIri => False
  | Some d =>
      if bare_type d && negb force then bare_text (lexical_form l)
      else exists t, lexical_form l = escape_string gext printable t /\ ~ Forall readable_char t
  | None => exists t, lexical_form l = escape_string gext printable t /\ ~ Forall readable_char t
  end.
Definition statement_unreadable (force : bool) (st : statement) : Prop :=
  subject_writable (st_subject st) /\ iri_writable (st_predicate st) /\
  match st_object st with OLit l => literal_unreadable force l | _ => False end.
End Writable.

(** The statements filed under a name. *)
Definition ds_statements (d : data_set) (k : option graph_name) : list statement :=
  match ds_graph d k with Some g => g_list g | None => [] end.

(** IRIs without a closing bracket, as every valid IRI is, and well-formed labels. *)
Definition unbracketed (st : statement) : Prop :=
  match st_subject st with SRes i => ~ In 62 i | SBlank b => label_src b | SStmt _ => False end /\
  ~ In 62 (st_predicate st).
