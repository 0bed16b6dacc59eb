(** Model of the N-Triples and N-Quads readers and writers: rdftk_io/src/common/common.pest
    (the rules for these formats), common/parser/ntriples.rs, common/parser/nquads.rs,
    common/parser/mod.rs, nt/*.rs, nq/*.rs.  No proofs here. *)
From Verif Require Export Pest Graph DataSet PName.

(** ** The grammar

    The rules that only occur inside atomic rules use the atomic sequence, because
    atomicity is inherited. *)

Definition is_hex (c : chr) : bool := match hex_val c with Some _ => true | None => false end.

(** common.pest:460-467 [UCHAR], [ECHAR]. *)
Definition UCHAR : parser :=
  p_alt (p_seq (p_lit $"\U") (p_times 8 (p_chr is_hex)))
        (p_seq (p_lit $"\u") (p_times 4 (p_chr is_hex))).
Definition is_echar (c : chr) : bool :=
  N.eqb c 116 || N.eqb c 98 || N.eqb c 110 || N.eqb c 114 || N.eqb c 102
  || N.eqb c 34 || N.eqb c 39 || N.eqb c 92.
Definition ECHAR : parser := p_seq (p_lit $"\") (p_chr is_echar).

(** common.pest:312-324 [IRIREF], [IRIREF_INNER], [IRIREF_CHAR]. *)
Definition not_in_iriref (c : chr) : bool :=
  N.eqb c 62 || N.leb c 32 || N.eqb c 34 || N.eqb c 123 || N.eqb c 125 || N.eqb c 124
  || N.eqb c 94 || N.eqb c 96 || N.eqb c 92.
Definition IRIREF_CHAR : parser := p_alt (p_seq (p_neg (p_chr not_in_iriref)) p_any) UCHAR.
Definition IRIREF_INNER : parser := p_atomic R_IRIREF_INNER (p_star IRIREF_CHAR).
Definition IRIREF : parser :=
  p_rule R_IRIREF (p_seq (p_lit $"<") (p_seq IRIREF_INNER (p_lit $">"))).

(** common.pest:330-346 [blankNode], [BLANK_NODE_LABEL], [BLANK_NODE_LABEL_TAIL], [ANON];
    495-523 [PN_CHARS_BASE], [PN_CHARS_U], [PN_CHARS] list the same ranges as pname.rs. *)
Definition BLANK_NODE_LABEL_TAIL : parser :=
  p_alt (p_chr is_pn_chars)
        (p_seq (p_pos (p_seq (p_lit $".") (p_chr is_pn_chars))) (p_lit $".")).
Definition BLANK_NODE_LABEL : parser :=
  p_atomic R_BLANK_NODE_LABEL
    (p_seq (p_lit $"_:")
      (p_seq (p_chr (fun c => is_pn_chars_u c || is_digit c)) (p_star BLANK_NODE_LABEL_TAIL))).
Definition ANON : parser := p_rule R_ANON (p_then (p_lit $"[") (p_lit $"]")).
Definition blankNode : parser := p_rule R_blankNode (p_alt BLANK_NODE_LABEL ANON).

(** common.pest:352-354 [LANGTAG]. *)
Definition LANGTAG : parser :=
  p_atomic R_LANGTAG
    (p_seq (p_lit $"@")
      (p_seq (p_plus (p_chr is_alpha)) (p_star (p_seq (p_lit $"-") (p_plus (p_chr is_alnum)))))).

(** common.pest:432-444 [STRING_LITERAL_QUOTE], [QUOTE_INNER], [QUOTE_CHAR]. *)
Definition not_in_quote (c : chr) : bool :=
  N.eqb c 34 || N.eqb c 92 || N.eqb c 13 || N.eqb c 10.
Definition QUOTE_CHAR : parser :=
  p_alt (p_seq (p_neg (p_chr not_in_quote)) p_any) (p_alt UCHAR ECHAR).
Definition QUOTE_INNER : parser := p_atomic R_QUOTE_INNER (p_star QUOTE_CHAR).
Definition STRING_LITERAL_QUOTE : parser :=
  p_rule R_STRING_LITERAL_QUOTE (p_seq (p_lit [34]) (p_seq QUOTE_INNER (p_lit [34]))).

(** common.pest:268-301 the N-Triples rules; 398 [END_OF_STATEMENT]. *)
Definition END_OF_STATEMENT : parser := p_rule R_END_OF_STATEMENT (p_lit $".").
Definition ntripleString : parser := p_rule R_ntripleString STRING_LITERAL_QUOTE.
Definition ntripleRdfLiteral : parser :=
  p_rule R_ntripleRdfLiteral
    (p_then ntripleString (p_opt (p_alt LANGTAG (p_then (p_lit $"^^") IRIREF)))).
Definition ntripleLiteral : parser := p_rule R_ntripleLiteral ntripleRdfLiteral.
Definition ntripleObject : parser :=
  p_rule R_ntripleObject (p_alt IRIREF (p_alt blankNode ntripleLiteral)).
Definition ntriplePredicate : parser := p_rule R_ntriplePredicate IRIREF.
Definition ntripleSubject : parser := p_rule R_ntripleSubject (p_alt IRIREF blankNode).
Definition ntriple : parser :=
  p_rule R_ntriple
    (p_then ntripleSubject (p_then ntriplePredicate (p_then ntripleObject END_OF_STATEMENT))).
(** [SOI] succeeds at the start without consuming anything, [~] then skips. *)
Definition ntripleDoc : parser :=
  p_rule R_ntripleDoc (p_seq g_skip (p_then (p_many ntriple) p_eoi)).

(** common.pest:255-262 the N-Quads rules. *)
Definition nquad : parser :=
  p_rule R_nquad
    (p_then ntripleSubject
      (p_then ntriplePredicate
        (p_then ntripleObject (p_then (p_opt ntripleSubject) END_OF_STATEMENT)))).
Definition nquadDoc : parser :=
  p_rule R_nquadDoc (p_seq g_skip (p_then (p_many nquad) p_eoi)).

(** ** From token pairs to statements *)

(** The errors of rdftk_core/src/error.rs that reading and writing can end with. *)
Inductive io_error : Type :=
| Tokenizer | ParserUnexpected | InvalidIri | InvalidBlankNode | InvalidLanguageTag
| ParserExpected | ParserUnreachable | RdfStarNotSupported.

(** A function returning [Result] that may panic. *)
Definition io (A : Type) : Type := outcome (result A io_error).
Definition io_ok {A} (a : A) : io A := Ret (Ok a).
Definition io_err {A} (e : io_error) : io A := Ret (Err e).
Definition io_bind {A B} (x : io A) (f : A -> io B) : io B :=
  match x with
  | Ret (Ok a) => f a
  | Ret (Err e) => Ret (Err e)
  | Panic => Panic
  end.
Notation "'let?' x := a 'in' b" := (io_bind a (fun x => b)) (at level 200, x pattern, b at level 200).

(** [pairs.next().unwrap()]. *)
Definition io_next (l : list pair) : io (pair * list pair) :=
  match l with p :: r => io_ok (p, r) | [] => Panic end.

(** [u32::from_str_radix(_, 16)] (std) on hexadecimal digits. *)
Fixpoint from_hex (acc : N) (s : str) : option N :=
  match s with
  | [] => Some acc
  | c :: r => match hex_val c with Some d => from_hex (16 * acc + d) r | None => None end
  end.

(** ntriples.rs:259-264 [unescape_uchar]: [char::from_u32(_).unwrap()] panics unless the
    number is a scalar value. *)
Definition unescape_uchar (uchar : str) : outcome chr :=
  match from_hex 0 (skipn 2 uchar) with
  | Some n => if is_scalar n then Ret n else Panic
  | None => Panic
  end.

(** ntriples.rs:234-237: the text [UNICODE_ESC] matches at the start of [s], and what
    follows it. *)
Definition esc_match (s : str) : option (str * str) :=
  match UCHAR s with Some (t, _, r) => Some (t, r) | None => None end.

(** ntriples.rs:239-257 [unescape_iri]: the matches of the regular expression from left to
    right, each replaced by its character. *)
Fixpoint unescape_n (n : nat) (s : str) : outcome str :=
  match n with
  | O => Ret s
  | S n' =>
      match esc_match s with
      | Some (t, r) =>
          match unescape_uchar t with
          | Ret c => match unescape_n n' r with Ret w => Ret (c :: w) | Panic => Panic end
          | Panic => Panic
          end
      | None =>
          match s with
          | [] => Ret []
          | c :: r => match unescape_n n' r with Ret w => Ret (c :: w) | Panic => Panic end
          end
      end
  end.
Definition unescape_iri (s : str) : outcome str := unescape_n (length s) s.

Section Reader.
(** [Iri::from_str] (its text), [LanguageTag::parse] (its text), the validity of labels,
    and the tables behind [{:?}] (see Literal.v). *)
Variable iri_parse : str -> option str.
Variable lang_parse : str -> option str.
Variable label_ok : str -> bool.
Variable gext printable : chr -> bool.

(** ntriples.rs:204-215 [iri_ref].  The pair's text is at least ["<>"]. *)
Definition nt_iri_ref (p : pair) : io str :=
  if rule_dec (as_rule p) R_IRIREF then
    match unescape_iri (removelast (tl (as_str p))) with
    | Ret i => match iri_parse i with Some x => io_ok x | None => io_err InvalidIri end
    | Panic => Panic
    end
  else io_err ParserUnexpected.

(** ntriples.rs:217-230 [lang_tag] (it also prints the tag twice on the standard output). *)
Definition nt_lang_tag (p : pair) : io str :=
  if rule_dec (as_rule p) R_LANGTAG then
    match lang_parse (tl (as_str p)) with Some t => io_ok t | None => io_err InvalidLanguageTag end
  else io_err ParserUnexpected.

(** ntriples.rs:173-202 [string]: the text between the quotes as it stands. *)
Definition nt_string (p : pair) : io str :=
  if rule_dec (as_rule p) R_ntripleString then
    let? (inner, _) := io_next (into_inner p) in
    if rule_dec (as_rule inner) R_STRING_LITERAL_QUOTE then
      let? (q, _) := io_next (into_inner inner) in
      if rule_dec (as_rule q) R_QUOTE_INNER then io_ok (as_str q) else io_err ParserUnexpected
    else io_err ParserUnexpected
  else io_err ParserUnexpected.

(** ntriples.rs:141-171 [rdf_literal]. *)
Definition nt_rdf_literal (p : pair) : io literal :=
  if rule_dec (as_rule p) R_ntripleRdfLiteral then
    let? (inner, rest) := io_next (into_inner p) in
    let? lexical_form := nt_string inner in
    match rest with
    | other :: _ =>
        if rule_dec (as_rule other) R_IRIREF then
          let? iri := nt_iri_ref other in
          io_ok (lit_with_data_type gext printable lexical_form (DtOther iri))
        else if rule_dec (as_rule other) R_LANGTAG then
          let? tag := nt_lang_tag other in
          io_ok (lit_with_language gext printable lexical_form tag)
        else io_err ParserUnexpected
    | [] => io_ok (lit_plain gext printable lexical_form)
    end
  else io_err ParserUnexpected.

(** ntriples.rs:130-139 [literal]. *)
Definition nt_literal (p : pair) : io literal :=
  if rule_dec (as_rule p) R_ntripleLiteral then
    let? (inner, _) := io_next (into_inner p) in nt_rdf_literal inner
  else io_err ParserUnexpected.

(** [BlankNode::from_str(&node[2..])]; the second character of a blank node is always one
    byte long, so the slice is on a character boundary. *)
Definition nt_blank (p : pair) : io str :=
  match bn_from_str label_ok (skipn 2 (as_str p)) with
  | Some b => io_ok b
  | None => io_err InvalidBlankNode
  end.

(** ntriples.rs:101-128 [object]. *)
Definition nt_object (p : pair) : io object :=
  if rule_dec (as_rule p) R_ntripleObject then
    let? (inner, _) := io_next (into_inner p) in
    if rule_dec (as_rule inner) R_IRIREF then let? i := nt_iri_ref inner in io_ok (ORes i)
    else if rule_dec (as_rule inner) R_blankNode then let? b := nt_blank inner in io_ok (OBlank b)
    else if rule_dec (as_rule inner) R_ntripleLiteral then let? l := nt_literal inner in io_ok (OLit l)
    else io_err ParserUnexpected
  else io_err ParserUnexpected.

(** ntriples.rs:86-99 [predicate]. *)
Definition nt_predicate (p : pair) : io str :=
  if rule_dec (as_rule p) R_ntriplePredicate then
    let? (inner, _) := io_next (into_inner p) in
    if rule_dec (as_rule inner) R_IRIREF then nt_iri_ref inner else io_err ParserUnexpected
  else io_err ParserUnexpected.

(** ntriples.rs:61-84 [subject]. *)
Definition nt_subject (p : pair) : io subject :=
  if rule_dec (as_rule p) R_ntripleSubject then
    let? (inner, _) := io_next (into_inner p) in
    if rule_dec (as_rule inner) R_IRIREF then let? i := nt_iri_ref inner in io_ok (SRes i)
    else if rule_dec (as_rule inner) R_blankNode then let? b := nt_blank inner in io_ok (SBlank b)
    else io_err ParserUnexpected
  else io_err ParserUnexpected.

(** ntriples.rs:47-59 [triple]. *)
Definition nt_triple (p : pair) : io statement :=
  if rule_dec (as_rule p) R_ntriple then
    let? (p1, r1) := io_next (into_inner p) in
    let? s := nt_subject p1 in
    let? (p2, r2) := io_next r1 in
    let? pr := nt_predicate p2 in
    let? (p3, r3) := io_next r2 in
    let? o := nt_object p3 in
    io_ok (MkStmt s pr o)
  else io_err ParserUnexpected.

(** ntriples.rs:15-45 [parse_doc]: [unreachable!] if there is no [EOI]. *)
Fixpoint nt_loop (g : graph) (l : list pair) : io graph :=
  match l with
  | [] => Panic
  | p :: r =>
      if rule_dec (as_rule p) R_ntriple then
        let? st := nt_triple p in nt_loop (g_insert g st) r
      else if rule_dec (as_rule p) R_EOI then io_ok g
      else io_err ParserUnexpected
  end.
Definition nt_parse_doc (p : pair) : io graph :=
  if rule_dec (as_rule p) R_ntripleDoc then nt_loop g_default (into_inner p)
  else io_err ParserUnexpected.

(** mod.rs:70-82 [parse_ntriple_doc]; nt/reader.rs:20-28 [read].  (Reading the bytes and
    decoding UTF-8 is left out: the document is a string.) *)
Definition nt_read (doc : str) : io graph :=
  match ntripleDoc doc with
  | Some (_, l, _) => let? (top, _) := io_next l in nt_parse_doc top
  | None => io_err Tokenizer
  end.

(** nquads.rs:46-48, graph.rs:126-134 [subject_to_graph_name]. *)
Definition nq_graph_name (s : subject) : io graph_name :=
  match gn_from_subject s with Ret n => io_ok n | Panic => Panic end.

(** nquads.rs:62-75: the graph of that name is created if it is missing; then the statement
    is inserted. *)
Definition nq_put (d : data_set) (k : option graph_name) (st : statement) : data_set :=
  let d' :=
    match ds_graph d k with
    | Some _ => d
    | None => ds_insert d (match k with Some n => g_named n | None => g_default end)
    end in
  ds_graph_mut d' k (fun g => g_insert g st).

(** nquads.rs:50-78 [nquad]. *)
Definition nq_quad (d : data_set) (p : pair) : io data_set :=
  if rule_dec (as_rule p) R_nquad then
    let? (p1, r1) := io_next (into_inner p) in
    let? s := nt_subject p1 in
    let? (p2, r2) := io_next r1 in
    let? pr := nt_predicate p2 in
    let? (p3, r3) := io_next r2 in
    let? o := nt_object p3 in
    let st := MkStmt s pr o in
    match r3 with
    | p4 :: _ =>
        let? x := nt_subject p4 in
        let? n := nq_graph_name x in
        io_ok (nq_put d (Some n) st)
    | [] => io_ok (nq_put d None st)
    end
  else io_err ParserUnexpected.

(** nquads.rs:14-40 [parse_doc]. *)
Fixpoint nq_loop (d : data_set) (l : list pair) : io data_set :=
  match l with
  | [] => io_ok d
  | p :: r =>
      if rule_dec (as_rule p) R_nquad then let? d' := nq_quad d p in nq_loop d' r
      else if rule_dec (as_rule p) R_EOI then nq_loop d r
      else io_err ParserUnexpected
  end.
Definition nq_parse_doc (p : pair) : io data_set :=
  if rule_dec (as_rule p) R_nquadDoc then nq_loop ds_default (into_inner p)
  else io_err ParserUnexpected.

(** mod.rs:84-97 [parse_nquad_doc]; nq/reader.rs:20-27 [read]. *)
Definition nq_read (doc : str) : io data_set :=
  match nquadDoc doc with
  | Some (_, l, _) => let? (top, _) := io_next l in nq_parse_doc top
  | None => io_err Tokenizer
  end.
End Reader.

(** ** Writing *)

(** The orders in which the three hash sets of the nested loops are iterated. *)
Record orders : Type := Orders {
  ord_subjects : list subject -> list subject;
  ord_predicates : subject -> list str -> list str;
  ord_objects : subject -> str -> list object -> list object
}.

(** nt/writer.rs:37-47 and nq/writer.rs:44-55: the statements in the order they are
    written. *)
Definition write_order (h : orders) (g : graph) : list statement :=
  flat_map (fun s =>
    flat_map (fun p =>
      map (fun o => MkStmt s p o) (ord_objects h s p (g_objects_for g s p)))
      (ord_predicates h s (g_predicates_for g s)))
    (ord_subjects h (g_subjects g)).

(** nt/writer.rs:40-44: one line. *)
Definition nt_line (m : iri_mode) (force_string_literals : bool) (st : statement) : str :=
  subj_show m (st_subject st) ++ $" <" ++ show_iri m (st_predicate st) ++ $"> "
  ++ obj_show m force_string_literals (st_object st) ++ $" ." ++ [10].

(** nt/writer.rs:32-50 [write].  [simplify] never fails; [ho] is the hash order and [n] the
    label counter it uses. *)
Definition nt_write (m : iri_mode) (force : bool) (h : orders)
    (ho : list statement -> list statement) (n : N) (g : graph) : str :=
  flat_map (nt_line m force) (write_order h (fst (g_simplify ho n g))).

(** nq/writer.rs:47-51: one line. *)
Definition nq_line (m : iri_mode) (name : option graph_name) (st : statement) : str :=
  subj_show m (st_subject st) ++ $" <" ++ show_iri m (st_predicate st) ++ $"> "
  ++ obj_show m false (st_object st)
  ++ match name with Some n => $" " ++ gn_show m n | None => [] end ++ $" ." ++ [10].

(** nq/writer.rs:37-59 [write] of a graph. *)
Definition nq_write (m : iri_mode) (h : orders) (ho : list statement -> list statement)
    (n : N) (g : graph) : str :=
  let simple := fst (g_simplify ho n g) in
  flat_map (nq_line m (g_name simple)) (write_order h simple).

(** nq/writer.rs:23-35 [write] of a data set, [hd] being the order of the map's values.
    The label counter runs on from graph to graph; the hash orders are those of each
    graph. *)
Fixpoint nq_write_all (m : iri_mode) (h : graph -> orders)
    (ho : graph -> list statement -> list statement) (n : N) (l : list graph) : str :=
  match l with
  | [] => []
  | g :: r =>
      nq_write m (h g) (ho g) n g
      ++ nq_write_all m h ho (snd (g_simplify (ho g) n g)) r
  end.
Definition nq_write_dataset (m : iri_mode) (h : graph -> orders)
    (ho : graph -> list statement -> list statement) (hd : list graph -> list graph)
    (n : N) (d : data_set) : str :=
  nq_write_all m h ho n (ds_graphs hd d).
