(** What a DOT document says (https://graphviz.org/doc/info/lang.html), for the statements
    about the DOT writer: a reader of the part of the language without numerals, HTML texts,
    comments, ports, subgraphs and attribute statements.  Nothing of the model is used. *)
From Verif Require Export DotSpec.

(** ** Tokens *)
Inductive dot_token : Type :=
| Bare_word (s : str)
| Quoted (s : str)
| Mark (c : chr)
| Arrow.
(** Between tokens; in a word; in quotes; after a backslash in quotes; after a hyphen. *)
Inductive lexing : Type := Between | InWord (s : str) | InQuotes (s : str) | Escaped (s : str) | Hyphen.

Definition word_start (c : chr) : bool := is_alpha c || N.eqb c 95 || N.leb 128 c.
Definition word_char (c : chr) : bool := word_start c || is_digit c.
Definition dot_space (c : chr) : bool := existsb (N.eqb c) [9; 10; 13; 32].
Definition dot_mark (c : chr) : bool := existsb (N.eqb c) ($"{}[]=,;").

Definition lex_start (c : chr) : option (list dot_token * lexing) :=
  if dot_space c then Some ([], Between)
  else if dot_mark c then Some ([Mark c], Between)
  else if word_start c then Some ([], InWord [c])
  else if N.eqb c 34 then Some ([], InQuotes [])
  else if N.eqb c 45 then Some ([], Hyphen)
  else None.
(** A quotation mark is hidden by a backslash, which is then dropped; all other pairs of a
    backslash and a character stand as they are, but for a line break, which is dropped. *)
Definition lex_step (st : lexing) (c : chr) : option (list dot_token * lexing) :=
  match st with
  | Between => lex_start c
  | InWord w =>
      if word_char c then Some ([], InWord (w ++ [c]))
      else option_map (fun r => (Bare_word w :: fst r, snd r)) (lex_start c)
  | InQuotes w =>
      if N.eqb c 34 then Some ([Quoted w], Between)
      else if N.eqb c 92 then Some ([], Escaped w)
      else Some ([], InQuotes (w ++ [c]))
  | Escaped w =>
      if N.eqb c 34 then Some ([], InQuotes (w ++ [34]))
      else if N.eqb c 10 then Some ([], InQuotes w)
      else Some ([], InQuotes (w ++ [92; c]))
  | Hyphen => if N.eqb c 62 then Some ([Arrow], Between) else None
  end.
Fixpoint dot_lex (st : lexing) (s : str) : option (list dot_token) :=
  match s with
  | [] => match st with Between => Some [] | InWord w => Some [Bare_word w] | _ => None end
  | c :: r =>
      match lex_step st c with
      | Some (ts, st') => option_map (app ts) (dot_lex st' r)
      | None => None
      end
  end.

(** ** Statements *)
Inductive dot_stmt : Type :=
| Sets (k v : str)
| Node (n : str) (attributes : list (str * str))
| Edge (a b : str) (attributes : list (str * str)).

(** The keywords, which are no names unless they are quoted (in small letters here). *)
Definition dot_keywords : list str := [$"node"; $"edge"; $"graph"; $"digraph"; $"subgraph"; $"strict"].
Definition dot_lower (c : chr) : chr := if is_upper c then c + 32 else c.
Definition is_keyword (w : str) : bool := existsb (str_eqb (map dot_lower w)) dot_keywords.
Definition name_of (t : dot_token) : option str :=
  match t with
  | Quoted s => Some s
  | Bare_word w => if is_keyword w then None else Some w
  | _ => None
  end.
Definition skip_mark (c : chr) (l : list dot_token) : list dot_token :=
  match l with Mark d :: r => if N.eqb c d then r else l | _ => l end.
(** What follows an opening bracket, up to the closing one. *)
Fixpoint read_attributes (fuel : nat) (l : list dot_token) : option (list (str * str) * list dot_token) :=
  match fuel with
  | O => None
  | S fuel =>
      match l with
      | Mark 93 :: r => Some ([], r)
      | k :: Mark 61 :: v :: r =>
          match name_of k, name_of v with
          | Some k, Some v =>
              option_map (fun p => ((k, v) :: fst p, snd p)) (read_attributes fuel (skip_mark 59 (skip_mark 44 r)))
          | _, _ => None
          end
      | _ => None
      end
  end.
Definition read_list (fuel : nat) (l : list dot_token) : option (list (str * str) * list dot_token) :=
  match l with Mark 91 :: r => read_attributes fuel r | _ => Some ([], l) end.
Definition read_stmt (fuel : nat) (l : list dot_token) : option (dot_stmt * list dot_token) :=
  match l with
  | a :: Mark 61 :: b :: r =>
      match name_of a, name_of b with Some k, Some v => Some (Sets k v, r) | _, _ => None end
  | a :: Arrow :: b :: r =>
      match name_of a, name_of b, read_list fuel r with
      | Some x, Some y, Some (at_, r') => Some (Edge x y at_, r')
      | _, _, _ => None
      end
  | a :: r =>
      match name_of a, read_list fuel r with
      | Some x, Some (at_, r') => Some (Node x at_, r')
      | _, _ => None
      end
  | [] => None
  end.
(** The statements up to a closing brace at the end. *)
Fixpoint read_stmts (fuel : nat) (l : list dot_token) : option (list dot_stmt) :=
  match fuel with
  | O => None
  | S fuel =>
      match l with
      | [Mark 125] => Some []
      | _ =>
          match read_stmt fuel l with
          | Some (x, r) => option_map (cons x) (read_stmts fuel (skip_mark 59 r))
          | None => None
          end
      end
  end.
Definition dot_read (s : str) : option (list dot_stmt) :=
  match dot_lex Between s with
  | Some (Bare_word w :: Mark 123 :: r) =>
      if str_eqb (map dot_lower w) $"digraph" then read_stmts (length r) r else None
  | _ => None
  end.

(** ** What is to be read *)

(** A text between quotes, read. *)
Fixpoint between_quotes (s : str) : str :=
  match s with
  | [] => []
  | c :: r =>
      if N.eqb c 92
      then match r with d :: r' => (if N.eqb d 34 then [34] else [92; d]) ++ between_quotes r' | [] => [92] end
      else c :: between_quotes r
  end.
(** A word that needs no quotes. *)
Definition dot_word (s : str) : Prop :=
  is_keyword s = false /\ match s with [] => False | c :: r => word_start c = true /\ Forall (fun c => word_char c = true) r end.
Definition edge_said (e : dot_edge) : dot_stmt :=
  Edge (between_quotes (e_from e)) (between_quotes (e_to e)) [($"label", between_quotes (e_label e))].
Definition decl_said (d : dot_decl) : dot_stmt :=
  Node (between_quotes (d_name d))
    (match d_url d with Some u => [($"URL", between_quotes u)] | None => [] end ++
     [($"label", between_quotes (d_label d)); ($"shape", d_shape d); ($"color", d_color d)]).
Definition edge_quotable (e : dot_edge) : Prop := quotable (e_from e) = true /\ quotable (e_to e) = true /\ quotable (e_label e) = true.
Definition decl_quotable (d : dot_decl) : Prop :=
  quotable (d_name d) = true /\ (forall u, d_url d = Some u -> quotable u = true) /\ quotable (d_label d) = true /\
  dot_word (d_shape d) /\ dot_word (d_color d).

(** ** Graphs that can be drawn as DOT *)
Definition options_ok (opts : dot_options) : Prop :=
  dot_word (blank_shape opts) /\ dot_word (blank_color opts) /\ dot_word (iri_shape opts) /\ dot_word (iri_color opts) /\
  dot_word (literal_shape opts) /\ dot_word (literal_color opts).
Definition term_ok (m : iri_mode) (x : object) : Prop :=
  match x with
  | ORes i => quotable (show_iri m i) = true
  | OLit l => quotable (lexical_form l) = true
  | _ => True
  end.
Definition graph_ok (m : iri_mode) (compress : str -> outcome (option str)) (g : graph) : Prop :=
  (forall x, end_of g x -> term_ok m x) /\
  (forall st label, In st (g_list g) -> predicate_shown m compress (st_predicate st) label -> quotable label = true).
(** The attributes of the node of a term, with the name the node has. *)
Definition attributes_of (m : iri_mode) (opts : dot_options) (name : str) (x : object) : list (str * str) :=
  match x with
  | ORes i => [($"URL", between_quotes (show_iri m i)); ($"label", between_quotes (show_iri m i));
               ($"shape", iri_shape opts); ($"color", iri_color opts)]
  | OLit l => [($"label", between_quotes (lexical_form l)); ($"shape", literal_shape opts); ($"color", literal_color opts)]
  | _ => [($"label", if blank_labels opts then name else []); ($"shape", blank_shape opts); ($"color", blank_color opts)]
  end.
(** The number of fields of the label of a node of shape [record], which are told apart by a
    bar that is not hidden by a backslash (https://graphviz.org/doc/info/shapes.html#record). *)
Fixpoint record_fields (s : str) : nat :=
  match s with
  | [] => 1
  | c :: r =>
      if N.eqb c 92 then match r with _ :: r' => record_fields r' | [] => 1 end
      else (if N.eqb c 124 then 1 else 0) + record_fields r
  end.
