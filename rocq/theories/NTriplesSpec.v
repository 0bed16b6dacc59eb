(** What N-Triples and N-Quads documents look like and mean, independent of the parser.
    Documents are described by abstract sources; [..._at src s r] says that the text [s]
    starts with a rendering of [src] and continues with [r]. *)
From Verif Require Export NTriples GraphSpec.

(** ** White space and comments *)

Definition white (c : chr) : Prop := In c [32; 9; 13; 10].
Definition newline (c : chr) : Prop := c = 13 \/ c = 10.

(** What may stand between two tokens.  A comment runs to the end of its line. *)
Inductive gap_at : str -> str -> Prop :=
| gap_none : forall r, gap_at r r
| gap_white : forall c s r, white c -> gap_at s r -> gap_at (c :: s) r
| gap_comment : forall body s r, Forall (fun c => ~ newline c) body ->
    (s = [] \/ exists c s', s = c :: s' /\ newline c) ->
    gap_at s r -> gap_at (35 :: body ++ s) r.

(** ** Terms *)

(** A hexadecimal digit and its value. *)
Definition hex_digit (d : chr) (v : N) : Prop := v < 16 /\ (d = hex_upper v \/ d = hex_lower v).
Definition hex_value (vs : list N) : N := fold_left (fun a v => 16 * a + v) vs 0.

(** The pieces of the text inside <...> and "...": a character standing for itself, or an
    escape [\uXXXX], [\UXXXXXXXX] with the values of its digits, or [\t] and the like. *)
Inductive piece : Type :=
| Plain (c : chr)
| Numeric (ds : str) (vs : list N)
| Short (c : chr).
Definition piece_text (p : piece) : str :=
  match p with
  | Plain c => [c]
  | Numeric ds _ => (if Nat.eqb (length ds) 4 then $"\u" else $"\U") ++ ds
  | Short c => [92; c]
  end.
Definition pieces_text (l : list piece) : str := flat_map piece_text l.
Definition numeric_ok (ds : str) (vs : list N) : Prop :=
  Forall2 hex_digit ds vs /\ (length ds = 4 \/ length ds = 8)%nat.
(** The pieces allowed in an IRI reference, and in a string. *)
Definition iri_piece (p : piece) : Prop :=
  match p with
  | Plain c => 32 < c /\ ~ In c [62; 34; 123; 125; 124; 94; 96; 92]
  | Numeric ds vs => numeric_ok ds vs
  | Short _ => False
  end.
Definition string_piece (p : piece) : Prop :=
  match p with
  | Plain c => ~ In c [34; 92; 13; 10]
  | Numeric ds vs => numeric_ok ds vs
  | Short c => In c [116; 98; 110; 114; 102; 34; 39; 92]
  end.
(** The code point a piece of an IRI reference denotes. *)
Definition code_point (p : piece) : N :=
  match p with Plain c => c | Numeric _ vs => hex_value vs | Short c => c end.
(** Whether its code point is a character. *)
Definition denotes_char (p : piece) : bool :=
  match p with Numeric _ vs => is_scalar (hex_value vs) | _ => true end.

Inductive node_src : Type :=
| NIri (l : list piece)
| NLabel (b : str)
| NAnon (gap : str).

(** A label: the first character is a letter, a digit or '_'; a '.' is always followed by
    a name character. *)
Fixpoint label_rest (b : str) : Prop :=
  match b with
  | [] => True
  | c :: r =>
      (is_pn_chars c = true \/
       c = 46 /\ match r with d :: _ => is_pn_chars d = true | [] => False end) /\ label_rest r
  end.
Definition label_src (b : str) : Prop :=
  match b with
  | c :: r => (is_pn_chars_u c = true \/ is_digit c = true) /\ label_rest r
  | [] => False
  end.
(** The text following a label does not continue it. *)
Definition label_ends (r : str) : Prop :=
  match r with
  | [] => True
  | c :: r' => is_pn_chars c = false /\
      (c = 46 -> match r' with d :: _ => is_pn_chars d = false | [] => True end)
  end.

Inductive node_at : node_src -> str -> str -> Prop :=
| at_iri : forall l r, Forall iri_piece l -> node_at (NIri l) ($"<" ++ pieces_text l ++ $">" ++ r) r
| at_label : forall b r, label_src b -> label_ends r -> node_at (NLabel b) ($"_:" ++ b ++ r) r
| at_anon : forall g r, gap_at (g ++ $"]" ++ r) ($"]" ++ r) -> node_at (NAnon g) ($"[" ++ g ++ $"]" ++ r) r.

Inductive suffix_src : Type :=
| NoSuffix
| LangSuffix (primary : str) (subtags : list str)
| TypeSuffix (l : list piece).
Definition tag_text (primary : str) (subtags : list str) : str :=
  primary ++ flat_map (fun w => $"-" ++ w) subtags.

Inductive suffix_at : suffix_src -> str -> str -> Prop :=
| at_none : forall r, suffix_at NoSuffix r r
| at_lang : forall w ws s r, w <> [] -> forallb is_alpha w = true ->
    Forall (fun w => w <> [] /\ forallb is_alnum w = true) ws ->
    gap_at s ($"@" ++ tag_text w ws ++ r) -> suffix_at (LangSuffix w ws) s r
| at_type : forall l s s' r, Forall iri_piece l ->
    gap_at s ($"^^" ++ s') -> gap_at s' ($"<" ++ pieces_text l ++ $">" ++ r) ->
    suffix_at (TypeSuffix l) s r.

Inductive object_src : Type :=
| ONode (n : node_src)
| OString (l : list piece) (suffix : suffix_src).

Inductive object_at : object_src -> str -> str -> Prop :=
| at_node : forall n s r, node_at n s r -> object_at (ONode n) s r
| at_string : forall l x s r, Forall string_piece l -> suffix_at x s r ->
    object_at (OString l x) ([34] ++ pieces_text l ++ [34] ++ s) r.

(** ** Statements and documents *)

Record triple_src : Type := TripleSrc { src_s : node_src; src_p : list piece; src_o : object_src }.
Record quad_src : Type := QuadSrc { src_t : triple_src; src_g : option node_src }.

(** Subject, predicate and object. *)
Inductive spo_at : triple_src -> str -> str -> Prop :=
| at_spo : forall n l o s0 s1 s2 s3 r, node_at n s0 s1 ->
    Forall iri_piece l -> gap_at s1 ($"<" ++ pieces_text l ++ $">" ++ s2) ->
    gap_at s2 s3 -> object_at o s3 r -> spo_at (TripleSrc n l o) s0 r.
Inductive triple_at : triple_src -> str -> str -> Prop :=
| at_triple : forall t s0 s1 r, spo_at t s0 s1 -> gap_at s1 ($"." ++ r) -> triple_at t s0 r.
Inductive quad_at : quad_src -> str -> str -> Prop :=
| at_quad_default : forall t s0 r, triple_at t s0 r -> quad_at (QuadSrc t None) s0 r
| at_quad : forall t n s0 s1 s2 s3 r, spo_at t s0 s1 -> gap_at s1 s2 -> node_at n s2 s3 ->
    gap_at s3 ($"." ++ r) -> quad_at (QuadSrc t (Some n)) s0 r.

Inductive items_at {A} (item_at : A -> str -> str -> Prop) : list A -> str -> Prop :=
| at_end : items_at item_at [] []
| at_item : forall x l s0 s1 s2, item_at x s0 s1 -> gap_at s1 s2 -> items_at item_at l s2 ->
    items_at item_at (x :: l) s0.
Definition doc_at {A} (item_at : A -> str -> str -> Prop) (l : list A) (s : str) : Prop :=
  exists s', gap_at s s' /\ items_at item_at l s'.

(** ** Meaning *)

Section Meaning.
Variable iri_parse : str -> option str.
Variable lang_parse : str -> option str.
Variable label_ok : str -> bool.
Variable gext printable : chr -> bool.

Definition iri_meaning (l : list piece) : io str :=
  if forallb denotes_char l then
    match iri_parse (map code_point l) with Some i => io_ok i | None => io_err InvalidIri end
  else Panic.
Definition blank_meaning (b : str) : io str :=
  match bn_from_str label_ok b with Some b => io_ok b | None => io_err InvalidBlankNode end.
(** The label of an anonymous node is its text without the first two characters. *)
Definition node_meaning {A} (iri blank : str -> A) (n : node_src) : io A :=
  match n with
  | NIri l => let? i := iri_meaning l in io_ok (iri i)
  | NLabel b => let? b := blank_meaning b in io_ok (blank b)
  | NAnon g => let? b := blank_meaning (tl (g ++ $"]")) in io_ok (blank b)
  end.
Definition suffix_meaning (lexical : str) (x : suffix_src) : io literal :=
  match x with
  | NoSuffix => io_ok (Lit lexical None None)
  | LangSuffix w ws =>
      match lang_parse (tag_text w ws) with
      | Some t => io_ok (Lit lexical None (Some t))
      | None => io_err InvalidLanguageTag
      end
  | TypeSuffix l => let? i := iri_meaning l in io_ok (Lit lexical (Some (DtOther i)) None)
  end.
(** Escapes in strings are not decoded; the text is escaped once more. *)
Definition object_meaning (o : object_src) : io object :=
  match o with
  | ONode n => node_meaning ORes OBlank n
  | OString l x =>
      let? lit := suffix_meaning (escape_string gext printable (pieces_text l)) x in io_ok (OLit lit)
  end.
Definition triple_meaning (t : triple_src) : io statement :=
  let? s := node_meaning SRes SBlank (src_s t) in
  let? p := iri_meaning (src_p t) in
  let? o := object_meaning (src_o t) in
  io_ok (MkStmt s p o).

(** All of them, or the first failure. *)
Fixpoint io_all {A} (l : list (io A)) : io (list A) :=
  match l with
  | [] => io_ok []
  | x :: r => let? a := x in let? w := io_all r in io_ok (a :: w)
  end.
Definition triples_meaning (l : list triple_src) : io graph :=
  let? sts := io_all (map triple_meaning l) in io_ok (g_from_iter sts).

(** A quad needs a graph label. *)
Definition quad_meaning (q : quad_src) : io (graph_name * statement) :=
  let? st := triple_meaning (src_t q) in
  match src_g q with
  | Some n => let? name := node_meaning GnIri GnBlank n in io_ok (name, st)
  | None => io_err ParserUnexpected
  end.
End Meaning.

(** The statements of one graph, in order, and the names used. *)
Definition of_graph (n : graph_name) (l : list (graph_name * statement)) : list statement :=
  map snd (filter (fun q => gn_eqb (fst q) n) l).
(** The data set [d] holds exactly the quads [l]. *)
Definition holds_quads (d : data_set) (l : list (graph_name * statement)) : Prop :=
  ds_graph d None = None /\
  forall n, ds_graph d (Some n) =
    match of_graph n l with
    | [] => None
    | sts => Some (g_with_statements (g_named n) sts)
    end.
