(** A reader of Turtle, written from the recommendation and independent of the writer.  It
    covers a part of the language: whatever it does not cover it rejects.  [lex] is a scanner
    for the terminals [18], [19], [139s]-[144s], [17], [22] of the grammar, the [p_…]
    functions parse the productions [1] to [15], and [turtle_reads] says which statements a
    text has.  No proofs here. *)
From Verif Require Import Turtle TurtleSpec TurtleLitSpec PNameSpec.
From Verif Require Url PName PrefixMap.
From Coq Require Import Permutation.

(** ** Characters *)
Definition in_table (c : chr) (t : list (N * N)) : bool :=
  existsb (fun r => N.leb (fst r) c && N.leb c (snd r)) t.
(** PN_CHARS. *)
Definition pn_char (c : chr) : bool :=
  in_table c [(45, 45); (48, 57); (65, 90); (95, 95); (97, 122); (183, 183); (192, 214); (216, 246);
    (248, 893); (895, 8191); (8204, 8205); (8255, 8256); (8304, 8591); (11264, 12271); (12289, 55295);
    (63744, 64975); (65008, 65533); (65536, 983039)].
(** What a name, a label, a number or a keyword can be made of. *)
Definition name_char (c : chr) : bool := pn_char c || existsb (N.eqb c) [46; 58; 43].
(** [18] IRIREF, between the brackets and without escapes. *)
Definition iri_char (c : chr) : bool :=
  N.ltb 32 c && negb (existsb (N.eqb c) [60; 62; 34; 123; 125; 124; 94; 96; 92]).
Definition white (c : chr) : bool := existsb (N.eqb c) [32; 9; 10; 13].
Definition sign_char (c : chr) : bool := existsb (N.eqb c) [44; 59; 91; 93; 40; 41].
Definition tag_char (c : chr) : bool := is_alnum c || N.eqb c 45.

(** ** The scanner *)
Inductive lmode : Type :=
| Gap
| AfterDot
| InComment
| InName (w : str)
| InIri (w : str)
| InString (w : str)
| Escaped (w : str)
| AfterString (w : str)
| OneHat (w : str)
| TwoHats (w : str)
| InTag (w : str).

(** A character after which nothing is left open. *)
Definition lex_start (c : chr) : option (list piece * lmode) :=
  if white c then Some ([], Gap)
  else if N.eqb c 35 then Some ([], InComment)
  else if N.eqb c 46 then Some ([], AfterDot)
  else if sign_char c then Some ([Sign [c]], Gap)
  else if N.eqb c 60 then Some ([], InIri [c])
  else if N.eqb c 34 then Some ([], InString [c])
  else if N.eqb c 64 then Some ([], InTag [c])
  else if name_char c then Some ([], InName [c])
  else None.
(** A name, a label or a number does not end in a full stop: those at the end stand for
    themselves. *)
Fixpoint end_name (rest : str) (stops : list piece) : list piece :=
  match rest with
  | [] => Word [] :: stops
  | c :: r => if N.eqb c 46 then end_name r (Sign [46] :: stops) else Word (rev rest) :: stops
  end.
(** Where what is being read can end. *)
Definition lex_end (m : lmode) : option (list piece) :=
  match m with
  | Gap | InComment => Some []
  | AfterDot => Some [Sign $"."]
  | InName w => Some (end_name (rev w) [])
  | AfterString w | InTag w => Some [Word w]
  | _ => None
  end.
Definition lex_ended (m : lmode) (c : chr) : option (list piece * lmode) :=
  match lex_end m, lex_start c with
  | Some a, Some (b, m') => Some (a ++ b, m')
  | _, _ => None
  end.
Definition lex_step (m : lmode) (c : chr) : option (list piece * lmode) :=
  match m with
  | Gap => lex_start c
  | AfterDot => if is_digit c then Some ([], InName [46; c]) else lex_ended m c
  | InComment => Some ([], if existsb (N.eqb c) [10; 13] then Gap else InComment)
  | InName w => if name_char c then Some ([], InName (w ++ [c])) else lex_ended m c
  | InIri w =>
      if N.eqb c 62 then Some ([Word (w ++ [c])], Gap)
      else if iri_char c then Some ([], InIri (w ++ [c])) else None
  | InString w =>
      if N.eqb c 34 then Some ([], AfterString (w ++ [c]))
      else if N.eqb c 92 then Some ([], Escaped (w ++ [c]))
      else if existsb (N.eqb c) [10; 13] then None
      else Some ([], InString (w ++ [c]))
  | Escaped w => Some ([], InString (w ++ [c]))
  | AfterString w =>
      if N.eqb c 64 then Some ([], InTag (w ++ [c]))
      else if N.eqb c 94 then Some ([], OneHat (w ++ [c]))
      else if N.eqb c 34 then None else lex_ended m c
  | OneHat w => if N.eqb c 94 then Some ([], TwoHats (w ++ [c])) else None
  | TwoHats w =>
      if N.eqb c 60 then Some ([], InIri (w ++ [c]))
      else if name_char c then Some ([], InName (w ++ [c])) else None
  | InTag w => if tag_char c then Some ([], InTag (w ++ [c])) else lex_ended m c
  end.
Fixpoint lex (m : lmode) (s : str) : option (list piece) :=
  match s with
  | [] => lex_end m
  | c :: r =>
      match lex_step m c with
      | Some (out, m') => match lex m' r with Some l => Some (out ++ l) | None => None end
      | None => None
      end
  end.

(** ** The parser; [fuel] bounds the number of calls. *)
Fixpoint p_object (fuel : nat) (l : list piece) : option (tree * list piece) :=
  match fuel with
  | O => None
  | S f =>
      match l with
      | Word w :: r => Some (Leaf w, r)
      | Sign [91] :: Sign [93] :: r => Some (Props [], r)
      | Sign [91] :: r =>
          match p_entries f r with
          | Some (po, Sign [93] :: r') => Some (Props po, r')
          | _ => None
          end
      | Sign [40] :: r =>
          match p_items f r with
          | Some (ts, r') => Some (Items ts, r')
          | None => None
          end
      | _ => None
      end
  end
with p_items (fuel : nat) (l : list piece) : option (list tree * list piece) :=
  match fuel with
  | O => None
  | S f =>
      match l with
      | Sign [41] :: r => Some ([], r)
      | _ =>
          match p_object f l with
          | Some (t, r) => match p_items f r with Some (ts, r') => Some (t :: ts, r') | None => None end
          | None => None
          end
      end
  end
with p_entries (fuel : nat) (l : list piece) : option (list (str * list tree) * list piece) :=
  match fuel with
  | O => None
  | S f =>
      match l with
      | Word v :: r =>
          match p_objects f r with
          | Some (ts, Sign [59] :: r') =>
              match p_entries f r' with Some (po, r'') => Some ((v, ts) :: po, r'') | None => None end
          | Some (ts, r') => Some ([(v, ts)], r')
          | None => None
          end
      | _ => None
      end
  end
with p_objects (fuel : nat) (l : list piece) : option (list tree * list piece) :=
  match fuel with
  | O => None
  | S f =>
      match p_object f l with
      | Some (t, Sign [44] :: r) =>
          match p_objects f r with Some (ts, r') => Some (t :: ts, r') | None => None end
      | Some (t, r) => Some ([t], r)
      | None => None
      end
  end.

Inductive heading : Type :=
| HBase (w : str)
| HPrefix (p w : str).
(** The directives come first. *)
Fixpoint p_headings (l : list piece) : option (list heading * list piece) :=
  match l with
  | Word w :: r =>
      if str_eqb w $"@base" then
        match r with
        | Word i :: Sign [46] :: r' =>
            match p_headings r' with Some (hs, k) => Some (HBase i :: hs, k) | None => None end
        | _ => None
        end
      else if str_eqb w $"BASE" then
        match r with
        | Word i :: r' =>
            match p_headings r' with Some (hs, k) => Some (HBase i :: hs, k) | None => None end
        | _ => None
        end
      else if str_eqb w $"@prefix" then
        match r with
        | Word p :: Word i :: Sign [46] :: r' =>
            match p_headings r' with Some (hs, k) => Some (HPrefix p i :: hs, k) | None => None end
        | _ => None
        end
      else if str_eqb w $"PREFIX" then
        match r with
        | Word p :: Word i :: r' =>
            match p_headings r' with Some (hs, k) => Some (HPrefix p i :: hs, k) | None => None end
        | _ => None
        end
      else Some ([], l)
  | _ => Some ([], l)
  end.
Fixpoint p_blocks (fuel : nat) (l : list piece) : option (list (str * list (str * list tree))) :=
  match fuel with
  | O => None
  | S f =>
      match l with
      | [] => Some []
      | Word s :: r =>
          match p_entries f r with
          | Some (po, Sign [46] :: r') =>
              match p_blocks f r' with Some d => Some ((s, po) :: d) | None => None end
          | _ => None
          end
      | _ => None
      end
  end.
Definition turtle_syntax (text : str)
  : option (list heading * list (str * list (str * list tree))) :=
  match lex Gap text with
  | Some l =>
      match p_headings l with
      | Some (hs, r) =>
          match p_blocks (3 * length l + 3) r with Some d => Some (hs, d) | None => None end
      | None => None
      end
  | None => None
  end.

(** ** What is said *)
(** The last declaration of a prefix counts; a name is split at its first colon. *)
Definition namespace_of (ps : list (str * str)) (p : str) : option str :=
  option_map snd (find (fun e => str_eqb (fst e) p) (rev ps)).
Definition expand_with (ps : list (str * str)) (q : str) : option str :=
  match split_first 58 q with
  | Some (p, l) => match namespace_of ps p with Some ns => Some (ns ++ l) | None => None end
  | None => None
  end.
Inductive headings_read : list heading -> option Url.url -> list (str * str) -> Prop :=
| Hr_none : headings_read [] None []
| Hr_base hs b b' ps : headings_read hs b' ps -> Url.wf_url b = true ->
    headings_read (hs ++ [HBase ([60] ++ Url.url_ser b ++ [62])]) (Some b) ps
| Hr_prefix hs b ps p ns : headings_read hs b ps -> PNAME_NS (p ++ $":") -> absolute ns ->
    headings_read (hs ++ [HPrefix (p ++ $":") ([60] ++ ns ++ [62])]) b (ps ++ [(p, ns)]).

(** Terms: IRIs and literals, blank nodes by their labels, blank nodes in brackets with what is
    said of them there, and collections. *)
Inductive rterm : Type :=
| RValue (v : value)
| RBlank (b : str)
| RNode (po : list (str * list rterm))
| RColl (l : list rterm).

Section Reads.
Variable base : option Url.url.
Variable expand : str -> option str.
Definition labels_start (w : str) : Prop := exists b, w = $"_:" ++ b.
Definition verb_reads (w : str) (p : str) : Prop :=
  w = $"a" /\ p = rdf $"type" \/ ~ labels_start w /\ denotes base expand w (VIri p).
Inductive tree_reads : tree -> rterm -> Prop :=
| Tr_blank b : PN_LOCAL b -> tree_reads (Leaf ($"_:" ++ b)) (RBlank b)
| Tr_value w v : ~ labels_start w -> denotes base expand w v -> tree_reads (Leaf w) (RValue v)
| Tr_node po l : Forall2 (fun e x => verb_reads (fst e) (fst x) /\ Forall2 tree_reads (snd e) (snd x)) po l ->
    tree_reads (Props po) (RNode l)
| Tr_items ts l : Forall2 tree_reads ts l -> tree_reads (Items ts) (RColl l).
(** Subjects are IRIs or blank nodes with labels. *)
Definition subject_reads (w : str) (s : rterm) : Prop :=
  tree_reads (Leaf w) s /\ ((exists b, s = RBlank b) \/ exists i, s = RValue (VIri i)).
Definition triple_reads (x : str * str * tree) (y : rterm * str * rterm) : Prop :=
  subject_reads (fst (fst x)) (fst (fst y)) /\ verb_reads (snd (fst x)) (snd (fst y)) /\
  tree_reads (snd x) (snd y).
End Reads.

(** The statements in a text. *)
Definition turtle_reads (text : str) (l : list (rterm * str * rterm)) : Prop :=
  exists hs d base ps, turtle_syntax text = Some (hs, d) /\ headings_read hs base ps /\
    Forall2 (triple_reads base (expand_with ps)) (top_triples d) l.

(** ** Statements of a graph as read *)
Section Means.
(** The graph, and whether blank nodes that are objects are unfolded. *)
Variable g : graph.
Variable nest : bool.
(** A node in brackets is said what the graph says about it: each of the predicates once, and
    each of the objects once. *)
Inductive means : object -> rterm -> Prop :=
| Mn_blank b : nest = false -> means (OBlank b) (RBlank b)
| Mn_node b ps po : nest = true -> NoDup ps -> (forall p, In p ps <-> exists o, In (MkStmt (SBlank b) p o) (g_list g)) ->
    Forall2 (means_entry b) ps po -> means (OBlank b) (RNode po)
| Mn_iri i : means (ORes i) (RValue (VIri i))
| Mn_literal l : means (OLit l) (RValue (literal_value l))
| Mn_collection os l : Forall2 means os l -> means (OColl os) (RColl l)
with means_entry : str -> str -> str * list rterm -> Prop :=
| Mn_entry b p os l : NoDup os -> (forall o, In o os <-> In (MkStmt (SBlank b) p o) (g_list g)) ->
    Forall2 means os l -> means_entry b p (p, l).
Definition subject_means (s : subject) (r : rterm) : Prop :=
  match s with
  | SBlank b => r = RBlank b
  | SRes i => r = RValue (VIri i)
  | SStmt _ => False
  end.
Definition statement_means (st : statement) (y : rterm * str * rterm) : Prop :=
  subject_means (st_subject st) (fst (fst y)) /\ st_predicate st = snd (fst y) /\
  means (st_object st) (snd y).
End Means.

(** ** Graphs whose words can be read *)
(** An IRI that is written as one of the things C65 knows how to read. *)
Definition readable_iri (c : setting) (base : option Url.url) (mappings : list (str * str)) (i : str) : Prop :=
  forallb iri_char i = true /\ iri_words_ok c base i /\
  (t_compress c i = Ret None \/
   exists p ns l, t_compress c i = Ret (Some (p ++ $":" ++ l)) /\ In (p, ns) mappings /\ (l = [] \/ PN_LOCAL l) /\
     i = ns ++ l).
Definition readable_literal (c : setting) (base : option Url.url) (mappings : list (str * str)) (l : literal) : Prop :=
  quoted_literal l /\ Forall (turtle_char c) (lexical_form l) /\
  match lit_data_type l with Some d => readable_iri c base mappings (dt_as_iri d) | None => True end
  \/ exists d, lit_data_type l = Some d /\
       (d = DtBoolean /\ boolean_text (lexical_form l) \/ d = DtDecimal /\ decimal_text (lexical_form l) \/
        d = DtDouble /\ double_text (lexical_form l)).
(** Blank nodes are written with their labels, or in brackets. *)
Inductive readable_object (c : setting) (base : option Url.url) (mappings : list (str * str)) : object -> Prop :=
| Ro_blank b : (nest_blank_nodes (t_opts c) = false -> PN_LOCAL b) -> readable_object c base mappings (OBlank b)
| Ro_iri i : readable_iri c base mappings i -> readable_object c base mappings (ORes i)
| Ro_literal l : readable_literal c base mappings l -> readable_object c base mappings (OLit l)
| Ro_collection items : (forall o, In o items -> readable_object c base mappings o) ->
    readable_object c base mappings (OColl items).
(** The only predicate of its group is rdf:type, see C49. *)
Definition readable_statement (c : setting) (base : option Url.url) (mappings : list (str * str)) (st : statement) : Prop :=
  (match st_subject st with
   | SBlank b => PN_LOCAL b
   | SRes i => readable_iri c base mappings i
   | SStmt _ => False
   end) /\
  readable_iri c base mappings (st_predicate st) /\
  (type_like (st_predicate st) -> st_predicate st = rdf $"type") /\
  readable_object c base mappings (st_object st).
(** The declarations can be read. *)
Definition readable_head (c : setting) (base : option Url.url) (mappings : list (str * str)) : Prop :=
  no_conversion c /\ id_base (t_opts c) = option_map Url.url_ser base /\
  match base with Some b => Url.wf_url b = true /\ forallb iri_char (Url.url_ser b) = true | None => True end /\
  NoDup (map fst mappings) /\
  forall p ns, In (p, ns) mappings -> PNAME_NS (p ++ $":") /\ absolute ns /\ forallb iri_char ns = true.
Definition readable_graph (c : setting) (base : option Url.url) (mappings : list (str * str)) (g : graph) : Prop :=
  setting_ok c /\ readable_head c base mappings /\ (nest_blank_nodes (t_opts c) = false \/ ~ cyclic g) /\
  forall st, In st (g_list g) -> readable_statement c base mappings st.
(** Collections of more than one item are not. *)
Definition short_collections (g : graph) : Prop :=
  forall st items, In st (g_list g) -> inside (OColl items) (st_object st) -> (length items <= 1)%nat.

(** Where the verb of the first group is not run together with what follows: no padding, on
    the line of the subject, an IRI in brackets, or a predicate that is no shorter. *)
Definition types_fit (c : setting) (g : graph) : Prop :=
  forall s p o v, In (MkStmt s p o) (g_list g) -> type_like p -> verb c p = Some v ->
    predicate_padding (t_opts c) = true \/ place_type_on_subject_line (t_opts c) = true \/ hd 0 v = 60 \/
    exists p' o' w', In (MkStmt s p' o') (g_list g) /\ iri_word c p' = Some w' /\ (length v <= byte_len w')%nat.

(** ** Names made with a prefix map (see PrefixMap.v): what is written for an IRI, and what is
    declared. *)
Definition names_from (m : PrefixMap.prefix_map) (compress : str -> outcome (option str)) : Prop :=
  forall u, Url.wf_url u = true ->
    compress (Url.url_ser u) =
    match PrefixMap.pm_compress m u with
    | Ret l => Ret (option_map PName.local_name_display l)
    | Panic => Panic
    end.
Definition declares (m : PrefixMap.prefix_map) (mappings : list (str * str)) : Prop :=
  Permutation (map (fun e => (fst e ++ $":", snd e)) mappings)
    (map (fun e => (PName.ns_text (fst e), Url.url_ser (snd e))) (PrefixMap.pm_mappings m)).
