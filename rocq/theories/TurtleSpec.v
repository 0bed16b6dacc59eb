(** What a Turtle document says, independently of how it is written.  No proofs here. *)
From Verif Require Import Turtle StrFacts.
From Verif Require Url.
From Coq Require Import Permutation Relations NArith Sorted.

(** A hash set is iterated in some order, each time. *)
Definition any_order {A} (ord : nat -> list A -> list A) : Prop :=
  forall t l, Permutation (ord t l) l.

(** ** Documents

    An object is a word, a property list in brackets, or a collection; the productions are
    those of the Turtle grammar, [6] to [15].  The grammar puts nothing between the items of
    a collection; [sep] is what is put there. *)
Inductive tree : Type :=
| Leaf (w : str)
| Props (po : list (str * list tree))
| Items (l : list tree).

Fixpoint joinp (sep : list piece) (l : list (list piece)) : list piece :=
  match l with
  | [] => []
  | [x] => x
  | x :: r => x ++ sep ++ joinp sep r
  end.

Section Grammar.
Variable sep : list piece.
Fixpoint tree_pieces (t : tree) : list piece :=
  match t with
  | Leaf w => [Word w]
  | Props po =>
      Sign $"[" ::
      joinp [Sign $";"] (map (fun e => Word (fst e) :: joinp [Sign $","] (map tree_pieces (snd e))) po)
      ++ [Sign $"]"]
  | Items l => Sign $"(" :: joinp sep (map tree_pieces l) ++ [Sign $")"]
  end.
Definition entry_pieces (e : str * list tree) : list piece :=
  Word (fst e) :: joinp [Sign $","] (map tree_pieces (snd e)).
Definition entries_pieces (po : list (str * list tree)) : list piece :=
  joinp [Sign $";"] (map entry_pieces po).
Definition block_pieces (b : str * list (str * list tree)) : list piece :=
  Word (fst b) :: entries_pieces (snd b) ++ [Sign $"."].
End Grammar.

(** A document without its white space. *)
Definition is_blanks (p : piece) : bool := match p with Blanks _ => true | _ => false end.
Definition tight (l : list piece) : list piece := filter (fun p => negb (is_blanks p)) l.

(** The directives. *)
Definition directive (o : ttl_options) (ttl sparql : str) (args : list str) : list piece :=
  if use_sparql_style o && negb (use_intellij_style o)
  then Word sparql :: map Word args
  else Word ttl :: map Word args ++ [Sign $"."].
Definition directives (o : ttl_options) (ns : str -> str) (base : option str) (prefixes : list (str * str))
  : list piece :=
  match base with Some b => directive o $"@base" $"BASE" [[60] ++ b ++ [62]] | None => [] end
  ++ flat_map (fun e => directive o $"@prefix" $"PREFIX" [fst e ++ $":"; [60] ++ ns (snd e) ++ [62]])
       prefixes.

(** ** Groups of predicates: types, labels, comments and all others, in this order. *)
Definition w3 : str := $"http://www.w3.org/".
Definition type_like (p : str) : Prop :=
  In p [w3 ++ $"1999/02/22-rdf-syntax-ns#type"; w3 ++ $"2000/01/rdf-schema#subClassOf";
        w3 ++ $"2000/01/rdf-schema#subPropertyOf"; w3 ++ $"2002/07/owl#equivalentClass"].
Definition label_like (p : str) : Prop :=
  In p [w3 ++ $"2000/01/rdf-schema#label"; w3 ++ $"2004/02/skos/core#prefLabel";
        w3 ++ $"2004/02/skos/core#altLabel"; w3 ++ $"2004/02/skos/core#hiddenLabel";
        $"http://xmlns.com/foaf/0.1/name"; $"http://purl.org/dc/elements/1.1/title"].
Definition comment_like (p : str) : Prop :=
  In p [w3 ++ $"2000/01/rdf-schema#comment"; $"http://purl.org/dc/elements/1.1/description";
        w3 ++ $"2004/02/skos/core#definition"; w3 ++ $"2004/02/skos/core#note";
        w3 ++ $"2004/02/skos/core#scopeNote"; w3 ++ $"2004/02/skos/core#editorialNote"].
Definition type_like_dec (p : str) : {type_like p} + {~ type_like p} :=
  in_dec (list_eq_dec N.eq_dec) p _.
Definition label_like_dec (p : str) : {label_like p} + {~ label_like p} :=
  in_dec (list_eq_dec N.eq_dec) p _.
Definition comment_like_dec (p : str) : {comment_like p} + {~ comment_like p} :=
  in_dec (list_eq_dec N.eq_dec) p _.
Definition rank (p : str) : nat :=
  if type_like_dec p then 0 else if label_like_dec p then 1 else if comment_like_dec p then 2 else 3.
Definition ranked (ps : list str) : Prop := StronglySorted (fun a b => (rank a <= rank b)%nat) ps.

(** Words in the order of their characters. *)
Definition not_after (a b : str) : Prop := str_cmp a b <> Gt.
Definition leaves (ts : list tree) : list str := flat_map (fun t => match t with Leaf w => [w] | _ => [] end) ts.

(** ** What a document shows of a graph

    [iri_w], [verb_w] and [lit_w] are the words for IRIs, for predicates and for literals. *)
Section Shows.
Variable g : graph.
Variable nest : bool.
Variable iri_w verb_w : str -> option str.
Variable lit_w : literal -> option str.

Inductive shows : object -> tree -> Prop :=
| Sh_iri i w : iri_w i = Some w -> shows (ORes i) (Leaf w)
| Sh_lit l w : lit_w l = Some w -> shows (OLit l) (Leaf w)
| Sh_label b : nest = false -> shows (OBlank b) (Leaf ($"_:" ++ b))
| Sh_props b po : nest = true -> shows_entries (SBlank b) po -> shows (OBlank b) (Props po)
| Sh_items l ts : Forall2 shows l ts -> shows (OColl l) (Items ts)
(** All statements about a subject: one entry for each predicate, by groups; those of a single
    group by name. *)
with shows_entries : subject -> list (str * list tree) -> Prop :=
| Sh_entries s ps po :
    NoDup ps -> ranked ps ->
    (forall p, In p ps <-> exists o, In (MkStmt s p o) (g_list g)) ->
    Forall2 (shows_entry s) ps po ->
    ((forall p q, In p ps -> In q ps -> rank p = rank q) ->
     exists ws, Forall2 (fun p w => iri_w p = Some w) ps ws /\ StronglySorted not_after ws) ->
    shows_entries s po
(** All statements about a subject with one predicate; the words among the objects are in
    order. *)
with shows_entry : subject -> str -> str * list tree -> Prop :=
| Sh_entry s p v os ts :
    verb_w p = Some v ->
    NoDup os ->
    (forall o, In o os <-> In (MkStmt s p o) (g_list g)) ->
    Forall2 shows os ts ->
    StronglySorted not_after (leaves ts) ->
    shows_entry s p (v, ts).

Definition subject_w (s : subject) : option str :=
  match s with
  | SBlank b => Some ($"_:" ++ b)
  | SRes i => iri_w i
  | SStmt _ => None
  end.
Definition shows_block (s : subject) (b : str * list (str * list tree)) : Prop :=
  subject_w s = Some (fst b) /\ shows_entries s (snd b).

(** Every subject has a block of its own, IRIs first and in order. *)
Definition shows_graph (d : list (str * list (str * list tree))) : Prop :=
  exists nodes blanks,
    NoDup (nodes ++ blanks) /\
    (forall s, In s (nodes ++ blanks) <-> exists p o, In (MkStmt s p o) (g_list g)) /\
    (forall s, In s nodes -> s_is_blank s = false) /\
    StronglySorted (fun a b => subj_cmp a b = Lt) nodes /\
    (forall s, In s blanks -> s_is_blank s = true) /\
    Forall2 shows_block (nodes ++ blanks) d.
End Shows.

(** ** Words

    The word for a predicate: four predicates are all shown as [rdf:type]. *)
Definition word_of {A} (f : A -> io str) (a : A) : option str :=
  match f a with Ret (Ok w) => Some w | _ => None end.
Definition verb_word (o : ttl_options) (iri_w : str -> option str) (p : str) : option str :=
  if type_like_dec p then if use_rdf_type_a o then Some $"a" else iri_w (rdf $"type")
  else iri_w p.

(** The statements that stand at the top level of a document. *)
Definition top_triples (d : list (str * list (str * list tree))) : list (str * str * tree) :=
  flat_map (fun b => flat_map (fun e => map (fun t => (fst b, fst e, t)) (snd e)) (snd b)) d.

(** The number of statements a reader takes from a document, nested ones included. *)
Fixpoint tree_count (t : tree) : nat :=
  match t with
  | Leaf _ => 0
  | Props po => list_sum (map (fun e => list_sum (map (fun t => S (tree_count t)) (snd e))) po)
  | Items l => list_sum (map tree_count l)
  end.
Definition doc_count (d : list (str * list (str * list tree))) : nat :=
  list_sum (map (fun x => S (tree_count (snd x))) (top_triples d)).

(** ** Blank nodes that lead to blank nodes *)
Inductive inside : object -> object -> Prop :=
| In_self o : inside o o
| In_item o x items : In x items -> inside o x -> inside o (OColl items).
Definition leads_to (g : graph) (b c : str) : Prop :=
  exists p o, In (MkStmt (SBlank b) p o) (g_list g) /\ inside (OBlank c) o.
Definition cyclic (g : graph) : Prop := exists b, clos_trans str (leads_to g) b b.

(** ** Graphs that can be written at all: no quoted statements, and a word for every IRI and
    every literal. *)
Fixpoint writable_object (iri_w : str -> option str) (lit_w : literal -> option str) (o : object) : Prop :=
  match o with
  | OBlank _ => True
  | ORes i => iri_w i <> None
  | OLit l => lit_w l <> None
  | OColl items => fold_right (fun x P => writable_object iri_w lit_w x /\ P) True items
  | OStmt _ => False
  end.
Definition writable (iri_w verb_w : str -> option str) (lit_w : literal -> option str) (g : graph) : Prop :=
  forall s p o, In (MkStmt s p o) (g_list g) ->
    subject_w iri_w s <> None /\ iri_w p <> None /\ verb_w p <> None /\ writable_object iri_w lit_w o.

(** A statement and what stands for it at the top level. *)
Definition says g nest iri_w verb_w lit_w (st : statement) (x : str * str * tree) : Prop :=
  subject_w iri_w (st_subject st) = Some (fst (fst x)) /\ verb_w (st_predicate st) = Some (snd (fst x)) /\
  shows g nest iri_w verb_w lit_w (st_object st) (snd x).

(** ** Everything the writer takes from its surroundings

    See the section variables of Turtle.v. *)
Record setting : Type := Setting {
  t_modulus : N;
  t_mode : overflow;
  t_iri : iri_mode;
  t_parse : str -> option str;
  t_gext : chr -> bool;
  t_printable : chr -> bool;
  t_compress : str -> outcome (option str);
  t_opts : ttl_options;
  t_predicates : nat -> list str -> list str;
  t_objects : nat -> list object -> list object;
  t_subjects : nat -> list subject -> list subject
}.
Definition setting_ok (c : setting) : Prop :=
  any_order (t_predicates c) /\ any_order (t_objects c) /\ any_order (t_subjects c).
Definition doc_of (c : setting) (g : graph) (mappings : list (str * str)) (fuel : nat) : wres (list piece) :=
  write_turtle_doc (t_modulus c) (t_mode c) (t_iri c) (t_parse c) (t_gext c) (t_printable c) (t_compress c)
    (t_opts c) g (t_predicates c) (t_objects c) (t_subjects c) mappings fuel.
Definition written (c : setting) ho n (mappings : list (str * str)) (fuel : nat) (g : graph) : wres (list piece) :=
  ttl_write (t_modulus c) (t_mode c) (t_iri c) (t_parse c) (t_gext c) (t_printable c) (t_compress c)
    (t_opts c) (t_predicates c) (t_objects c) (t_subjects c) ho n mappings fuel g.
Definition iri_word (c : setting) : str -> option str :=
  word_of (compress_iri (t_iri c) (t_parse c) (t_compress c) (t_opts c)).
Definition verb (c : setting) : str -> option str := verb_word (t_opts c) (iri_word c).
Definition lit_word (c : setting) : literal -> option str :=
  word_of (literal_word (t_iri c) (t_parse c) (t_gext c) (t_printable c) (t_compress c) (t_opts c)).
Definition can_write (c : setting) (g : graph) : Prop := writable (iri_word c) (verb c) (lit_word c) g.
Definition document (c : setting) (g : graph) (d : list (str * list (str * list tree))) : Prop :=
  shows_graph g (nest_blank_nodes (t_opts c)) (iri_word c) (verb c) (lit_word c) d.
Definition head_of (c : setting) (mappings : list (str * str)) : list piece :=
  directives (t_opts c) (fun i => convert_first (t_iri c) (convert_base (t_opts c)) (show_iri (t_iri c) i))
    (option_map (show_iri (t_iri c)) (id_base (t_opts c))) mappings.
(** Lines can be indented that deep. *)
Definition has_room (c : setting) (depth : nat) : Prop :=
  0 < indent_width (t_opts c) /\
  (N.of_nat depth + 2) * N.max 2 (indent_width (t_opts c)) < t_modulus c.

(** Objects and what they are made of; there are only so many in a graph. *)
Fixpoint object_size (o : object) : nat :=
  match o with
  | OColl items => S (list_sum (map object_size items))
  | _ => 1
  end.
Definition graph_size (g : graph) : nat := list_sum (map (fun st => object_size (st_object st)) (g_list g)).

(** A graph that can be written; and the text written, white space apart. *)
Definition can_be_written (c : setting) (g : graph) (fuel : nat) : Prop :=
  setting_ok c /\ can_write c g /\ has_room c fuel /\ (graph_size g < fuel)%nat /\
  (nest_blank_nodes (t_opts c) = false \/ ~ cyclic g).
Definition writes (c : setting) (g : graph) (mappings : list (str * str)) (fuel : nat)
    (d : list (str * list (str * list tree))) : Prop :=
  exists out, doc_of c g mappings fuel = Done out /\
    tight out = head_of c mappings ++ flat_map (block_pieces [Sign $","]) d.

(** The entries of a subject: one for each of its predicates, by groups, those of a single
    group by name; and in each of them the objects that are words are in order. *)
Definition listed (c : setting) (g : graph) (s : subject) (po : list (str * list tree)) : Prop :=
  exists ps, NoDup ps /\ (forall p, In p ps <-> exists o, In (MkStmt s p o) (g_list g)) /\
    Forall2 (fun p e => verb c p = Some (fst e)) ps po /\ ranked ps /\
    ((forall p q, In p ps -> In q ps -> rank p = rank q) ->
     exists ws, Forall2 (fun p w => iri_word c p = Some w) ps ws /\ StronglySorted not_after ws) /\
    forall e, In e po -> StronglySorted not_after (leaves (snd e)).

(** A graph in which no order is left to chance: the predicates of a subject are of one group
    and have names that differ, objects of the same subject and predicate are words that
    differ, and at most one subject is a blank node. *)
Definition object_word (c : setting) (o : object) : option str :=
  match o with
  | OBlank b => if nest_blank_nodes (t_opts c) then None else Some ($"_:" ++ b)
  | ORes i => iri_word c i
  | OLit l => lit_word c l
  | _ => None
  end.
Definition settled (c : setting) (g : graph) : Prop :=
  (forall s p q o x, In (MkStmt s p o) (g_list g) -> In (MkStmt s q x) (g_list g) ->
     rank p = rank q /\ (p <> q -> exists w v, iri_word c p = Some w /\ iri_word c q = Some v /\ w <> v)) /\
  (forall s p o x, In (MkStmt s p o) (g_list g) -> In (MkStmt s p x) (g_list g) -> o <> x ->
     exists w v, object_word c o = Some w /\ object_word c x = Some v /\ w <> v) /\
  (forall a b p q o x, In (MkStmt (SBlank a) p o) (g_list g) -> In (MkStmt (SBlank b) q x) (g_list g) -> a = b).
(** The same setting with hash sets in other orders. *)
Definition reordered (c : setting) op oo os : setting :=
  Setting (t_modulus c) (t_mode c) (t_iri c) (t_parse c) (t_gext c) (t_printable c) (t_compress c) (t_opts c) op oo os.

(** The number of collections of more than one item. *)
Fixpoint long_items (t : tree) : nat :=
  match t with
  | Leaf _ => 0
  | Props po => list_sum (map (fun e => list_sum (map long_items (snd e))) po)
  | Items l => (match l with _ :: _ :: _ => 1 | _ => 0 end + list_sum (map long_items l))%nat
  end.
Definition no_long_items (d : list (str * list (str * list tree))) : Prop :=
  forall s v t, In (s, v, t) (top_triples d) -> long_items t = 0%nat.

(** The word for a predicate and nothing else. *)
Definition own_verb (c : setting) (p : str) : option str :=
  if str_eq_dec p (rdf $"type") then if use_rdf_type_a (t_opts c) then Some $"a" else iri_word c p
  else iri_word c p.

(** ** What a word for an IRI denotes

    RFC 3986, 5.2.2 and 5.2.3, for a reference that is a single segment of a path. *)
Definition segment (r : str) : Prop :=
  r <> [] /\ r <> $"." /\ r <> $".." /\ Forall (fun x => ~ In x [47; 58; 63; 35]) r.
Fixpoint up_to_slash (p : str) : str :=
  match p with
  | [] => []
  | x :: r => if existsb (N.eqb 47) p then x :: up_to_slash r else []
  end.
Definition merged (b : Url.url) (r : str) : str :=
  match Url.u_auth b, Url.u_path b with
  | Some _, [] => $"/" ++ r
  | _, p => up_to_slash p ++ r
  end.
Definition resolved (b : Url.url) (r : str) : str :=
  Url.url_ser (Url.MkUrl (Url.u_scheme b) (Url.u_auth b) (merged b r) None None).
Definition absolute (i : str) : Prop :=
  exists scheme rest, i = scheme ++ $":" ++ rest.
(** Prefixed names are told from references by their first character. *)
Inductive word_denotes (base : option Url.url) (expand : str -> option str) : str -> str -> Prop :=
| Wd_absolute i : absolute i -> word_denotes base expand ([60] ++ i ++ [62]) i
| Wd_segment b r : base = Some b -> segment r -> word_denotes base expand ([60] ++ r ++ [62]) (resolved b r)
| Wd_name q i : hd 0 q <> 60 -> expand q = Some i -> word_denotes base expand q i.
(** A base that can be used as it is used here. *)
Definition directory (b : Url.url) : Prop :=
  (exists p, Url.u_path b = p ++ $"/") /\ Url.u_query b = None /\ Url.u_frag b = None.
(** No rewriting of IRIs. *)
Definition no_conversion (c : setting) : Prop :=
  t_iri c = Bare /\ convert_to_id_base (t_opts c) = None /\ convert_base (t_opts c) = [].
Definition names_expand (c : setting) (expand : str -> option str) : Prop :=
  forall i q, t_compress c i = Ret (Some q) -> hd 0 q <> 60 /\ expand q = Some i.

(** ** Conversions *)
(** The conversions of bases, one after the other. *)
Inductive replaced : list (str * str) -> str -> str -> Prop :=
| Rp_nil i : replaced [] i i
| Rp_here from to l r j : replaced l (to ++ r) j -> replaced ((from, to) :: l) (from ++ r) j
| Rp_not from to l i j : (forall r, i <> from ++ r) -> replaced l i j -> replaced ((from, to) :: l) i j.
(** The IRI that is to be written for an IRI. *)
Definition not_under (b : option str) (i : str) : Prop := forall b' r, b = Some b' -> i <> b' ++ r.
Inductive meant_iri (o : ttl_options) : str -> str -> Prop :=
| Mi_id t b r : id_base o = Some b -> convert_to_id_base o = Some t -> meant_iri o (t ++ r) (b ++ r)
| Mi_base b r : id_base o = Some b -> not_under (convert_to_id_base o) (b ++ r) -> meant_iri o (b ++ r) (b ++ r)
| Mi_other i j : id_base o = None \/ not_under (convert_to_id_base o) i -> not_under (id_base o) i ->
    replaced (convert_base o) i j -> meant_iri o i j.
