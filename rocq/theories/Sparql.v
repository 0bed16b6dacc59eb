(** The tokens and declarations of SPARQL queries, after
    rdftk_query/src/sparql/parser/common.rs (and [dataset_clause] of query.rs).

    The crate is not a member of the workspace and not finished: [query], [select_clause]
    and the clauses that use [integer], [group_graph_pattern] or a [choice] of nothing have
    no meaning yet and are not modelled.  The parsers below are complete and are the ones
    tested in common.rs:672-818.

    The combinators are those of the crate combine (version 4), of which only the documented
    behaviour is used: a reply says whether input was consumed ("committed"), and an
    alternative, a repetition or an option is abandoned only by an error that did not consume
    input.  [expected] changes messages only and is left out. *)
From Verif Require Export Str.

(** ** Combinators *)

(** combine: [ParseResult]; [Good] is CommitOk or PeekOk, [Bad] is CommitErr or PeekErr, the
    flag saying which; [Boom] is a panic. *)
Inductive reply (A : Type) : Type :=
| Good (committed : bool) (a : A) (rest : str)
| Bad (committed : bool)
| Boom.
Arguments Good {A} committed a rest.
Arguments Bad {A} committed.
Arguments Boom {A}.
Definition parser (A : Type) : Type := str -> reply A.

(** combine: [satisfy]. *)
Definition satisfy (f : chr -> bool) : parser chr :=
  fun s => match s with
           | c :: r => if f c then Good true c r else Bad false
           | [] => Bad false
           end.
(** combine: [char], [one_of]. *)
Definition char (c : chr) : parser chr := satisfy (N.eqb c).
Definition one_of (l : str) : parser chr := satisfy (fun c => existsb (N.eqb c) l).
(** combine: a tuple of two parsers; [map]; [skip]; [value]. *)
Definition pair {A B} (p : parser A) (q : parser B) : parser (A * B) :=
  fun s => match p s with
           | Good c a r => match q r with
                           | Good c' b r' => Good (c || c') (a, b) r'
                           | Bad c' => Bad (c || c')
                           | Boom => Boom
                           end
           | Bad c => Bad c
           | Boom => Boom
           end.
Definition pmap {A B} (p : parser A) (f : A -> B) : parser B :=
  fun s => match p s with Good c a r => Good c (f a) r | Bad c => Bad c | Boom => Boom end.
(** [map] with a function that may panic. *)
Definition pmap_or_panic {A B} (p : parser A) (f : A -> outcome B) : parser B :=
  fun s => match p s with
           | Good c a r => match f a with Ret b => Good c b r | Panic => Boom end
           | Bad c => Bad c
           | Boom => Boom
           end.
Definition skip {A B} (p : parser A) (q : parser B) : parser A := pmap (pair p q) fst.
(** combine: [choice], [or]. *)
Definition por {A} (p q : parser A) : parser A :=
  fun s => match p s with Bad false => q s | r => r end.
(** combine: [optional]. *)
Definition optional {A} (p : parser A) : parser (option A) :=
  fun s => match p s with
           | Good c a r => Good c (Some a) r
           | Bad false => Good false None s
           | Bad true => Bad true
           | Boom => Boom
           end.
(** combine: [attempt]. *)
Definition attempt {A} (p : parser A) : parser A :=
  fun s => match p s with Bad _ => Bad false | r => r end.
(** combine: [not_followed_by]. *)
Definition not_followed_by {A} (p : parser A) : parser unit :=
  fun s => match p s with Good _ _ _ => Bad false | Bad _ => Good false tt s | Boom => Boom end.
(** combine: [many], and [count] which takes from none up to [n] of them.  The parsers that
    are repeated below consume input whenever they succeed, so that the length of the text
    bounds the repetitions of [many]. *)
Fixpoint up_to {A} (n : nat) (p : parser A) : parser (list A) :=
  fun s => match n with
           | O => Good false [] s
           | S m => match p s with
                    | Good c a r => match up_to m p r with
                                    | Good c' l r' => Good (c || c') (a :: l) r'
                                    | Bad c' => Bad (c || c')
                                    | Boom => Boom
                                    end
                    | Bad false => Good false [] s
                    | Bad true => Bad true
                    | Boom => Boom
                    end
           end.
Definition count {A} := @up_to A.
Definition many {A} (p : parser A) : parser (list A) := fun s => up_to (length s) p s.
(** combine: [many1]. *)
Definition many1 {A} (p : parser A) : parser (list A) :=
  pmap (pair p (many p)) (fun x => fst x :: snd x).
(** combine: [string_cmp]; an error after the first character has consumed it. *)
Fixpoint string_rest (cmp : chr -> chr -> bool) (name : str) (s : str) : reply unit :=
  match name with
  | [] => Good true tt s
  | c :: n => match s with
              | d :: r => if cmp c d then string_rest cmp n r else Bad true
              | [] => Bad true
              end
  end.
Definition string_cmp (cmp : chr -> chr -> bool) (name : str) : parser unit :=
  fun s => match name, s with
           | [], _ => Good false tt s
           | c :: n, d :: r => if cmp c d then string_rest cmp n r else Bad false
           | _ :: _, [] => Bad false
           end.

(** [char::is_whitespace] (Unicode White_Space). *)
Definition is_whitespace (c : chr) : bool :=
  in_range 9 13 c || N.eqb c 0x20 || N.eqb c 0x85 || N.eqb c 0xA0 || N.eqb c 0x1680 || in_range 0x2000 0x200A c
  || in_range 0x2028 0x2029 c || N.eqb c 0x202F || N.eqb c 0x205F || N.eqb c 0x3000.
(** combine: [space], [spaces]. *)
Definition space : parser chr := satisfy is_whitespace.
Definition spaces : parser unit := pmap (many space) (fun _ => tt).
(** combine: [hex_digit]. *)
Definition is_hex (c : chr) : bool := match hex_val c with Some _ => true | None => false end.
Definition hex_digit : parser chr := satisfy is_hex.
(** [char::eq_ignore_ascii_case]. *)
Definition ascii_lower (c : chr) : chr := if is_upper c then c + 32 else c.
Definition eq_ignore_ascii_case (a b : chr) : bool := N.eqb (ascii_lower a) (ascii_lower b).

(** ** Classes of characters *)

(** common.rs:535-540 [is_iri_reserved]. *)
Definition is_iri_reserved (c : chr) : bool :=
  existsb (N.eqb c) [60; 62; 34; 123; 125; 124; 94; 96; 92] || in_range 0 0x20 c.
(** common.rs:550-573 [is_local_escape]. *)
Definition is_local_escape (c : chr) : bool :=
  existsb (N.eqb c) [95; 126; 46; 45; 33; 36; 38; 39; 40; 41; 42; 43; 44; 59; 61; 47; 63; 35; 64; 37].
(** common.rs:586-602 [is_pn_chars_base]. *)
Definition sp_chars_base (c : chr) : bool :=
  in_range 65 90 c || in_range 97 122 c || in_range 0xC0 0xD6 c || in_range 0xD8 0xF6 c || in_range 0xF8 0x2FF c
  || in_range 0x370 0x37D c || in_range 0x37F 0x1FFF c || in_range 0x200C 0x200D c || in_range 0x2070 0x218F c
  || in_range 0x2C00 0x2FEF c || in_range 0x3001 0xD7FF c || in_range 0xF900 0xFDCF c || in_range 0xFDF0 0xFFFD c
  || in_range 0x10000 0xEFFFF c.
(** common.rs:611-613 [is_pn_chars_u]. *)
Definition sp_chars_u (c : chr) : bool := sp_chars_base c || N.eqb c 95.
(** common.rs:622-627 [is_pn_chars]. *)
Definition sp_chars (c : chr) : bool :=
  sp_chars_u c || is_digit c || N.eqb c 45 || N.eqb c 0xB7 || in_range 0x300 0x36F c || in_range 0x203F 0x2040 c.
(** common.rs:637-639 [is_var_name_head]. *)
Definition is_var_name_head (c : chr) : bool := sp_chars_base c || is_digit c.
(** common.rs:649-654 [is_var_name_tail]. *)
Definition is_var_name_tail (c : chr) : bool :=
  sp_chars_base c || is_digit c || N.eqb c 0xB7 || in_range 0x300 0x36F c || in_range 0x203F 0x2040 c.

(** ** Tokens *)

Section Tokens.
(** [char::is_alphanumeric], a table of the compiler. *)
Variable alphanumeric : chr -> bool.

(** common.rs:343-351 [keyword]. *)
Definition keyword (name : str) : parser unit :=
  attempt (skip (string_cmp eq_ignore_ascii_case name) (not_followed_by (satisfy alphanumeric))).

(** common.rs:359-371 [iri_ref]. *)
Definition iri_ref : parser str :=
  pmap (pair (char 60) (pair (many (satisfy (fun c => negb (is_iri_reserved c)))) (skip (char 62) spaces)))
    (fun x => fst (snd x)).

(** common.rs:411-423 [prefixed_name_prefix]. *)
Definition prefixed_name_prefix : parser str :=
  pmap (pair (satisfy sp_chars_base) (optional (many (por (satisfy sp_chars) (char 46)))))
    (fun x => fst x :: match snd x with Some t => t | None => [] end).

(** common.rs:379-387 [prefixed_name_namespace]. *)
Definition prefixed_name_namespace : parser (option str) :=
  pmap (pair (optional prefixed_name_prefix) (skip (char 58) spaces)) fst.

(** common.rs:223-234 [base_decl]. *)
Definition base_decl : parser str :=
  pmap (pair (skip (keyword $"base") (many1 space)) (skip iri_ref spaces)) snd.

(** common.rs:242-254 [prefix_decl]. *)
Definition prefix_decl : parser (option str * str) :=
  pmap (pair (skip (keyword $"prefix") spaces) (pair prefixed_name_namespace (skip iri_ref spaces))) snd.

(** common.rs:29-37 [prologue].  The two alternatives have different outputs, which the
    repetition throws away. *)
Definition prologue : parser unit :=
  pmap (many (por (pmap base_decl (fun _ => tt)) (pmap prefix_decl (fun _ => tt)))) (fun _ => tt).

(** query.rs:112-124 and common.rs:122-134 [dataset_clause]. *)
Definition dataset_clause : parser unit :=
  pmap (pair (skip (keyword $"from") spaces) (pair (skip (optional (keyword $"named")) spaces) (skip iri_ref spaces)))
    (fun _ => tt).

(** common.rs:206-215 [boolean_literal]. *)
Definition boolean_literal : parser bool :=
  attempt (por (pmap (string_cmp N.eqb $"false") (fun _ => false)) (pmap (string_cmp N.eqb $"true") (fun _ => true))).

(** common.rs:306-314 [var_name]. *)
Definition var_name : parser str :=
  pmap (pair (satisfy is_var_name_head) (many (satisfy is_var_name_tail))) (fun x => fst x :: snd x).
(** common.rs:289-297 [variable]. *)
Definition variable : parser str := pmap (pair (optional (one_of $"?$")) var_name) snd.

(** common.rs:322-340 [lang_tag]. *)
Definition lang_tag : parser str :=
  pmap (pair (char 64)
    (pair (many1 (satisfy is_alpha))
      (many (pmap (pair (char 45) (many1 (satisfy is_alnum))) (fun x => fst x :: snd x)))))
    (fun x => fst (snd x) ++ concat (snd (snd x))).

(** common.rs:488-496 [percent_escape]: the hexadecimal digits are parsed as a decimal
    number, and [count] accepts fewer than two of them. *)
Fixpoint decimal (acc : N) (s : str) : option N :=
  match s with
  | [] => Some acc
  | c :: r => if is_digit c then decimal (10 * acc + (c - 48)) r else None
  end.
Definition parse_u32 (s : str) : option N := match s with [] => None | _ => decimal 0 s end.
Definition percent_escape : parser chr :=
  pmap_or_panic (pair (char 37) (count 2 hex_digit))
    (fun x => match parse_u32 (snd x) with
              | Some n => if is_scalar n then Ret n else Panic
              | None => Panic
              end).

(** common.rs:505-513 [prefixed_name_local_escape]. *)
Definition prefixed_name_local_escape : parser chr := pmap (pair (char 92) (satisfy is_local_escape)) snd.
(** common.rs:472-480 [prefixed_local_escape]. *)
Definition prefixed_local_escape : parser chr := por percent_escape prefixed_name_local_escape.
(** common.rs:516-524 [whitespace]. *)
Definition whitespace : parser unit := pmap (many1 space) (fun _ => tt).
(** common.rs:453-464 [prefixed_name_local_tail]. *)
Definition prefixed_name_local_tail : parser str :=
  pmap (pair (many (por (satisfy (fun c => sp_chars_u c || N.eqb c 46 || N.eqb c 58)) prefixed_local_escape))
             (por (satisfy (fun c => sp_chars_u c || N.eqb c 58)) prefixed_local_escape))
    (fun x => fst x ++ [snd x]).
(** common.rs:432-444 [prefixed_name_local]. *)
Definition prefixed_name_local : parser str :=
  skip (pmap (pair (por (satisfy (fun c => sp_chars_u c || N.eqb c 58 || is_digit c)) prefixed_local_escape)
                   (optional prefixed_name_local_tail))
          (fun x => fst x :: match snd x with Some t => t | None => [] end))
    whitespace.
(** common.rs:395-403 [prefixed_name_local_name]. *)
Definition prefixed_name_local_name : parser (option str * str) := pair prefixed_name_namespace prefixed_name_local.
(** common.rs:49-57 [prefixed_name], 39-47 [iri]. *)
Definition prefixed_name : parser unit :=
  por (pmap prefixed_name_local_name (fun _ => tt)) (pmap prefixed_name_namespace (fun _ => tt)).
Definition sparql_iri : parser unit := por (pmap iri_ref (fun _ => tt)) prefixed_name.
End Tokens.
