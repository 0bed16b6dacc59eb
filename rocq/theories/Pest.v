(** The part of pest (the PEG parser generator) that the grammar of
    rdftk_io/src/common/common.pest uses.  No proofs here.

    A parser consumes a prefix of its input and returns the text consumed, the token pairs
    produced, and the rest of the input. *)
From Verif Require Export Str.

(** The rules of common.pest that the N-Triples and N-Quads grammars reach and that
    produce token pairs. *)
Inductive rule : Type :=
| R_ntripleDoc | R_ntriple | R_ntripleSubject | R_ntriplePredicate | R_ntripleObject
| R_ntripleLiteral | R_ntripleRdfLiteral | R_ntripleString
| R_nquadDoc | R_nquad
| R_IRIREF | R_IRIREF_INNER | R_blankNode | R_BLANK_NODE_LABEL | R_ANON | R_LANGTAG
| R_STRING_LITERAL_QUOTE | R_QUOTE_INNER | R_END_OF_STATEMENT | R_EOI.

Definition rule_dec (a b : rule) : {a = b} + {a <> b}.
Proof. decide equality. Defined.

(** [pest::iterators::Pair]: [as_rule], [as_str], [into_inner]. *)
Inductive pair : Type := Pair (r : rule) (txt : str) (inner : list pair).
Definition as_rule (p : pair) : rule := let 'Pair r _ _ := p in r.
Definition as_str (p : pair) : str := let 'Pair _ t _ := p in t.
Definition into_inner (p : pair) : list pair := let 'Pair _ _ l := p in l.

Notation parser := (list N -> option (list N * list pair * list N)).

(** ["text"], a character class, [ANY]. *)
Definition p_lit (t : str) : parser := fun s =>
  match strip_prefix t s with Some r => Some (t, [], r) | None => None end.
Definition p_chr (f : chr -> bool) : parser := fun s =>
  match s with c :: r => if f c then Some ([c], [], r) else None | [] => None end.
Definition p_any : parser := p_chr (fun _ => true).

(** [a | b]: ordered choice. *)
Definition p_alt (a b : parser) : parser := fun s =>
  match a s with Some x => Some x | None => b s end.
(** [a ~ b] in an atomic rule. *)
Definition p_seq (a b : parser) : parser := fun s =>
  match a s with
  | Some (t1, p1, r1) =>
      match b r1 with
      | Some (t2, p2, r2) => Some (t1 ++ t2, p1 ++ p2, r2)
      | None => None
      end
  | None => None
  end.
(** [a?], [!a], [&a]. *)
Definition p_opt (a : parser) : parser := fun s =>
  match a s with Some x => Some x | None => Some ([], [], s) end.
Definition p_neg (a : parser) : parser := fun s =>
  match a s with Some _ => None | None => Some ([], [], s) end.
Definition p_pos (a : parser) : parser := fun s =>
  match a s with Some _ => Some ([], [], s) | None => None end.

(** [a*] in an atomic rule: as often as possible.  Every [a] used with it consumes at
    least one character, so the length of the input bounds the number of rounds. *)
Fixpoint star_n (n : nat) (a : parser) (s : str) : str * list pair * str :=
  match n with
  | O => ([], [], s)
  | S n' =>
      match a s with
      | Some (t, p, r) => let '(t', p', r') := star_n n' a r in (t ++ t', p ++ p', r')
      | None => ([], [], s)
      end
  end.
Definition p_star (a : parser) : parser := fun s => Some (star_n (length s) a s).
(** [a+], [a{n}]. *)
Definition p_plus (a : parser) : parser := p_seq a (p_star a).
Fixpoint p_times (n : nat) (a : parser) : parser :=
  match n with
  | O => fun s => Some ([], [], s)
  | S n' => p_seq a (p_times n' a)
  end.

(** [r = { a }] and [r = ${ a }]: one pair around the pairs of [a];
    [r = @{ a }]: one pair, the rules inside produce none. *)
Definition p_rule (r : rule) (a : parser) : parser := fun s =>
  match a s with Some (t, p, rest) => Some (t, [Pair r t p], rest) | None => None end.
Definition p_atomic (r : rule) (a : parser) : parser := fun s =>
  match a s with Some (t, _, rest) => Some (t, [Pair r t []], rest) | None => None end.

(** common.pest:566-576 [newline], [COMMENT], [WHITESPACE]; silent, and atomic by their
    names. *)
Definition is_newline (c : chr) : bool := N.eqb c 13 || N.eqb c 10.
Definition is_white (c : chr) : bool := N.eqb c 32 || N.eqb c 9 || is_newline c.
Definition g_newline : parser := p_chr is_newline.
Definition g_comment : parser := p_seq (p_lit $"#") (p_star (p_seq (p_neg g_newline) p_any)).
Definition g_whitespace : parser := p_chr is_white.

(** What pest puts between the parts of a non-atomic sequence or repetition:
    white space, then comments each followed by white space. *)
Definition g_skip : parser :=
  p_seq (p_star g_whitespace) (p_star (p_seq g_comment (p_star g_whitespace))).
(** [a ~ b] and [a*] in a non-atomic rule. *)
Definition p_then (a b : parser) : parser := p_seq a (p_seq g_skip b).
Definition p_many (a : parser) : parser := p_opt (p_seq a (p_star (p_seq g_skip a))).

(** The built-in rule [EOI]. *)
Definition p_eoi : parser := fun s =>
  match s with [] => Some ([], [Pair R_EOI [] []], []) | _ => None end.
