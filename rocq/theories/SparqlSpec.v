(** What the tokens and declarations of SPARQL look like.  No proofs here. *)
From Verif Require Export Sparql.

(** The white space of Unicode. *)
Definition white (c : chr) : Prop :=
  In c [9; 10; 11; 12; 13; 32; 0x85; 0xA0; 0x1680; 0x2000; 0x2001; 0x2002; 0x2003; 0x2004; 0x2005; 0x2006; 0x2007;
        0x2008; 0x2009; 0x200A; 0x2028; 0x2029; 0x202F; 0x205F; 0x3000].
Definition starts (P : chr -> Prop) (s : str) : Prop := match s with c :: _ => P c | [] => False end.
(** White space and what follows it. *)
Definition layout_at (s r : str) : Prop := exists w, s = w ++ r /\ Forall white w /\ ~ starts white r.

(** Letters without regard to their case, in ASCII only. *)
Definition caseless (a b : chr) : Prop :=
  a = b \/ (65 <= a <= 90 /\ b = a + 32) \/ (65 <= b <= 90 /\ a = b + 32).
(** The word [k] stands at the beginning of [s] and ends there, [r] being the rest. *)
Definition keyword_at (alphanumeric : chr -> bool) (k s r : str) : Prop :=
  exists w, s = w ++ r /\ Forall2 caseless k w /\ ~ starts (fun c => alphanumeric c = true) r.

(** IRIREF: any characters beyond the space but the nine listed, in angle brackets. *)
Definition iri_char (c : chr) : Prop := 32 < c /\ ~ In c [60; 62; 34; 123; 125; 124; 94; 96; 92].
Definition iri_at (i s r : str) : Prop :=
  Forall iri_char i /\ exists t, s = 60 :: i ++ 62 :: t /\ layout_at t r.

(** PN_CHARS_BASE and the classes made of it. *)
Definition one_of_ranges (l : list (N * N)) (c : chr) : Prop := exists a b, In (a, b) l /\ a <= c <= b.
Definition name_start : chr -> Prop := one_of_ranges
  [(65, 90); (97, 122); (0xC0, 0xD6); (0xD8, 0xF6); (0xF8, 0x2FF); (0x370, 0x37D); (0x37F, 0x1FFF); (0x200C, 0x200D);
   (0x2070, 0x218F); (0x2C00, 0x2FEF); (0x3001, 0xD7FF); (0xF900, 0xFDCF); (0xFDF0, 0xFFFD); (0x10000, 0xEFFFF)].
Definition digit (c : chr) : Prop := 48 <= c <= 57.
Definition joiner : chr -> Prop := one_of_ranges [(0xB7, 0xB7); (0x300, 0x36F); (0x203F, 0x2040)].
Definition name_char (c : chr) : Prop := name_start c \/ c = 95 \/ c = 45 \/ digit c \/ joiner c.

(** A prefix as it is read: the grammar does not allow a full stop at the end. *)
Definition prefix_read (p : str) : Prop :=
  match p with c :: t => name_start c /\ Forall (fun c => name_char c \/ c = 46) t | [] => False end.
Definition prefix_legal (p : str) : Prop := prefix_read p /\ last p 0 <> 46.
Definition namespace_at (p : option str) (s r : str) : Prop :=
  match p with Some q => prefix_read q | None => True end /\
  exists t, s = match p with Some q => q | None => [] end ++ 58 :: t /\ layout_at t r.

(** Declarations. *)
Inductive decl : Type :=
| DBase (i : str)
| DPrefix (p : option str) (i : str).
Definition decl_at (alphanumeric : chr -> bool) (d : decl) (s r : str) : Prop :=
  match d with
  | DBase i => exists t u, keyword_at alphanumeric $"base" s t /\ starts white t /\ layout_at t u /\ iri_at i u r
  | DPrefix p i => exists t u v, keyword_at alphanumeric $"prefix" s t /\ layout_at t u /\ namespace_at p u v /\ iri_at i v r
  end.
Inductive decls_at (alphanumeric : chr -> bool) : list decl -> str -> str -> Prop :=
| no_decls : forall s, decls_at alphanumeric [] s s
| more_decls : forall d l s t r, decl_at alphanumeric d s t -> decls_at alphanumeric l t r ->
    decls_at alphanumeric (d :: l) s r.
Definition no_keyword (alphanumeric : chr -> bool) (l : list str) (s : str) : Prop :=
  forall k r, In k l -> ~ keyword_at alphanumeric k s r.

(** VARNAME as the grammar has it, and without the low line as it is read. *)
Definition var_legal (v : str) : Prop :=
  match v with
  | c :: t => (name_start c \/ c = 95 \/ digit c) /\ Forall (fun c => name_start c \/ c = 95 \/ digit c \/ joiner c) t
  | [] => False
  end.
Definition var_head (c : chr) : Prop := name_start c \/ digit c.
Definition var_tail (c : chr) : Prop := name_start c \/ digit c \/ joiner c.
Definition var_read (v : str) : Prop := match v with c :: t => var_head c /\ Forall var_tail t | [] => False end.
Definition variable_at (v s r : str) : Prop :=
  var_read v /\ ~ starts var_tail r /\ (s = v ++ r \/ s = 63 :: v ++ r \/ s = 36 :: v ++ r).

(** One character of a local name, as it is read.  [hex] digits are taken up to two, and must
    be decimal. *)
Definition hexadecimal (c : chr) : Prop := digit c \/ 65 <= c <= 70 \/ 97 <= c <= 102.
Definition local_head (c : chr) : Prop := name_start c \/ c = 95 \/ c = 58 \/ digit c.
Definition escapable (c : chr) : Prop := In c $"_~.-!$&'()*+,;=/?#@%".
Inductive local_char_at : chr -> str -> str -> Prop :=
| lc_plain : forall c r, local_head c -> local_char_at c (c :: r) r
| lc_escape : forall c r, escapable c -> local_char_at c (92 :: c :: r) r
| lc_percent1 : forall d r, digit d -> ~ starts hexadecimal r -> local_char_at (d - 48) (37 :: d :: r) r
| lc_percent2 : forall d e r, digit d -> digit e -> local_char_at (10 * (d - 48) + (e - 48)) (37 :: d :: e :: r) r.
(** A percent sign at which the reader panics. *)
Definition percent_trap (s : str) : Prop :=
  exists t, s = 37 :: t /\
    (~ starts hexadecimal t \/
     exists d u, t = d :: u /\ hexadecimal d /\ (~ digit d \/ starts (fun c => hexadecimal c /\ ~ digit c) u)).

(** LANGTAG: '@' [a-zA-Z]+ ('-' [a-zA-Z0-9]+)* *)
Definition letter (c : chr) : Prop := 65 <= c <= 90 \/ 97 <= c <= 122.
Definition letter_or_digit (c : chr) : Prop := letter c \/ digit c.
Definition subtag (t : str) : Prop := t <> [] /\ Forall letter_or_digit t.
Definition tag_text (m : str) (l : list str) : str := m ++ concat (map (cons 45) l).
Definition lang_tag_at (m : str) (l : list str) (s r : str) : Prop :=
  m <> [] /\ Forall letter m /\ Forall subtag l /\ s = 64 :: tag_text m l ++ r /\
  ~ starts (match l with [] => letter | _ => letter_or_digit end) r /\ ~ starts (eq 45) r.

(** The graphs a query is about. *)
Definition dataset_at (alphanumeric : chr -> bool) (named : bool) (i s r : str) : Prop :=
  exists t u, keyword_at alphanumeric $"from" s t /\ layout_at t u /\
    if named then exists v w, keyword_at alphanumeric $"named" u v /\ layout_at v w /\ iri_at i w r
    else no_keyword alphanumeric [$"named"] u /\ iri_at i u r.
