(** Model of what [Hash] feeds to a hasher, and of the hash table of the standard library.
    No proofs here. *)
From Verif Require Export DataSet.

(** [usize] and [isize] as bytes: [w] of them, the least significant first or last. *)
Fixpoint le_bytes (w : nat) (n : N) : list N :=
  match w with O => [] | S k => n mod 256 :: le_bytes k (n / 256) end.

Section Feed.
(** The size of [usize] in bytes and whether the machine is big-endian. *)
Variable w : nat.
Variable big : bool.
(** The crate language-tags 0.3: a tag is hashed as its text and the six places where the
    parts of the text end, which depend on the text. *)
Variable ends : str -> list N.

(** [Hasher::write_usize], [write_length_prefix], and the discriminant in derived code (std). *)
Definition feed_word (n : N) : list N := if big then rev (le_bytes w n) else le_bytes w n.
(** [Hash for str], [Hash for String] (std): the bytes and 0xFF. *)
Definition feed_str (s : str) : list N := flat_map utf8 s ++ [255].
(** [Hash for Option] (std), derived. *)
Definition feed_option {A} (f : A -> list N) (o : option A) : list N :=
  match o with None => feed_word 0 | Some a => feed_word 1 ++ f a end.

(** rdftk_core/src/model/literal.rs:77 derived [Hash for DataType]; [dt_index] is the position of
    the variant.  rdftk_iri/src/iri.rs:28 derived [Hash for Iri]; [Hash for Url] (url 2.5) is
    that of the text. *)
Definition feed_data_type (d : data_type) : list N :=
  feed_word (dt_index d) ++ match d with DtOther iri => feed_str iri | _ => [] end.
Definition feed_language (t : str) : list N := feed_str t ++ flat_map feed_word (ends t).

(** literal.rs:862-868 [Hash for Literal]. *)
Definition feed_literal (l : literal) : list N :=
  feed_str (lexical_form l) ++ feed_option feed_data_type (lit_data_type l)
  ++ feed_option feed_language (lit_language l).

(** Derived [Hash]: statement.rs:50, statement/subject.rs:13, statement/object.rs:16,
    statement/collection.rs:30, statement/bnode.rs:14. *)
Fixpoint feed_statement (st : statement) : list N :=
  let 'MkStmt s p o := st in feed_subject s ++ feed_str p ++ feed_object o
with feed_subject (s : subject) : list N :=
  match s with
  | SBlank b => feed_word 0 ++ feed_str b
  | SRes iri => feed_word 1 ++ feed_str iri
  | SStmt st => feed_word 2 ++ feed_statement st
  end
with feed_object (o : object) : list N :=
  match o with
  | OBlank b => feed_word 0 ++ feed_str b
  | ORes iri => feed_word 1 ++ feed_str iri
  | OLit l => feed_word 2 ++ feed_literal l
  | OColl items => feed_word 3 ++ feed_word (N.of_nat (length items)) ++ flat_map feed_object items
  | OStmt st => feed_word 4 ++ feed_statement st
  end.

(** graph.rs:37 derived [Hash for GraphName]. *)
Definition feed_graph_name (n : graph_name) : list N :=
  match n with
  | GnBlank b => feed_word 0 ++ feed_str b
  | GnIri iri => feed_word 1 ++ feed_str iri
  end.
End Feed.

(** ** [HashSet] as a table

    [std::collections::HashSet] (crate hashbrown): an entry is kept with its hash, and only
    entries with the hash of what is looked for are compared with it.  Which bucket that is,
    and when the table grows, does not matter to what is found. *)
Section Table.
Context {A : Type}.
Variable hash : A -> N.
Variable eqb : A -> A -> bool.
Definition table : Type := list (N * A).
Definition tb_matches (x : A) (e : N * A) : bool := N.eqb (fst e) (hash x) && eqb x (snd e).
Definition tb_contains (x : A) (t : table) : bool := existsb (tb_matches x) t.
(** [HashSet::insert]: a value that is found is not replaced. *)
Definition tb_insert (t : table) (x : A) : table := if tb_contains x t then t else t ++ [(hash x, x)].
(** [HashSet::remove]: the entry found. *)
Fixpoint tb_remove (x : A) (t : table) : table :=
  match t with
  | [] => []
  | e :: r => if tb_matches x e then r else e :: tb_remove x r
  end.
End Table.

(** Calls, and the answers of [insert], [remove] and [contains]. *)
Inductive tb_op (A : Type) : Type := TInsert (x : A) | TRemove (x : A) | TContains (x : A).
Arguments TInsert {A}. Arguments TRemove {A}. Arguments TContains {A}.
Section Runs.
Context {A : Type}.
Variable hash : A -> N.
Variable eqb : A -> A -> bool.
Definition tb_step (t : table) (op : tb_op A) : table * bool :=
  match op with
  | TInsert x => (tb_insert hash eqb t x, negb (tb_contains hash eqb x t))
  | TRemove x => (tb_remove hash eqb x t, tb_contains hash eqb x t)
  | TContains x => (t, tb_contains hash eqb x t)
  end.
Fixpoint tb_run (t : table) (ops : list (tb_op A)) : table * list bool :=
  match ops with
  | [] => (t, [])
  | op :: r => let (t1, a) := tb_step t op in let (t2, l) := tb_run t1 r in (t2, a :: l)
  end.
End Runs.
