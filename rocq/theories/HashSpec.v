(** Vocabulary for the statements about hashing, independent of the model's helper functions. *)
From Verif Require Export Hash.

(** Texts made of characters, and collections whose length is a [usize] of [w] bytes. *)
Definition is_text (s : str) : Prop := Forall (fun c => c < 55296 \/ 57344 <= c < 1114112) s.
Definition sized_literal (l : literal) : Prop :=
  is_text (lexical_form l) /\ (forall i, lit_data_type l = Some (DtOther i) -> is_text i) /\
  (forall t, lit_language l = Some t -> is_text t).
Fixpoint sized_statement (w : nat) (st : statement) : Prop :=
  let 'MkStmt s p o := st in sized_subject w s /\ is_text p /\ sized_object w o
with sized_subject (w : nat) (s : subject) : Prop :=
  match s with SBlank b => is_text b | SRes i => is_text i | SStmt st => sized_statement w st end
with sized_object (w : nat) (o : object) : Prop :=
  match o with
  | OBlank b => is_text b
  | ORes i => is_text i
  | OLit l => sized_literal l
  | OColl items =>
      N.of_nat (length items) < 256 ^ N.of_nat w /\
      (fix all (l : list object) : Prop := match l with [] => True | x :: r => sized_object w x /\ all r end) items
  | OStmt st => sized_statement w st
  end.
Definition sized_name (n : graph_name) : Prop := match n with GnBlank b => is_text b | GnIri i => is_text i end.

(** [f] tells the values of [P] from each other, whatever follows. *)
Definition prefix_free {A} (P : A -> Prop) (f : A -> list N) : Prop :=
  forall a b r s, P a -> P b -> f a ++ r = f b ++ s -> a = b /\ r = s.

(** A value is in a set if it has been inserted and not been removed since; the latest call is
    the first of the list. *)
Inductive inside {A} (x : A) : list (tb_op A) -> Prop :=
| Inside_insert : forall past, inside x (TInsert x :: past)
| Inside_later : forall op past, op <> TRemove x -> inside x past -> inside x (op :: past).
Definition right_answer {A} (past : list (tb_op A)) (op : tb_op A) (answer : bool) : Prop :=
  answer = true <->
  match op with TInsert x => ~ inside x past | TRemove x => inside x past | TContains x => inside x past end.

(** A hash table that works as a set: it holds what is inside, once, and answers rightly. *)
Definition works_as_set {A} (hash : A -> N) (eqb : A -> A -> bool) : Prop :=
  forall ops : list (tb_op A),
    NoDup (map snd (fst (tb_run hash eqb [] ops))) /\
    (forall x, In x (map snd (fst (tb_run hash eqb [] ops))) <-> inside x (rev ops)) /\
    (forall before op after, ops = before ++ op :: after ->
       exists a, nth_error (snd (tb_run hash eqb [] ops)) (length before) = Some a /\ right_answer (rev before) op a).
