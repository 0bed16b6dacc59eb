(** Vocabulary for the statements about the texts of terms ([Display]), independent of the
    model's helper functions. *)
From Verif Require Export Term LiteralSpec.

(** Texts that can be told from what surrounds them. *)
Definition iri_word (i : str) : Prop := Forall (fun c => ~ In c [32; 60; 62]) i.
Definition word (s : str) : Prop := ~ In 32 s.
Definition number_word (s : str) : Prop :=
  s <> [] /\ Forall (fun c => 48 <= c <= 57 \/ 65 <= c <= 90 \/ 97 <= c <= 122 \/ In c [43; 45; 46]) s.

(** The types of numbers and truth values. *)
Definition numeric : list data_type :=
  [DtBoolean; DtLong; DtInt; DtShort; DtByte; DtUnsignedLong; DtUnsignedInt; DtUnsignedShort; DtUnsignedByte; DtFloat; DtDouble; DtDecimal].

Definition clear_literal (l : literal) : Prop :=
  match lit_data_type l, lit_language l with
  | None, None => quotable (lexical_form l) = true
  | None, Some t => quotable (lexical_form l) = true /\ word t
  | Some d, None =>
      (d = DtIri -> iri_word (lexical_form l)) /\ (In d numeric -> number_word (lexical_form l)) /\
      quotable (lexical_form l) = true /\ word (dt_as_iri d)
  | Some _, Some _ => False
  end.
Fixpoint clear_statement (st : statement) : Prop :=
  let 'MkStmt s p o := st in clear_subject s /\ iri_word p /\ clear_object o
with clear_subject (s : subject) : Prop :=
  match s with SBlank b => word b | SRes i => iri_word i | SStmt st => clear_statement st end
with clear_object (o : object) : Prop :=
  match o with
  | OBlank b => word b
  | ORes i => iri_word i
  | OLit l => clear_literal l
  | OColl items => (fix all (l : list object) : Prop := match l with [] => True | x :: r => clear_object x /\ all r end) items
  | OStmt st => clear_statement st
  end.

(** Terms that look alike: the same but for numbers with the same digits, data types with the
    same IRI, and IRIs and literals of IRIs.  [alt] is whether types of numbers are shown. *)
Inductive alike_literal (alt : bool) : literal -> literal -> Prop :=
| Alike_same : forall l, alike_literal alt l l
| Alike_number : forall lex d d', alt = false -> In d numeric -> In d' numeric ->
    alike_literal alt (Lit lex (Some d) None) (Lit lex (Some d') None)
| Alike_named : forall lex d d', dt_as_iri d = dt_as_iri d' ->
    d <> DtIri -> d' <> DtIri -> (alt = true \/ ~ In d numeric /\ ~ In d' numeric) ->
    alike_literal alt (Lit lex (Some d) None) (Lit lex (Some d') None).
Inductive alike_statement (m : iri_mode) : statement -> statement -> Prop :=
| Alike_statement : forall s s' p o o', alike_subject m s s' -> alike_object m false o o' ->
    alike_statement m (MkStmt s p o) (MkStmt s' p o')
with alike_subject (m : iri_mode) : subject -> subject -> Prop :=
| Alike_sblank : forall b, alike_subject m (SBlank b) (SBlank b)
| Alike_siri : forall i, alike_subject m (SRes i) (SRes i)
| Alike_sst : forall a b, alike_statement m a b -> alike_subject m (SStmt a) (SStmt b)
with alike_object (m : iri_mode) : bool -> object -> object -> Prop :=
| Alike_blank : forall alt b, alike_object m alt (OBlank b) (OBlank b)
| Alike_iri : forall alt i, alike_object m alt (ORes i) (ORes i)
| Alike_literal : forall alt l l', alike_literal alt l l' -> alike_object m alt (OLit l) (OLit l')
| Alike_iri_literal : forall alt i, m = Bare -> alike_object m alt (ORes i) (OLit (Lit i (Some DtIri) None))
| Alike_literal_iri : forall alt i, m = Bare -> alike_object m alt (OLit (Lit i (Some DtIri) None)) (ORes i)
| Alike_collection : forall alt xs ys, Forall2 (alike_object m false) xs ys -> alike_object m alt (OColl xs) (OColl ys)
| Alike_st : forall alt a b, alike_statement m a b -> alike_object m alt (OStmt a) (OStmt b).

(** Literals that no other literal looks like: no numbers, no literals of IRIs, and no type
    given by the IRI of a type that has a name. *)
Definition plain_literal (l : literal) : Prop :=
  match lit_data_type l with
  | None => True
  | Some d => ~ In d numeric /\ d <> DtIri /\ forall i d', d = DtOther i -> (forall j, d' <> DtOther j) -> dt_as_iri d' <> i
  end.
Fixpoint plain_statement (st : statement) : Prop :=
  let 'MkStmt s p o := st in plain_subject s /\ plain_object o
with plain_subject (s : subject) : Prop :=
  match s with SStmt st => plain_statement st | _ => True end
with plain_object (o : object) : Prop :=
  match o with
  | OLit l => plain_literal l
  | OColl items => (fix all (l : list object) : Prop := match l with [] => True | x :: r => plain_object x /\ all r end) items
  | OStmt st => plain_statement st
  | _ => True
  end.
