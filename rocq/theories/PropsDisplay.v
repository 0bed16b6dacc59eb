(** C109: the texts of statements and terms. *)
From Verif Require Import DisplayProofs.

(** C109: terms have the same text exactly if they look alike: the same but for numbers of
    different types, types with the same IRI, and IRIs and literals of IRIs ([alt] is [{:#}]). *)
Theorem C109_exact : forall m,
  (forall a b, clear_statement a -> clear_statement b -> (st_show m a = st_show m b <-> alike_statement m a b)) /\
  (forall s t, clear_subject s -> clear_subject t -> (subj_show m s = subj_show m t <-> alike_subject m s t)) /\
  (forall alt o q, clear_object o -> clear_object q -> (obj_show m alt o = obj_show m alt q <-> alike_object m alt o q)).
Proof. exact c109_exact. Qed.
Print Assumptions C109_exact.

(** C109: without numbers, literals of IRIs and types given by the IRI of a named type, the text
    determines the statement, however deep quoted statements and collections are nested. *)
Theorem C109_text : forall m a b, clear_statement a -> clear_statement b -> plain_statement a -> plain_statement b ->
  st_show m a = st_show m b -> a = b.
Proof. exact c109_plain. Qed.
Print Assumptions C109_text.

(** C109: what the constructors make meets these conditions. *)
Theorem C109_made : forall gext printable, ascii_tables gext printable ->
  (forall s, clear_literal (lit_plain gext printable s) /\ plain_literal (lit_plain gext printable s)) /\
  (forall s t, word t -> clear_literal (lit_with_language gext printable s t) /\ plain_literal (lit_with_language gext printable s t)) /\
  (forall s i, word i -> clear_literal (lit_with_data_type_iri gext printable s i)) /\
  (forall s, clear_literal (lit_from_str gext printable s) /\ plain_literal (lit_from_str gext printable s)) /\
  (forall b, clear_literal (lit_from_bool gext printable b)) /\
  (forall t z, clear_literal (lit_from_int gext printable t z)).
Proof. exact c109_made. Qed.
Print Assumptions C109_made.

(** C109 fails for statements in general: the texts of a byte and a long are the same even if
    [{:#}] is used for the statement; a literal of an IRI is shown as the IRI; and a number with
    a blank in its text (which [with_data_type] takes) is shown as two items of a collection. *)
Theorem C109_refuted : forall p s,
  (forall m lex, st_show m (MkStmt s p (OLit (Lit lex (Some DtByte) None))) = st_show m (MkStmt s p (OLit (Lit lex (Some DtLong) None)))) /\
  (forall i, st_show Bare (MkStmt s p (ORes i)) = st_show Bare (MkStmt s p (OLit (Lit i (Some DtIri) None)))) /\
  (forall m a b, st_show m (MkStmt s p (OColl [OLit (Lit (a ++ [32] ++ b) (Some DtInt) None)])) =
    st_show m (MkStmt s p (OColl [OLit (Lit a (Some DtInt) None); OLit (Lit b (Some DtInt) None)]))).
Proof. exact c109_refuted. Qed.
Print Assumptions C109_refuted.

Definition ex109 (o : object) : statement :=
  MkStmt (SStmt (MkStmt (SBlank $"b") $"http://e/p" (OColl [OLit (Lit $"a ) b" None None); OColl []; OStmt (MkStmt (SRes $"http://e/s") $"http://e/q" o)])))
    $"http://e/r" (OLit (Lit $">>" (Some (DtOther $"http://e/t")) None)).
Example C109_example :
  clear_statement (ex109 (OLit (Lit $"7" (Some DtByte) None))) /\ clear_statement (ex109 (OBlank $"c")) /\
  plain_statement (ex109 (OBlank $"c")) /\
  st_show Bare (ex109 (OLit (Lit $"7" (Some DtByte) None))) =
    $"<< _:b <http://e/p> ( """ ++ $"a ) b"" (  ) << <http://e/s> <http://e/q> 7 >> ) >> <http://e/r> "">>""^^<http://e/t>" /\
  alike_statement Bare (ex109 (OLit (Lit $"7" (Some DtByte) None))) (ex109 (OLit (Lit $"7" (Some DtUnsignedByte) None))).
Proof.
  assert (W : forall s, forallb (fun c => negb (N.eqb c 32)) s = true -> word s).
  { intros s F I. rewrite forallb_forall in F. specialize (F _ I). discriminate. }
  assert (V : forall s, forallb (fun c => negb (N.eqb c 32 || N.eqb c 60 || N.eqb c 62)) s = true -> iri_word s).
  { intros s F. apply Forall_forall. intros c I. rewrite forallb_forall in F. specialize (F _ I).
    intros [<- | [<- | [<- | []]]]; discriminate. }
  assert (B : clear_literal (Lit $"7" (Some DtByte) None)).
  { split; [discriminate|]. split; [|split; [reflexivity|apply W; reflexivity]]. intros _. split; [discriminate|].
    apply Forall_forall. intros c [<- | []]. left. vm_compute. split; discriminate. }
  assert (T : clear_literal (Lit $">>" (Some (DtOther $"http://e/t")) None)).
  { split; [discriminate|]. split; [|split; [reflexivity|apply W; reflexivity]]. intros I. apply numeric_bare in I. discriminate. }
  assert (C : forall o, clear_object o -> clear_statement (ex109 o)).
  { intros o O. split; [|split; [apply V; reflexivity|exact T]]. split; [apply W; reflexivity|]. split; [apply V; reflexivity|].
    split; [reflexivity|]. split; [exact I|]. split; [|exact I]. split; [apply V; reflexivity|]. split; [apply V; reflexivity|exact O]. }
  split; [apply C; exact B|]. split; [apply C, W; reflexivity|]. split; [|split; [vm_compute; reflexivity|]].
  - split; [exact (conj I (conj I (conj I (conj (conj I I) I))))|]. split; [intros J; apply numeric_bare in J; discriminate|]. split; [discriminate|].
    intros i d E N X. injection E as <-. destruct d; try discriminate X. destruct (N iri eq_refl).
  - constructor; [|repeat constructor]. constructor. constructor; [constructor|]. constructor.
    do 2 (constructor; [solve [repeat constructor]|]). constructor; [|constructor]. constructor. constructor; [constructor|].
    apply Alike_literal, Alike_number; [reflexivity| |]; apply numeric_bare; reflexivity.
Qed.
