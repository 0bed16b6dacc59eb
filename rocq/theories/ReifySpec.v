(** How reified statements and lists are read, independent of how they are made. *)
From Verif Require Export Term.

(** The objects of the statements with a given subject and predicate. *)
Definition values (g : list statement) (s : subject) (p : str) : list object :=
  map st_object (filter (fun st => subj_eqb (st_subject st) s && str_eqb (st_predicate st) p) g).

(** The RDF list that starts at a node: rdf:nil is the empty list, a cell has exactly one
    rdf:first and exactly one rdf:rest. *)
Inductive rdf_list (g : list statement) : object -> list object -> Prop :=
| rl_nil : rdf_list g (ORes (rdf $"nil")) []
| rl_cons b x r items :
    values g (SBlank b) (rdf $"type") = [ORes (rdf $"List")] ->
    values g (SBlank b) (rdf $"first") = [x] ->
    values g (SBlank b) (rdf $"rest") = [r] ->
    rdf_list g r items ->
    rdf_list g (OBlank b) (x :: items).

(** A node described as a statement. *)
Definition is_reification (g : list statement) (b : str) : Prop :=
  In (ORes (rdf $"Statement")) (values g (SBlank b) (rdf $"type")).

(** The statement described by a node: exactly one rdf:type, rdf:subject, rdf:predicate
    and rdf:object; a subject or object that is itself described as a statement stands
    for that statement. *)
Inductive describes (g : list statement) : str -> statement -> Prop :=
| d_stmt b so p oo s o :
    values g (SBlank b) (rdf $"type") = [ORes (rdf $"Statement")] ->
    values g (SBlank b) (rdf $"subject") = [so] ->
    values g (SBlank b) (rdf $"predicate") = [ORes p] ->
    values g (SBlank b) (rdf $"object") = [oo] ->
    stands_s g so s -> stands_o g oo o ->
    describes g b (MkStmt s p o)
with stands_s (g : list statement) : object -> subject -> Prop :=
| ss_plain s : s_is_statement s = false ->
    (forall b, s = SBlank b -> ~ is_reification g b) -> stands_s g (to_object s) s
| ss_nested b st : is_reification g b -> describes g b st -> stands_s g (OBlank b) (SStmt st)
with stands_o (g : list statement) : object -> object -> Prop :=
| so_plain o : o_is_statement o = false ->
    (forall b, o = OBlank b -> ~ is_reification g b) -> stands_o g o o
| so_nested b st : is_reification g b -> describes g b st -> stands_o g (OBlank b) (OStmt st).

(** The labels of blank nodes used as subject or object, at any depth of quotation. *)
Fixpoint quoted_blanks (st : statement) : list str :=
  let 'MkStmt s _ o := st in
  match s with SBlank b => [b] | SRes _ => [] | SStmt t => quoted_blanks t end
  ++ match o with OBlank b => [b] | OStmt t => quoted_blanks t | _ => [] end.

(** Labels the generator will still hand out when its counter is at [n]. *)
Definition not_generated_from (n : N) (b : str) : Prop := forall k, n <= k -> b <> gen_label k.

(** The properties that make up the description of a statement, and of a list cell. *)
Definition reify_props : list str := [rdf $"type"; rdf $"subject"; rdf $"predicate"; rdf $"object"].
Definition list_props : list str := [rdf $"type"; rdf $"first"; rdf $"rest"].
