(** Model of rdftk_core/src/model/statement.rs and statement/{bnode,subject,object,
    collection}.rs.  No proofs here.

    [Arc<Statement>] is the statement it points to ([PartialEq], [Ord] and [Hash] for
    [Arc] look through the pointer). *)
From Verif Require Export Literal.

(** statement/bnode.rs:24 [BlankNode(String)] is its label. *)

(** statement/subject.rs:23-30 [SubjectNode], statement/object.rs:12-19 [ObjectNode],
    statement/collection.rs:31 [Collection], statement.rs:50-55 [Statement]. *)
Inductive subject : Type :=
| SBlank (b : str)
| SRes (iri : str)
| SStmt (st : statement)
with object : Type :=
| OBlank (b : str)
| ORes (iri : str)
| OLit (l : literal)
| OColl (items : list object)
| OStmt (st : statement)
with statement : Type :=
| MkStmt (s : subject) (p : str) (o : object).

(** statement.rs:135-165 accessors, 142-172 setters. *)
Definition st_subject (st : statement) : subject := let 'MkStmt s _ _ := st in s.
Definition st_predicate (st : statement) : str := let 'MkStmt _ p _ := st in p.
Definition st_object (st : statement) : object := let 'MkStmt _ _ o := st in o.
Definition set_subject (st : statement) (s : subject) : statement :=
  MkStmt s (st_predicate st) (st_object st).
Definition set_object (st : statement) (o : object) : statement :=
  MkStmt (st_subject st) (st_predicate st) o.

(** statement.rs:81-93 [Ord for Statement]: subject, then predicate, then object;
    statement/subject.rs:151-165 [Ord for SubjectNode]; statement/object.rs:205-239
    [Ord for ObjectNode]; statement/collection.rs:30 derived [Ord] of a [Vec]
    (lexicographic). *)
Fixpoint st_cmp (a b : statement) {struct a} : comparison :=
  let 'MkStmt s1 p1 o1 := a in
  let 'MkStmt s2 p2 o2 := b in
  match subj_cmp s1 s2 with
  | Eq => match str_cmp p1 p2 with
          | Eq => obj_cmp o1 o2
          | c => c
          end
  | c => c
  end
with subj_cmp (a b : subject) {struct a} : comparison :=
  match a, b with
  | SBlank x, SBlank y => str_cmp x y
  | SBlank _, SRes _ => Lt
  | SBlank _, SStmt _ => Lt
  | SRes _, SBlank _ => Gt
  | SRes x, SRes y => str_cmp x y
  | SRes _, SStmt _ => Lt
  | SStmt _, SBlank _ => Gt
  | SStmt _, SRes _ => Gt
  | SStmt x, SStmt y => st_cmp x y
  end
with obj_cmp (a b : object) {struct a} : comparison :=
  match a, b with
  | OBlank x, OBlank y => str_cmp x y
  | OBlank _, _ => Lt
  | ORes _, OBlank _ => Gt
  | ORes x, ORes y => str_cmp x y
  | ORes _, _ => Lt
  | OLit _, OBlank _ => Gt
  | OLit _, ORes _ => Gt
  | OLit x, OLit y => lit_cmp x y
  | OLit _, _ => Lt
  | OColl _, OBlank _ => Gt
  | OColl _, ORes _ => Gt
  | OColl _, OLit _ => Gt
  | OColl x, OColl y =>
      (fix items_cmp (x y : list object) {struct x} : comparison :=
         match x, y with
         | [], [] => Eq
         | [], _ :: _ => Lt
         | _ :: _, [] => Gt
         | u :: x', v :: y' =>
             match obj_cmp u v with
             | Eq => items_cmp x' y'
             | c => c
             end
         end) x y
  | OColl _, OStmt _ => Lt
  | OStmt _, OBlank _ => Gt
  | OStmt _, ORes _ => Gt
  | OStmt _, OLit _ => Gt
  | OStmt _, OColl _ => Gt
  | OStmt x, OStmt y => st_cmp x y
  end.

(** The derived [PartialEq] of the four types. *)
Fixpoint st_eqb (a b : statement) {struct a} : bool :=
  let 'MkStmt s1 p1 o1 := a in
  let 'MkStmt s2 p2 o2 := b in
  subj_eqb s1 s2 && str_eqb p1 p2 && obj_eqb o1 o2
with subj_eqb (a b : subject) {struct a} : bool :=
  match a, b with
  | SBlank x, SBlank y => str_eqb x y
  | SRes x, SRes y => str_eqb x y
  | SStmt x, SStmt y => st_eqb x y
  | _, _ => false
  end
with obj_eqb (a b : object) {struct a} : bool :=
  match a, b with
  | OBlank x, OBlank y => str_eqb x y
  | ORes x, ORes y => str_eqb x y
  | OLit x, OLit y => lit_eqb x y
  | OColl x, OColl y =>
      (fix items_eqb (x y : list object) {struct x} : bool :=
         match x, y with
         | [], [] => true
         | u :: x', v :: y' => obj_eqb u v && items_eqb x' y'
         | _, _ => false
         end) x y
  | OStmt x, OStmt y => st_eqb x y
  | _, _ => false
  end.

(** statement/subject.rs:220-226 [SubjectNode::to_object]. *)
Definition to_object (s : subject) : object :=
  match s with
  | SBlank b => OBlank b
  | SRes i => ORes i
  | SStmt st => OStmt st
  end.

(** statement/object.rs:312-320 [ObjectNode::to_subject]. *)
Definition to_subject (o : object) : option subject :=
  match o with
  | OBlank b => Some (SBlank b)
  | ORes i => Some (SRes i)
  | OStmt st => Some (SStmt st)
  | OLit _ => None
  | OColl _ => None
  end.

(** statement/subject.rs:178-215, statement/object.rs:255-306: variant tests. *)
Definition s_is_blank (s : subject) : bool := match s with SBlank _ => true | _ => false end.
Definition s_as_blank (s : subject) : option str := match s with SBlank b => Some b | _ => None end.
Definition s_as_statement (s : subject) : option statement := match s with SStmt st => Some st | _ => None end.
Definition s_is_statement (s : subject) : bool := match s with SStmt _ => true | _ => false end.
Definition o_as_blank (o : object) : option str := match o with OBlank b => Some b | _ => None end.
Definition o_as_statement (o : object) : option statement := match o with OStmt st => Some st | _ => None end.
Definition o_as_collection (o : object) : option (list object) := match o with OColl l => Some l | _ => None end.
Definition o_is_statement (o : object) : bool := match o with OStmt _ => true | _ => false end.
Definition o_is_collection (o : object) : bool := match o with OColl _ => true | _ => false end.

(** statement.rs:182-184 [is_nested]. *)
Definition is_nested (st : statement) : bool :=
  s_is_statement (st_subject st) || o_is_statement (st_object st).

(** statement/bnode.rs:87-89 [BlankNode::generate]: ["B{n}"] where [n] comes from a
    process-wide counter (crate [unique_id]).  The counter is the state [n]; every
    call uses one value. *)
Definition gen_label (n : N) : str := 66 :: dec_N n.

Section Labels.
(** [NameParser::BlankNode.is_valid_str] of an older rdftk_iri; it is not part of the
    crate at this commit, so it is a parameter. *)
Variable label_ok : str -> bool.

(** statement/bnode.rs:96-106 [is_valid_str]; the prefix is ["_:"]. *)
Definition bn_is_valid_str (s : str) : bool :=
  label_ok (match strip_prefix $"_:" s with Some r => r | None => s end).

(** statement/bnode.rs:41-51 [FromStr for BlankNode]. *)
Definition bn_from_str (s : str) : option str := if bn_is_valid_str s then Some s else None.
End Labels.

(** statement.rs:189-234 [Statement::reify], threading the label counter. *)
Fixpoint reify (n : N) (st : statement) {struct st} : (subject * list statement) * N :=
  let 'MkStmt s p o := st in
  let node := gen_label n in
  let n1 := n + 1 in
  let head := [MkStmt (SBlank node) (rdf $"type") (ORes (rdf $"Statement"))] in
  let '(subj_part, n2) :=
    match s with
    | SStmt st' =>
        let '((nested, sts), n') := reify n1 st' in
        (sts ++ [MkStmt (SBlank node) (rdf $"subject") (to_object nested)], n')
    | _ => ([MkStmt (SBlank node) (rdf $"subject") (to_object s)], n1)
    end in
  let pred_part := [MkStmt (SBlank node) (rdf $"predicate") (ORes p)] in
  let '(obj_part, n3) :=
    match o with
    | OStmt st' =>
        let '((nested, sts), n') := reify n2 st' in
        (sts ++ [MkStmt (SBlank node) (rdf $"object") (to_object nested)], n')
    | _ => ([MkStmt (SBlank node) (rdf $"object") o], n2)
    end in
  ((SBlank node, head ++ subj_part ++ pred_part ++ obj_part), n3).

(** statement/collection.rs:181-205, the loop: [subject] is the current cell. *)
Fixpoint coll_cells (n : N) (subj : subject) (items : list object) : list statement * N :=
  match items with
  | [] => ([], n)
  | o :: rest =>
      let head := [MkStmt subj (rdf $"type") (ORes (rdf $"List"));
                   MkStmt subj (rdf $"first") o] in
      match rest with
      | [] => (head ++ [MkStmt subj (rdf $"rest") (ORes (rdf $"nil"))], n)
      | _ =>
          let next := SBlank (gen_label n) in
          let '(more, n') := coll_cells (n + 1) next rest in
          (head ++ [MkStmt subj (rdf $"rest") (to_object next)] ++ more, n')
      end
  end.

(** statement/collection.rs:173-209 [Collection::reify]. *)
Definition coll_reify (n : N) (items : list object) : (subject * list statement) * N :=
  match items with
  | [] => ((SRes (rdf $"nil"), []), n)
  | _ =>
      let first := SBlank (gen_label n) in
      let '(sts, n') := coll_cells (n + 1) first items in
      ((first, sts), n')
  end.

(** ** Display *)

(** literal.rs:825-858 [Display for Literal]; [alt] is [f.alternate()]. *)
Definition bare_type (d : data_type) : bool :=
  match d with
  | DtBoolean | DtLong | DtInt | DtShort | DtByte | DtUnsignedLong | DtUnsignedInt
  | DtUnsignedShort | DtUnsignedByte | DtFloat | DtDouble | DtDecimal => true
  | _ => false
  end.
Definition lit_show_quoted (m : iri_mode) (l : literal) : str :=
  [34] ++ lexical_form l ++ [34] ++
  match lit_data_type l, lit_language l with
  | Some d, None => $"^^<" ++ show_iri m (dt_as_iri d) ++ $">"
  | None, Some t => [64] ++ t
  | _, _ => []
  end.
Definition lit_show (m : iri_mode) (alt : bool) (l : literal) : str :=
  match lit_data_type l with
  | Some DtIri => [60] ++ lexical_form l ++ [62]
  | Some d => if bare_type d && negb alt then lexical_form l else lit_show_quoted m l
  | None => lit_show_quoted m l
  end.

(** statement/subject.rs:93-101, object.rs:121-137, collection.rs:141-152,
    statement.rs:61-71.  Inside collections and quoted statements literals print in the
    non-alternate form, because [to_string] starts a new formatter. *)
Fixpoint st_show (m : iri_mode) (st : statement) {struct st} : str :=
  let 'MkStmt s p o := st in
  subj_show m s ++ $" <" ++ show_iri m p ++ $"> " ++ obj_show m false o
with subj_show (m : iri_mode) (s : subject) {struct s} : str :=
  match s with
  | SBlank b => $"_:" ++ b
  | SRes i => [60] ++ show_iri m i ++ [62]
  | SStmt st => $"<< " ++ st_show m st ++ $" >>"
  end
with obj_show (m : iri_mode) (alt : bool) (o : object) {struct o} : str :=
  match o with
  | OBlank b => $"_:" ++ b
  | ORes i => [60] ++ show_iri m i ++ [62]
  | OLit l => lit_show m alt l
  | OColl items =>
      $"( " ++ join [32] ((fix shows (l : list object) : list str :=
                             match l with
                             | [] => []
                             | x :: r => obj_show m false x :: shows r
                             end) items) ++ $" )"
  | OStmt st => $"<< " ++ st_show m st ++ $" >>"
  end.
