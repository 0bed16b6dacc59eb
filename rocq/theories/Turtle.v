(** Model of rdftk_io/src/turtle/writer.rs.  No proofs here.

    The text is a list of pieces, one per word, sign or run of white space that the code
    writes.  The writer recurses along the graph, so it takes fuel; running out of it is a
    result of its own.  What was written before an error or a panic is left out. *)
From Verif Require Export NTriples Indenter.

Inductive piece : Type :=
| Word (s : str)
| Sign (s : str)
| Blanks (s : str).
Definition piece_text (p : piece) : str := match p with Word s | Sign s | Blanks s => s end.
Definition pieces_text (l : list piece) : str := flat_map piece_text l.

(** The constants of writer.rs:116-135. *)
Definition ttl_space : str := $" ".
Definition ttl_eol : str := [10].

(** writer.rs:30-46 [TurtleWriterOptions]; the IRIs are their texts. *)
Record ttl_options : Type := TtlOptions {
  id_base : option str;
  nest_blank_nodes : bool;
  outdent_blank_node_end : bool;
  outdent_collection_end : bool;
  use_rdf_type_a : bool;
  use_sparql_style : bool;
  use_intellij_style : bool;
  place_type_on_subject_line : bool;
  convert_to_id_base : option str;
  convert_base : list (str * str);
  indent_width : N;
  predicate_padding : bool
}.
(** writer.rs:140-158 [Default]. *)
Definition ttl_default_options : ttl_options :=
  TtlOptions None true false false false false false false None [] 4 false.

(** writer.rs:59-88 [WriterStatusFlags]. *)
Record ttl_flags : Type := Flags {
  is_next_object_blank : bool;
  is_being_sorted : bool;
  is_last_of_subject : bool;
  is_last_of_predicate : bool
}.
Definition ttl_no_flags : ttl_flags := Flags false false false false.
Definition ttl_sort_flags : ttl_flags := Flags false true false false.

(** writer.rs:90-108 [PredicateGroupOrdering], with its derived order. *)
Inductive pred_group : Type := GType | GLabel | GComment | GOther.
Definition pg_index (g : pred_group) : nat :=
  match g with GType => 0 | GLabel => 1 | GComment => 2 | GOther => 3 end.

Definition rdfs (local : str) : str := $"http://www.w3.org/2000/01/rdf-schema#" ++ local.
Definition owl (local : str) : str := $"http://www.w3.org/2002/07/owl#" ++ local.
Definition skos (local : str) : str := $"http://www.w3.org/2004/02/skos/core#" ++ local.
Definition foaf (local : str) : str := $"http://xmlns.com/foaf/0.1/" ++ local.
Definition dc (local : str) : str := $"http://purl.org/dc/elements/1.1/" ++ local.

(** writer.rs:1013-1036 [new_mapping]. *)
Definition pg_map : list (str * pred_group) :=
  [(rdf $"type", GType);
   (rdfs $"subClassOf", GType);
   (rdfs $"subPropertyOf", GType);
   (owl $"equivalentClass", GType);
   (rdfs $"label", GLabel);
   (skos $"prefLabel", GLabel);
   (skos $"altLabel", GLabel);
   (skos $"hiddenLabel", GLabel);
   (foaf $"name", GLabel);
   (dc $"title", GLabel);
   (rdfs $"comment", GComment);
   (dc $"description", GComment);
   (skos $"definition", GComment);
   (skos $"note", GComment);
   (skos $"scopeNote", GComment);
   (skos $"editorialNote", GComment)].
Fixpoint pg_lookup (l : list (str * pred_group)) (p : str) : pred_group :=
  match l with
  | [] => GOther
  | (k, v) :: r => if str_eqb k p then v else pg_lookup r p
  end.
(** writer.rs:1006-1011 [group_predicate]. *)
Definition group_predicate (p : str) : pred_group := pg_lookup pg_map p.

(** A stable sort (std [sort_by_key] and relatives, itertools [sorted]). *)
Section Sort.
Variable A : Type.
Variable le : A -> A -> bool.
Fixpoint sort_insert (x : A) (l : list A) : list A :=
  match l with
  | [] => [x]
  | y :: r => if le x y then x :: y :: r else y :: sort_insert x r
  end.
Definition stable_sort (l : list A) : list A := fold_right sort_insert [] l.
End Sort.
Arguments sort_insert {A}.
Arguments stable_sort {A}.
Definition key_le {B} (a b : str * B) : bool :=
  match str_cmp (fst a) (fst b) with Gt => false | _ => true end.
Definition subject_le (a b : subject) : bool := match subj_cmp a b with Gt => false | _ => true end.

(** itertools [chunk_by]: runs of neighbours with the same key. *)
Definition pg_eqb (a b : pred_group) : bool := Nat.eqb (pg_index a) (pg_index b).
Fixpoint chunk_by (l : list str) : list (pred_group * list str) :=
  match l with
  | [] => []
  | p :: r =>
      match chunk_by r with
      | (g, ps) :: more =>
          if pg_eqb (group_predicate p) g then (g, p :: ps) :: more
          else (group_predicate p, [p]) :: (g, ps) :: more
      | [] => [(group_predicate p, [p])]
      end
  end.
(** writer.rs:995-1004 [group_predicates]. *)
Definition group_predicates (l : list str) : list (pred_group * list str) :=
  stable_sort (fun a b => Nat.leb (pg_index (fst a)) (pg_index (fst b))) (chunk_by l).

(** The number of bytes of a string. *)
Definition byte_len (s : str) : nat := length (flat_map utf8 s).

(** What has been written, the indenter, and how many hash sets have been iterated (each
    iteration has an order of its own). *)
Record wstate : Type := WState { w_out : list piece; w_ind : indenter; w_tick : nat }.
Inductive wres (A : Type) : Type :=
| Done (a : A)
| Failed (e : io_error)
| Crashed
| OutOfFuel.
Arguments Done {A}. Arguments Failed {A}. Arguments Crashed {A}. Arguments OutOfFuel {A}.
Definition action : Type := wstate -> wres wstate.
Definition wbind {A B} (x : wres A) (f : A -> wres B) : wres B :=
  match x with
  | Done a => f a
  | Failed e => Failed e
  | Crashed => Crashed
  | OutOfFuel => OutOfFuel
  end.
Definition skip : action := Done.
Definition wseq (a b : action) : action := fun s => wbind (a s) b.
Definition emit (l : list piece) : action :=
  fun s => Done (WState (w_out s ++ l) (w_ind s) (w_tick s)).
Definition with_io {A} (x : io A) (f : A -> action) : action :=
  match x with
  | Ret (Ok a) => f a
  | Ret (Err e) => fun _ => Failed e
  | Panic => fun _ => Crashed
  end.
Definition tick (s : wstate) : wstate := WState (w_out s) (w_ind s) (S (w_tick s)).

Section Turtle.
(** [usize], see Indenter.v; [Display for Iri]; [Iri::from_str]; the tables behind [{:?}];
    the text of [IriPrefixMap::compress] of the graph's mappings (see PrefixMap.v). *)
Variable modulus : N.
Variable mode : overflow.
Variable m : iri_mode.
Variable iri_parse : str -> option str.
Variable gext printable : chr -> bool.
Variable compress : str -> outcome (option str).
Variable opts : ttl_options.
Variable g : graph.
(** The orders of the hash sets: of predicates, of objects and of blank subjects. *)
Variable ord_p : nat -> list str -> list str.
Variable ord_o : nat -> list object -> list object.
Variable ord_s : nat -> list subject -> list subject.

(** writer.rs:380-390 [indent], [outdent]. *)
Definition on_ind (f : indenter -> outcome indenter) : action :=
  fun s => match f (w_ind s) with
           | Ret i => Done (WState (w_out s) i (w_tick s))
           | Panic => Crashed
           end.
Definition w_indent : action := on_ind (indent modulus mode).
Definition w_outdent : action := on_ind (outdent modulus mode).

(** writer.rs:392-401 [new_line]. *)
Definition new_line (fl : ttl_flags) : action :=
  fun s => if is_being_sorted fl then emit [Blanks ttl_space] s
           else emit [Blanks (ttl_eol ++ ind_show (w_ind s))] s.

(** writer.rs:404-422 [write_padded], [write_padding].  Widths count characters. *)
Definition write_padded (v : str) (max_len : nat) : action :=
  if Nat.eqb max_len 0 then emit [Word v; Blanks ttl_space]
  else emit [Word v; Blanks (repeat 32 (max_len - length v))].
Definition write_padding (max_len : nat) : action :=
  if Nat.eqb max_len 0 then emit [Blanks ttl_space]
  else emit [Blanks (repeat 32 (Nat.max 1 max_len))].

(** writer.rs:723-759 [compress_iri].  A slice after [starts_with] is what follows. *)
Definition relative_to (base iri : str) : option str :=
  match strip_prefix (show_iri m base) iri with
  | Some rest => Some ([60] ++ rest ++ [62])
  | None => None
  end.
Definition convert_one (iri : str) (c : str * str) : str :=
  match strip_prefix (show_iri m (fst c)) iri with
  | Some rest => show_iri m (snd c) ++ rest
  | None => iri
  end.
Definition compress_iri (iri : str) : io str :=
  let s := show_iri m iri in
  let relative :=
    match id_base opts with
    | Some b =>
        match match convert_to_id_base opts with Some t => relative_to t s | None => None end with
        | Some r => Some r
        | None => relative_to b s
        end
    | None => None
    end in
  match relative with
  | Some r => io_ok r
  | None =>
      match iri_parse (fold_left convert_one (convert_base opts) s) with
      | None => io_err InvalidIri
      | Some i =>
          match compress i with
          | Panic => Panic
          | Ret None => io_ok ([60] ++ show_iri m i ++ [62])
          | Ret (Some q) => io_ok q
          end
      end
  end.

(** writer.rs:712-721 [write_iri]. *)
Definition write_iri (iri : str) : action := with_io (compress_iri iri) (fun w => emit [Word w]).

(** writer.rs:776-808 [write_literal]; its parts are written without blanks between them. *)
Definition literal_word (l : literal) : io str :=
  match lit_data_type l with
  | Some DtIri =>
      match iri_parse (lexical_form l) with
      | Some i => compress_iri i
      | None => io_err InvalidIri
      end
  | dt =>
      if match dt with Some d => bare_type d | None => false end then io_ok (lexical_form l)
      else
        let quoted := [34] ++ escape_string gext printable (lexical_form l) ++ [34] in
        match dt, lit_language l with
        | Some d, None => let? w := compress_iri (dt_as_iri d) in io_ok (quoted ++ $"^^" ++ w)
        | None, Some t => io_ok (quoted ++ $"@" ++ t)
        | _, _ => io_ok quoted
        end
  end.
Definition write_literal (l : literal) : action := with_io (literal_word l) (fun w => emit [Word w]).

(** writer.rs:681-710 [write_verb]. *)
Definition write_verb (group : pred_group) (p : str) (max_len : nat) (fl : ttl_flags) : action :=
  match group with
  | GType =>
      with_io (if use_rdf_type_a opts then io_ok $"a" else compress_iri (rdf $"type")) (fun v =>
        if place_type_on_subject_line opts then
          emit [Blanks ttl_space; Word v; Blanks ttl_space]
        else wseq (new_line fl) (write_padded v max_len))
  | _ => wseq (new_line fl) (with_io (compress_iri p) (fun v => write_padded v max_len))
  end.

(** writer.rs:438-447 [max_len_predicates]. *)
Fixpoint max_len_predicates (l : list str) : io nat :=
  match l with
  | [] => io_ok 0%nat
  | p :: r =>
      let? w := compress_iri p in
      let? k := max_len_predicates r in
      io_ok (Nat.max (byte_len w) k)
  end.

(** writer.rs:662: [sort_by_cached_key] computes no key for fewer than two elements. *)
Fixpoint predicate_keys (l : list str) : outcome (list (str * str)) :=
  match l with
  | [] => Ret []
  | p :: r =>
      match compress_iri p with
      | Ret (Ok w) =>
          match predicate_keys r with Ret ks => Ret ((w, p) :: ks) | Panic => Panic end
      | _ => Panic
      end
  end.
Definition sort_predicates (l : list str) : outcome (list str) :=
  match l with
  | _ :: _ :: _ =>
      match predicate_keys l with
      | Ret ks => Ret (map snd (stable_sort key_le ks))
      | Panic => Panic
      end
  | _ => Ret l
  end.

Section Objects.
(** [write_object] with less fuel. *)
Variable write_object : object -> ttl_flags -> action.

(** writer.rs:450-460 [object_sort_key], 949-951: the new writer has a fresh indenter, and an
    error gives the empty key.  The code computes the key of an object again for every
    comparison; here it is computed once. *)
Fixpoint object_keys (l : list object) (t : nat) : wres (list (str * object) * nat) :=
  match l with
  | [] => Done ([], t)
  | o :: r =>
      wbind (match write_object o ttl_sort_flags (WState [] ind_default t) with
             | Done s => Done (pieces_text (w_out s), w_tick s)
             | Failed _ => Done ([], S t)
             | Crashed => Crashed
             | OutOfFuel => OutOfFuel
             end)
        (fun kt => wbind (object_keys r (snd kt))
          (fun ks => Done ((fst kt, o) :: fst ks, snd ks)))
  end.
Definition sort_objects (l : list object) (t : nat) : wres (list object * nat) :=
  match l with
  | _ :: _ :: _ =>
      wbind (object_keys l t) (fun ks => Done (map snd (stable_sort key_le (fst ks)), snd ks))
  | _ => Done (l, t)
  end.

(** writer.rs:810-841 [write_predicate_object_object]. *)
Definition write_predicate_object_object (o : object) (max_len : nat) (fl : ttl_flags) : action :=
  wseq (write_object o fl)
    (if is_last_of_predicate fl then
       wseq (if is_last_of_subject fl then w_outdent else skip)
         (fun s => if is_not_indented (w_ind s)
                   then wseq (emit [Blanks ttl_space; Sign $"."]) (new_line fl) s
                   else if negb (is_last_of_subject fl) then emit [Blanks ttl_space; Sign $";"] s
                   else Done s)
     else
       wseq (emit [Sign $","])
         (if is_next_object_blank fl then skip
          else wseq w_indent
                 (wseq (new_line fl)
                   (wseq (if Nat.ltb 0 max_len then write_padding max_len else skip) w_outdent)))).

(** writer.rs:952-961: the loop over the objects. *)
Definition o_is_blank (o : object) : bool := match o with OBlank _ => true | _ => false end.
Fixpoint write_objects (l : list object) (max_len : nat) (fl : ttl_flags) : action :=
  match l with
  | [] => skip
  | o :: r =>
      wseq (write_predicate_object_object o max_len
             (Flags match r with o' :: _ => o_is_blank o' | [] => false end
                    (is_being_sorted fl) (is_last_of_subject fl)
                    match r with [] => true | _ => false end))
          (write_objects r max_len fl)
  end.

(** writer.rs:926-963 [write_predicate_object]. *)
Definition write_predicate_object (group : pred_group) (subj : subject) (p : str) (max_len : nat)
    (fl : ttl_flags) : action :=
  wseq (write_verb group p max_len fl)
    (fun s =>
       let objects := ord_o (w_tick s) (g_objects_for g subj p) in
       wbind (sort_objects objects (S (w_tick s)))
         (fun ot => write_objects (fst ot) max_len fl (WState (w_out s) (w_ind s) (snd ot)))).

(** writer.rs:644-674 [write_predicate_object_list]. *)
Fixpoint write_group (group : pred_group) (subj : subject) (l : list str) (count total max_len : nat)
    (fl : ttl_flags) : action :=
  match l with
  | [] => skip
  | p :: r =>
      wseq (write_predicate_object group subj p max_len
             (Flags (is_next_object_blank fl) (is_being_sorted fl) (Nat.eqb (S count) total)
                    (is_last_of_predicate fl)))
          (write_group group subj r (S count) total max_len fl)
  end.
Fixpoint write_groups (subj : subject) (l : list (pred_group * list str)) (count total max_len : nat)
    (fl : ttl_flags) : action :=
  match l with
  | [] => skip
  | (group, preds) :: r =>
      match sort_predicates preds with
      | Panic => fun _ => Crashed
      | Ret ps =>
          wseq (write_group group subj ps count total max_len fl)
              (write_groups subj r (count + length ps) total max_len fl)
      end
  end.
Definition write_predicate_object_list (subj : subject) (fl : ttl_flags) : action :=
  fun s =>
    let preds := ord_p (w_tick s) (g_predicates_for g subj) in
    with_io (if predicate_padding opts then io_ok 0%nat
             else let? k := max_len_predicates preds in io_ok (S k))
      (fun max_len => write_groups subj (group_predicates preds) 0 (length preds) max_len fl)
      (tick s).

(** writer.rs:969-984 [write_blank_node_property_list]. *)
Definition write_blank_node_property_list (b : str) (fl : ttl_flags) : action :=
  wseq w_indent
    (wseq (emit [Sign $"["])
      (wseq (write_predicate_object_list (SBlank b) fl)
        (wseq (new_line fl) (emit [Sign $"]"])))).

(** writer.rs:905-910: the loop over the items of a collection. *)
Fixpoint write_items (l : list object) (fl : ttl_flags) : action :=
  match l with
  | [] => skip
  | o :: r =>
      wseq (write_object o fl)
        (wseq (match r with [] => skip | _ => emit [Sign $","; Blanks ttl_space] end)
             (write_items r fl))
  end.
(** writer.rs:893-922 [write_collection]. *)
Definition write_collection (items : list object) (fl : ttl_flags) : action :=
  match items with
  | [] => emit [Sign $"("; Sign $")"]
  | _ =>
      wseq w_indent
        (wseq (emit [Sign $"("])
          (wseq (new_line fl)
            (wseq (write_items items fl)
              (wseq (if outdent_collection_end opts then w_outdent else skip)
                (wseq (new_line fl)
                  (wseq (emit [Sign $")"])
                    (if outdent_collection_end opts then skip else w_outdent)))))))
  end.
End Objects.

(** writer.rs:849-886 [write_object]. *)
Fixpoint write_object (fuel : nat) (o : object) (fl : ttl_flags) : action :=
  match fuel with
  | O => fun _ => OutOfFuel
  | S f =>
      match o with
      | OBlank b =>
          if nest_blank_nodes opts then
            if g_contains_subject g (SBlank b)
            then write_blank_node_property_list (write_object f) b fl
            else emit [Sign $"["; Sign $"]"]
          else emit [Word ($"_:" ++ b)]
      | ORes iri => write_iri iri
      | OLit l => write_literal l
      | OColl items => write_collection (write_object f) items fl
      | OStmt _ => fun _ => Crashed
      end
  end.

(** writer.rs:609-637 [write_subject]. *)
Definition write_subject (subj : subject) (fl : ttl_flags) : action :=
  fun s =>
    wseq (match subj with
         | SBlank b =>
             if is_not_indented (w_ind s)
             then emit [Blanks (if is_being_sorted fl then ttl_space else ttl_eol); Word ($"_:" ++ b)]
             else skip
         | SRes iri => write_iri iri
         | SStmt _ => fun _ => Crashed
         end) w_indent s.

(** writer.rs:576-602 [write_triples].  [blanks_to_write] is a hash set that nothing is ever
    removed from. *)
Definition write_block (fuel : nat) (subj : subject) : action :=
  wseq (write_subject subj ttl_no_flags)
    (wseq (write_predicate_object_list (write_object fuel) subj ttl_no_flags)
         (emit [Blanks ttl_eol])).
Fixpoint write_blocks (fuel : nat) (reset : bool) (l : list subject) : action :=
  match l with
  | [] => skip
  | subj :: r =>
      wseq (fun s => Done (if reset then WState (w_out s) (reset_depth (w_ind s)) (w_tick s) else s))
        (wseq (write_block fuel subj) (write_blocks fuel reset r))
  end.
Definition sorted_subjects : list subject := stable_sort subject_le (ord_s 0 (g_node_subjects g)).
Definition write_triples (fuel : nat) : action :=
  wseq (write_blocks fuel false sorted_subjects)
      (write_blocks fuel true (ord_s 1 (g_blank_node_subjects g))).

(** writer.rs:506-526 [write_base_iri]. *)
Definition sparql_directives : bool := use_sparql_style opts && negb (use_intellij_style opts).
Definition directive_end : list piece :=
  if sparql_directives then [Blanks ttl_eol] else [Blanks ttl_space; Sign $"."; Blanks ttl_eol].
Definition base_pieces : list piece :=
  match id_base opts with
  | Some b =>
      [Word (if sparql_directives then $"BASE" else $"@base"); Blanks ttl_space;
       Word ([60] ++ show_iri m b ++ [62])] ++ directive_end
      ++ (if use_intellij_style opts then [] else [Blanks ttl_eol])
  | None => []
  end.
(** writer.rs:533-569 [write_prefixes]: the mappings as sorted pairs of a prefix without
    its colon and a namespace.  (The first conversion that applies is the only one.) *)
Fixpoint convert_first (l : list (str * str)) (iri : str) : str :=
  match l with
  | [] => iri
  | c :: r =>
      match strip_prefix (show_iri m (fst c)) iri with
      | Some rest => show_iri m (snd c) ++ rest
      | None => convert_first r iri
      end
  end.
Definition prefix_pieces (mappings : list (str * str)) : list piece :=
  match mappings with
  | [] => []
  | _ =>
      flat_map (fun '(p, ns) =>
        [Word (if sparql_directives then $"PREFIX" else $"@prefix"); Blanks ttl_space;
         Word (p ++ $":"); Blanks ttl_space;
         Word ([60] ++ convert_first (convert_base opts) (show_iri m ns) ++ [62])]
        ++ directive_end) mappings
      ++ [Blanks ttl_eol]
  end.

(** writer.rs:473-498 [write_turtle_doc]: everything written. *)
Definition write_turtle_doc (mappings : list (str * str)) (fuel : nat) : wres (list piece) :=
  wbind (write_triples fuel
           (WState (base_pieces ++ prefix_pieces mappings)
                   (with_default_indent_width ind_default (indent_width opts)) 0))
    (fun s => Done (w_out s)).
End Turtle.

(** writer.rs:347-361: a quoted statement is replaced by its reification.  [reify] never
    fails. *)
Fixpoint ttl_reify_all (n : N) (l : list statement) : list statement * N :=
  match l with
  | [] => ([], n)
  | st :: r =>
      let '((subj, new), n1) := reify n st in
      let '(more, n2) := ttl_reify_all n1 r in
      (new ++ [MkStmt (st_subject st) (st_predicate st) (to_object subj)] ++ more, n2)
  end.
Definition ttl_denest (ho : list statement -> list statement) (n : N) (g : graph) : graph :=
  let nested := filter is_nested (g_iter ho g) in
  let plain := filter (fun st => negb (is_nested st)) (g_iter ho g) in
  Graph None (NonUnique (fst (ttl_reify_all n nested) ++ plain)) (g_mappings g).

(** writer.rs:343-366 [write]. *)
Definition ttl_write modulus mode m iri_parse gext printable compress opts ord_p ord_o ord_s
    ho n (mappings : list (str * str)) (fuel : nat) (g : graph) : wres (list piece) :=
  write_turtle_doc modulus mode m iri_parse gext printable compress opts (ttl_denest ho n g)
    ord_p ord_o ord_s mappings fuel.
