(** Property theorems C48, C49, C62-C65 (the Turtle writer).  Statements only; proofs in
    TurtleTop.v and TurtleStable.v.  A [setting] holds what the writer takes from its surroundings. *)
From Verif Require Import Turtle TurtleSpec GraphSpec TurtleTop TurtleStable.
From Coq Require Import Permutation Relations Lia.
From Verif Require Url.

(** ** Examples used below *)
Definition tx_opts (nest : bool) (base : option str) : ttl_options :=
  TtlOptions base nest false false false false false false None [] 4 false.
Definition tx_parse (s : str) : option str := match s with 60 :: _ => None | _ => Some s end.
Definition tx_compress (i : str) : outcome (option str) :=
  Ret (match strip_prefix $"http://e/" i with
       | Some r => Some ($"e:" ++ r)
       | None => match strip_prefix (rdf []) i with Some r => Some ($"rdf:" ++ r) | None => None end
       end).
Definition tx (m : iri_mode) (nest : bool) (base : option str) : setting :=
  Setting 18446744073709551616 Checked m tx_parse (fun _ => false) (fun c => N.leb 32 c) tx_compress
    (tx_opts nest base) (fun _ l => l) (fun _ l => l) (fun _ l => l).
Lemma tx_ok m nest base : setting_ok (tx m nest base).
Proof. split; [|split]; intros t l; apply Permutation_refl. Qed.
Definition e (s : str) : str := $"http://e/" ++ s.
Definition e' (s : str) : str := $"e:" ++ s.
Definition tx_a : statement := MkStmt (SRes (e $"a")) (e $"p") (OBlank $"x").
Definition tx_b : statement := MkStmt (SBlank $"x") (e $"q") (OLit (Lit $"7" (Some DtInt) None)).
Definition tx_c : statement := MkStmt (SRes (e $"a")) (rdf $"type") (OColl [ORes (e $"r"); ORes (e $"s")]).
Definition tx_d : statement := MkStmt (SBlank $"x") (e $"q") (OBlank $"y").
Definition tx_e : statement := MkStmt (SBlank $"y") (e $"q") (OColl [OBlank $"x"]).
Definition text_of (r : wres (list piece)) : str := match r with Done l => pieces_text l | _ => [] end.
Definition plain_text (l : list str) : str := flat_map (fun x => x ++ [10]) l.

(** ** C48 *)

(** C48, without nesting or without cycles of blank nodes: the writer comes to an end, and
    more fuel than there are objects and items makes no difference. *)
Theorem C48_terminates : forall c g mappings, setting_ok c -> nest_blank_nodes (t_opts c) = false \/ ~ cyclic g ->
  exists r, r <> OutOfFuel /\ forall f, (graph_size g < f)%nat -> doc_of c g mappings f = r.
Proof. exact c48_terminates. Qed.
Print Assumptions C48_terminates.

(** C48 fails for every graph with a cycle of blank nodes, if they are nested: whatever the
    fuel, it runs out. *)
Theorem C48_cyclic_refuted : forall c g mappings f, setting_ok c -> nest_blank_nodes (t_opts c) = true -> cyclic g ->
  can_write c g -> has_room c f -> doc_of c g mappings f = OutOfFuel.
Proof. exact c48_diverges. Qed.
Print Assumptions C48_cyclic_refuted.

(** C48: nor is there a document if something else goes wrong first. *)
Theorem C48_cyclic_never_done : forall c g mappings f out, setting_ok c -> nest_blank_nodes (t_opts c) = true ->
  cyclic g -> doc_of c g mappings f <> Done out.
Proof. exact c48_never. Qed.
Print Assumptions C48_cyclic_never_done.

Example C48_example :
  let g := g_from_iter [tx_d; tx_e] in
  cyclic g /\ can_write (tx Bare true None) g /\ has_room (tx Bare true None) 30 /\
  doc_of (tx Bare true None) g [] 30 = OutOfFuel /\
  text_of (doc_of (tx Bare false None) g [] 30) =
    plain_text [[]; $"_:x"; $"    e:q _:y ."; []; []; $"_:y"; $"    e:q ("; $"        _:x"; $"        ) ."; []].
Proof.
  cbv zeta. split; [|split; [|split; [|split]]].
  - exists $"x". apply t_trans with $"y"; apply t_step.
    + exists (e $"q"), (OBlank $"y"). split; [left; reflexivity|constructor].
    + exists (e $"q"), (OColl [OBlank $"x"]). split; [right; left; reflexivity|]. econstructor; [left; reflexivity|constructor].
  - intros s p o [E|[E|[]]]; injection E as <- <- <-; cbn [subject_w writable_object fold_right];
      repeat match goal with |- _ /\ _ => split end; try exact I; vm_compute; discriminate.
  - split; vm_compute; reflexivity.
  - vm_compute. reflexivity.
  - vm_compute. reflexivity.
Qed.

(** ** C62 *)

(** C62: a graph that has a word for each of its terms is written as a document of it; white
    space apart, the text is the directives and the blocks of the document, with commas
    between the items of collections. *)
Theorem C62_document : forall c g mappings f, can_be_written c g f ->
  exists d, writes c g mappings f d /\ document c g d.
Proof. exact written_document. Qed.
Print Assumptions C62_document.

(** C62: each statement stands exactly once at the top level of what is written; without
    nesting there is nothing else. *)
Theorem C62_each_statement_once : forall c g mappings f, can_be_written c g f -> exists d, writes c g mappings f d /\
  (exists l, NoDup l /\ (forall st, In st l <-> In st (g_list g)) /\
    Forall2 (says g (nest_blank_nodes (t_opts c)) (iri_word c) (verb c) (lit_word c)) l (top_triples d)) /\
  (nest_blank_nodes (t_opts c) = false -> doc_count d = length (top_triples d)).
Proof. exact c62_each_statement. Qed.
Print Assumptions C62_each_statement_once.

(** C62 fails with nesting: the statements of a nested blank node are in the document a
    second time. *)
Theorem C62_twice_refuted : forall c g mappings f s p o b, can_be_written c g f -> nest_blank_nodes (t_opts c) = true ->
  In (MkStmt s p o) (g_list g) -> inside (OBlank b) o -> (exists q x, In (MkStmt (SBlank b) q x) (g_list g)) ->
  exists d, writes c g mappings f d /\ (length (top_triples d) < doc_count d)%nat.
Proof. exact c62_twice. Qed.
Print Assumptions C62_twice_refuted.

(** C62: what is written has the form the grammar asks for exactly if no collection of more
    than one item is in it. *)
Theorem C62_grammar : forall c g mappings f, can_be_written c g f -> exists d, writes c g mappings f d /\
  ((exists d', flat_map (block_pieces [Sign $","]) d = flat_map (block_pieces []) d') <-> no_long_items d).
Proof. exact c62_grammar_written. Qed.
Print Assumptions C62_grammar.

(** C62 fails for an [Iri] that prints in angle brackets: then no graph but the empty one is
    written with the default options. *)
Theorem C62_angled_refuted : forall c g mappings f out, setting_ok c -> t_iri c = Angled ->
  (forall r, t_parse c (60 :: r) = None) -> id_base (t_opts c) = None -> predicate_padding (t_opts c) = false ->
  g_list g <> [] -> doc_of c g mappings f <> Done out.
Proof. exact c62_angled. Qed.
Print Assumptions C62_angled_refuted.

Definition tx_g : graph := g_from_iter [tx_a; tx_b; tx_c; tx_a].
Example C62_example :
  let doc :=
    [(e' $"a", [($"rdf:type", [Items [Leaf (e' $"r"); Leaf (e' $"s")]]);
                (e' $"p", [Props [(e' $"q", [Leaf $"7"])]])]);
     ($"_:x", [(e' $"q", [Leaf $"7"])])] in
  can_be_written (tx Bare true None) tx_g 20 /\
  doc_count doc = 4%nat /\ length (top_triples doc) = 3%nat /\ ~ no_long_items doc /\
  match doc_of (tx Bare true None) tx_g [($"e", $"http://e/")] 20 with
  | Done out => tight out = head_of (tx Bare true None) [($"e", $"http://e/")] ++ flat_map (block_pieces [Sign $","]) doc /\
      pieces_text out = plain_text
        [$"@prefix e: <http://e/> ."; []; $"e:a"; $"    rdf:type ("; $"        e:r, e:s"; $"        ) ;";
         $"    e:p      ["; $"        e:q 7"; $"    ] ."; []; []; $"_:x"; $"    e:q 7 ."; []]
  | _ => False
  end.
Proof.
  cbv zeta. split; [split; [apply tx_ok|split; [|split; [|split; [|right]]]]|split; [|split; [|split]]].
  - intros s p o [E|[E|[E|[E|[]]]]]; injection E as <- <- <-; cbn [subject_w writable_object fold_right];
      repeat match goal with |- _ /\ _ => split end; try exact I; vm_compute; discriminate.
  - split; vm_compute; reflexivity.
  - cbn. lia.
  - intros (b & T).
    assert (K : forall x y, leads_to tx_g x y -> False).
    { intros x y (p & o & [E|[E|[E|[E|[]]]]] & J); try discriminate; injection E as <- <- <-. inversion J. }
    induction T; eauto.
  - reflexivity.
  - reflexivity.
  - intros H. discriminate (H _ _ _ (or_introl eq_refl)).
  - vm_compute. split; reflexivity.
Qed.

(** C62: without options blank nodes are nested, rdf:type is a name as any other on a line of its
    own, directives are Turtle's, and blocks are indented by four. *)
Definition tx_default : setting :=
  Setting 18446744073709551616 Checked Bare tx_parse (fun _ => false) (fun c => N.leb 32 c) tx_compress
    ttl_default_options (fun _ l => l) (fun _ l => l) (fun _ l => l).
Theorem C62_default : exists out, doc_of tx_default tx_g [($"e", $"http://e/")] 20 = Done out /\
  pieces_text out = plain_text
    [$"@prefix e: <http://e/> ."; []; $"e:a"; $"    rdf:type ("; $"        e:r, e:s"; $"        ) ;";
     $"    e:p      ["; $"        e:q 7"; $"    ] ."; []; []; $"_:x"; $"    e:q 7 ."; []].
Proof. eexists. split; vm_compute; reflexivity. Qed.
Print Assumptions C62_default.

(** C62 fails for an indentation width of zero: the first block ends in a panic. *)
Definition tx_flat : setting :=
  Setting 18446744073709551616 Wrapping Bare tx_parse (fun _ => false) (fun c => N.leb 32 c) tx_compress
    (TtlOptions None true false false false false false false None [] 0 false)
    (fun _ l => l) (fun _ l => l) (fun _ l => l).
Example C62_width_example : can_write tx_flat (g_from_iter [tx_b]) /\ doc_of tx_flat (g_from_iter [tx_b]) [] 20 = Crashed /\
  doc_of (tx Angled true None) (g_from_iter [tx_b]) [] 20 = Failed InvalidIri.
Proof.
  split; [|split; vm_compute; reflexivity].
  intros s p o [E|[]]; injection E as <- <- <-; repeat match goal with |- _ /\ _ => split end; vm_compute; discriminate.
Qed.

(** ** C49 *)

(** C49, if rdf:type is the only predicate of its group: what is written with a subject and a
    predicate are statements with that subject and that predicate. *)
Theorem C49_own_predicate : forall c g mappings f, can_be_written c g f ->
  (forall st, In st (g_list g) -> type_like (st_predicate st) -> st_predicate st = rdf $"type") ->
  exists d, writes c g mappings f d /\
  forall x, In x (top_triples d) -> exists st, In st (g_list g) /\ subject_w (iri_word c) (st_subject st) = Some (fst (fst x)) /\
    own_verb c (st_predicate st) = Some (snd (fst x)).
Proof. exact c49_own_written. Qed.
Print Assumptions C49_own_predicate.

(** C49 fails for rdfs:subClassOf, rdfs:subPropertyOf and owl:equivalentClass: statements with
    them are written with the predicate rdf:type. *)
Theorem C49_type_refuted : forall c g mappings f st, can_be_written c g f ->
  In st (g_list g) -> type_like (st_predicate st) ->
  exists d, writes c g mappings f d /\
  exists x, In x (top_triples d) /\ subject_w (iri_word c) (st_subject st) = Some (fst (fst x)) /\
    own_verb c (rdf $"type") = Some (snd (fst x)) /\
    shows g (nest_blank_nodes (t_opts c)) (iri_word c) (verb c) (lit_word c) (st_object st) (snd x).
Proof. exact c49_lost_written. Qed.
Print Assumptions C49_type_refuted.

Example C49_example :
  let st := MkStmt (SRes (e $"A")) (rdfs $"subClassOf") (ORes (e $"B")) in
  type_like (st_predicate st) /\ can_be_written (tx Bare false None) (g_from_iter [st]) 5 /\
  text_of (doc_of (tx Bare true None) (g_from_iter [st]) [] 5) =
    plain_text [$"e:A"; $"    rdf:type " ++ repeat 32 41 ++ $"e:B ."; []].
Proof.
  cbv zeta. split; [|split].
  - right. left. reflexivity.
  - split; [apply tx_ok|split; [|split; [|split; [|left; reflexivity]]]].
    + intros s p o [E|[]]. injection E as <- <- <-. repeat match goal with |- _ /\ _ => split end; vm_compute; discriminate.
    + split; vm_compute; reflexivity.
    + cbn. lia.
  - vm_compute. reflexivity.
Qed.

(** ** C63 *)

(** C63: a graph without quoted statements is written as it is. *)
Theorem C63_plain : forall ho n g, hash_order ho -> (forall st, In st (g_list g) -> is_nested st = false) ->
  Permutation (g_list (ttl_denest ho n g)) (g_list g) /\ g_mappings (ttl_denest ho n g) = g_mappings g.
Proof. exact c63_plain. Qed.
Print Assumptions C63_plain.

(** C63 fails for quoted objects: the node written instead of a quoted statement stands for
    the statement around it. *)
Theorem C63_object_refuted : forall ho n g s p t, hash_order ho -> In (MkStmt s p (OStmt t)) (g_list g) ->
  s_is_statement s = false ->
  exists b, In (MkStmt s p (OBlank b)) (g_list (ttl_denest ho n g)) /\
    In (MkStmt (SBlank b) (rdf $"type") (ORes (rdf $"Statement"))) (g_list (ttl_denest ho n g)) /\
    In (MkStmt (SBlank b) (rdf $"subject") (to_object s)) (g_list (ttl_denest ho n g)) /\
    In (MkStmt (SBlank b) (rdf $"predicate") (ORes p)) (g_list (ttl_denest ho n g)).
Proof. exact c63_node. Qed.
Print Assumptions C63_object_refuted.

(** C63 fails for a quoted object of a blank node, if blank nodes are nested: the node leads
    back to the subject, and the writer never comes to an end. *)
Theorem C63_blank_refuted : forall ho n g b p t c mappings f out, setting_ok c -> nest_blank_nodes (t_opts c) = true ->
  hash_order ho -> In (MkStmt (SBlank b) p (OStmt t)) (g_list g) -> written c ho n mappings f g <> Done out.
Proof. exact c63_blank. Qed.
Print Assumptions C63_blank_refuted.

(** C63 fails for quoted subjects: there is no document. *)
Theorem C63_subject_refuted : forall ho n g t p o c mappings f out, setting_ok c -> hash_order ho ->
  In (MkStmt (SStmt t) p o) (g_list g) -> written c ho n mappings f g <> Done out.
Proof. exact c63_subject. Qed.
Print Assumptions C63_subject_refuted.

Example C63_example :
  let t := MkStmt (SRes (e $"a")) (e $"b") (ORes (e $"c")) in
  let g := g_from_iter [MkStmt (SRes (e $"s")) (e $"p") (OStmt t)] in
  text_of (written (tx Bare false None) (fun l => l) 0 [] 20 g) = plain_text
    [$"e:s"; $"    e:p _:B0 ."; []; []; $"_:B0";
     $"    rdf:type      rdf:Statement ;"; $"    rdf:object    _:B1 ;"; $"    rdf:predicate e:p ;"; $"    rdf:subject   e:s ."; []; [];
     $"_:B1";
     $"    rdf:type      rdf:Statement ;"; $"    rdf:object    e:c ;"; $"    rdf:predicate e:b ;"; $"    rdf:subject   e:a ."; []] /\
  written (tx Bare true None) (fun l => l) 0 [] 20 (g_from_iter [MkStmt (SBlank $"s") (e $"p") (OStmt t)]) = OutOfFuel /\
  written (tx Bare true None) (fun l => l) 0 [] 20 (g_from_iter [MkStmt (SStmt t) (e $"p") (ORes (e $"o"))]) = Crashed.
Proof. vm_compute. repeat split; reflexivity. Qed.

(** ** C64 *)

(** C64: within a block types come first, then labels, comments and all others; predicates are
    in order of their names, if they are of one group, and the objects of a predicate, so far
    as they are words; the blocks of IRIs come before those of blank nodes, in order. *)
Theorem C64_order : forall c g mappings f, can_be_written c g f -> exists d, writes c g mappings f d /\
  exists nodes blanks,
    Forall2 (fun s b => subject_w (iri_word c) s = Some (fst b) /\ listed c g s (snd b)) (nodes ++ blanks) d /\
    Sorted.StronglySorted (fun a b => subj_cmp a b = Lt) nodes /\
    (forall s, In s nodes -> s_is_blank s = false) /\ (forall s, In s blanks -> s_is_blank s = true).
Proof. exact c64_order. Qed.
Print Assumptions C64_order.

(** C64: if the predicates of each subject are of one group and have different names, objects
    beside others are words that differ, and at most one blank node is a subject, then the
    orders of hash sets do not show: the text is always the same, white space included. *)
Theorem C64_settled : forall c g op oo os mappings f, setting_ok c -> setting_ok (reordered c op oo os) ->
  can_write c g -> settled c g -> doc_of (reordered c op oo os) g mappings f = doc_of c g mappings f.
Proof. exact c64_settled. Qed.
Print Assumptions C64_settled.

(** C64 fails within the groups: the order of a hash set shows in the text, and predicates
    of one group need not be in order. *)
Definition with_predicates (c : setting) (o : nat -> list str -> list str) : setting :=
  Setting (t_modulus c) (t_mode c) (t_iri c) (t_parse c) (t_gext c) (t_printable c) (t_compress c) (t_opts c) o
    (t_objects c) (t_subjects c).
Definition tx_h : graph :=
  g_from_iter [MkStmt (SRes (e $"s")) (e $"p") (ORes (e $"o")); MkStmt (SRes (e $"s")) (rdfs $"label") (ORes (e $"l"));
               MkStmt (SRes (e $"s")) (e $"q") (ORes (e $"o"))].
Theorem C64_order_refuted : exists c o g out out', setting_ok c /\ setting_ok (with_predicates c o) /\
  doc_of c g [] 5 = Done out /\ doc_of (with_predicates c o) g [] 5 = Done out' /\ pieces_text out <> pieces_text out'.
Proof.
  exists (tx Bare true None), (fun _ l => rev l), tx_h. eexists. eexists. split; [apply tx_ok|]. split.
  { split; [|split]; intros t l; cbn; auto using Permutation_refl, Permutation_sym, Permutation_rev. }
  split; [vm_compute; reflexivity|]. split; [vm_compute; reflexivity|]. vm_compute. discriminate.
Qed.
Print Assumptions C64_order_refuted.

Example C64_example :
  document (tx Bare true None) (g_from_iter [tx_b]) [($"_:x", [(e' $"q", [Leaf $"7"])])] /\
  (rank (rdfs $"label") < rank (e $"p"))%nat /\
  text_of (doc_of (with_predicates (tx Bare true None) (fun _ l => rev l)) tx_h [] 5) = plain_text
    [$"e:s"; $"    <http://www.w3.org/2000/01/rdf-schema#label> e:l ;"; $"    e:q" ++ repeat 32 42 ++ $"e:o ;";
     $"    e:p" ++ repeat 32 42 ++ $"e:o ."; []].
Proof.
  split; [|split].
  - exists [], [SBlank $"x"]. split; [|split; [|split; [|split; [|split]]]].
    + repeat constructor; intros [].
    + intros s. split; [intros [<-|[]]; exists (e $"q"); eexists; left; reflexivity|].
      intros (p & o & [E|[]]). injection E as <- _ _. left. reflexivity.
    + intros s [].
    + constructor.
    + intros s [<-|[]]. reflexivity.
    + constructor; [|constructor]. split; [reflexivity|]. apply (Sh_entries _ _ _ _ _ _ [e $"q"]).
      * repeat constructor; intros [].
      * repeat constructor.
      * intros p. split; [intros [<-|[]]; eexists; left; reflexivity|]. intros (o & [E|[]]). injection E as <- _. left. reflexivity.
      * constructor; [|constructor]. apply (Sh_entry _ _ _ _ _ _ _ _ [OLit (Lit $"7" (Some DtInt) None)]).
        -- vm_compute. reflexivity.
        -- repeat constructor; intros [].
        -- intros o. split; [intros [<-|[]]; left; reflexivity|]. intros [E|[]]. injection E as <-. left. reflexivity.
        -- constructor; [|constructor]. constructor. vm_compute. reflexivity.
        -- repeat constructor.
      * intros _. exists [$"e:q"]. split; repeat constructor.
  - vm_compute. auto.
  - vm_compute. reflexivity.
Qed.

Definition tx_k : graph :=
  g_from_iter [MkStmt (SRes (e $"s")) (e $"q") (ORes (e $"o")); MkStmt (SRes (e $"s")) (e $"p") (ORes (e $"y"));
               MkStmt (SRes (e $"s")) (e $"p") (ORes (e $"x"))].
Example C64_settled_example :
  can_write (tx Bare true None) tx_k /\ settled (tx Bare true None) tx_k /\
  text_of (doc_of (tx Bare true None) tx_k [] 5) = plain_text
    [$"e:s"; $"    e:p e:x,"; $"            e:y ;"; $"    e:q e:o ."; []] /\
  doc_of (reordered (tx Bare true None) (fun _ l => rev l) (fun _ l => rev l) (fun _ l => rev l)) tx_k [] 5 =
    doc_of (tx Bare true None) tx_k [] 5.
Proof.
  split; [|split; [|split]].
  - intros s p o I. cbn in I. repeat (destruct I as [I|I]; [injection I as <- <- <-; vm_compute; repeat split; discriminate|]). destruct I.
  - split; [|split].
    + intros s p q o x I J. cbn in I, J.
      repeat (destruct I as [I|I]; [injection I as <- <- <-;
        repeat (destruct J as [J|J]; [injection J as <- <-; split; [vm_compute; reflexivity|]; intros X;
          first [destruct (X eq_refl)|eexists; eexists; split; [vm_compute; reflexivity|split; [vm_compute; reflexivity|discriminate]]]|]); destruct J|]); destruct I.
    + intros s p o x I J. cbn in I, J.
      repeat (destruct I as [I|I]; [injection I as <- <- <-;
        repeat (destruct J as [J|J]; [first [discriminate J|injection J as <-; intros X;
          first [destruct (X eq_refl)|eexists; eexists; split; [vm_compute; reflexivity|split; [vm_compute; reflexivity|discriminate]]]]|]); destruct J|]); destruct I.
    + intros a b p q o x I. cbn in I. repeat (destruct I as [I|I]; [discriminate I|]). destruct I.
  - vm_compute. reflexivity.
  - vm_compute. reflexivity.
Qed.

(** ** C65 *)

(** C65: a word for an IRI denotes it, if the base, if any, ends in a slash and what is left
    of it is one segment. *)
Theorem C65_denotes : forall c base expand i w, no_conversion c -> names_expand c expand ->
  id_base (t_opts c) = option_map Url.url_ser base ->
  t_parse c i = Some i -> absolute i ->
  match base with Some b => directory b /\ forall r, i = Url.url_ser b ++ r -> segment r | None => True end ->
  iri_word c i = Some w -> word_denotes base expand w i.
Proof. exact c65_denotes. Qed.
Print Assumptions C65_denotes.

(** C65 fails for every other base: the word denotes another IRI. *)
Theorem C65_base_refuted : forall c b expand r w, no_conversion c -> id_base (t_opts c) = Some (Url.url_ser b) ->
  Url.u_path b <> [] -> ~ directory b -> segment r -> iri_word c (Url.url_ser b ++ r) = Some w ->
  word_denotes (Some b) expand w (resolved b r) /\ ~ word_denotes (Some b) expand w (Url.url_ser b ++ r).
Proof. exact c65_wrong. Qed.
Print Assumptions C65_base_refuted.

(** C65 with conversions of bases: the word denotes the IRI that is to be written, if names
    expand to what they were made from. *)
Theorem C65_converted : forall c base expand i j w, t_iri c = Bare -> names_expand c expand ->
  id_base (t_opts c) = option_map Url.url_ser base ->
  meant_iri (t_opts c) i j -> t_parse c j = Some j -> absolute j ->
  match base with Some b => directory b /\ forall r, j = Url.url_ser b ++ r -> segment r | None => True end ->
  iri_word c i = Some w -> word_denotes base expand w j.
Proof. exact c65_converted. Qed.
Print Assumptions C65_converted.

(** With conversions names may not: they are made with the namespaces of the graph, and the
    namespaces declared are the converted ones. *)
Definition tx_conv_compress (i : str) : outcome (option str) :=
  Ret (match strip_prefix $"http://e/v2/" i with Some r => Some ($"v:" ++ r) | None => None end).
Definition tx_conv : setting :=
  Setting 18446744073709551616 Checked Bare tx_parse (fun _ => false) (fun c => N.leb 32 c) tx_conv_compress
    (TtlOptions None true false false false false false false None [($"http://e/", $"http://e/v2/")] 4 false)
    (fun _ l => l) (fun _ l => l) (fun _ l => l).
Theorem C65_converted_names_refuted : exists c g,
  setting_ok c /\ t_iri c = Bare /\ meant_iri (t_opts c) $"http://e/x" $"http://e/v2/x" /\
  In (MkStmt (SRes $"http://e/x") $"http://e/x" (ORes $"http://e/x")) (g_list g) /\
  pieces_text (match doc_of c g [($"v", $"http://e/v2/")] 20 with Done l => l | _ => [] end) =
    plain_text [$"@prefix v: <http://e/v2/v2/> ."; []; $"v:x"; $"    v:x v:x ."; []].
Proof.
  exists tx_conv, (g_from_iter [MkStmt (SRes $"http://e/x") $"http://e/x" (ORes $"http://e/x")]).
  split; [split; [|split]; intros t l; apply Permutation_refl|]. split; [reflexivity|]. split.
  - apply Mi_other; [left; reflexivity|intros b r E; discriminate|]. change $"http://e/x" with ($"http://e/" ++ $"x").
    apply Rp_here. constructor.
  - split; [left; reflexivity|]. vm_compute. reflexivity.
Qed.
Print Assumptions C65_converted_names_refuted.

Example C65_converted_example :
  let d := Url.MkUrl $"http" (Some $"e") $"/v/" None None in
  let o := TtlOptions (Some (Url.url_ser d)) true false false false false false false (Some $"http://f/") [($"http://g/", $"http://h/"); ($"http://h/", $"http://e/")] 4 false in
  let c := Setting 18446744073709551616 Checked Bare tx_parse (fun _ => false) (fun c => N.leb 32 c) tx_compress o
    (fun _ l => l) (fun _ l => l) (fun _ l => l) in
  meant_iri o $"http://f/name" $"http://e/v/name" /\ iri_word c $"http://f/name" = Some $"<name>" /\
  meant_iri o $"http://g/name" $"http://e/name" /\ iri_word c $"http://g/name" = Some $"e:name".
Proof.
  cbv zeta. split; [|split; [reflexivity|split; [|reflexivity]]].
  - change $"http://f/name" with ($"http://f/" ++ $"name"). change $"http://e/v/name" with ($"http://e/v/" ++ $"name").
    apply Mi_id; reflexivity.
  - apply Mi_other.
    + right. intros b r E. injection E as <-. discriminate.
    + intros b r E. injection E as <-. discriminate.
    + change $"http://g/name" with ($"http://g/" ++ $"name"). apply Rp_here. change ($"http://h/" ++ $"name") with ($"http://h/" ++ $"name").
      apply Rp_here. constructor.
Qed.

Example C65_example :
  let b := Url.MkUrl $"http" (Some $"e") $"/v" None (Some []) in
  let d := Url.MkUrl $"http" (Some $"e") $"/v/" None None in
  iri_word (tx Bare true (Some (Url.url_ser b))) $"http://e/v#name" = Some $"<name>" /\ ~ directory b /\ segment $"name" /\
  resolved b $"name" = $"http://e/name" /\
  iri_word (tx Bare true (Some (Url.url_ser d))) $"http://e/v/name" = Some $"<name>" /\ directory d /\
  resolved d $"name" = $"http://e/v/name" /\ iri_word (tx Bare true None) $"http://e/name" = Some $"e:name".
Proof.
  cbv zeta. split; [reflexivity|]. split; [intros (_ & _ & E); discriminate|]. split; [|split; [reflexivity|split; [reflexivity|split; [|split; reflexivity]]]].
  - split; [discriminate|split; [discriminate|split; [discriminate|]]].
    repeat (constructor; [intros [E|[E|[E|[E|[]]]]]; discriminate|]). constructor.
  - split; [exists $"/v"; reflexivity|split; reflexivity].
Qed.
