(** Property theorems C40-C44, C59, C60 (N-Triples and N-Quads).  Statements only; proofs in
    NTriplesMain.v and the files it uses.

    [iri_parse] is [Iri::from_str], [lang_parse] the parser of language tags, [label_ok] the
    check of blank node labels, [gext] and [printable] are the Unicode tables of the compiler. *)
From Coq Require Import ZArith.
From Verif Require Import Str Literal Term Graph DataSet NTriples NTriplesSpec NTriplesWriteSpec
  LiteralSpec NTriplesProofs NTriplesDocs NTriplesWrite NTriplesReject NTriplesMain
  GraphSpec NTriplesNestedSpec NTriplesNested.

(** ** Examples used below *)
Definition ex_id (s : str) : option str := Some s.
Definition ex_ok (s : str) : bool := true.
Definition ex_ext (c : chr) : bool := false.
Definition ex_print (c : chr) : bool := N.leb 32 c && N.leb c 126.
Definition ex_read := nt_read ex_id ex_id ex_ok ex_ext ex_print.
Definition ex_read_q := nq_read ex_id ex_id ex_ok ex_ext ex_print.
Definition ex_orders : orders := Orders (@rev _) (fun _ l => l) (fun _ _ => @rev _).
Definition ex_a : statement :=
  MkStmt (SRes $"http://e/a") $"http://e/p" (OLit (Lit $"x y" (Some (DtOther $"http://e/t")) None)).
Definition ex_b : statement := MkStmt (SBlank $"b.1") $"http://e/p" (OLit (Lit $"z" None (Some $"en-GB"))).
Definition ex_c : statement := MkStmt (SBlank $"b.1") $"http://e/q" (ORes $"http://e/a").
Definition ex_int : statement := MkStmt (SRes $"http://e/a") $"http://e/p" (OLit (Lit $"42" (Some DtInt) None)).
Definition ex_g : graph := g_from_iter [ex_a; ex_b; ex_a; ex_c].
Definition ex_name : graph_name := GnIri $"http://e/g".
Definition ex_d : data_set := ds_from_iter [g_from_iter []; g_with_statements (g_named ex_name) [ex_a; ex_b];
  g_with_statements (g_named (GnBlank $"g")) [ex_c]].

Lemma ex_orders_ok : orders_ok ex_orders.
Proof. split; [|split]; intros; cbn; auto using Permutation_rev, Permutation_sym. Qed.
Lemma ex_rev_ok : hash_order (@rev statement).
Proof. intros l. apply Permutation_sym, Permutation_rev. Qed.
Ltac each := unfold g_list; cbn [g_statements]; repeat (apply Forall_cons; [assumption|]); apply Forall_nil.
Ltac chars := repeat (apply Forall_cons; [cbn; split; [reflexivity|intuition discriminate]|]); apply Forall_nil.
Ltac plain t := exists (map Plain t); split; [|reflexivity]; cbn; repeat (apply Forall_cons; [cbn; intuition discriminate|]); apply Forall_nil.
Ltac hexes := repeat (apply Forall2_cons; [split; [reflexivity|cbn; auto]|]); apply Forall2_nil.
Ltac selves := repeat (apply Forall_cons; [split; [cbn; intuition discriminate|split; reflexivity]|]); apply Forall_nil.
Lemma ex_ab_writable : statement_writable ex_id ex_id ex_ok false ex_a /\ statement_writable ex_id ex_id ex_ok false ex_b /\
  statement_writable ex_id ex_id ex_ok false ex_c.
Proof.
  assert (I : forall i, Forall (fun c => iri_piece (Plain c)) i -> iri_writable ex_id i) by (intros i F; split; [exact F|reflexivity]).
  assert (L : label_writable ex_ok $"b.1") by (split; [cbn; intuition|reflexivity]).
  split; [|split]; (split; [|split]).
  - apply I; chars.
  - apply I; chars.
  - cbn. unfold literal_writable. cbn. split; [plain $"x y"|]. split; [discriminate|]. intros _. apply I; chars.
  - exact L.
  - apply I; chars.
  - cbn. unfold literal_writable. cbn. split; [plain $"z"|]. split; [|reflexivity].
    exists $"en", [$"GB"]. split; [discriminate|]. split; [reflexivity|]. split; [|reflexivity].
    constructor; [split; [discriminate|reflexivity]|constructor].
  - exact L.
  - apply I; chars.
  - apply I; chars.
Qed.
Lemma ex_stable : stable ex_ext ex_print ex_a /\ stable ex_ext ex_print ex_b /\ stable ex_ext ex_print ex_c.
Proof. split; [|split]; cbn; [| |exact I]; (split; [|exact I]); cbn -[prints_as_itself]; selves. Qed.

(** ** C40 *)

(** C40, for an [Iri] that prints its bare text: every graph of terms that N-Triples can
    express comes back with the same statements, each once, as an unnamed graph. *)
Theorem C40_round_trip : forall iri_parse lang_parse label_ok gext printable force h ho n g,
  orders_ok h -> hash_order ho ->
  Forall (statement_writable iri_parse lang_parse label_ok force) (g_list g) ->
  Forall (stable gext printable) (g_list g) ->
  exists g', nt_read iri_parse lang_parse label_ok gext printable (nt_write Bare force h ho n g) = Ret (Ok g') /\
    g_name g' = None /\ NoDup (g_list g') /\ forall st, In st (g_list g') <-> In st (g_list g).
Proof. exact nt_round_trip. Qed.
Print Assumptions C40_round_trip.

Example C40_round_trip_example :
  orders_ok ex_orders /\ hash_order (@rev statement) /\
  Forall (statement_writable ex_id ex_id ex_ok false) (g_list ex_g) /\ Forall (stable ex_ext ex_print) (g_list ex_g) /\
  ex_read (nt_write Bare false ex_orders (@rev _) 0 ex_g) = Ret (Ok (g_from_iter [ex_b; ex_c; ex_a])).
Proof.
  split; [exact ex_orders_ok|]. split; [exact ex_rev_ok|].
  destruct ex_ab_writable as (A & B & C). destruct ex_stable as (A' & B' & C').
  split; [each|]. split; [each|]. vm_compute. reflexivity.
Qed.

(** C40, exactly: if the statements left after simplifying are expressible, the graph read
    back consists of what [reread] makes of each of them. *)
Theorem C40_exact : forall iri_parse lang_parse label_ok gext printable force h ho n g,
  orders_ok h ->
  Forall (statement_writable iri_parse lang_parse label_ok force) (g_list (fst (g_simplify ho n g))) ->
  exists g', nt_read iri_parse lang_parse label_ok gext printable (nt_write Bare force h ho n g) = Ret (Ok g') /\
    g_name g' = None /\
    exists l, g_list g' = map (reread gext printable) l /\ NoDup l /\
      forall st, In st l <-> In st (g_list (fst (g_simplify ho n g))).
Proof. exact nt_back. Qed.
Print Assumptions C40_exact.

(** C40 for graphs with quoted statements and collections, if they do not use the vocabulary
    of their descriptions themselves: the facts of the graph read back, with described
    statements and lists put back in place (see C28), are the original statements. *)
Theorem C40_nested : forall iri_parse lang_parse label_ok gext printable force h ho n g,
  orders_ok h -> hash_order ho ->
  (forall k, label_ok (gen_label k) = true) -> (forall t, In t reading_terms -> iri_parse (rdf t) = Some (rdf t)) ->
  Forall simplifiable (g_list g) -> Forall (unencoded n) (g_list g) ->
  Forall (nested_writable iri_parse lang_parse label_ok gext printable force) (g_list g) ->
  exists g', nt_read iri_parse lang_parse label_ok gext printable (nt_write Bare force h ho n g) = Ret (Ok g') /\
    g_name g' = None /\ NoDup (g_list g') /\ forall st, In st (g_list g) <-> fact_of (g_list g') st.
Proof. exact nt_nested. Qed.
Print Assumptions C40_nested.

Definition ex_quoted : statement := MkStmt (SStmt ex_b) $"http://e/q" (ORes $"http://e/a").
Definition ex_listed : statement :=
  MkStmt (SRes $"http://e/a") $"http://e/q" (OColl [OLit (Lit $"x" None None); OBlank $"b.1"]).
Example C40_nested_example :
  let l := [ex_quoted; ex_listed; ex_c] in
  Forall simplifiable l /\ Forall (unencoded 7) l /\ Forall (nested_writable ex_id ex_id ex_ok ex_ext ex_print false) l /\
  nt_write Bare false ex_orders (fun l => l) 7 (g_from_iter [ex_quoted]) =
    $"_:B7 <http://e/q> <http://e/a> ." ++ [10] ++
    $"_:B7 <http://www.w3.org/1999/02/22-rdf-syntax-ns#type> <http://www.w3.org/1999/02/22-rdf-syntax-ns#Statement> ." ++ [10] ++
    $"_:B7 <http://www.w3.org/1999/02/22-rdf-syntax-ns#subject> _:b.1 ." ++ [10] ++
    $"_:B7 <http://www.w3.org/1999/02/22-rdf-syntax-ns#predicate> <http://e/p> ." ++ [10] ++
    $"_:B7 <http://www.w3.org/1999/02/22-rdf-syntax-ns#object> " ++ [34] ++ $"z" ++ [34] ++ $"@en-GB ." ++ [10].
Proof.
  cbv zeta. destruct ex_ab_writable as (_ & (B1 & B2 & B3) & (C1 & C2 & C3)). destruct ex_stable as (_ & B4 & _).
  assert (NG : forall k, $"b.1" <> gen_label k).
  { intros k E. discriminate E. }
  split; [repeat constructor|]. split; [|split; [|vm_compute; reflexivity]].
  - repeat (apply Forall_cons; [split; [intros b I; cbn in I; repeat (destruct I as [<-|I]; [intros k _; apply NG|]); destruct I|];
      split; [intros b E; discriminate E|]; split; [intros b E; discriminate E|]; split; [discriminate|];
      intros t E; try discriminate E; cbn; intuition discriminate|]). apply Forall_nil.
  - apply Forall_cons; [|apply Forall_cons; [|apply Forall_cons; [|apply Forall_nil]]].
    + split; [split; [exact B1|split; [exact B2|split; [exact B3|exact B4]]]|]. split; [exact C2|]. split; [exact C3|exact I].
    + split; [exact C3|]. split; [exact C2|]. apply Forall_cons; [|apply Forall_cons; [|apply Forall_nil]].
      * split; [split; [plain $"x"|exact I]|]. split; [selves|exact I].
      * split; [exact C1|exact I].
    + split; [exact C1|]. split; [exact C2|]. split; [exact C3|exact I].
Qed.

(** C40 is false: a typed literal comes back with a data type that is not equal to the
    original one, and a graph with a number cannot be read at all with the default options. *)
Theorem C40_round_trip_refuted :
  (exists g g' st, ex_read (nt_write Bare true ex_orders (@rev _) 0 g) = Ret (Ok g') /\
     In st (g_list g) /\ ~ In st (g_list g')) /\
  (exists g, ex_read (nt_write Bare false ex_orders (@rev _) 0 g) = Ret (Err Tokenizer)).
Proof.
  split.
  - exists (g_from_iter [ex_int]), (g_from_iter [reread ex_ext ex_print ex_int]), ex_int.
    split; [vm_compute; reflexivity|]. split; [left; reflexivity|]. intros [E|[]]. discriminate E.
  - exists (g_from_iter [ex_int]). vm_compute. reflexivity.
Qed.
Print Assumptions C40_round_trip_refuted.

(** C40: one number or boolean, or one literal with a character that is escaped in Rust's
    notation, makes the whole document unreadable. *)
Theorem C40_unreadable : forall iri_parse lang_parse label_ok gext printable force h ho n g,
  orders_ok h -> hash_order ho ->
  Forall (fun st => statement_writable iri_parse lang_parse label_ok force st \/
                    statement_unreadable iri_parse label_ok gext printable force st) (g_list g) ->
  Exists (statement_unreadable iri_parse label_ok gext printable force) (g_list g) ->
  nt_read iri_parse lang_parse label_ok gext printable (nt_write Bare force h ho n g) = Ret (Err Tokenizer).
Proof. exact nt_rejected. Qed.
Print Assumptions C40_unreadable.

(** C40: the literals this happens to without [force_string_literals] include every integer
    and every boolean. *)
Theorem C40_numbers : forall iri_parse label_ok gext printable s p,
  subject_writable iri_parse label_ok s -> iri_writable iri_parse p -> ascii_tables gext printable ->
  (forall t z, statement_unreadable iri_parse label_ok gext printable false
     (MkStmt s p (OLit (lit_from_int gext printable t z)))) /\
  (forall b, statement_unreadable iri_parse label_ok gext printable false
     (MkStmt s p (OLit (lit_from_bool gext printable b)))).
Proof. split; intros; [apply int_unreadable|apply bool_unreadable]; assumption. Qed.
Print Assumptions C40_numbers.

Example C40_unreadable_example :
  statement_unreadable ex_id ex_ok ex_ext ex_print false ex_int /\
  ex_read (nt_write Bare false ex_orders (@rev _) 0 (g_from_iter [ex_a; ex_int; ex_b])) = Ret (Err Tokenizer).
Proof.
  split; [|vm_compute; reflexivity]. destruct ex_ab_writable as ((S & P & _) & _).
  split; [exact S|]. split; [exact P|]. left. reflexivity.
Qed.

(** C40 as the crates stand at this commit, where an [Iri] prints itself in angle brackets:
    no non-empty graph can be read back. *)
Theorem C40_brackets_refuted : forall iri_parse lang_parse label_ok gext printable force h ho n g,
  orders_ok h -> hash_order ho -> Forall flat (g_list g) -> Forall unbracketed (g_list g) -> g_list g <> [] ->
  nt_read iri_parse lang_parse label_ok gext printable (nt_write Angled force h ho n g) = Ret (Err Tokenizer).
Proof. exact nt_angled. Qed.
Print Assumptions C40_brackets_refuted.

Example C40_brackets_example :
  Forall flat (g_list ex_g) /\ Forall unbracketed (g_list ex_g) /\
  nt_line Angled true ex_c = $"_:b.1 <<http://e/q>> <<http://e/a>> ." ++ [10].
Proof.
  split; [repeat constructor|]. split; [|vm_compute; reflexivity].
  repeat (apply Forall_cons; [split; [cbn; intuition discriminate|cbn; intuition discriminate]|]). apply Forall_nil.
Qed.

(** ** C41 *)

(** C41: a data set of named graphs comes back with the same statements under the same names,
    each once; a graph without statements disappears. *)
Theorem C41_round_trip : forall iri_parse lang_parse label_ok gext printable h ho hd n d,
  (forall g, orders_ok (h g)) -> (forall g, hash_order (ho g)) -> (forall l, Permutation (hd l) l) ->
  ds_writable iri_parse lang_parse label_ok d -> ds_statements d None = [] ->
  (forall k, Forall (stable gext printable) (ds_statements d k)) ->
  exists d', nq_read iri_parse lang_parse label_ok gext printable (nq_write_dataset Bare h ho hd n d) = Ret (Ok d') /\
    forall k, (forall g', ds_graph d' k = Some g' -> g_name g' = k) /\
      NoDup (ds_statements d' k) /\
      (forall st, In st (ds_statements d' k) <-> In st (ds_statements d k)) /\
      (ds_graph d' k = None <-> ds_statements d k = []).
Proof. exact nq_round_trip. Qed.
Print Assumptions C41_round_trip.

(** C41, exactly, for literals which do not survive unchanged. *)
Theorem C41_exact : forall iri_parse lang_parse label_ok gext printable h ho hd n d,
  (forall g, orders_ok (h g)) -> (forall g, hash_order (ho g)) -> (forall l, Permutation (hd l) l) ->
  ds_writable iri_parse lang_parse label_ok d -> ds_statements d None = [] ->
  exists d', nq_read iri_parse lang_parse label_ok gext printable (nq_write_dataset Bare h ho hd n d) = Ret (Ok d') /\
    forall k, (forall g', ds_graph d' k = Some g' -> g_name g' = k) /\
      (forall st, In st (ds_statements d' k) <-> exists st0, In st0 (ds_statements d k) /\ st = reread gext printable st0) /\
      (ds_graph d' k = None <-> ds_statements d k = []) /\
      ((forall k, Forall (stable gext printable) (ds_statements d k)) -> NoDup (ds_statements d' k)).
Proof. exact nq_back. Qed.
Print Assumptions C41_exact.

(** C41 for graphs with quoted statements and collections (see C40_nested), the labels of the
    descriptions running on from graph to graph. *)
Theorem C41_nested : forall iri_parse lang_parse label_ok gext printable h ho hd n d,
  (forall g, orders_ok (h g)) -> (forall g, hash_order (ho g)) -> (forall l, Permutation (hd l) l) ->
  (forall k, label_ok (gen_label k) = true) -> (forall t, In t reading_terms -> iri_parse (rdf t) = Some (rdf t)) ->
  ds_nested_writable iri_parse lang_parse label_ok gext printable n d -> ds_statements d None = [] ->
  exists d', nq_read iri_parse lang_parse label_ok gext printable (nq_write_dataset Bare h ho hd n d) = Ret (Ok d') /\
    forall k, (forall g', ds_graph d' k = Some g' -> g_name g' = k) /\
      NoDup (ds_statements d' k) /\
      (forall st, In st (ds_statements d k) <-> fact_of (ds_statements d' k) st) /\
      (ds_graph d' k = None <-> ds_statements d k = []).
Proof. exact nq_nested. Qed.
Print Assumptions C41_nested.

Definition ex_nested_d : data_set := ds_from_iter [g_with_statements (g_named ex_name) [ex_quoted];
  g_with_statements (g_named (GnBlank $"g")) [ex_listed; ex_c; ex_quoted]].
Example C41_nested_example :
  ds_nested_writable ex_id ex_id ex_ok ex_ext ex_print 7 ex_nested_d /\ ds_statements ex_nested_d None = [] /\
  (exists d', ex_read_q (nq_write_dataset Bare (fun _ => ex_orders) (fun _ => @rev _) (@rev _) 7 ex_nested_d) = Ret (Ok d') /\
     length (ds_statements d' (Some ex_name)) = 5%nat /\ length (ds_statements d' (Some (GnBlank $"g"))) = 13%nat).
Proof.
  destruct C40_nested_example as (S & U & W & _). split; [|split; [reflexivity|]].
  - assert (N : NoDup (map fst ex_nested_d)) by (repeat constructor; cbn; intuition discriminate). split; [exact N|].
    intros k g E. apply (DataSetProofs.hm_get_In _ _ _ N) in E. rewrite Forall_forall in S, U, W.
    assert (Q : forall l, (forall x, In x l -> In x [ex_quoted; ex_listed; ex_c]) -> Forall simplifiable l /\
      Forall (unencoded 7) l /\ Forall (nested_writable ex_id ex_id ex_ok ex_ext ex_print false) l).
    { intros l H. rewrite !Forall_forall. auto. }
    destruct E as [E|[E|[]]]; injection E as <- <-; (split; [reflexivity|]).
    + destruct (Q [ex_quoted]) as (A & B & C); [cbn; tauto|]. split; [exact A|]. split; [exact B|]. split; [exact C|].
      split; [chars|reflexivity].
    + destruct (Q [ex_listed; ex_c; ex_quoted]) as (A & B & C); [cbn; tauto|]. split; [exact A|]. split; [exact B|]. split; [exact C|].
      split; [cbn; intuition|reflexivity].
  - eexists. split; [vm_compute; reflexivity|]. split; vm_compute; reflexivity.
Qed.

(** C41 is false of the default graph: its statements are written, but never read. *)
Theorem C41_default_graph_refuted : forall iri_parse lang_parse label_ok gext printable h ho hd n d,
  (forall g, orders_ok (h g)) -> (forall g, hash_order (ho g)) -> (forall l, Permutation (hd l) l) ->
  ds_writable iri_parse lang_parse label_ok d -> ds_statements d None <> [] ->
  nq_read iri_parse lang_parse label_ok gext printable (nq_write_dataset Bare h ho hd n d) = Ret (Err ParserUnexpected).
Proof. exact nq_default_fails. Qed.
Print Assumptions C41_default_graph_refuted.

(** C41 as the crates stand at this commit: no non-empty graph can be read back. *)
Theorem C41_brackets_refuted : forall iri_parse lang_parse label_ok gext printable h ho n g,
  orders_ok h -> hash_order ho -> Forall flat (g_list g) -> Forall unbracketed (g_list g) -> g_list g <> [] ->
  nq_read iri_parse lang_parse label_ok gext printable (nq_write Angled h ho n g) = Ret (Err Tokenizer).
Proof. exact nq_angled. Qed.
Print Assumptions C41_brackets_refuted.

Example C41_example :
  ds_writable ex_id ex_id ex_ok ex_d /\ ds_statements ex_d None = [] /\ ds_statements ex_d (Some ex_name) = [ex_a; ex_b] /\
  (exists d', ex_read_q (nq_write_dataset Bare (fun _ => ex_orders) (fun _ => @rev _) (@rev _) 0 ex_d) = Ret (Ok d') /\
     ds_statements d' (Some ex_name) = [ex_b; ex_a] /\ ds_statements d' (Some (GnBlank $"g")) = [ex_c]) /\
  ex_read_q (nq_write_dataset Bare (fun _ => ex_orders) (fun _ => @rev _) (@rev _) 0 (ds_from_graph ex_g)) = Ret (Err ParserUnexpected).
Proof.
  destruct ex_ab_writable as (A & B & C). split; [|split; [reflexivity|split; [reflexivity|split; [|vm_compute; reflexivity]]]].
  - assert (N : NoDup (map fst ex_d)) by (repeat constructor; cbn; intuition discriminate). split; [exact N|].
    intros k g E. apply (DataSetProofs.hm_get_In _ _ _ N) in E. destruct E as [E|[E|[E|[]]]]; injection E as <- <-;
      (split; [reflexivity|]); (split; [each|]).
    + exact I.
    + split; [chars|reflexivity].
    + split; [cbn; intuition|reflexivity].
  - eexists. split; [vm_compute; reflexivity|]. split; vm_compute; reflexivity.
Qed.

(** ** C42 *)

(** C42: documents with the same tokens read alike, whatever is between the tokens. *)
Theorem C42_layout : forall iri_parse lang_parse label_ok gext printable s1 s2,
  (forall l, doc_at triple_at l s1 -> doc_at triple_at l s2 ->
     nt_read iri_parse lang_parse label_ok gext printable s1 = nt_read iri_parse lang_parse label_ok gext printable s2) /\
  (forall l, doc_at quad_at l s1 -> doc_at quad_at l s2 ->
     nq_read iri_parse lang_parse label_ok gext printable s1 = nq_read iri_parse lang_parse label_ok gext printable s2).
Proof.
  split; intros l D1 D2; [rewrite (nt_reads _ _ _ _ _ l s1 D1), (nt_reads _ _ _ _ _ l s2 D2)
                         |rewrite (nq_reads _ _ _ _ _ l s1 D1), (nq_reads _ _ _ _ _ l s2 D2)]; reflexivity.
Qed.
Print Assumptions C42_layout.

Example C42_example :
  let l := [TripleSrc (NIri (map Plain $"a:")) (map Plain $"b:") (ONode (NIri (map Plain $"c:")))] in
  doc_at triple_at l $"<a:><b:><c:>." /\
  doc_at triple_at l ($"# x" ++ [10] ++ $"<a:> " ++ [9; 13] ++ $"<b:># <y>" ++ [10] ++ $" <c:> . #") /\
  ex_read $"<a:><b:><c:>." = Ret (Ok (g_from_iter [MkStmt (SRes $"a:") $"b:" (ORes $"c:")])).
Proof.
  assert (F : forall c, In c [97; 98; 99] -> Forall iri_piece (map Plain [c; 58])).
  { intros c I. cbn in I. repeat (apply Forall_cons; [split; [cbn; intuition (subst; reflexivity)|cbn; intuition (subst; discriminate)]|]). apply Forall_nil. }
  assert (W : forall c s r, In c [32; 9; 13; 10] -> gap_at s r -> gap_at (c :: s) r) by (intros; apply gap_white; assumption).
  split; [|split; [|vm_compute; reflexivity]].
  - eexists. split; [apply gap_none|]. eapply at_item with (s1 := []); [|apply gap_none|constructor].
    eapply at_triple with (s1 := $"."); [|apply gap_none].
    eapply at_spo with (s1 := $"<b:><c:>.") (s2 := $"<c:>.") (s3 := $"<c:>."); [|apply (F 98); cbn; auto|apply gap_none|apply gap_none|].
    + apply (at_iri (map Plain $"a:")). apply (F 97). cbn; auto.
    + apply at_node. apply (at_iri (map Plain $"c:")). apply (F 99). cbn; auto.
  - exists ($"<a:> " ++ [9; 13] ++ $"<b:># <y>" ++ [10] ++ $" <c:> . #"). split.
    { apply (gap_comment $" x"); [repeat constructor; intros [H|H]; discriminate H|right; eexists; eexists; split; [reflexivity|right; reflexivity]|].
      apply W; [cbn; auto|apply gap_none]. }
    eapply at_item with (s1 := $" #") (s2 := []); [| |constructor].
    + eapply at_triple with (s1 := $" . #"); [|apply W; [cbn; auto|apply gap_none]].
      eapply at_spo with (s1 := $" " ++ [9; 13] ++ $"<b:># <y>" ++ [10] ++ $" <c:> . #") (s2 := $"# <y>" ++ [10] ++ $" <c:> . #")
        (s3 := $"<c:> . #"); [|apply (F 98); cbn; auto| | |].
      * apply (at_iri (map Plain $"a:")). apply (F 97). cbn; auto.
      * apply W; [cbn; auto|]. apply W; [cbn; auto|]. apply W; [cbn; auto|apply gap_none].
      * apply (gap_comment $" <y>"); [repeat constructor; intros [H|H]; discriminate H|right; eexists; eexists; split; [reflexivity|right; reflexivity]|].
        apply W; [cbn; auto|]. apply W; [cbn; auto|apply gap_none].
      * apply at_node. apply (at_iri (map Plain $"c:")). apply (F 99). cbn; auto.
    + apply W; [cbn; auto|]. apply (gap_comment []); [constructor|left; reflexivity|apply gap_none].
Qed.

(** ** C43 *)

(** C43: a text survives exactly if none of its characters is escaped. *)
Theorem C43_survives : forall iri_parse lang_parse label_ok gext printable force h ho n s p t,
  orders_ok h -> hash_order ho -> subject_writable iri_parse label_ok s -> iri_writable iri_parse p ->
  let g := g_from_iter [MkStmt s p (OLit (lit_plain gext printable t))] in
  nt_read iri_parse lang_parse label_ok gext printable (nt_write Bare force h ho n g) = Ret (Ok g) <->
  Forall (prints_as_itself gext printable) t.
Proof. exact c43_same. Qed.
Print Assumptions C43_survives.

(** C43: otherwise the text comes back escaped once more or, if it contains a character
    other than tab, line break, carriage return, quote and backslash that is escaped, the
    document is rejected. *)
Theorem C43_escaped_again : forall iri_parse lang_parse label_ok gext printable force h ho n s p t,
  orders_ok h -> hash_order ho -> subject_writable iri_parse label_ok s -> iri_writable iri_parse p ->
  let st x := MkStmt s p (OLit (lit_plain gext printable x)) in
  let back := nt_read iri_parse lang_parse label_ok gext printable (nt_write Bare force h ho n (g_from_iter [st t])) in
  (Forall (readable_char gext printable) t /\ back = Ret (Ok (g_from_iter [st (escape_string gext printable t)]))) \/
  (~ Forall (readable_char gext printable) t /\ back = Ret (Err Tokenizer)).
Proof. exact c43_text. Qed.
Print Assumptions C43_escaped_again.

(** C43 is false: a quote does not survive, and U+0007 makes the document unreadable. *)
Theorem C43_special_characters_refuted :
  (exists t g', ex_read (nt_write Bare true ex_orders (@rev _) 0
      (g_from_iter [MkStmt (SBlank $"s") $"p:" (OLit (lit_plain ex_ext ex_print t))])) = Ret (Ok g') /\
      g_list g' <> [MkStmt (SBlank $"s") $"p:" (OLit (lit_plain ex_ext ex_print t))]) /\
  (exists t, ex_read (nt_write Bare true ex_orders (@rev _) 0
      (g_from_iter [MkStmt (SBlank $"s") $"p:" (OLit (lit_plain ex_ext ex_print t))])) = Ret (Err Tokenizer)).
Proof.
  split; [exists [34]; eexists; split; [vm_compute; reflexivity|vm_compute; discriminate]|].
  exists [7]. vm_compute. reflexivity.
Qed.
Print Assumptions C43_special_characters_refuted.

(** ** C44 *)

(** C44: each escape is replaced by its code point, all else is unchanged; the only panic is
    for an escape that denotes no character (a surrogate, or beyond U+10FFFF). *)
Theorem C44_unescape : forall l, Forall iri_piece l ->
  unescape_iri (pieces_text l) = if forallb denotes_char l then Ret (map code_point l) else Panic.
Proof. exact unescape_iri_pieces. Qed.
Print Assumptions C44_unescape.

(** C44 is false: a document that the grammar accepts makes the reader panic. *)
Theorem C44_no_panic_refuted : forall iri_parse lang_parse label_ok gext printable,
  exists l s, doc_at triple_at l s /\ nt_read iri_parse lang_parse label_ok gext printable s = Panic.
Proof.
  intros. exists [TripleSrc (NIri [Numeric $"D800" [13; 8; 0; 0]]) [] (ONode (NIri []))], $"<\uD800> <> <>.".
  assert (F : Forall iri_piece [Numeric $"D800" [13; 8; 0; 0]]).
  { constructor; [|constructor]. split; [|left; reflexivity]. hexes. }
  assert (D : doc_at triple_at [TripleSrc (NIri [Numeric $"D800" [13; 8; 0; 0]]) [] (ONode (NIri []))] $"<\uD800> <> <>.").
  { exists $"<\uD800> <> <>.". split; [apply gap_none|]. eapply at_item with (s1 := []); [|apply gap_none|constructor].
    eapply at_triple with (s1 := $"."); [|apply gap_none].
    eapply at_spo with (s1 := $" <> <>.") (s2 := $" <>.") (s3 := $"<>."); [exact (at_iri _ _ F)|constructor| | |].
    - apply gap_white; [cbn; auto|apply gap_none].
    - apply gap_white; [cbn; auto|apply gap_none].
    - apply at_node. exact (at_iri [] $"." (Forall_nil _)). }
  split; [exact D|]. rewrite (nt_reads _ _ _ _ _ _ _ D). reflexivity.
Qed.
Print Assumptions C44_no_panic_refuted.

Example C44_example :
  let l := [Plain 97; Numeric $"00e9" [0; 0; 14; 9]; Numeric $"0001F600" [0; 0; 0; 1; 15; 6; 0; 0]] in
  Forall iri_piece l /\ pieces_text l = $"a\u00e9\U0001F600" /\ unescape_iri (pieces_text l) = Ret [97; 233; 128512].
Proof.
  split; [|split; vm_compute; reflexivity]. constructor; [cbn; split; [reflexivity|intuition discriminate]|].
  constructor; [split; [|left; reflexivity]; hexes|].
  constructor; [|constructor]. split; [|right; reflexivity]. hexes.
Qed.

(** ** C59 *)

(** C59: the readers accept exactly the documents of the grammar. *)
Theorem C59_accepts_exactly : forall iri_parse lang_parse label_ok gext printable s,
  ((exists l, doc_at triple_at l s) <-> nt_read iri_parse lang_parse label_ok gext printable s <> Ret (Err Tokenizer)) /\
  ((exists l, doc_at quad_at l s) <-> nq_read iri_parse lang_parse label_ok gext printable s <> Ret (Err Tokenizer)).
Proof. exact c59_accepts. Qed.
Print Assumptions C59_accepts_exactly.

(** C59: an accepted document is read as the list of its statements, in order, or as the
    first failure among their terms. *)
Theorem C59_meaning : forall iri_parse lang_parse label_ok gext printable l s,
  doc_at triple_at l s ->
  nt_read iri_parse lang_parse label_ok gext printable s
  = triples_meaning iri_parse lang_parse label_ok gext printable l.
Proof. exact nt_reads. Qed.
Print Assumptions C59_meaning.

Example C59_example :
  let l := [TripleSrc (NLabel $"s") (map Plain $"p:q") (OString [Plain 120; Short 110] (LangSuffix $"en" [$"GB"]))] in
  let s := $"# c" ++ [13] ++ $"_:s<p:q> ""x\n""  @en-GB ." ++ [10] ++ $"#" in
  doc_at triple_at l s /\
  ex_read s = Ret (Ok (g_from_iter [MkStmt (SBlank $"s") $"p:q" (OLit (Lit $"x\\n" None (Some $"en-GB")))])).
Proof.
  split; [|vm_compute; reflexivity]. exists ($"_:s<p:q> ""x\n""  @en-GB ." ++ [10] ++ $"#"). split.
  - apply (gap_comment $" c"); [repeat constructor; intros [H|H]; discriminate H|right; eexists; eexists; split; [reflexivity|left; reflexivity]|].
    apply gap_white; [cbn; auto|apply gap_none].
  - eapply at_item with (s1 := [10] ++ $"#") (s2 := []).
    + eapply at_triple with (s1 := $" ." ++ [10] ++ $"#"); [|apply gap_white; [cbn; auto|apply gap_none]].
      eapply at_spo with (s1 := $"<p:q> ""x\n""  @en-GB ." ++ [10] ++ $"#") (s2 := $" ""x\n""  @en-GB ." ++ [10] ++ $"#")
        (s3 := $"""x\n""  @en-GB ." ++ [10] ++ $"#").
      * apply (at_label $"s"); [cbn; auto|]. split; [reflexivity|discriminate].
      * repeat (apply Forall_cons; [cbn; split; [reflexivity|intuition discriminate]|]); apply Forall_nil.
      * apply gap_none.
      * apply gap_white; [cbn; auto|apply gap_none].
      * apply (at_string [Plain 120; Short 110]); [constructor; [cbn; intuition discriminate|constructor; [cbn; auto|constructor]]|].
        apply at_lang; [discriminate|reflexivity|constructor; [split; [discriminate|reflexivity]|constructor]|].
        apply gap_white; [cbn; auto|]. apply gap_white; [cbn; auto|apply gap_none].
    + apply gap_white; [cbn; auto|]. apply (gap_comment []); [constructor|left; reflexivity|apply gap_none].
    + constructor.
Qed.

(** ** C60 *)

(** C60: every quad ends up in the graph it names, in the order of the document, and there is
    nothing else in the data set; or the result is the first failure. *)
Theorem C60_quads : forall iri_parse lang_parse label_ok gext printable l s, doc_at quad_at l s ->
  match io_all (map (quad_meaning iri_parse lang_parse label_ok gext printable) l) with
  | Ret (Ok w) => exists d, nq_read iri_parse lang_parse label_ok gext printable s = Ret (Ok d) /\ holds_quads d w
  | Ret (Err e) => nq_read iri_parse lang_parse label_ok gext printable s = Ret (Err e)
  | Panic => nq_read iri_parse lang_parse label_ok gext printable s = Panic
  end.
Proof. exact c60_quads. Qed.
Print Assumptions C60_quads.

(** C60 is false without a graph label: the grammar allows it, the reader never accepts it. *)
Theorem C60_default_graph_refuted : forall iri_parse lang_parse label_ok gext printable l s, doc_at quad_at l s ->
  (exists q, In q l /\ src_g q = None) ->
  forall d, nq_read iri_parse lang_parse label_ok gext printable s <> Ret (Ok d).
Proof. exact c60_no_label. Qed.
Print Assumptions C60_default_graph_refuted.

Example C60_example :
  exists d, ex_read_q ($"<a:> <b:> <c:> <g:> ." ++ [10] ++ $"<a:> <b:> _:x _:g . <a:> <b:> <d:> <g:> .") = Ret (Ok d) /\
    ds_statements d (Some (GnIri $"g:")) = [MkStmt (SRes $"a:") $"b:" (ORes $"c:"); MkStmt (SRes $"a:") $"b:" (ORes $"d:")] /\
    ds_statements d (Some (GnBlank $"g")) = [MkStmt (SRes $"a:") $"b:" (OBlank $"x")].
Proof. eexists. split; [vm_compute; reflexivity|]. split; vm_compute; reflexivity. Qed.
