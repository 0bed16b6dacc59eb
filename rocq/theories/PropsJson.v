(** Property theorems C46, C47, C61 (RDF/JSON).  Statements only; proofs in JsonProofs.v and
    JsonMain.v.  The parameters are those of PropsNTriples.v. *)
From Coq Require Import ZArith.
From Verif Require Import Str Literal Term Graph NTriples Json JsonSpec LiteralSpec GraphSpec JsonProofs JsonMain.

(** ** Examples used below *)
Definition jx_iri (s : str) : option str := match s with 60 :: _ => None | _ => Some s end.
Definition jx_lang (s : str) : option str := Some s.
Definition jx_ok (s : str) : bool := negb (str_eqb s []).
Definition jx_ext (c : chr) : bool := false.
Definition jx_print (c : chr) : bool := N.leb 32 c && N.leb c 126.
Definition jx_read := js_read jx_iri jx_lang jx_ok jx_ext jx_print.
Definition jx_orders : orders := Orders (@rev _) (fun _ l => l) (fun _ _ => @rev _).
Definition jx_a : statement := MkStmt (SBlank $"s") $"http://e/p" (OLit (Lit $"x" (Some DtInt) None)).
Definition jx_b : statement := MkStmt (SBlank $"s") $"http://e/p" (OLit (Lit $"z" None (Some $"en"))).
Definition jx_c : statement := MkStmt (SBlank $"b") $"http://e/q" (ORes $"http://e/a").
Definition jx_d : statement := MkStmt (SBlank $"s") $"http://e/q" (OBlank $"abc").
Definition jx_i : statement := MkStmt (SRes $"http://e/a") $"http://e/q" (ORes $"http://e/a").
Definition jx_g : graph := g_from_iter [jx_a; jx_c; jx_b; jx_a].
Lemma jx_orders_ok : orders_ok jx_orders.
Proof. split; [|split]; intros; cbn; auto using Permutation_rev, Permutation_sym. Qed.
Lemma jx_id_ok : hash_order (fun l => l).
Proof. intros l. apply Permutation_refl. Qed.

(** ** C46 *)

(** C46, for an [Iri] that prints its bare text and statements about blank nodes: the
    statements whose object is an IRI or an unescaped literal come back, each once. *)
Theorem C46_round_trip : forall iri_parse lang_parse label_ok gext printable h ho n g,
  orders_ok h -> hash_order ho ->
  Forall (js_readable iri_parse lang_parse label_ok) (g_list g) -> Forall (js_stable gext printable) (g_list g) ->
  exists doc g', js_write Bare h ho n g = Ret (Ok doc) /\
    js_read iri_parse lang_parse label_ok gext printable doc = Ret (Ok g') /\ NoDup (g_list g') /\
    forall st, In st (g_list g') <-> In st (g_list g).
Proof. exact c46_stable. Qed.
Print Assumptions C46_round_trip.

Example C46_round_trip_example :
  Forall (js_readable jx_iri jx_lang jx_ok) (g_list jx_g) /\ Forall (js_stable jx_ext jx_print) (g_list jx_g) /\
  match js_write Bare jx_orders (fun l => l) 0 jx_g with
  | Ret (Ok doc) => jx_read doc = Ret (Ok (g_from_iter [jx_c; jx_b; jx_a]))
  | _ => False
  end.
Proof.
  split; [|split; [|vm_compute; reflexivity]].
  - repeat (apply Forall_cons; [split; [eexists; split; reflexivity|split; reflexivity]|]). apply Forall_nil.
  - repeat (apply Forall_cons; [cbn -[prints_as_itself]; first [exact I|split; [repeat constructor; cbn; intuition discriminate|first [exact I|reflexivity]]]|]).
    apply Forall_nil.
Qed.

(** C46, exactly: what becomes of all graphs about blank nodes that do not stop the reader.
    A blank node as object loses the first two bytes of its label. *)
Theorem C46_exact : forall iri_parse lang_parse label_ok gext printable h ho n g,
  orders_ok h -> hash_order ho -> Forall (js_readable iri_parse lang_parse label_ok) (g_list g) ->
  exists doc g', js_write Bare h ho n g = Ret (Ok doc) /\
    js_read iri_parse lang_parse label_ok gext printable doc = Ret (Ok g') /\
    forall st', In st' (g_list g') <-> exists st, In st (g_list g) /\ js_reread gext printable st st'.
Proof. exact c46_round. Qed.
Print Assumptions C46_exact.

(** C46 is false: a document with an IRI as subject is never read, as the key is in angle
    brackets; and as the crates stand at this commit, where an [Iri] prints itself in angle
    brackets, no non-empty graph can be read back. *)
Theorem C46_brackets_refuted : forall iri_parse lang_parse label_ok gext printable m h ho n g,
  orders_ok h -> hash_order ho -> (forall t, iri_parse (60 :: t) = None) ->
  Forall flat (g_list g) -> g_list g <> [] ->
  exists doc, js_write m h ho n g = Ret (Ok doc) /\
    ((exists st i, In st (g_list g) /\ st_subject st = SRes i) ->
       js_read iri_parse lang_parse label_ok gext printable doc = Ret (Err InvalidIri)) /\
    (m = Angled -> exists e, js_read iri_parse lang_parse label_ok gext printable doc = Ret (Err e) /\
       (e = InvalidIri \/ e = InvalidBlankNode)).
Proof. exact c46_fails. Qed.
Print Assumptions C46_brackets_refuted.

(** C46 is false: a blank node comes back as another one, and one with a short label makes
    the reader panic. *)
Theorem C46_blank_object_refuted :
  (exists doc, js_write Bare jx_orders (fun l => l) 0 (g_from_iter [jx_d]) = Ret (Ok doc) /\
     jx_read doc = Ret (Ok (g_from_iter [MkStmt (SBlank $"s") $"http://e/q" (OBlank $"c")]))) /\
  (exists doc, js_write Bare jx_orders (fun l => l) 0 (g_from_iter [MkStmt (SBlank $"s") $"http://e/q" (OBlank $"b")]) = Ret (Ok doc) /\
     jx_read doc = Panic).
Proof. split; eexists; split; vm_compute; reflexivity. Qed.
Print Assumptions C46_blank_object_refuted.

Example C46_brackets_example :
  orders_ok jx_orders /\ hash_order (fun l => l) /\ (forall t, jx_iri (60 :: t) = None) /\
  Forall flat (g_list (g_from_iter [jx_i; jx_c])) /\
  js_readable jx_iri jx_lang jx_ok jx_d /\
  js_reread jx_ext jx_print jx_d (MkStmt (SBlank $"s") $"http://e/q" (OBlank $"c")).
Proof.
  split; [exact jx_orders_ok|]. split; [exact jx_id_ok|]. split; [reflexivity|]. split; [repeat constructor|].
  assert (A : after_two_bytes $"abc" $"c") by (exists $"ab"; split; reflexivity).
  split; [split; [eexists; split; reflexivity|split; [reflexivity|exists $"c"; split; [exact A|reflexivity]]]|].
  split; [reflexivity|]. split; [reflexivity|]. exists $"c". auto.
Qed.

(** ** C47 *)

(** C47: below the keys of its subject and predicate, the document has exactly one entry for
    each statement of the simplified graph; a graph that cannot be simplified to plain
    triples is an error. *)
Theorem C47_one_entry_each : forall m h ho n g, orders_ok h -> hash_order ho ->
  (Forall simplifiable (g_list g) ->
     exists doc, js_write m h ho n g = Ret (Ok doc) /\ describes m doc (g_list (fst (g_simplify ho n g)))) /\
  (~ Forall (fun st => flat_object (st_object st)) (g_list (fst (g_simplify ho n g))) ->
     js_write m h ho n g = Ret (Err RdfStarNotSupported)).
Proof. exact c47. Qed.
Print Assumptions C47_one_entry_each.

(** C47: of plain triples nothing is changed. *)
Theorem C47_plain : forall m h ho n g, orders_ok h -> hash_order ho -> Forall flat (g_list g) ->
  exists doc, js_write m h ho n g = Ret (Ok doc) /\ describes m doc (g_list g).
Proof. exact c47_flat. Qed.
Print Assumptions C47_plain.

(** C47: the entries are as many as the distinct statements. *)
Theorem C47_count : forall m doc sts, Forall flat sts -> describes m doc sts ->
  exists l, NoDup l /\ (forall st, In st l <-> In st sts) /\ entry_count doc = length l.
Proof. exact describes_count. Qed.
Print Assumptions C47_count.

Example C47_example :
  let key := $"<http://e/a>" in
  Forall simplifiable (g_list (g_from_iter [jx_i; jx_a; jx_b; jx_a])) /\
  js_write Bare jx_orders (fun l => l) 0 (g_from_iter [jx_i; jx_a; jx_b; jx_a]) = Ret (Ok (JObject
    [(key, JObject [($"http://e/q", JArray [JObject [($"type", JString $"uri"); ($"value", JString $"http://e/a")]])]);
     ($"_:s", JObject [($"http://e/p", JArray
        [JObject [($"lang", JString $"en"); ($"type", JString $"literal"); ($"value", JString $"z")];
         JObject [($"datatype", JString (xsd $"int")); ($"type", JString $"literal"); ($"value", JString $"x")]])])])).
Proof. cbv zeta. split; [repeat constructor|vm_compute; reflexivity]. Qed.

(** ** C61 *)

(** C61: a document is read exactly if all of it makes sense; the graph then holds exactly
    the statements listed, one for each entry. *)
Theorem C61_reads : forall iri_parse lang_parse label_ok gext printable doc, js_wf doc ->
  ((exists g, js_read iri_parse lang_parse label_ok gext printable doc = Ret (Ok g)) <->
     sensible iri_parse lang_parse label_ok gext printable doc) /\
  (forall g, js_read iri_parse lang_parse label_ok gext printable doc = Ret (Ok g) ->
     length (g_list g) = entry_count doc /\
     forall st, In st (g_list g) <-> lists iri_parse lang_parse label_ok gext printable doc st).
Proof. exact c61_reads. Qed.
Print Assumptions C61_reads.

(** C61: the reader panics only on a blank node object whose value has no third byte that
    starts a character or the end. *)
Theorem C61_panics : forall iri_parse lang_parse label_ok gext printable doc, js_wf doc ->
  js_read iri_parse lang_parse label_ok gext printable doc = Panic ->
  exists k p m v, has_entry doc k p (JObject m) /\ entry_value m $"type" $"bnode" /\
    entry_value m $"value" v /\ forall w, ~ after_two_bytes v w.
Proof. exact c61_panic. Qed.
Print Assumptions C61_panics.

Example C61_example :
  let e := JObject [($"type", JString $"bnode"); ($"value", JString $"_:x")] in
  let doc := JObject [($"http://e/a", JObject [($"http://e/p", JArray [e; e])])] in
  js_wf doc /\ jx_read doc = Ret (Ok (g_from_iter [MkStmt (SRes $"http://e/a") $"http://e/p" (OBlank $"x");
                                                  MkStmt (SRes $"http://e/a") $"http://e/p" (OBlank $"x")])).
Proof.
  cbv zeta. split; [|vm_compute; reflexivity].
  intros k p m (subs & preds & es & E & IK & IP & IE). injection E as <-. destruct IK as [E|[]]. injection E as <- <-.
  destruct IP as [E|[]]. injection E as <- <-. assert (Q : m = [($"type", JString $"bnode"); ($"value", JString $"_:x")]).
  { destruct IE as [E|[E|[]]]; injection E as <-; reflexivity. }
  subst m. repeat constructor.
Qed.
