(** What an RDF/JSON document says, and which graphs it can carry. *)
From Coq Require Export Sorting.Sorted Permutation.
From Verif Require Export Json NTriplesWriteSpec.

(** Objects are lists with increasing keys. *)
Definition js_map (m : list (str * json)) : Prop :=
  StronglySorted (fun a b => str_cmp (fst a) (fst b) = Lt) m.

(** ** What the writer should write *)

Definition entry_of (m : iri_mode) (o : object) : json :=
  match o with
  | OBlank b => JObject [($"type", JString $"bnode"); ($"value", JString b)]
  | ORes i => JObject [($"type", JString $"uri"); ($"value", JString (show_iri m i))]
  | OLit l =>
      JObject (match lit_data_type l with
               | Some d => [($"datatype", JString (show_iri m (dt_as_iri d)))]
               | None => []
               end
               ++ match lit_language l with Some t => [($"lang", JString t)] | None => [] end
               ++ [($"type", JString $"literal"); ($"value", JString (lexical_form l))])
  | OColl _ | OStmt _ => JNull
  end.

(** The document has one key for every subject, below it one for every predicate of that
    subject, and below that one entry for every object. *)
Definition describes (m : iri_mode) (doc : json) (sts : list statement) : Prop :=
  exists subs, doc = JObject subs /\ js_map subs /\
    (forall k, In k (map fst subs) <-> exists st, In st sts /\ k = subj_show m (st_subject st)) /\
    (forall s v, In (subj_show m s, v) subs -> s_is_statement s = false ->
       exists preds, v = JObject preds /\ js_map preds /\
         (forall k, In k (map fst preds) <->
            exists st, In st sts /\ st_subject st = s /\ k = show_iri m (st_predicate st)) /\
         (forall p w, In (show_iri m p, w) preds ->
            exists os, w = JArray (map (entry_of m) os) /\ NoDup os /\
              (forall o, In o os <-> In (MkStmt s p o) sts))).

(** ** What the reader should read *)
Section Read.
Variable iri_parse : str -> option str.
Variable lang_parse : str -> option str.
Variable label_ok : str -> bool.
Variable gext printable : chr -> bool.

(** The subject a key stands for. *)
Definition subject_key (k : str) (s : subject) : Prop :=
  (exists b, k = $"_:" ++ b /\ bn_from_str label_ok b = Some b /\ s = SBlank b) \/
  (exists i, (forall b, k <> $"_:" ++ b) /\ iri_parse k = Some i /\ s = SRes i).

(** The text after the first two bytes. *)
Definition after_two_bytes (v w : str) : Prop :=
  exists x, v = x ++ w /\ length (flat_map utf8 x) = 2%nat.

(** The object an entry stands for. *)
Definition entry_value (m : list (str * json)) (k v : str) : Prop := In (k, JString v) m.
Definition entry_lacks (m : list (str * json)) (k : str) : Prop := ~ In k (map fst m).
Inductive denotes : json -> object -> Prop :=
| den_uri : forall m v i, entry_value m $"type" $"uri" -> entry_value m $"value" v ->
    iri_parse v = Some i -> denotes (JObject m) (ORes i)
| den_blank : forall m v w, entry_value m $"type" $"bnode" -> entry_value m $"value" v ->
    after_two_bytes v w -> bn_from_str label_ok w = Some w -> denotes (JObject m) (OBlank w)
| den_plain : forall m v, entry_value m $"type" $"literal" -> entry_value m $"value" v ->
    entry_lacks m $"lang" -> entry_lacks m $"datatype" ->
    denotes (JObject m) (OLit (Lit (escape_string gext printable v) None None))
| den_lang : forall m v l t, entry_value m $"type" $"literal" -> entry_value m $"value" v ->
    entry_value m $"lang" l -> entry_lacks m $"datatype" -> lang_parse l = Some t ->
    denotes (JObject m) (OLit (Lit (escape_string gext printable v) None (Some t)))
| den_typed : forall m v d i, entry_value m $"type" $"literal" -> entry_value m $"value" v ->
    entry_lacks m $"lang" -> entry_value m $"datatype" d -> iri_parse d = Some i ->
    denotes (JObject m) (OLit (Lit (escape_string gext printable v) (Some (dt_from_iri i)) None)).

(** The entries of a document with their keys. *)
Definition has_entry (doc : json) (k p : str) (e : json) : Prop :=
  exists subs preds es, doc = JObject subs /\ In (k, JObject preds) subs /\
    In (p, JArray es) preds /\ In e es.
(** The document lists a statement. *)
Definition lists (doc : json) (st : statement) : Prop :=
  exists k p e, has_entry doc k p e /\ subject_key k (st_subject st) /\
    iri_parse p = Some (st_predicate st) /\ denotes e (st_object st).
(** All of the document makes sense. *)
Definition sensible (doc : json) : Prop :=
  exists subs, doc = JObject subs /\ forall k v, In (k, v) subs ->
    exists s preds, subject_key k s /\ v = JObject preds /\ forall p w, In (p, w) preds ->
      exists i es, iri_parse p = Some i /\ w = JArray es /\ forall e, In e es -> exists o, denotes e o.
(** The number of entries. *)
Definition js_items (j : json) : list json := match j with JArray l => l | _ => [] end.
Definition js_values (j : json) : list json := match j with JObject m => map snd m | _ => [] end.
Definition entry_count (doc : json) : nat :=
  length (flat_map js_items (flat_map js_values (js_values doc))).
(** Every map in the document is one. *)
Definition js_wf (doc : json) : Prop :=
  forall k p m, has_entry doc k p (JObject m) -> js_map m.

(** ** What can be carried *)

(** What becomes of a literal. *)
Definition js_reread_object (o o' : object) : Prop :=
  match o with
  | ORes i => o' = ORes i
  | OBlank b => exists w, after_two_bytes b w /\ o' = OBlank w
  | OLit l => o' = OLit (Lit (escape_string gext printable (lexical_form l))
                          (option_map (fun d => dt_from_iri (dt_as_iri d)) (lit_data_type l)) (lit_language l))
  | OColl _ | OStmt _ => False
  end.
Definition js_reread (st st' : statement) : Prop :=
  st_subject st' = st_subject st /\ st_predicate st' = st_predicate st /\
  js_reread_object (st_object st) (st_object st').

(** Statements which do not stop the reader: about a blank node, and with an object that
    the reader accepts. *)
Definition js_object_readable (o : object) : Prop :=
  match o with
  | ORes i => iri_parse i = Some i
  | OBlank b => exists w, after_two_bytes b w /\ bn_from_str label_ok w = Some w
  | OLit l =>
      match lit_data_type l, lit_language l with
      | Some d, None => iri_parse (dt_as_iri d) = Some (dt_as_iri d)
      | None, Some t => lang_parse t = Some t
      | None, None => True
      | Some _, Some _ => False
      end
  | OColl _ | OStmt _ => False
  end.
Definition js_readable (st : statement) : Prop :=
  (exists b, st_subject st = SBlank b /\ bn_from_str label_ok b = Some b) /\
  iri_parse (st_predicate st) = Some (st_predicate st) /\ js_object_readable (st_object st).

(** Statements which come back as they were. *)
Definition js_stable (st : statement) : Prop :=
  match st_object st with
  | ORes _ => True
  | OLit l => Forall (prints_as_itself gext printable) (lexical_form l) /\
      match lit_data_type l with Some d => dt_from_iri (dt_as_iri d) = d | None => True end
  | _ => False
  end.
End Read.
