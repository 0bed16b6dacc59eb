(** Model of the RDF/JSON reader and writer, rdftk_io/src/json/{reader,writer,syntax}.rs.
    No proofs here.

    Simplification: the documents are [serde_json::Value]s; turning them into text and back
    is left to [serde_json]. *)
From Coq Require Export ZArith.
From Verif Require Export NTriples AMap.

(** [serde_json::Value] (serde_json 1.0).  An object is a [Map], which without the feature
    [preserve_order] is a [BTreeMap].  What a number is does not matter here. *)
Inductive json : Type :=
| JNull | JBool (b : bool) | JNumber (n : Z) | JString (s : str)
| JArray (l : list json) | JObject (m : list (str * json)).

(** [Map::insert], [Map::get]. *)
Definition js_insert (m : list (str * json)) (k : str) (v : json) : list (str * json) :=
  am_insert str_cmp k v m.
Definition js_get (m : list (str * json)) (k : str) : option json := am_get str_cmp k m.

(** json/syntax.rs:1-10. *)
Definition OBJ_KEY_VALUE : str := $"value".
Definition OBJ_KEY_TYPE : str := $"type".
Definition OBJ_KEY_LANG : str := $"lang".
Definition OBJ_KEY_DATATYPE : str := $"datatype".
Definition OBJ_TYPE_BNODE : str := $"bnode".
Definition OBJ_TYPE_URI : str := $"uri".
Definition OBJ_TYPE_LITERAL : str := $"literal".
Definition BNODE_PREFIX : str := $"_:".

(** ** Writing *)

(** json/writer.rs:75-119: the entry for one object. *)
Definition js_entry (m : iri_mode) (o : object) : io json :=
  match o with
  | OBlank b =>
      io_ok (JObject (js_insert (js_insert [] OBJ_KEY_TYPE (JString OBJ_TYPE_BNODE))
        OBJ_KEY_VALUE (JString b)))
  | ORes i =>
      io_ok (JObject (js_insert (js_insert [] OBJ_KEY_TYPE (JString OBJ_TYPE_URI))
        OBJ_KEY_VALUE (JString (show_iri m i))))
  | OLit l =>
      let m1 := js_insert (js_insert [] OBJ_KEY_TYPE (JString OBJ_TYPE_LITERAL))
        OBJ_KEY_VALUE (JString (lexical_form l)) in
      let m2 := match lit_language l with
                | Some t => js_insert m1 OBJ_KEY_LANG (JString t)
                | None => m1
                end in
      let m3 := match lit_data_type l with
                | Some d => js_insert m2 OBJ_KEY_DATATYPE (JString (show_iri m (dt_as_iri d)))
                | None => m2
                end in
      io_ok (JObject m3)
  | OColl _ | OStmt _ => io_err RdfStarNotSupported
  end.

(** json/writer.rs:73-120: the array for one predicate. *)
Fixpoint js_objects (m : iri_mode) (l : list object) : io (list json) :=
  match l with
  | [] => io_ok []
  | o :: r => let? e := js_entry m o in let? es := js_objects m r in io_ok (e :: es)
  end.
(** json/writer.rs:71-122: the map for one subject. *)
Fixpoint js_predicates (m : iri_mode) (h : orders) (g : graph) (s : subject)
    (acc : list (str * json)) (l : list str) : io (list (str * json)) :=
  match l with
  | [] => io_ok acc
  | p :: r =>
      let? es := js_objects m (ord_objects h s p (g_objects_for g s p)) in
      js_predicates m h g s (js_insert acc (show_iri m p) (JArray es)) r
  end.
(** json/writer.rs:69-124. *)
Fixpoint js_subjects (m : iri_mode) (h : orders) (g : graph)
    (acc : list (str * json)) (l : list subject) : io (list (str * json)) :=
  match l with
  | [] => io_ok acc
  | s :: r =>
      let? pm := js_predicates m h g s [] (ord_predicates h s (g_predicates_for g s)) in
      js_subjects m h g (js_insert acc (subj_show m s) (JObject pm)) r
  end.
(** json/writer.rs:64-131 [write]; [pretty_print] only concerns the text. *)
Definition js_write (m : iri_mode) (h : orders) (ho : list statement -> list statement)
    (n : N) (g : graph) : io json :=
  let simple := fst (g_simplify ho n g) in
  let? subs := js_subjects m h simple [] (ord_subjects h (g_subjects simple)) in
  io_ok (JObject subs).

(** ** Reading *)

(** [&s[2..]] (std): panics if the string is shorter or the byte offset is inside a
    character. *)
Fixpoint slice_from (s : str) (k : nat) {struct s} : outcome str :=
  match k with
  | O => Ret s
  | S _ =>
      match s with
      | [] => Panic
      | c :: r => if Nat.leb (length (utf8 c)) k then slice_from r (k - length (utf8 c)) else Panic
      end
  end.

Section Reader.
(** As in NTriples.v: [Iri::from_str], [LanguageTag::from_str], the validity of labels, and
    the tables behind [{:?}]. *)
Variable iri_parse : str -> option str.
Variable lang_parse : str -> option str.
Variable label_ok : str -> bool.
Variable gext printable : chr -> bool.

Definition js_iri (s : str) : io str :=
  match iri_parse s with Some i => io_ok i | None => io_err InvalidIri end.
Definition js_blank (s : str) : io str :=
  match bn_from_str label_ok s with Some b => io_ok b | None => io_err InvalidBlankNode end.

(** reader.rs:194-225 [parse_literal_object]. *)
Definition js_literal_object (s : subject) (p : str) (m : list (str * json)) (g : graph) : io graph :=
  let? l :=
    match js_get m OBJ_KEY_VALUE, js_get m OBJ_KEY_LANG, js_get m OBJ_KEY_DATATYPE with
    | Some (JString v), None, None => io_ok (lit_plain gext printable v)
    | Some (JString v), Some (JString l), None =>
        match lang_parse l with
        | Some t => io_ok (lit_with_language gext printable v t)
        | None => io_err InvalidLanguageTag
        end
    | Some (JString v), None, Some (JString d) =>
        let? i := js_iri d in io_ok (lit_with_data_type gext printable v (dt_from_iri i))
    | _, _, _ => io_err ParserUnreachable
    end in
  io_ok (g_insert g (MkStmt s p (OLit l))).

(** reader.rs:227-249 [parse_bnode_object]. *)
Definition js_bnode_object (s : subject) (p : str) (m : list (str * json)) (g : graph) : io graph :=
  match js_get m OBJ_KEY_VALUE with
  | Some (JString v) =>
      match slice_from v 2 with
      | Ret w => let? b := js_blank w in io_ok (g_insert g (MkStmt s p (OBlank b)))
      | Panic => Panic
      end
  | _ => io_err ParserExpected
  end.

(** reader.rs:251-274 [parse_uri_object]. *)
Definition js_uri_object (s : subject) (p : str) (m : list (str * json)) (g : graph) : io graph :=
  match js_get m OBJ_KEY_VALUE with
  | Some (JString v) => let? i := js_iri v in io_ok (g_insert g (MkStmt s p (ORes i)))
  | _ => io_err ParserExpected
  end.

(** reader.rs:143-192 [parse_object]. *)
Definition js_object (s : subject) (p : str) (o : json) (g : graph) : io graph :=
  match o with
  | JObject m =>
      match js_get m OBJ_KEY_TYPE with
      | Some (JString t) =>
          if str_eqb t OBJ_TYPE_LITERAL then js_literal_object s p m g
          else if str_eqb t OBJ_TYPE_BNODE then js_bnode_object s p m g
          else if str_eqb t OBJ_TYPE_URI then js_uri_object s p m g
          else io_err ParserUnexpected
      | _ => io_err ParserExpected
      end
  | _ => io_err ParserUnexpected
  end.

(** reader.rs:119-141 [parse_predicates]. *)
Fixpoint js_object_loop (s : subject) (p : str) (l : list json) (g : graph) : io graph :=
  match l with
  | [] => io_ok g
  | o :: r => let? g' := js_object s p o g in js_object_loop s p r g'
  end.
Definition js_predicate (s : subject) (p : str) (objects : json) (g : graph) : io graph :=
  match objects with
  | JArray l => let? i := js_iri p in js_object_loop s i l g
  | _ => io_err ParserUnexpected
  end.

(** reader.rs:92-117 [parse_statements]. *)
Fixpoint js_predicate_loop (s : subject) (l : list (str * json)) (g : graph) : io graph :=
  match l with
  | [] => io_ok g
  | (p, os) :: r => let? g' := js_predicate s p os g in js_predicate_loop s r g'
  end.
Definition js_subject (k : str) : io subject :=
  match strip_prefix BNODE_PREFIX k with
  | Some b => let? b' := js_blank b in io_ok (SBlank b')
  | None => let? i := js_iri k in io_ok (SRes i)
  end.
Definition js_statements (k : str) (v : json) (g : graph) : io graph :=
  match v with
  | JObject m => let? s := js_subject k in js_predicate_loop s m g
  | _ => io_err ParserUnexpected
  end.

(** reader.rs:73-90 [parse_graph]; 34-40 [read], after [serde_json::from_reader]. *)
Fixpoint js_subject_loop (l : list (str * json)) (g : graph) : io graph :=
  match l with
  | [] => io_ok g
  | (k, v) :: r => let? g' := js_statements k v g in js_subject_loop r g'
  end.
Definition js_read (doc : json) : io graph :=
  match doc with
  | JObject m => js_subject_loop m g_default
  | _ => io_err ParserUnexpected
  end.
End Reader.
