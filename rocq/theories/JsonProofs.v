From Coq Require Import Lia ZArith.
From Verif Require Import GraphProofs SimplifyProofs LiteralProofs TermProofs NTriplesWrite AMapFacts StrFacts.
From Verif Require Export JsonSpec.

(** ** Maps *)
Definition any_key (_ : str) : Prop := True.
Lemma any_total : total_on any_key str_cmp.
Proof. apply total_order_on, str_total. Qed.
Lemma js_map_sorted m : js_map m <-> sorted any_key str_cmp m.
Proof.
  unfold js_map, sorted. split; [|intros [A _]; exact A]. intros A. split; [exact A|].
  apply Forall_forall. intros; exact I.
Qed.
Lemma js_get_In m k v : js_map m -> js_get m k = Some v <-> In (k, v) m.
Proof. intros M. apply (am_get_In any_key str_cmp any_total); [apply js_map_sorted; exact M|exact I]. Qed.
Lemma js_get_lacks m k : js_map m -> js_get m k = None <-> entry_lacks m k.
Proof.
  intros M. unfold js_get. rewrite (am_get_None any_key str_cmp any_total) by (try apply js_map_sorted; auto; exact I).
  unfold entry_lacks. rewrite in_map_iff. split.
  - intros N ((k' & v) & E & J). cbn in E. subst. apply (N v J).
  - intros N v J. apply N. exists (k, v). auto.
Qed.
Lemma js_insert_map m k v : js_map m -> js_map (js_insert m k v).
Proof. intros M. apply js_map_sorted. apply (am_insert_sorted any_key str_cmp any_total); [apply js_map_sorted; exact M|exact I]. Qed.
Lemma js_insert_In m k v k' v' : js_map m -> In (k', v') (js_insert m k v) <-> (k' = k /\ v' = v) \/ (In (k', v') m /\ k' <> k).
Proof. intros M. apply (am_insert_In any_key str_cmp any_total); [apply js_map_sorted; exact M|exact I]. Qed.
Lemma js_map_nil : js_map [].
Proof. constructor. Qed.

(** ** Slicing *)
Lemma utf8_length c : (1 <= length (utf8 c))%nat.
Proof. unfold utf8. destruct (c <? 128), (c <? 2048), (c <? 65536); cbn; lia. Qed.
Lemma slice_from_spec s : forall k w, slice_from s k = Ret w <-> exists x, s = x ++ w /\ length (flat_map utf8 x) = k.
Proof.
  induction s as [|c s IH]; intros k w.
  - split.
    + destruct k; [|discriminate]. intros E. injection E as <-. exists []. auto.
    + intros (x & E & L). symmetry in E. apply app_eq_nil in E as [-> ->]. cbn in L. subst. reflexivity.
  - split.
    + destruct k; cbn [slice_from].
      * intros E. injection E as <-. exists []. auto.
      * destruct (Nat.leb_spec (length (utf8 c)) (S k)); [|discriminate]. intros E. apply IH in E as (x & -> & L).
        exists (c :: x). split; [reflexivity|]. cbn. rewrite app_length. lia.
    + intros (x & E & L). destruct x as [|d x]; cbn in E, L.
      * subst. reflexivity.
      * injection E as <- ->. rewrite app_length in L. pose proof (utf8_length c).
        destruct k as [|k]; [lia|]. cbn [slice_from]. destruct (Nat.leb_spec (length (utf8 c)) (S k)); [|lia].
        apply IH. exists x. split; [reflexivity|lia].
Qed.
Lemma slice_two v w : slice_from v 2 = Ret w <-> after_two_bytes v w.
Proof. apply slice_from_spec. Qed.
Lemma after_two_functional v a b : after_two_bytes v a -> after_two_bytes v b -> a = b.
Proof. intros A B. apply slice_two in A, B. congruence. Qed.

(** ** Concatenating results *)
Fixpoint io_flat {A B} (f : A -> io (list B)) (l : list A) : io (list B) :=
  match l with
  | [] => io_ok []
  | a :: r => let? x := f a in let? y := io_flat f r in io_ok (x ++ y)
  end.
Lemma io_flat_ok {A B} (f : A -> io (list B)) l : forall y, io_flat f l = io_ok y <->
  exists ys, Forall2 (fun a x => f a = io_ok x) l ys /\ y = concat ys.
Proof.
  induction l as [|a l IH]; intros y; cbn [io_flat].
  - split.
    + intros E. injection E as <-. exists []. auto.
    + intros (ys & F & ->). inversion F. reflexivity.
  - split.
    + destruct (f a) as [[x|e]|] eqn:E; try discriminate. cbn [io_bind].
      destruct (io_flat f l) as [[z|e]|] eqn:L; try discriminate. intros Q. injection Q as <-.
      destruct (proj1 (IH z) eq_refl) as (ys & F & ->). exists (x :: ys). split; [constructor; auto|reflexivity].
    + intros (ys & F & ->). inversion F as [|? x ? ys' E F']; subst. rewrite E. cbn [io_ok io_bind].
      rewrite (proj2 (IH (concat ys'))) by eauto. reflexivity.
Qed.
Lemma io_flat_panic {A B} (f : A -> io (list B)) l : io_flat f l = Panic -> exists a, In a l /\ f a = Panic.
Proof.
  induction l as [|a l IH]; cbn [io_flat]; [discriminate|]. destruct (f a) as [[x|e]|] eqn:E.
  - cbn [io_bind]. destruct (io_flat f l) as [[z|e]|] eqn:L; try discriminate. intros _.
    destruct (IH eq_refl) as (b & I & P). exists b. split; [right; exact I|exact P].
  - discriminate.
  - intros _. exists a. split; [left; reflexivity|exact E].
Qed.
Lemma Forall2_In_l {A B} (P : A -> B -> Prop) l l' : Forall2 P l l' -> forall x, In x l -> exists y, In y l' /\ P x y.
Proof. induction 1; intros z []; [subst; eexists; split; [left; reflexivity|auto]|]. destruct (IHForall2 z H1) as (w & I & Q). exists w. split; [right; exact I|exact Q]. Qed.
Lemma Forall2_In_r {A B} (P : A -> B -> Prop) l l' : Forall2 P l l' -> forall y, In y l' -> exists x, In x l /\ P x y.
Proof. induction 1; intros z []; [subst; eexists; split; [left; reflexivity|auto]|]. destruct (IHForall2 z H1) as (w & I & Q). exists w. split; [right; exact I|exact Q]. Qed.
Lemma io_flat_In {A B} (f : A -> io (list B)) l y : io_flat f l = io_ok y ->
  (forall b, In b y <-> exists a x, In a l /\ f a = io_ok x /\ In b x) /\ (forall a, In a l -> exists x, f a = io_ok x).
Proof.
  intros E. apply io_flat_ok in E as (ys & F & ->). split.
  - intros b. rewrite in_concat. split.
    + intros (x & X & B'). apply (Forall2_In_r _ _ _ F) in X as (a & A' & E). eauto.
    + intros (a & x & A' & E & B'). apply (Forall2_In_l _ _ _ F) in A' as (x' & X & E'). exists x'. split; [exact X|]. rewrite E in E'. injection E' as <-. exact B'.
  - intros a I. apply (Forall2_In_l _ _ _ F) in I as (x & _ & E). eauto.
Qed.
Lemma io_flat_total {A B} (f : A -> io (list B)) l : (forall a, In a l -> exists x, f a = io_ok x) -> exists y, io_flat f l = io_ok y.
Proof.
  induction l as [|a l IH]; intros H; [eexists; reflexivity|]. cbn [io_flat].
  destruct (H a (or_introl eq_refl)) as (x & ->). destruct IH as (y & ->); [intros b I; apply H; right; exact I|].
  eexists. reflexivity.
Qed.

Section Reading.
Variable iri_parse : str -> option str.
Variable lang_parse : str -> option str.
Variable label_ok : str -> bool.
Variable gext printable : chr -> bool.
Notation read := (js_read iri_parse lang_parse label_ok gext printable).
Notation den := (denotes iri_parse lang_parse label_ok gext printable).
Notation skey := (subject_key iri_parse label_ok).

(** What the functions of the reader compute. *)
Definition den_object (o : json) : io object :=
  match o with
  | JObject m =>
      match js_get m OBJ_KEY_TYPE with
      | Some (JString t) =>
          if str_eqb t OBJ_TYPE_LITERAL then
            let? l :=
              match js_get m OBJ_KEY_VALUE, js_get m OBJ_KEY_LANG, js_get m OBJ_KEY_DATATYPE with
              | Some (JString v), None, None => io_ok (lit_plain gext printable v)
              | Some (JString v), Some (JString l), None =>
                  match lang_parse l with
                  | Some t => io_ok (lit_with_language gext printable v t)
                  | None => io_err InvalidLanguageTag
                  end
              | Some (JString v), None, Some (JString d) =>
                  let? i := js_iri iri_parse d in io_ok (lit_with_data_type gext printable v (dt_from_iri i))
              | _, _, _ => io_err ParserUnreachable
              end in
            io_ok (OLit l)
          else if str_eqb t OBJ_TYPE_BNODE then
            match js_get m OBJ_KEY_VALUE with
            | Some (JString v) =>
                match slice_from v 2 with
                | Ret w => let? b := js_blank label_ok w in io_ok (OBlank b)
                | Panic => Panic
                end
            | _ => io_err ParserExpected
            end
          else if str_eqb t OBJ_TYPE_URI then
            match js_get m OBJ_KEY_VALUE with
            | Some (JString v) => let? i := js_iri iri_parse v in io_ok (ORes i)
            | _ => io_err ParserExpected
            end
          else io_err ParserUnexpected
      | _ => io_err ParserExpected
      end
  | _ => io_err ParserUnexpected
  end.
Definition den_item (s : subject) (p : str) (o : json) : io (list statement) :=
  let? x := den_object o in io_ok [MkStmt s p x].
Definition den_predicate (s : subject) (pv : str * json) : io (list statement) :=
  match snd pv with
  | JArray l => let? i := js_iri iri_parse (fst pv) in io_flat (den_item s i) l
  | _ => io_err ParserUnexpected
  end.
Definition den_statements (kv : str * json) : io (list statement) :=
  match snd kv with
  | JObject m => let? s := js_subject iri_parse label_ok (fst kv) in io_flat (den_predicate s) m
  | _ => io_err ParserUnexpected
  end.

Lemma g_insert_from vs st : g_insert (g_from_iter vs) st = g_from_iter (vs ++ [st]).
Proof. reflexivity. Qed.

Lemma object_den s p o vs : js_object iri_parse lang_parse label_ok gext printable s p o (g_from_iter vs)
  = let? x := den_item s p o in io_ok (g_from_iter (vs ++ x)).
Proof.
  unfold den_item, den_object, js_object. destruct o as [| | | | |m]; try reflexivity.
  destruct (js_get m OBJ_KEY_TYPE) as [[| | |t| |]|]; try reflexivity.
  destruct (str_eqb t OBJ_TYPE_LITERAL).
  { unfold js_literal_object.
    destruct (js_get m OBJ_KEY_VALUE) as [[]|]; try reflexivity;
      destruct (js_get m OBJ_KEY_LANG) as [[]|]; try reflexivity;
      destruct (js_get m OBJ_KEY_DATATYPE) as [[]|]; try reflexivity.
    - match goal with |- context[lang_parse ?l] => destruct (lang_parse l); reflexivity end.
    - unfold js_iri. match goal with |- context[iri_parse ?l] => destruct (iri_parse l); reflexivity end. }
  destruct (str_eqb t OBJ_TYPE_BNODE).
  { unfold js_bnode_object. destruct (js_get m OBJ_KEY_VALUE) as [[| | |v| |]|]; try reflexivity.
    destruct (slice_from v 2) as [w|]; [|reflexivity]. unfold js_blank. destruct (bn_from_str label_ok w); reflexivity. }
  destruct (str_eqb t OBJ_TYPE_URI); [|reflexivity].
  unfold js_uri_object. destruct (js_get m OBJ_KEY_VALUE) as [[| | |v| |]|]; try reflexivity.
  unfold js_iri. destruct (iri_parse v); reflexivity.
Qed.
Lemma object_loop_den s p l : forall vs, js_object_loop iri_parse lang_parse label_ok gext printable s p l (g_from_iter vs)
  = let? x := io_flat (den_item s p) l in io_ok (g_from_iter (vs ++ x)).
Proof.
  induction l as [|o l IH]; intros vs; cbn [js_object_loop io_flat].
  - cbn. rewrite app_nil_r. reflexivity.
  - rewrite object_den. destruct (den_item s p o) as [[x|e]|]; try reflexivity. cbn [io_bind io_ok]. rewrite IH.
    destruct (io_flat (den_item s p) l) as [[y|e]|]; try reflexivity. cbn. rewrite app_assoc. reflexivity.
Qed.
Lemma predicate_den s p v vs : js_predicate iri_parse lang_parse label_ok gext printable s p v (g_from_iter vs)
  = let? x := den_predicate s (p, v) in io_ok (g_from_iter (vs ++ x)).
Proof.
  unfold js_predicate, den_predicate. cbn [fst snd]. destruct v; try reflexivity.
  destruct (js_iri iri_parse p) as [[i|e]|]; try reflexivity. cbn [io_bind]. apply object_loop_den.
Qed.
Lemma predicate_loop_den s l : forall vs, js_predicate_loop iri_parse lang_parse label_ok gext printable s l (g_from_iter vs)
  = let? x := io_flat (den_predicate s) l in io_ok (g_from_iter (vs ++ x)).
Proof.
  induction l as [|[p v] l IH]; intros vs; cbn [js_predicate_loop io_flat].
  - cbn. rewrite app_nil_r. reflexivity.
  - rewrite predicate_den. destruct (den_predicate s (p, v)) as [[x|e]|]; try reflexivity. cbn [io_bind io_ok]. rewrite IH.
    destruct (io_flat (den_predicate s) l) as [[y|e]|]; try reflexivity. cbn. rewrite app_assoc. reflexivity.
Qed.
Lemma statements_den k v vs : js_statements iri_parse lang_parse label_ok gext printable k v (g_from_iter vs)
  = let? x := den_statements (k, v) in io_ok (g_from_iter (vs ++ x)).
Proof.
  unfold js_statements, den_statements. cbn [fst snd]. destruct v; try reflexivity.
  destruct (js_subject iri_parse label_ok k) as [[s|e]|]; try reflexivity. cbn [io_bind]. apply predicate_loop_den.
Qed.
Lemma subject_loop_den l : forall vs, js_subject_loop iri_parse lang_parse label_ok gext printable l (g_from_iter vs)
  = let? x := io_flat den_statements l in io_ok (g_from_iter (vs ++ x)).
Proof.
  induction l as [|[k v] l IH]; intros vs; cbn [js_subject_loop io_flat].
  - cbn. rewrite app_nil_r. reflexivity.
  - rewrite statements_den. destruct (den_statements (k, v)) as [[x|e]|]; try reflexivity. cbn [io_bind io_ok]. rewrite IH.
    destruct (io_flat den_statements l) as [[y|e]|]; try reflexivity. cbn. rewrite app_assoc. reflexivity.
Qed.
Lemma read_den doc : read doc =
  match doc with
  | JObject m => let? x := io_flat den_statements m in io_ok (g_from_iter x)
  | _ => io_err ParserUnexpected
  end.
Proof. destruct doc; try reflexivity. apply (subject_loop_den m []). Qed.

(** Against the specification. *)
Lemma bn_from_self s b : bn_from_str label_ok s = Some b -> b = s.
Proof. unfold bn_from_str. destruct (bn_is_valid_str label_ok s); [|discriminate]. congruence. Qed.
Lemma subject_spec k s : js_subject iri_parse label_ok k = io_ok s <-> skey k s.
Proof.
  unfold js_subject, subject_key, js_blank, js_iri. split.
  - destruct (strip_prefix BNODE_PREFIX k) as [b|] eqn:E.
    + apply strip_prefix_Some in E. destruct (bn_from_str label_ok b) as [b'|] eqn:B; [|discriminate].
      pose proof (bn_from_self _ _ B) as ->. intros Q. injection Q as <-. left. exists b. auto.
    + destruct (iri_parse k) as [i|] eqn:P; [|discriminate]. intros Q. injection Q as <-. right. exists i.
      split; [|auto]. intros b ->. change BNODE_PREFIX with ($"_:") in E. rewrite strip_prefix_app in E. discriminate.
  - intros [(b & -> & B & ->)|(i & N & P & ->)].
    + change BNODE_PREFIX with ($"_:"). rewrite strip_prefix_app, B. reflexivity.
    + destruct (strip_prefix BNODE_PREFIX k) as [b|] eqn:E.
      * apply strip_prefix_Some in E. destruct (N b E).
      * rewrite P. reflexivity.
Qed.

Lemma js_In_value m k v : js_map m -> js_get m k = Some (JString v) <-> entry_value m k v.
Proof. intros M. apply js_get_In. exact M. Qed.

Lemma den_object_spec o x : (forall m, o = JObject m -> js_map m) -> den_object o = io_ok x <-> den o x.
Proof.
  intros W. split.
  - destruct o as [| | | | |m]; try discriminate. specialize (W m eq_refl). unfold den_object.
    destruct (js_get m OBJ_KEY_TYPE) as [[| | |t| |]|] eqn:T; try discriminate. apply (js_In_value m OBJ_KEY_TYPE t W) in T.
    destruct (str_eqb t OBJ_TYPE_LITERAL) eqn:TL.
    { apply str_eqb_eq in TL. subst t.
      destruct (js_get m OBJ_KEY_VALUE) as [[| | |v| |]|] eqn:V; try discriminate. apply (js_In_value m _ v W) in V.
      destruct (js_get m OBJ_KEY_LANG) as [[| | |l|? |?]|] eqn:L; try discriminate;
        destruct (js_get m OBJ_KEY_DATATYPE) as [[| | |d|? |?]|] eqn:D; try discriminate.
      - destruct (lang_parse l) as [t|] eqn:LP; [|discriminate]. intros Q. injection Q as <-.
        apply (js_In_value m _ l W) in L. apply (js_get_lacks m _ W) in D. eapply den_lang; eauto.
      - unfold js_iri. destruct (iri_parse d) as [i|] eqn:I; [|discriminate]. intros Q. injection Q as <-.
        apply (js_get_lacks m _ W) in L. apply (js_In_value m _ d W) in D. eapply den_typed; eauto.
      - intros Q. injection Q as <-. apply (js_get_lacks m _ W) in L. apply (js_get_lacks m _ W) in D. eapply den_plain; eauto. }
    destruct (str_eqb t OBJ_TYPE_BNODE) eqn:TB.
    { apply str_eqb_eq in TB. subst t.
      destruct (js_get m OBJ_KEY_VALUE) as [[| | |v| |]|] eqn:V; try discriminate. apply (js_In_value m _ v W) in V.
      destruct (slice_from v 2) as [w|] eqn:S; [|discriminate]. unfold js_blank.
      destruct (bn_from_str label_ok w) as [b|] eqn:B; [|discriminate]. pose proof (bn_from_self _ _ B) as ->.
      intros Q. injection Q as <-. eapply den_blank; eauto. apply slice_two. exact S. }
    destruct (str_eqb t OBJ_TYPE_URI) eqn:TU; [|discriminate]. apply str_eqb_eq in TU. subst t.
    destruct (js_get m OBJ_KEY_VALUE) as [[| | |v| |]|] eqn:V; try discriminate. apply (js_In_value m _ v W) in V.
    unfold js_iri. destruct (iri_parse v) as [i|] eqn:I; [|discriminate]. intros Q. injection Q as <-. eapply den_uri; eauto.
  - intros D. destruct D as [m v i T V P|m v w T V S B|m v T V L D|m v l t T V L D P|m v d i T V L D P];
      specialize (W m eq_refl); unfold den_object;
      apply (js_In_value m _ _ W) in T; apply (js_In_value m _ _ W) in V;
      change OBJ_KEY_TYPE with ($"type"); change OBJ_KEY_VALUE with ($"value"); rewrite T;
      cbn [str_eqb].
    + change (str_eqb $"uri" OBJ_TYPE_LITERAL) with false. change (str_eqb $"uri" OBJ_TYPE_BNODE) with false.
      change (str_eqb $"uri" OBJ_TYPE_URI) with true. cbv iota. rewrite V. unfold js_iri. rewrite P. reflexivity.
    + change (str_eqb $"bnode" OBJ_TYPE_LITERAL) with false. change (str_eqb $"bnode" OBJ_TYPE_BNODE) with true. cbv iota.
      rewrite V. apply slice_two in S. rewrite S. unfold js_blank. rewrite B. reflexivity.
    + apply (js_get_lacks m _ W) in L. apply (js_get_lacks m _ W) in D.
      change (str_eqb $"literal" OBJ_TYPE_LITERAL) with true. cbv iota.
      change OBJ_KEY_LANG with ($"lang"). change OBJ_KEY_DATATYPE with ($"datatype"). rewrite V, L, D. reflexivity.
    + apply (js_In_value m _ _ W) in L. apply (js_get_lacks m _ W) in D.
      change (str_eqb $"literal" OBJ_TYPE_LITERAL) with true. cbv iota.
      change OBJ_KEY_LANG with ($"lang"). change OBJ_KEY_DATATYPE with ($"datatype"). rewrite V, L, D, P. reflexivity.
    + apply (js_get_lacks m _ W) in L. apply (js_In_value m _ _ W) in D.
      change (str_eqb $"literal" OBJ_TYPE_LITERAL) with true. cbv iota.
      change OBJ_KEY_LANG with ($"lang"). change OBJ_KEY_DATATYPE with ($"datatype"). rewrite V, L, D.
      unfold js_iri. rewrite P. reflexivity.
Qed.

Lemma statements_spec k v x : den_statements (k, v) = io_ok x ->
  exists s preds, skey k s /\ v = JObject preds /\ io_flat (den_predicate s) preds = io_ok x.
Proof.
  unfold den_statements. cbn [fst snd]. destruct v as [| | | | |m]; try discriminate.
  destruct (js_subject iri_parse label_ok k) as [[s|e]|] eqn:E; try discriminate. cbn [io_bind]. intros F.
  exists s, m. split; [apply subject_spec; exact E|]. auto.
Qed.
Lemma predicate_spec s k v x : den_predicate s (k, v) = io_ok x ->
  exists i es, iri_parse k = Some i /\ v = JArray es /\ io_flat (den_item s i) es = io_ok x.
Proof.
  unfold den_predicate. cbn [fst snd]. destruct v as [| | | |l|]; try discriminate. unfold js_iri.
  destruct (iri_parse k) as [i|]; [|discriminate]. cbn [io_bind io_ok]. intros F. exists i, l. auto.
Qed.
Lemma item_spec s i e x : den_item s i e = io_ok x ->
  exists o, den_object e = io_ok o /\ x = [MkStmt s i o].
Proof.
  unfold den_item. destruct (den_object e) as [[o|?]|]; try discriminate.
  intros Q. injection Q as <-. exists o. split; reflexivity.
Qed.
Lemma skey_functional k s t : skey k s -> skey k t -> s = t.
Proof. intros A B. apply subject_spec in A, B. rewrite A in B. injection B as <-. reflexivity. Qed.

Lemma count_flat {A B} (f : A -> io (list B)) (c : A -> nat) l y : io_flat f l = io_ok y ->
  (forall a x, In a l -> f a = io_ok x -> length x = c a) -> length y = list_sum (map c l).
Proof.
  intros E. apply io_flat_ok in E as (ys & F & ->). induction F as [|a x l ys E F IH]; intros H; [reflexivity|].
  cbn. rewrite app_length, (H a x) by (auto; left; reflexivity). f_equal. apply IH. intros b z I. apply H. right. exact I.
Qed.
Lemma length_flat_map {A B} (f : A -> list B) l : length (flat_map f l) = list_sum (map (fun a => length (f a)) l).
Proof. induction l as [|a l IH]; [reflexivity|]. cbn. rewrite app_length, IH. reflexivity. Qed.

Lemma c61_count doc g : read doc = io_ok g -> length (g_list g) = entry_count doc.
Proof.
  rewrite read_den. destruct doc as [| | | | |m]; try discriminate.
  destruct (io_flat (den_statements) m) as [[x|e]|] eqn:E; try discriminate.
  intros Q. injection Q as <-. change (g_list (g_from_iter x)) with x.
  unfold entry_count. rewrite length_flat_map. unfold js_values at 2.
  rewrite (count_flat _ (fun kv => length (flat_map js_items (js_values (snd kv)))) m x E).
  - rewrite !flat_map_concat_map, concat_map, <- flat_map_concat_map.
    clear E. induction m as [|[k v] m IH]; [reflexivity|]. cbn [map flat_map list_sum].
    rewrite list_sum_app. cbn [snd]. rewrite length_flat_map, <- IH. reflexivity.
  - intros [k v] y _ F. apply statements_spec in F as (s & preds & _ & -> & F). cbn [snd js_values].
    rewrite length_flat_map, map_map. apply (count_flat _ (fun pv => length (js_items (snd pv))) preds y F).
    intros [p w] z _ G. apply predicate_spec in G as (i & es & _ & -> & G). cbn [snd js_items].
    rewrite (count_flat _ (fun _ => 1%nat) es z G).
    + clear. induction es as [|e es IH]; [reflexivity|]. cbn. f_equal. exact IH.
    + intros e u _ H. apply item_spec in H as (o & _ & ->). reflexivity.
Qed.

Lemma c61_lists doc g st : js_wf doc -> read doc = io_ok g ->
  In st (g_list g) <-> lists iri_parse lang_parse label_ok gext printable doc st.
Proof.
  intros W. rewrite read_den. destruct doc as [| | | | |m]; try discriminate.
  destruct (io_flat (den_statements) m) as [[x|e]|] eqn:E; try discriminate.
  intros Q. injection Q as <-. change (g_list (g_from_iter x)) with x.
  destruct (io_flat_In _ _ _ E) as [I _]. rewrite I. clear I. split.
  - intros ([k v] & y & IK & F & IY). apply statements_spec in F as (s & preds & SK & -> & F).
    destruct (io_flat_In _ _ _ F) as [I _]. apply I in IY as ([p w] & z & IP & G & IZ). clear I.
    apply predicate_spec in G as (i & es & PI & -> & G).
    destruct (io_flat_In _ _ _ G) as [I _]. apply I in IZ as (e & u & IE & H & IU). clear I.
    apply item_spec in H as (o & D & ->). destruct IU as [<-|[]].
    assert (HE : has_entry (JObject m) k p e) by (exists m, preds, es; auto).
    exists k, p, e. cbn [st_subject st_predicate st_object]. split; [exact HE|]. split; [exact SK|]. split; [exact PI|].
    apply den_object_spec; [|exact D]. intros m' ->. eapply W. exact HE.
  - intros (k & p & e & HE & SK & PI & D). pose proof HE as HE0. destruct HE as (subs & preds & es & Q & IK & IP & IE). injection Q as <-.
    destruct (io_flat_In _ _ _ E) as [_ T]. destruct (T _ IK) as (y & F). exists (k, JObject preds), y. split; [exact IK|]. split; [exact F|].
    apply statements_spec in F as (s & preds' & SK' & Q & F). injection Q as <-. pose proof (skey_functional _ _ _ SK SK') as <-.
    destruct (io_flat_In _ _ _ F) as [I T']. apply I. destruct (T' _ IP) as (z & G). exists (p, JArray es), z. split; [exact IP|]. split; [exact G|].
    apply predicate_spec in G as (i & es' & PI' & Q & G). injection Q as <-. rewrite PI in PI'. injection PI' as <-.
    destruct (io_flat_In _ _ _ G) as [I' T'']. apply I'. destruct (T'' _ IE) as (u & H). exists e, u. split; [exact IE|]. split; [exact H|].
    apply item_spec in H as (o & DO & ->). left. apply den_object_spec in D; [|intros m' ->; eapply W; exact HE0].
    rewrite D in DO. injection DO as <-. destruct st; reflexivity.
Qed.

Lemma c61_sensible doc : js_wf doc -> (exists g, read doc = io_ok g) <-> sensible iri_parse lang_parse label_ok gext printable doc.
Proof.
  intros W. rewrite read_den. split.
  - intros (g & R). destruct doc as [| | | | |m]; try discriminate.
    destruct (io_flat (den_statements) m) as [[x|e]|] eqn:E; try discriminate. clear R.
    exists m. split; [reflexivity|]. intros k v IK. destruct (io_flat_In _ _ _ E) as [_ T]. destruct (T _ IK) as (y & F).
    apply statements_spec in F as (s & preds & SK & -> & F). exists s, preds. split; [exact SK|]. split; [reflexivity|].
    intros p w IP. destruct (io_flat_In _ _ _ F) as [_ T']. destruct (T' _ IP) as (z & G).
    apply predicate_spec in G as (i & es & PI & -> & G). exists i, es. split; [exact PI|]. split; [reflexivity|].
    intros e IE. destruct (io_flat_In _ _ _ G) as [_ T'']. destruct (T'' _ IE) as (u & H). apply item_spec in H as (o & D & _).
    exists o. apply den_object_spec; [|exact D]. intros m' ->. eapply W. exists m, preds, es. eauto.
  - intros (m & -> & S). destruct (io_flat_total (den_statements) m) as (x & ->); [|eexists; reflexivity].
    intros [k v] IK. destruct (S k v IK) as (s & preds & SK & -> & SP). unfold den_statements. cbn [fst snd].
    apply subject_spec in SK. rewrite SK. cbn [io_bind io_ok]. apply io_flat_total. intros [p w] IP.
    destruct (SP p w IP) as (i & es & PI & -> & SE). unfold den_predicate. cbn [fst snd]. unfold js_iri. rewrite PI. cbn [io_bind io_ok].
    apply io_flat_total. intros e IE. destruct (SE e IE) as (o & D). unfold den_item.
    apply den_object_spec in D; [rewrite D; eexists; reflexivity|]. intros m' ->. eapply W. exists m, preds, es. eauto.
Qed.

Lemma den_object_panic m : den_object (JObject m) = Panic -> js_map m ->
  exists v, entry_value m $"type" $"bnode" /\ entry_value m $"value" v /\ forall w, ~ after_two_bytes v w.
Proof.
  intros P W. revert P. unfold den_object.
  destruct (js_get m OBJ_KEY_TYPE) as [[| | |t| |]|] eqn:T; try discriminate. apply (js_In_value m OBJ_KEY_TYPE t W) in T.
  destruct (str_eqb t OBJ_TYPE_LITERAL) eqn:TL.
  { destruct (js_get m OBJ_KEY_VALUE) as [[]|]; try discriminate;
    destruct (js_get m OBJ_KEY_LANG) as [[]|]; try discriminate;
      destruct (js_get m OBJ_KEY_DATATYPE) as [[]|]; try discriminate.
    - match goal with |- context[lang_parse ?l] => destruct (lang_parse l); discriminate end.
    - unfold js_iri. match goal with |- context[iri_parse ?l] => destruct (iri_parse l); discriminate end. }
  destruct (str_eqb t OBJ_TYPE_BNODE) eqn:TB.
  { apply str_eqb_eq in TB. subst t.
    destruct (js_get m OBJ_KEY_VALUE) as [[| | |v| |]|] eqn:V; try discriminate. apply (js_In_value m _ v W) in V.
    destruct (slice_from v 2) as [w|] eqn:S.
    - unfold js_blank. destruct (bn_from_str label_ok w); discriminate.
    - intros _. exists v. split; [exact T|]. split; [exact V|]. intros w A. apply slice_two in A. congruence. }
  destruct (str_eqb t OBJ_TYPE_URI) eqn:TU; [|discriminate].
  destruct (js_get m OBJ_KEY_VALUE) as [[]|]; try discriminate.
  unfold js_iri. match goal with |- context[iri_parse ?l] => destruct (iri_parse l); discriminate end.
Qed.
Lemma c61_panic doc : js_wf doc -> read doc = Panic ->
  exists k p m v, has_entry doc k p (JObject m) /\ entry_value m $"type" $"bnode" /\ entry_value m $"value" v /\
    forall w, ~ after_two_bytes v w.
Proof.
  intros W. rewrite read_den. destruct doc as [| | | | |m]; try discriminate.
  destruct (io_flat (den_statements) m) as [[x|e]|] eqn:E; try discriminate. intros _.
  apply io_flat_panic in E as ([k v] & IK & F). unfold den_statements in F. cbn [fst snd] in F. destruct v as [| | | | |preds]; try discriminate.
  destruct (js_subject iri_parse label_ok k) as [[s|e]|] eqn:SK; try discriminate.
  2:{ exfalso. unfold js_subject, js_blank, js_iri in SK. destruct (strip_prefix BNODE_PREFIX k) as [b|].
      - destruct (bn_from_str label_ok b); discriminate.
      - destruct (iri_parse k); discriminate. }
  cbn [io_bind] in F. apply io_flat_panic in F as ([p w] & IP & G). unfold den_predicate in G. cbn [fst snd] in G. destruct w as [| | | |es|]; try discriminate.
  unfold js_iri in G. destruct (iri_parse p) as [i|]; [|discriminate]. cbn [io_bind io_ok] in G.
  apply io_flat_panic in G as (e & IE & H). unfold den_item in H.
  destruct (den_object e) as [[o|?]|] eqn:D; try discriminate.
  destruct e as [| | | | |me]; try discriminate D.
  assert (HE : has_entry (JObject m) k p (JObject me)) by (exists m, preds, es; auto).
  destruct (den_object_panic me D (W _ _ _ HE)) as (v & A & B & C). exists k, p, me, v. auto.
Qed.
End Reading.

(** ** Writing *)
Lemma js_entry_ok m o : flat_object o -> js_entry m o = io_ok (entry_of m o).
Proof.
  destruct o as [b|i|l|items|st]; intros F; try destruct F; try reflexivity.
  unfold js_entry, entry_of. destruct (lit_language l), (lit_data_type l); reflexivity.
Qed.
Lemma js_entry_err m o : ~ flat_object o -> js_entry m o = io_err RdfStarNotSupported.
Proof. destruct o; cbn; intros F; try reflexivity; destruct (F I). Qed.
Lemma flat_object_dec o : flat_object o \/ ~ flat_object o.
Proof. destruct o; cbn; auto. Qed.
Definition flat_object_dec' o : {flat_object o} + {~ flat_object o}.
Proof. destruct o; cbn; auto. Defined.
Lemma Exists_not_Forall {A} (P : A -> Prop) l : Exists (fun x => ~ P x) l -> ~ Forall P l.
Proof. intros E F. rewrite Forall_forall in F. apply Exists_exists in E as (x & I & N). auto. Qed.
Lemma js_objects_spec m l : (Forall flat_object l -> js_objects m l = io_ok (map (entry_of m) l)) /\
  (~ Forall flat_object l -> js_objects m l = io_err RdfStarNotSupported).
Proof.
  induction l as [|o l [IH1 IH2]]; cbn [js_objects]; [split; [reflexivity|intros N; destruct N; constructor]|].
  destruct (flat_object_dec o) as [F|F]; [rewrite js_entry_ok by exact F|rewrite js_entry_err by exact F].
  - cbn [io_bind io_ok]. split.
    + intros G. inversion G; subst. rewrite IH1 by assumption. reflexivity.
    + intros G. rewrite IH2; [reflexivity|]. intros G'. apply G. constructor; auto.
  - split; [|reflexivity]. intros G. inversion G; contradiction.
Qed.

(** Inserting many. *)
Lemma fold_js_insert {A} (key : A -> str) (val : A -> json) l : forall acc, js_map acc ->
  (forall a b, In a l -> In b l -> key a = key b -> val a = val b) ->
  js_map (fold_left (fun m a => js_insert m (key a) (val a)) l acc) /\
  forall k v, In (k, v) (fold_left (fun m a => js_insert m (key a) (val a)) l acc) <->
    (exists a, In a l /\ k = key a /\ v = val a) \/ (In (k, v) acc /\ forall a, In a l -> k <> key a).
Proof.
  induction l as [|a l IH]; intros acc M H; cbn [fold_left].
  - split; [exact M|]. intros k v. split; [intros J; right; split; [exact J|intros ? []]|intros [(a & [] & _)|[J _]]; exact J].
  - destruct (IH (js_insert acc (key a) (val a)) (js_insert_map _ _ _ M)) as [A1 A2].
    { intros b c B C. apply H; right; assumption. }
    split; [exact A1|]. intros k v. rewrite A2, js_insert_In by exact M. split.
    + intros [(b & B & E)|[[[-> ->]|[J N]] K]].
      * left. exists b. split; [right; exact B|exact E].
      * left. exists a. split; [left; reflexivity|auto].
      * right. split; [exact J|]. intros b [<-|B]; auto.
    + intros [(b & [<-|B] & -> & ->)|[J K]].
      * destruct (in_dec str_eq_dec (key a) (map key l)) as [I|I].
        -- apply in_map_iff in I as (b & E & B). left. exists b. split; [exact B|]. split; [auto|].
           symmetry. apply H; [right; exact B|left; reflexivity|exact E].
        -- right. split; [left; auto|]. intros b B E. apply I. apply in_map_iff. exists b. auto.
      * left. exists b. auto.
      * right. split; [right; split; [exact J|apply K; left; reflexivity]|]. intros b B. apply K. right. exact B.
Qed.

Lemma js_predicates_ok m h g s l : forall acc,
  (forall p, In p l -> Forall flat_object (ord_objects h s p (g_objects_for g s p))) ->
  js_predicates m h g s acc l = io_ok (fold_left (fun mp p => js_insert mp (show_iri m p)
    (JArray (map (entry_of m) (ord_objects h s p (g_objects_for g s p))))) l acc).
Proof.
  induction l as [|p l IH]; intros acc F; cbn [js_predicates fold_left]; [reflexivity|].
  rewrite (proj1 (js_objects_spec m _)) by (apply F; left; reflexivity). cbn [io_bind io_ok]. apply IH. intros q Q. apply F. right. exact Q.
Qed.
Lemma js_predicates_err m h g s l : forall acc,
  (exists p, In p l /\ ~ Forall flat_object (ord_objects h s p (g_objects_for g s p))) ->
  js_predicates m h g s acc l = io_err RdfStarNotSupported.
Proof.
  induction l as [|p l IH]; intros acc (q & [] & N); cbn [js_predicates].
  - subst q. rewrite (proj2 (js_objects_spec m _)) by exact N. reflexivity.
  - destruct (Forall_Exists_dec flat_object flat_object_dec'
      (ord_objects h s p (g_objects_for g s p))) as [F|F].
    + rewrite (proj1 (js_objects_spec m _)) by exact F. cbn [io_bind io_ok]. apply IH. eauto.
    + rewrite (proj2 (js_objects_spec m _)) by (apply Exists_not_Forall; exact F). reflexivity.
Qed.
