(** Written lines are readable, and what they mean. *)
From Coq Require Import Lia ZArith.
From Verif Require Import NTriplesDocs GraphProofs SimplifyProofs DataSetProofs LiteralProofs TermProofs.
From Verif Require Export NTriplesWriteSpec.

(** ** The order of writing *)

Lemma NoDup_flat_map {A B} (f : A -> list B) (l : list A) : NoDup l -> (forall x, In x l -> NoDup (f x)) ->
  (forall x y z, In x l -> In y l -> In z (f x) -> In z (f y) -> x = y) -> NoDup (flat_map f l).
Proof.
  induction l as [|x l IH]; intros N F D; cbn; [constructor|]. inversion N; subst.
  assert (K : NoDup (flat_map f l)) by (apply IH; auto; [intros; apply F; right; auto|intros a b z; intros; eapply D; eauto; right; auto]).
  assert (Q : forall z, In z (f x) -> ~ In z (flat_map f l)).
  { intros z Z I. apply in_flat_map in I as (y & Y & I). assert (x = y) by (eapply D; eauto; [left; auto|right; auto]). congruence. }
  pose proof (F x (or_introl eq_refl)) as NF. clear - K Q NF. induction (f x) as [|z w IHw]; cbn; [exact K|].
  inversion NF; subst. constructor.
  - rewrite in_app_iff. intros [I|I]; [auto|]. apply (Q z); [left; reflexivity|exact I].
  - apply IHw; auto. intros y Y. apply Q. right; auto.
Qed.

Lemma perm_In {A} (a b : list A) x : Permutation a b -> In x a <-> In x b.
Proof. intros P. split; apply Permutation_in; [exact P|apply Permutation_sym; exact P]. Qed.
Lemma perm_NoDup {A} (a b : list A) : Permutation a b -> NoDup b -> NoDup a.
Proof. intros P. apply Permutation_NoDup, Permutation_sym, P. Qed.

Lemma write_order_In h g st : orders_ok h -> In st (write_order h g) <-> In st (g_list g).
Proof.
  intros (HS & HP & HO). unfold write_order. rewrite in_flat_map. split.
  - intros (s & S & I). apply in_flat_map in I as (p & P & I). apply in_map_iff in I as (o & <- & O).
    rewrite (perm_In _ _ _ (HO _ _ _)) in O. apply objects_for_spec in O. exact O.
  - intros I. destruct st as [s p o]. exists s. split.
    + rewrite (perm_In _ _ _ (HS _)). apply subjects_spec. eauto.
    + apply in_flat_map. exists p. split.
      * rewrite (perm_In _ _ _ (HP _ _)). apply predicates_for_spec. eauto.
      * apply in_map_iff. exists o. split; [reflexivity|]. rewrite (perm_In _ _ _ (HO _ _ _)). apply objects_for_spec. exact I.
Qed.
Lemma write_order_NoDup h g : orders_ok h -> NoDup (write_order h g).
Proof.
  intros (HS & HP & HO). unfold write_order. apply NoDup_flat_map.
  - eapply perm_NoDup; [apply HS|]. apply (projections_NoDup g (SBlank []) []).
  - intros s _. apply NoDup_flat_map.
    + eapply perm_NoDup; [apply HP|]. apply (projections_NoDup g s []).
    + intros p _. apply FinFun.Injective_map_NoDup; [intros a b E; congruence|].
      eapply perm_NoDup; [apply HO|]. apply (projections_NoDup g s p).
    + intros p q z _ _ I J. apply in_map_iff in I as (? & <- & _). apply in_map_iff in J as (? & E & _). congruence.
  - intros s t z _ _ I J. apply in_flat_map in I as (p & _ & I). apply in_flat_map in J as (q & _ & J).
    apply in_map_iff in I as (? & <- & _). apply in_map_iff in J as (? & E & _). congruence.
Qed.

(** Simplifying a flat graph changes nothing but the order. *)
Lemma chunks_flat_id l : forall n, Forall flat l -> chunks n l = (l, n).
Proof.
  induction l as [|[s p o] l IH]; intros n F; [reflexivity|]. inversion F as [|? ? [FS FO] FL]; subst. cbn [chunks].
  assert (E : simplify_statement n (MkStmt s p o) = ([MkStmt s p o], n)).
  { unfold simplify_statement. cbn [st_subject st_object] in *. destruct s; try discriminate FS; destruct o; try destruct FO; reflexivity. }
  rewrite E, (IH n FL). reflexivity.
Qed.
Lemma simplify_flat_list ho n g : hash_order ho -> Forall flat (g_list g) ->
  g_list (fst (g_simplify ho n g)) = g_iter ho g.
Proof.
  intros Ho F. rewrite simplify_chunks. cbn [fst]. unfold g_list at 1. cbn [g_statements].
  rewrite chunks_flat_id; [reflexivity|]. eapply Forall_perm; [|exact F]. apply Permutation_sym, g_iter_perm, Ho.
Qed.
Lemma simplify_name ho n g : g_name (fst (g_simplify ho n g)) = g_name g.
Proof. rewrite simplify_chunks. reflexivity. Qed.

(** ** Rendering *)
Section Write.
Variable iri_parse : str -> option str.
Variable lang_parse : str -> option str.
Variable label_ok : str -> bool.
Variable gext printable : chr -> bool.
Notation iri_w := (iri_writable iri_parse).
Notation label_w := (label_writable label_ok).
Notation stmt_w := (statement_writable iri_parse lang_parse label_ok).
Notation tri_mean := (triple_meaning iri_parse lang_parse label_ok gext printable).
Notation obj_mean := (object_meaning iri_parse lang_parse label_ok gext printable).
Notation quad_mean := (quad_meaning iri_parse lang_parse label_ok gext printable).
Notation rr := (reread gext printable).

Lemma plain_text t : pieces_text (map Plain t) = t.
Proof. induction t as [|c t IH]; [reflexivity|]. cbn. unfold pieces_text in IH. rewrite IH. reflexivity. Qed.
Lemma plain_pieces (ok : piece -> Prop) t : Forall (fun c => ok (Plain c)) t -> Forall ok (map Plain t).
Proof. induction 1; cbn; auto. Qed.
Lemma iri_mean_plain i : iri_w i -> iri_meaning iri_parse (map Plain i) = io_ok i.
Proof.
  intros [_ P]. unfold iri_meaning. replace (forallb denotes_char (map Plain i)) with true.
  - rewrite map_map. cbn. rewrite map_id, P. reflexivity.
  - symmetry. apply forallb_forall. intros x I. apply in_map_iff in I as (c & <- & _). reflexivity.
Qed.
Lemma iri_text i r : $"<" ++ pieces_text (map Plain i) ++ $">" ++ r = 60 :: i ++ 62 :: r.
Proof. rewrite plain_text. reflexivity. Qed.

(** Text at which a label, a number or a tag ends. *)
Lemma label_ends_space r : label_ends (32 :: r).
Proof. split; [reflexivity|]. intros; discriminate. Qed.

Lemma iri_node i r : iri_w i -> node_at (NIri (map Plain i)) (60 :: i ++ 62 :: r) r.
Proof. intros [F P]. rewrite <- iri_text. apply at_iri. apply plain_pieces. exact F. Qed.

Definition node_good {A} (iri blank : str -> A) (n : node_src) (a : A) : Prop :=
  node_meaning iri_parse label_ok iri blank n = io_ok a.

Lemma subject_node s r : subject_writable iri_parse label_ok s ->
  exists n, node_at n (subj_show Bare s ++ 32 :: r) (32 :: r) /\ node_good SRes SBlank n s.
Proof.
  destruct s as [b|i|t]; cbn [subject_writable subj_show]; intros W; [| |destruct W].
  - destruct W as [L B]. exists (NLabel b). split.
    + rewrite <- app_assoc. apply at_label; [exact L|apply label_ends_space].
    + unfold node_good. cbn. unfold blank_meaning. rewrite B. reflexivity.
  - exists (NIri (map Plain i)). split.
    + cbn [show_iri]. rewrite <- !app_assoc. apply iri_node. exact W.
    + unfold node_good. cbn [node_meaning]. rewrite iri_mean_plain by exact W. reflexivity.
Qed.
Lemma name_node n r : name_writable iri_parse label_ok n ->
  exists x, node_at x (gn_show Bare n ++ 32 :: r) (32 :: r) /\ node_good GnIri GnBlank x n.
Proof.
  destruct n as [b|i]; cbn [name_writable gn_show]; intros W.
  - destruct W as [L B]. exists (NLabel b). split.
    + rewrite <- app_assoc. apply at_label; [exact L|apply label_ends_space].
    + unfold node_good. cbn. unfold blank_meaning. rewrite B. reflexivity.
  - exists (NIri (map Plain i)). split.
    + cbn [show_iri]. rewrite <- !app_assoc. apply iri_node. exact W.
    + unfold node_good. cbn [node_meaning]. rewrite iri_mean_plain by exact W. reflexivity.
Qed.

Lemma quoted_object l r : string_text (lexical_form l) ->
  match lit_data_type l, lit_language l with
  | Some d, None => iri_w (dt_as_iri d)
  | None, Some t => tag_writable lang_parse t
  | _, _ => True
  end ->
  exists o, object_at o (lit_show_quoted Bare l ++ 32 :: r) (32 :: r) /\
    obj_mean o = io_ok (OLit (Lit (escape_string gext printable (lexical_form l))
      match lit_data_type l, lit_language l with Some d, None => Some (DtOther (dt_as_iri d)) | _, _ => None end
      match lit_data_type l, lit_language l with None, Some t => Some t | _, _ => None end)).
Proof.
  intros (ps & FP & T) W. unfold lit_show_quoted. rewrite T, <- !app_assoc.
  destruct (lit_data_type l) as [d|], (lit_language l) as [t|].
  - exists (OString ps NoSuffix). split; [apply at_string; [exact FP|]; apply at_none|reflexivity].
  - exists (OString ps (TypeSuffix (map Plain (dt_as_iri d)))). split.
    + apply at_string; [exact FP|]. eapply at_type with (s' := 60 :: dt_as_iri d ++ 62 :: 32 :: r).
      * apply plain_pieces. exact (proj1 W).
      * rewrite <- !app_assoc. apply gap_none.
      * rewrite iri_text. apply gap_none.
    + cbn [object_meaning suffix_meaning]. rewrite iri_mean_plain by exact W. reflexivity.
  - destruct W as [(w & ws & N & A & F & ->) P]. exists (OString ps (LangSuffix w ws)). split.
    + apply at_string; [exact FP|]. apply at_lang; auto. rewrite <- !app_assoc. apply gap_none.
    + cbn [object_meaning suffix_meaning]. rewrite P. reflexivity.
  - exists (OString ps NoSuffix). split; [apply at_string; [exact FP|]; apply at_none|reflexivity].
Qed.

Lemma object_rendered force o r : object_writable iri_parse lang_parse label_ok force o ->
  exists x, object_at x (obj_show Bare force o ++ 32 :: r) (32 :: r) /\
    obj_mean x = io_ok match o with OLit l => reread_literal gext printable l | o => o end.
Proof.
  destruct o as [b|i|l|items|t]; cbn [object_writable obj_show]; intros W; try destruct W as [].
  - exists (ONode (NLabel b)). split.
    + apply at_node. rewrite <- app_assoc. apply at_label; [assumption|apply label_ends_space].
    + cbn. unfold blank_meaning. rewrite H0. reflexivity.
  - exists (ONode (NIri (map Plain i))). split.
    + apply at_node. cbn [show_iri]. rewrite <- !app_assoc. apply iri_node. split; assumption.
    + cbn [object_meaning node_meaning]. rewrite iri_mean_plain by (split; assumption). reflexivity.
  - unfold literal_writable in W. unfold reread_literal, lit_show.
    destruct (lit_data_type l) as [d|] eqn:D.
    + assert (C : d = DtIri \/ d <> DtIri) by (destruct d; (left; reflexivity) || (right; discriminate)).
      destruct C as [->|C].
      * exists (ONode (NIri (map Plain (lexical_form l)))). split.
        -- apply at_node. rewrite <- !app_assoc. apply iri_node. exact W.
        -- cbn [object_meaning node_meaning]. rewrite iri_mean_plain by exact W. reflexivity.
      * assert (W' : string_text (lexical_form l) /\ (bare_type d = true -> force = true) /\
          (lit_language l = None -> iri_w (dt_as_iri d))) by (destruct d; try exact W; destruct (C eq_refl)). clear W.
        destruct W' as (T & B & DI).
        destruct (quoted_object l r T) as (x & A & M).
        { rewrite D. destruct (lit_language l); [exact I|apply DI; reflexivity]. }
        exists x. split.
        -- replace (match d with DtIri => _ | _ => _ end) with (lit_show_quoted Bare l); [exact A|].
           destruct (bare_type d) eqn:BT.
           ++ rewrite (B eq_refl). destruct d; try discriminate BT; reflexivity.
           ++ destruct d; try reflexivity; try discriminate BT. destruct (C eq_refl).
        -- rewrite M, D. destruct (lit_language l), d; try reflexivity; destruct (C eq_refl).
    + destruct W as [T LW]. destruct (quoted_object l r T) as (x & A & M).
      { rewrite D. destruct (lit_language l); [exact LW|exact I]. }
      exists x. split; [exact A|]. rewrite M, D. destruct (lit_language l); reflexivity.
Qed.

(** Subject, predicate and object of a line. *)
Definition spo_text (m : iri_mode) (force : bool) (st : statement) : str :=
  subj_show m (st_subject st) ++ $" <" ++ show_iri m (st_predicate st) ++ $"> " ++ obj_show m force (st_object st).
Lemma spo_rendered force st r : stmt_w force st ->
  exists x, spo_at x (spo_text Bare force st ++ 32 :: r) (32 :: r) /\ tri_mean x = io_ok (rr st).
Proof.
  destruct st as [s p o]. intros (WS & WP & WO). cbn [st_subject st_predicate st_object] in *.
  destruct (object_rendered force o r WO) as (x & OA & OM).
  destruct (subject_node s (60 :: p ++ 62 :: 32 :: obj_show Bare force o ++ 32 :: r) WS) as (n & NA & NM).
  exists (TripleSrc n (map Plain p) x). split.
  - unfold spo_text. cbn [st_subject st_predicate st_object show_iri]. rewrite <- !app_assoc.
    eapply at_spo; [exact NA| | | |exact OA].
    + apply plain_pieces. exact (proj1 WP).
    + apply gap_white; [cbn; auto|]. rewrite iri_text. apply gap_none.
    + apply gap_white; [cbn; auto|]. apply gap_none.
  - unfold triple_meaning. cbn [src_s src_p src_o]. unfold node_good in NM. rewrite NM. cbn [io_bind io_ok].
    rewrite iri_mean_plain by exact WP. cbn [io_bind io_ok]. rewrite OM. destruct o; reflexivity.
Qed.

Lemma nt_line_text m force st : nt_line m force st = spo_text m force st ++ $" ." ++ [10].
Proof. unfold nt_line, spo_text. rewrite <- !app_assoc. reflexivity. Qed.
Lemma nq_line_text m name st : nq_line m name st
  = spo_text m false st ++ match name with Some n => $" " ++ gn_show m n | None => [] end ++ $" ." ++ [10].
Proof. unfold nq_line, spo_text. rewrite <- !app_assoc. reflexivity. Qed.

Lemma line_rendered force st r : stmt_w force st ->
  exists x, triple_at x (nt_line Bare force st ++ r) (10 :: r) /\ tri_mean x = io_ok (rr st).
Proof.
  intros W. destruct (spo_rendered force st (46 :: 10 :: r) W) as (x & A & M). exists x. split; [|exact M].
  rewrite nt_line_text, <- !app_assoc. eapply at_triple; [exact A|]. apply gap_white; [cbn; auto|apply gap_none].
Qed.
Lemma quad_rendered n st r : stmt_w false st -> name_writable iri_parse label_ok n ->
  exists x, quad_at x (nq_line Bare (Some n) st ++ r) (10 :: r) /\ quad_mean x = io_ok (n, rr st).
Proof.
  intros W NW. destruct (name_node n (46 :: 10 :: r) NW) as (y & NA & NM).
  destruct (spo_rendered false st (gn_show Bare n ++ 32 :: 46 :: 10 :: r) W) as (x & A & M).
  exists (QuadSrc x (Some y)). split.
  - rewrite nq_line_text, <- !app_assoc. eapply at_quad; [exact A| |exact NA|].
    + apply gap_white; [cbn; auto|apply gap_none].
    + apply gap_white; [cbn; auto|apply gap_none].
  - unfold quad_meaning. cbn [src_t src_g]. rewrite M. cbn [io_bind io_ok]. unfold node_good in NM. rewrite NM. reflexivity.
Qed.
Lemma default_quad_rendered st r : stmt_w false st ->
  exists x, quad_at x (nq_line Bare None st ++ r) (10 :: r) /\ quad_mean x = io_err ParserUnexpected.
Proof.
  intros W. destruct (line_rendered false st r W) as (x & A & M). exists (QuadSrc x None). split.
  - apply at_quad_default. rewrite nt_line_text in A. rewrite nq_line_text. exact A.
  - unfold quad_meaning. cbn [src_t src_g]. rewrite M. reflexivity.
Qed.

(** ** Documents *)
Lemma lines_doc {A B} (item_at : A -> str -> str -> Prop) (line : B -> str) {C} (mean : A -> io C) (res : B -> io C) l :
  (forall b r, In b l -> exists x, item_at x (line b ++ r) (10 :: r) /\ mean x = res b) ->
  exists w, items_at item_at w (flat_map line l) /\ io_all (map mean w) = io_all (map res l).
Proof.
  induction l as [|b l IH]; intros H.
  - exists []. split; [constructor|reflexivity].
  - destruct IH as (w & I & M); [intros; apply H; right; auto|].
    destruct (H b (flat_map line l)) as (x & X & MX); [left; reflexivity|].
    exists (x :: w). split.
    + cbn [flat_map]. eapply at_item; [exact X| |exact I]. apply gap_white; [cbn; auto|apply gap_none].
    + cbn [map io_all]. rewrite MX, M. reflexivity.
Qed.
Lemma io_all_ok {A B} (f : A -> B) l : io_all (map (fun a => io_ok (f a)) l) = io_ok (map f l).
Proof. induction l as [|a l IH]; [reflexivity|]. cbn [map io_all]. rewrite IH. reflexivity. Qed.
Lemma io_all_err {A B} (res : A -> io B) e l : (forall a, In a l -> (exists b, res a = io_ok b) \/ res a = io_err e) ->
  (exists a, In a l /\ res a = io_err e) -> io_all (map res l) = io_err e.
Proof.
  induction l as [|x l IH]; intros H (a & I & E); [destruct I|]. cbn [map io_all].
  destruct (H x (or_introl eq_refl)) as [[b B']|X].
  - rewrite B'. cbn [io_bind io_ok]. rewrite IH; [reflexivity|intros; apply H; right; auto|].
    destruct I as [->|I]; [rewrite B' in E; discriminate|eauto].
  - rewrite X. reflexivity.
Qed.
Notation read_nt := (nt_read iri_parse lang_parse label_ok gext printable).
Notation read_nq := (nq_read iri_parse lang_parse label_ok gext printable).

Lemma nt_lines_read force l : Forall (stmt_w force) l ->
  read_nt (flat_map (nt_line Bare force) l) = io_ok (g_from_iter (map rr l)).
Proof.
  intros F. rewrite Forall_forall in F.
  destruct (lines_doc triple_at (nt_line Bare force) tri_mean (fun st => io_ok (rr st)) l) as (w & I & M).
  { intros b r B. apply line_rendered. apply F. exact B. }
  rewrite io_all_ok in M.
  rewrite (nt_reads iri_parse lang_parse label_ok gext printable w).
  - unfold triples_meaning. rewrite M. reflexivity.
  - eexists. split; [apply gap_none|exact I].
Qed.

Lemma writable_flat force st : stmt_w force st -> flat st.
Proof.
  destruct st as [s p o]. intros (S & _ & O). cbn in *. split; cbn.
  - destruct s; [reflexivity|reflexivity|destruct S].
  - destruct o; cbn; auto.
Qed.

Lemma from_iter_list l : g_list (g_from_iter l) = l.
Proof. reflexivity. Qed.
Lemma from_iter_name l : g_name (g_from_iter l) = None.
Proof. reflexivity. Qed.

(** Exactly what comes back, for any graph whose simplification is writable. *)
Lemma nt_back force h ho n g : orders_ok h ->
  Forall (stmt_w force) (g_list (fst (g_simplify ho n g))) ->
  exists g', read_nt (nt_write Bare force h ho n g) = io_ok g' /\ g_name g' = None /\
    (exists l, g_list g' = map rr l /\ NoDup l /\
       forall st, In st l <-> In st (g_list (fst (g_simplify ho n g)))).
Proof.
  intros H F. unfold nt_write. eexists. split; [|split].
  - apply nt_lines_read. rewrite Forall_forall in *. intros st I. apply F. eapply write_order_In; eauto.
  - reflexivity.
  - exists (write_order h (fst (g_simplify ho n g))). split; [reflexivity|].
    split; [apply write_order_NoDup; exact H|]. intros st. apply write_order_In. exact H.
Qed.

Lemma escape_itself t : Forall (prints_as_itself gext printable) t -> escape_string gext printable t = t.
Proof. intros F. apply escape_id_iff. exact F. Qed.
Lemma stable_reread st : stable gext printable st -> rr st = st.
Proof.
  destruct st as [s p o]. unfold stable, reread. cbn [st_subject st_predicate st_object].
  destruct o as [b|i|l|items|t]; try reflexivity. unfold stable_literal, reread_literal. intros [F D].
  rewrite (escape_itself _ F). destruct l as [lex d t]. cbn [lexical_form lit_data_type lit_language] in *.
  destruct d as [d|]; [|reflexivity]. destruct d; try destruct D; destruct t; (reflexivity || destruct D).
Qed.
Lemma map_stable l : Forall (stable gext printable) l -> map rr l = l.
Proof. induction 1 as [|x l S F IH]; [reflexivity|]. cbn. rewrite (stable_reread _ S), IH. reflexivity. Qed.

Lemma nt_round_trip force h ho n g : orders_ok h -> hash_order ho ->
  Forall (stmt_w force) (g_list g) -> Forall (stable gext printable) (g_list g) ->
  exists g', read_nt (nt_write Bare force h ho n g) = io_ok g' /\ g_name g' = None /\
    NoDup (g_list g') /\ forall st, In st (g_list g') <-> In st (g_list g).
Proof.
  intros H Ho W S.
  assert (F : Forall flat (g_list g)) by (eapply Forall_impl; [|exact W]; intros st; apply writable_flat).
  pose proof (simplify_flat_list ho n g Ho F) as E.
  assert (Q : forall x, In x (g_list (fst (g_simplify ho n g))) <-> In x (g_list g)).
  { intros x. rewrite E. apply g_iter_In. exact Ho. }
  destruct (nt_back force h ho n g H) as (g' & R & N & l & L & ND & I).
  { rewrite Forall_forall in *. intros x X. apply W. apply Q. exact X. }
  assert (L' : g_list g' = l).
  { rewrite L. apply map_stable. rewrite Forall_forall in *. intros x X. apply S, Q, I, X. }
  exists g'. split; [exact R|]. split; [exact N|]. rewrite L'. split; [exact ND|].
  intros st. rewrite I. apply Q.
Qed.

(** ** Quads *)
Lemma put_all_app l : forall d q, put_all d (l ++ [q]) = nq_put (put_all d l) (Some (fst q)) (snd q).
Proof. induction l as [|[n st] l IH]; intros d [m s]; [reflexivity|]. cbn [app put_all]. apply IH. Qed.

Lemma of_graph_app n l q : of_graph n (l ++ [q]) = of_graph n l ++ (if gn_eqb (fst q) n then [snd q] else []).
Proof. unfold of_graph. rewrite filter_app, map_app. cbn. destruct (gn_eqb (fst q) n); reflexivity. Qed.

Lemma nq_put_get d n st k : ds_graph (nq_put d (Some n) st) k =
  if key_eqb (Some n) k
  then Some (g_insert match ds_graph d (Some n) with Some g => g | None => g_named n end st)
  else ds_graph d k.
Proof.
  unfold nq_put. destruct (ds_graph d (Some n)) as [g|] eqn:E; unfold ds_graph in *.
  - rewrite ds_graph_mut_get, E. reflexivity.
  - rewrite ds_graph_mut_get. unfold ds_insert. rewrite !hm_insert_get.
    change (g_name (g_named n)) with (Some n). rewrite key_eqb_refl. cbn [option_map].
    destruct (key_eqb (Some n) k); reflexivity.
Qed.

Lemma put_all_holds l : holds_quads (put_all [] l) l.
Proof.
  induction l as [|q l IH] using rev_ind; [split; [reflexivity|intros; reflexivity]|].
  destruct IH as [D K]. rewrite put_all_app. split.
  - rewrite nq_put_get. exact D.
  - intros n. rewrite nq_put_get, of_graph_app. cbn [key_eqb]. destruct (gn_eqb (fst q) n) eqn:E.
    + apply gn_eqb_eq in E. subst n. rewrite (K (fst q)). destruct (of_graph (fst q) l) as [|x w]; reflexivity.
    + rewrite app_nil_r. apply K.
Qed.

(** The quads a list of graphs is written as. *)
Definition quad_line (q : option graph_name * statement) : str := nq_line Bare (fst q) (snd q).
Fixpoint quads_of (h : graph -> orders) (ho : graph -> list statement -> list statement) (n : N) (l : list graph)
  : list (option graph_name * statement) :=
  match l with
  | [] => []
  | g :: r =>
      map (fun st => (g_name g, st)) (write_order (h g) (fst (g_simplify (ho g) n g)))
      ++ quads_of h ho (snd (g_simplify (ho g) n g)) r
  end.
Lemma flat_map_map {A B C} (f : B -> list C) (g : A -> B) l : flat_map f (map g l) = flat_map (fun a => f (g a)) l.
Proof. induction l; cbn; congruence. Qed.
Lemma write_all_lines h ho l : forall n, nq_write_all Bare h ho n l = flat_map quad_line (quads_of h ho n l).
Proof.
  induction l as [|g l IH]; intros n; [reflexivity|]. cbn [nq_write_all quads_of].
  rewrite flat_map_app, flat_map_map, <- IH. unfold nq_write. rewrite simplify_name. reflexivity.
Qed.
Lemma quads_of_In h ho l : (forall g, orders_ok (h g)) -> (forall g, hash_order (ho g)) ->
  Forall (fun g => Forall flat (g_list g)) l -> forall n k st,
  In (k, st) (quads_of h ho n l) <-> exists g, In g l /\ g_name g = k /\ In st (g_list g).
Proof.
  intros H Ho F. induction F as [|g l FG F IH]; intros n k st; cbn [quads_of].
  - cbn. split; [tauto|]. intros (? & [] & _).
  - rewrite in_app_iff, IH, in_map_iff. split.
    + intros [(x & E & I)|(g' & I & K)]; [|exists g'; cbn; tauto]. injection E as <- <-.
      apply write_order_In in I; [|apply H]. rewrite simplify_flat_list in I by auto.
      apply g_iter_In in I; [|apply Ho]. exists g. cbn. auto.
    + intros (g' & [->|I] & <- & S); [left|right; eauto]. exists st. split; [reflexivity|].
      apply write_order_In; [apply H|]. rewrite simplify_flat_list by auto. apply g_iter_In; auto.
Qed.
Lemma quads_of_NoDup h ho l : (forall g, orders_ok (h g)) -> (forall g, hash_order (ho g)) ->
  Forall (fun g => Forall flat (g_list g)) l -> NoDup (map g_name l) -> forall n, NoDup (quads_of h ho n l).
Proof.
  intros H Ho F. induction F as [|g l FG F IH]; intros N n; cbn [quads_of]; [constructor|].
  cbn in N. inversion N as [|? ? NI NL]; subst. specialize (IH NL (snd (g_simplify (ho g) n g))).
  assert (D : forall q, In q (map (fun st => (g_name g, st)) (write_order (h g) (fst (g_simplify (ho g) n g)))) ->
    ~ In q (quads_of h ho (snd (g_simplify (ho g) n g)) l)).
  { intros q I J. apply in_map_iff in I as (st & <- & _). apply quads_of_In in J as (g' & J & E & _); auto.
    apply NI. rewrite <- E. apply in_map. exact J. }
  assert (NM : NoDup (map (fun st => (g_name g, st)) (write_order (h g) (fst (g_simplify (ho g) n g))))).
  { apply FinFun.Injective_map_NoDup; [intros a b E; congruence|]. apply write_order_NoDup. apply H. }
  revert NM D. generalize (map (fun st => (g_name g, st)) (write_order (h g) (fst (g_simplify (ho g) n g)))) as w.
  induction w as [|x w IHw]; cbn; intros NM D; [exact IH|]. inversion NM; subst. constructor.
  - rewrite in_app_iff. intros [I|I]; [auto|]. apply (D x); auto.
  - apply IHw; auto.
Qed.

Definition quad_result (q : option graph_name * statement) : io (graph_name * statement) :=
  match fst q with Some n => io_ok (n, rr (snd q)) | None => io_err ParserUnexpected end.
Lemma nq_lines_read l :
  Forall (fun q => stmt_w false (snd q) /\ match fst q with Some n => name_writable iri_parse label_ok n | None => True end) l ->
  read_nq (flat_map quad_line l) = let? w := io_all (map quad_result l) in io_ok (put_all [] w).
Proof.
  intros F. rewrite Forall_forall in F.
  destruct (lines_doc quad_at quad_line quad_mean quad_result l) as (w & I & M).
  { intros [[n|] st] r B; destruct (F _ B) as [S NW]; unfold quad_line, quad_result; cbn [fst snd] in *.
    - apply quad_rendered; assumption.
    - apply default_quad_rendered. assumption. }
  rewrite (nq_reads iri_parse lang_parse label_ok gext printable w).
  - rewrite M. reflexivity.
  - eexists. split; [apply gap_none|exact I].
Qed.

Lemma of_graph_In n l st : In st (of_graph n l) <-> In (n, st) l.
Proof.
  unfold of_graph. rewrite in_map_iff. split.
  - intros ([m s] & <- & I). apply filter_In in I as [I E]. apply gn_eqb_eq in E. cbn in *. subst. exact I.
  - intros I. exists (n, st). split; [reflexivity|]. apply filter_In. split; [exact I|]. apply gn_eqb_eq. reflexivity.
Qed.
Lemma of_graph_NoDup n l : NoDup l -> NoDup (of_graph n l).
Proof.
  intros N. unfold of_graph. induction N as [|[m s] l NI N IH]; [constructor|]. cbn.
  destruct (gn_eqb m n) eqn:E; [|exact IH]. cbn. constructor; [|exact IH]. apply gn_eqb_eq in E. subst m.
  intros I. apply NI. apply (proj1 (of_graph_In n l s)). exact I.
Qed.

(** What the reader makes of quads that all have a name. *)
Lemma holds_statements d l : holds_quads d l -> forall k,
  (forall g', ds_graph d k = Some g' -> g_name g' = k) /\
  (forall st, In st (ds_statements d k) <-> exists n, k = Some n /\ In (n, st) l) /\
  (NoDup l -> NoDup (ds_statements d k)) /\
  (ds_graph d k = None <-> ds_statements d k = []).
Proof.
  intros [D K] k. unfold ds_statements. destruct k as [n|].
  - rewrite (K n). pose proof (fun st => of_graph_In n l st) as I. pose proof (of_graph_NoDup n l) as ND.
    destruct (of_graph n l) as [|x w].
    + split; [discriminate|]. split; [|split; [constructor|tauto]]. intros st. split; [intros []|].
      intros (m & E & J). injection E as <-. apply (I st) in J. destruct J.
    + split; [intros g' E; injection E as <-; reflexivity|]. split.
      * intros st. change (g_list _) with (x :: w). rewrite (I st). split; [eauto|]. intros (m & E & J). injection E as <-. exact J.
      * split; [exact ND|]. split; discriminate.
  - rewrite D. split; [discriminate|]. split; [|split; [constructor|tauto]].
    intros st. cbn. split; [tauto|]. intros (m & E & _). discriminate.
Qed.

Lemma ds_graphs_In hd d g : (forall l, Permutation (hd l) l) -> NoDup (map fst d) ->
  (In g (ds_graphs hd d) <-> exists k, ds_graph d k = Some g).
Proof.
  intros P N. unfold ds_graphs. rewrite (perm_In _ _ _ (P _)), in_map_iff. split.
  - intros ([k g'] & <- & I). exists k. apply hm_get_In; auto.
  - intros (k & E). exists (k, g). split; [reflexivity|]. apply hm_get_In; auto.
Qed.
Lemma ds_graphs_names hd d : (forall l, Permutation (hd l) l) -> NoDup (map fst d) ->
  (forall k g, ds_graph d k = Some g -> g_name g = k) -> NoDup (map g_name (ds_graphs hd d)).
Proof.
  intros P N K. eapply perm_NoDup; [apply Permutation_map, P|]. rewrite map_map.
  replace (map (fun x => g_name (snd x)) d) with (map fst d); [exact N|].
  apply map_ext_in. intros [k g] I. symmetry. apply K. apply hm_get_In; auto.
Qed.

Lemma nq_quads_of h ho hd n d : (forall g, orders_ok (h g)) -> (forall g, hash_order (ho g)) ->
  (forall l, Permutation (hd l) l) -> ds_writable iri_parse lang_parse label_ok d ->
  let l := quads_of h ho n (ds_graphs hd d) in
  read_nq (nq_write_dataset Bare h ho hd n d) = (let? w := io_all (map quad_result l) in io_ok (put_all [] w)) /\
  NoDup l /\ forall k st, In (k, st) l <-> In st (ds_statements d k).
Proof.
  intros H Ho P (N & W). cbv zeta.
  assert (F : Forall (fun g => Forall flat (g_list g)) (ds_graphs hd d)).
  { rewrite Forall_forall. intros g I. apply ds_graphs_In in I as (k & E); auto.
    apply W in E as (_ & E & _). eapply Forall_impl; [|exact E]. intros st. apply writable_flat. }
  assert (I : forall k st, In (k, st) (quads_of h ho n (ds_graphs hd d)) <-> In st (ds_statements d k)).
  { intros k st. rewrite quads_of_In by auto. unfold ds_statements. split.
    - intros (g & G & E & S). apply ds_graphs_In in G as (k' & G); auto. destruct (W _ _ G) as (E' & _). rewrite E' in E. subst k'.
      rewrite G. exact S.
    - destruct (ds_graph d k) as [g|] eqn:G; [|intros []]. intros S. exists g. split; [apply ds_graphs_In; eauto|].
      split; [apply (W _ _ G)|exact S]. }
  split; [|split; [|exact I]].
  - unfold nq_write_dataset. rewrite write_all_lines. apply nq_lines_read. rewrite Forall_forall. intros [k st] Q.
    apply I in Q. unfold ds_statements in Q. destruct (ds_graph d k) as [g|] eqn:G; [|destruct Q].
    destruct (W _ _ G) as (_ & S & NW). rewrite Forall_forall in S. split; [apply S; exact Q|exact NW].
  - apply quads_of_NoDup; auto. apply ds_graphs_names; auto. intros k g G. apply (W _ _ G).
Qed.

Lemma io_all_quads l : (forall k st, In (k, st) l -> k <> None) ->
  exists w, io_all (map quad_result l) = io_ok w /\ (forall n st, In (n, st) w <-> exists st0, In (Some n, st0) l /\ st = rr st0) /\
   ((forall k st, In (k, st) l -> stable gext printable st) -> NoDup l -> NoDup w).
Proof.
  induction l as [|[[n|] st] l IH]; intros H.
  - exists []. split; [reflexivity|]. split; [|intros; constructor]. cbn. intros. split; [tauto|]. intros (? & [] & _).
  - destruct IH as (w & E & I & ND); [intros k s J; apply (H k s); right; exact J|].
    exists ((n, rr st) :: w). split; [|split].
    + cbn [map io_all]. unfold quad_result at 1. cbn [fst snd io_bind io_ok]. rewrite E. reflexivity.
    + intros m s. cbn [In]. rewrite (I m s). split.
      * intros [Q|(s0 & J & ->)]; [injection Q as <- <-; exists st; auto|exists s0; auto].
      * intros (s0 & [Q|J] & ->); [injection Q as <- <-; auto|right; eauto].
    + intros S N. inversion N as [|? ? NI NL]; subst. constructor.
      * rewrite (I n (rr st)). intros (s0 & J & E2). apply NI.
        rewrite (stable_reread st) in E2 by (apply (S (Some n)); left; reflexivity).
        rewrite (stable_reread s0) in E2 by (apply (S (Some n)); right; exact J). subst s0. exact J.
      * apply ND; [intros k s J; apply (S k s); right; exact J|exact NL].
  - destruct (H None st); [left; reflexivity|reflexivity].
Qed.

Lemma nq_back h ho hd n d : (forall g, orders_ok (h g)) -> (forall g, hash_order (ho g)) ->
  (forall l, Permutation (hd l) l) -> ds_writable iri_parse lang_parse label_ok d -> ds_statements d None = [] ->
  exists d', read_nq (nq_write_dataset Bare h ho hd n d) = io_ok d' /\ forall k,
    (forall g', ds_graph d' k = Some g' -> g_name g' = k) /\
    (forall st, In st (ds_statements d' k) <-> exists st0, In st0 (ds_statements d k) /\ st = rr st0) /\
    (ds_graph d' k = None <-> ds_statements d k = []) /\
    ((forall k, Forall (stable gext printable) (ds_statements d k)) -> NoDup (ds_statements d' k)).
Proof.
  intros H Ho P W D. destruct (nq_quads_of h ho hd n d H Ho P W) as (R & ND & I). cbv zeta in *.
  set (l := quads_of h ho n (ds_graphs hd d)) in *.
  destruct (io_all_quads l) as (w & E & IW & NW).
  { intros k st J K. subst k. apply I in J. rewrite D in J. destruct J. }
  rewrite E in R. exists (put_all [] w). split; [exact R|]. intros k.
  destruct (holds_statements (put_all [] w) w (put_all_holds w) k) as (A & B & C & DD).
  assert (B' : forall st, In st (ds_statements (put_all [] w) k) <-> exists st0, In st0 (ds_statements d k) /\ st = rr st0).
  { intros st. rewrite B. split.
    - intros (m & -> & J). apply IW in J as (s0 & J & ->). exists s0. split; [apply I; exact J|reflexivity].
    - intros (s0 & J & ->). destruct k as [m|]; [|rewrite D in J; destruct J]. exists m. split; [reflexivity|].
      apply IW. exists s0. split; [apply I; exact J|reflexivity]. }
  split; [exact A|]. split; [exact B'|]. split.
  - rewrite DD. split; intros Z.
    + destruct (ds_statements d k) as [|x r]; [reflexivity|].
      assert (Q : In (rr x) (ds_statements (put_all [] w) k)) by (apply B'; exists x; split; [left; reflexivity|reflexivity]).
      rewrite Z in Q. destruct Q.
    + destruct (ds_statements (put_all [] w) k) as [|x r]; [reflexivity|].
      destruct (proj1 (B' x)) as (s0 & J & _); [left; reflexivity|]. rewrite Z in J. destruct J.
  - intros S. apply C. apply NW; [|exact ND]. intros k' st J. apply I in J. specialize (S k'). rewrite Forall_forall in S. auto.
Qed.

Lemma nq_round_trip h ho hd n d : (forall g, orders_ok (h g)) -> (forall g, hash_order (ho g)) ->
  (forall l, Permutation (hd l) l) -> ds_writable iri_parse lang_parse label_ok d -> ds_statements d None = [] ->
  (forall k, Forall (stable gext printable) (ds_statements d k)) ->
  exists d', read_nq (nq_write_dataset Bare h ho hd n d) = io_ok d' /\ forall k,
    (forall g', ds_graph d' k = Some g' -> g_name g' = k) /\
    NoDup (ds_statements d' k) /\
    (forall st, In st (ds_statements d' k) <-> In st (ds_statements d k)) /\
    (ds_graph d' k = None <-> ds_statements d k = []).
Proof.
  intros H Ho P W D S. destruct (nq_back h ho hd n d H Ho P W D) as (d' & R & K). exists d'. split; [exact R|].
  intros k. destruct (K k) as (A & B & C & N). split; [exact A|]. split; [apply N; exact S|]. split; [|exact C].
  intros st. rewrite B. specialize (S k). rewrite Forall_forall in S. split.
  - intros (s0 & I & ->). rewrite stable_reread; auto.
  - intros I. exists st. split; [exact I|]. symmetry. apply stable_reread. auto.
Qed.

(** The default graph cannot be read. *)
Lemma nq_default_fails h ho hd n d : (forall g, orders_ok (h g)) -> (forall g, hash_order (ho g)) ->
  (forall l, Permutation (hd l) l) -> ds_writable iri_parse lang_parse label_ok d -> ds_statements d None <> [] ->
  read_nq (nq_write_dataset Bare h ho hd n d) = Ret (Err ParserUnexpected).
Proof.
  intros H Ho P W D. destruct (nq_quads_of h ho hd n d H Ho P W) as (R & ND & I). cbv zeta in *. rewrite R.
  rewrite (io_all_err quad_result ParserUnexpected); [reflexivity| |].
  - intros [[m|] st] _; unfold quad_result; cbn [fst snd]; eauto.
  - destruct (ds_statements d None) as [|st r] eqn:E; [congruence|]. exists (None, st). split; [|reflexivity].
    apply I. rewrite E. left. reflexivity.
Qed.
End Write.
