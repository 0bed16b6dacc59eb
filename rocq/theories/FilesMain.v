From Verif Require Import FilesSpec FilesProofs FilesCut StrFacts PestFacts NTriplesProofs NTriplesRead NTriplesDocs NTriplesWrite NTriplesMain.
From Coq Require Import Lia.

Section Main.
Variable iri_parse : str -> option str.
Variable lang_parse : str -> option str.
Variable label_ok : str -> bool.
Variable gext printable : chr -> bool.
Notation stmt_w := (statement_writable iri_parse lang_parse label_ok).
Notation tri_mean := (triple_meaning iri_parse lang_parse label_ok gext printable).
Notation quad_mean := (quad_meaning iri_parse lang_parse label_ok gext printable).
Notation rr := (reread gext printable).
Notation read_nt := (nt_read iri_parse lang_parse label_ok gext printable).
Notation read_nq := (nq_read iri_parse lang_parse label_ok gext printable).
Notation from_nt := (nt_read_from iri_parse lang_parse label_ok gext printable).
Notation from_nq := (nq_read_from iri_parse lang_parse label_ok gext printable).
Notation result_of := (quad_result gext printable).

(** ** The last line without its line feed *)
Lemma lines_doc_last {A B} (item_at : A -> str -> str -> Prop) (line : B -> str) {C} (mean : A -> io C) (res : B -> io C) l b x0 body :
  (forall b r, In b l -> exists x, item_at x (line b ++ r) (10 :: r) /\ mean x = res b) ->
  item_at x0 body [] -> mean x0 = res b ->
  exists w, items_at item_at w (flat_map line l ++ body) /\ io_all (map mean w) = io_all (map res (l ++ [b])).
Proof.
  intros H A0 M0. induction l as [|c l IH].
  - exists [x0]. split; [eapply at_item; [exact A0|apply gap_none|constructor]|]. cbn [app map io_all]. rewrite M0. reflexivity.
  - destruct IH as (w & I & M); [intros; apply H; right; auto|].
    destruct (H c (flat_map line l ++ body)) as (x & X & MX); [left; reflexivity|].
    exists (x :: w). split.
    + cbn [flat_map]. rewrite <- app_assoc. eapply at_item; [exact X| |exact I]. apply gap_white; [cbn; auto|apply gap_none].
    + cbn [app map io_all]. rewrite MX, M. reflexivity.
Qed.
Lemma unsnoc {A} (l : list A) : l <> [] -> exists l0 b, l = l0 ++ [b].
Proof. induction l as [|x l0 _] using rev_ind; [congruence|]. eauto. Qed.

(** ** Triples *)
Lemma nt_reads_last force l0 b t : Forall (stmt_w force) (l0 ++ [b]) ->
  t ++ [10] = flat_map (nt_line Bare force) (l0 ++ [b]) -> read_nt t = io_ok (g_from_iter (map rr (l0 ++ [b]))).
Proof.
  intros F E. rewrite flat_map_app in E. cbn [flat_map] in E. rewrite app_nil_r, nt_line_text, !app_assoc in E.
  apply app_inj_tail in E as [-> _]. apply Forall_app in F as [F FB]. inversion FB as [|? ? WB _]; subst. rewrite Forall_forall in F.
  destruct (spo_rendered iri_parse lang_parse label_ok gext printable force b [46] WB) as (x & XA & XM).
  destruct (lines_doc_last triple_at (nt_line Bare force) tri_mean (fun st => io_ok (rr st)) l0 b x (spo_text Bare force b ++ [32; 46])) as (w & I & M).
  { intros c r C. apply line_rendered. apply F. exact C. }
  { eapply at_triple; [exact XA|]. apply gap_white; [cbn; auto|apply gap_none]. }
  { exact XM. }
  rewrite io_all_ok in M. rewrite (nt_reads iri_parse lang_parse label_ok gext printable w).
  - unfold triples_meaning. rewrite M. reflexivity.
  - eexists. split; [apply gap_none|]. rewrite <- app_assoc. exact I.
Qed.
Lemma nt_cut force l t u : Forall (stmt_w force) l -> Forall (fun st => object_dotless (st_object st)) l ->
  flat_map (nt_line Bare force) l = t ++ u ->
  read_nt t = Ret (Err Tokenizer) \/
  exists l1 l2, l = l1 ++ l2 /\ (t = flat_map (nt_line Bare force) l1 \/ t ++ [10] = flat_map (nt_line Bare force) l1) /\
    read_nt t = Ret (Ok (g_from_iter (map rr l1))).
Proof.
  intros F D E.
  assert (DEC : read_nt t = Ret (Err Tokenizer) \/ read_nt t <> Ret (Err Tokenizer)).
  { destruct (read_nt t) as [[g|[]]|]; (left; reflexivity) || (right; discriminate). }
  destruct DEC as [DEC|DEC]; [left; exact DEC|right].
  apply (proj1 (c59_accepts iri_parse lang_parse label_ok gext printable t)) in DEC as (w & W).
  rewrite Forall_forall in F, D.
  destruct (doc_cut triple_at (nt_line Bare force) (fun _ => True)) with (all := l) (l := l) (w := w) (t := t) (u := u) as (l1 & l2 & L & T).
  - intros x y s r r'. apply triple_det.
  - intros x s r X. split; [exact (triple_start iri_parse lang_parse label_ok gext printable x s r X)|]. intros ->. inversion X as [x0 s0 s1 r0 S _]; subst.
    inversion S as [n l0 o s0' sa sb sc r1 NA _ _ _ _]; subst. apply node_first in NA as (c & s' & NA & _). discriminate NA.
  - intros b r B. destruct (line_rendered iri_parse lang_parse label_ok gext printable force b r (F b B)) as (x & X & _). eauto.
  - intros b p q x r B EQ N X _. eapply (triple_cut iri_parse lang_parse label_ok gext printable); [exact (F b B)|exact (D b B)|exact EQ|exact N|exact X].
  - auto.
  - rewrite Forall_forall. auto.
  - exact W.
  - exact E.
  - exists l1, l2. split; [exact L|]. split; [exact T|].
    assert (F1 : Forall (stmt_w force) l1). { rewrite Forall_forall. intros x X. apply F. rewrite L. apply in_or_app. auto. }
    destruct T as [->|T]; [apply nt_lines_read; exact F1|].
    destruct (unsnoc l1) as (l0 & b & ->). { intros ->. destruct t; discriminate T. }
    eapply nt_reads_last; eassumption.
Qed.

(** ** Quads *)
Definition quad_w (q : option graph_name * statement) : Prop :=
  stmt_w false (snd q) /\ match fst q with Some n => name_writable iri_parse label_ok n | None => True end.
Lemma quad_line_reads q r : quad_w q -> exists x, quad_at x (quad_line q ++ r) (10 :: r) /\ quad_mean x = result_of q.
Proof.
  destruct q as [[n|] st]; intros [S NW]; unfold quad_line, quad_result; cbn [fst snd] in *.
  - apply quad_rendered; assumption.
  - apply default_quad_rendered. assumption.
Qed.
Definition quad_body (q : option graph_name * statement) : str :=
  spo_text Bare false (snd q) ++ match fst q with Some n => $" " ++ gn_show Bare n | None => [] end ++ [32; 46].
Lemma quad_line_body q : quad_line q = quad_body q ++ [10].
Proof. unfold quad_line, quad_body. rewrite nq_line_text, <- !app_assoc. reflexivity. Qed.
Lemma quad_body_reads q : quad_w q -> exists x, quad_at x (quad_body q) [] /\ quad_mean x = result_of q.
Proof.
  destruct q as [[n|] st]; intros [W NW]; unfold quad_body, quad_result; cbn [fst snd] in *.
  - destruct (name_node iri_parse label_ok n [46] NW) as (y & NA & NM).
    destruct (spo_rendered iri_parse lang_parse label_ok gext printable false st (gn_show Bare n ++ [32; 46]) W) as (x & A & M).
    exists (QuadSrc x (Some y)). split.
    + rewrite <- !app_assoc. eapply at_quad; [exact A| |exact NA|].
      * apply gap_white; [cbn; auto|apply gap_none].
      * apply gap_white; [cbn; auto|apply gap_none].
    + unfold quad_meaning. cbn [src_t src_g]. rewrite M. cbn [io_bind io_ok]. unfold node_good in NM. rewrite NM. reflexivity.
  - destruct (spo_rendered iri_parse lang_parse label_ok gext printable false st [46] W) as (x & A & M).
    exists (QuadSrc x None). split.
    + apply at_quad_default. eapply at_triple; [exact A|]. apply gap_white; [cbn; auto|apply gap_none].
    + unfold quad_meaning. cbn [src_t src_g]. rewrite M. reflexivity.
Qed.
Lemma nq_reads_last l0 b t : Forall quad_w (l0 ++ [b]) -> t ++ [10] = flat_map quad_line (l0 ++ [b]) ->
  read_nq t = let? w := io_all (map result_of (l0 ++ [b])) in io_ok (put_all [] w).
Proof.
  intros F E. rewrite flat_map_app in E. cbn [flat_map] in E. rewrite app_nil_r, quad_line_body, app_assoc in E.
  apply app_inj_tail in E as [-> _]. apply Forall_app in F as [F FB]. inversion FB as [|? ? WB _]; subst. rewrite Forall_forall in F.
  destruct (quad_body_reads b WB) as (x & XA & XM).
  destruct (lines_doc_last quad_at quad_line quad_mean result_of l0 b x (quad_body b)) as (w & I & M); auto.
  { intros c r C. apply quad_line_reads. apply F. exact C. }
  rewrite (nq_reads iri_parse lang_parse label_ok gext printable w).
  - rewrite M. reflexivity.
  - eexists. split; [apply gap_none|exact I].
Qed.
Lemma all_labelled w : (exists q, In q w /\ src_g q = None) \/ Forall (fun x : quad_src => src_g x <> None) w.
Proof.
  induction w as [|x w IH]; [right; constructor|]. destruct (src_g x) as [n|] eqn:G; [|left; exists x; cbn; auto].
  destruct IH as [(q & I & Q)|IH]; [left; exists q; cbn; auto|right; constructor; [congruence|exact IH]].
Qed.
Lemma nq_cut l t u d : Forall quad_w l -> Forall (fun q => name_dotless (fst q)) l ->
  flat_map quad_line l = t ++ u -> read_nq t = Ret (Ok d) ->
  exists l1 l2, l = l1 ++ l2 /\ (t = flat_map quad_line l1 \/ t ++ [10] = flat_map quad_line l1) /\
    forall k st, In st (ds_statements d k) <-> exists st0, In (k, st0) l1 /\ st = rr st0.
Proof.
  intros F D E R.
  assert (DEC : read_nq t <> Ret (Err Tokenizer)) by (rewrite R; discriminate).
  apply (proj2 (c59_accepts iri_parse lang_parse label_ok gext printable t)) in DEC as (w & W).
  destruct (all_labelled w) as [NL|NL].
  { exfalso. exact (c60_no_label iri_parse lang_parse label_ok gext printable w t W NL d R). }
  rewrite Forall_forall in F, D.
  destruct (doc_cut quad_at quad_line (fun x => src_g x <> None)) with (all := l) (l := l) (w := w) (t := t) (u := u) as (l1 & l2 & L & T).
  - intros x y s r r'. apply quad_det.
  - intros x s r X. split; [exact (quad_start iri_parse lang_parse label_ok gext printable x s r X)|]. intros ->.
    assert (Z : forall y r, ~ spo_at y [] r).
    { intros y r' S. inversion S as [n l0 o s0' sa sb sc r1 NA _ _ _ _]; subst. apply node_first in NA as (c & s' & NA & _). discriminate NA. }
    inversion X as [x0 s0 r0 A|x0 n s0 s1 s2 s3 r0 A _ _ _]; subst; [|exact (Z _ _ A)].
    match goal with H : triple_at _ [] _ |- _ => inversion H as [? ? ? ? B _]; subst; exact (Z _ _ B) end.
  - intros b r B. destruct (quad_line_reads b r (F b B)) as (x & X & _). eauto.
  - intros [k st] p q x r B EQ N X SG. destruct (F _ B) as [S NW]. pose proof (D _ B) as ND. cbn [fst snd] in *.
    eapply (quad_cut iri_parse lang_parse label_ok gext printable); [exact S|exact NW|exact ND|exact EQ|exact N|exact X|exact SG].
  - auto.
  - exact NL.
  - exact W.
  - exact E.
  - exists l1, l2. split; [exact L|]. split; [exact T|].
    assert (F1 : Forall quad_w l1). { rewrite Forall_forall. intros x X. apply F. rewrite L. apply in_or_app. auto. }
    assert (R1 : read_nq t = let? w := io_all (map result_of l1) in io_ok (put_all [] w)).
    { destruct T as [->|T]; [apply nq_lines_read; exact F1|].
      destruct (unsnoc l1) as (l0 & b & ->). { intros ->. destruct t; discriminate T. }
      apply nq_reads_last; assumption. }
    assert (SO : forall k st, In (k, st) l1 -> k <> None).
    { intros k st I ->. rewrite R in R1.
      rewrite (io_all_err result_of ParserUnexpected) in R1; [discriminate R1| |exists (None, st); split; [exact I|reflexivity]].
      intros [[m|] s] _; unfold quad_result; cbn [fst snd]; eauto. }
    destruct (io_all_quads gext printable l1 SO) as (v & V & IV & _). rewrite R, V in R1. cbn [io_bind io_ok] in R1. injection R1 as ->.
    intros k st. destruct (holds_statements (put_all [] v) v (put_all_holds v) k) as (_ & B & _). rewrite B. split.
    + intros (m & -> & J). apply IV in J. exact J.
    + intros (s0 & J & ->). destruct k as [m|]; [|destruct (SO _ _ J eq_refl)]. exists m. split; [reflexivity|]. apply IV. eauto.
Qed.

(** ** Files *)
Lemma from_text {A} (parse : str -> io A) s : chars s -> read_from parse (Some (bytes s)) =
  match parse s with Ret (Ok a) => Ret (Ok a) | Ret (Err e) => Ret (Err (FileContent e)) | Panic => Panic end.
Proof. intros C. unfold read_from. rewrite decode_bytes by exact C. reflexivity. Qed.
Lemma from_other {A} (parse : str -> io A) bs : (forall s, chars s -> bs <> bytes s) -> read_from parse (Some bs) = Ret (Err FileIo).
Proof.
  intros C. unfold read_from. destruct (utf8_decode bs) as [s|] eqn:E; [|reflexivity].
  apply decode_iff in E as [S ->]. destruct (C s S eq_refl).
Qed.
Lemma whole_text {B} (line : B -> str) l t : t = flat_map line l \/ t ++ [10] = flat_map line l -> whole_lines (map line l) (bytes t).
Proof.
  unfold whole_lines. rewrite concat_lines. intros [->|<-]; [left; reflexivity|right]. rewrite bytes_app. reflexivity.
Qed.
Lemma nt_file_cut force h ho n g kept lost : orders_ok h ->
  Forall (stmt_w force) (g_list (fst (g_simplify ho n g))) ->
  Forall (fun st => object_dotless (st_object st)) (g_list (fst (g_simplify ho n g))) ->
  chars (nt_write Bare force h ho n g) -> bytes (nt_write Bare force h ho n g) = kept ++ lost ->
  from_nt (Some kept) = Ret (Err FileIo) \/ from_nt (Some kept) = Ret (Err (FileContent Tokenizer)) \/
  exists l1 l2, NoDup (l1 ++ l2) /\ (forall st, In st (l1 ++ l2) <-> In st (g_list (fst (g_simplify ho n g)))) /\
    whole_lines (map (nt_line Bare force) l1) kept /\
    from_nt (Some kept) = Ret (Ok (g_from_iter (map rr l1))).
Proof.
  intros H F D C E. destruct (decode_cut _ _ _ C E) as [N|(t & u & DT & -> & -> & S)].
  { left. unfold nt_read_from, read_from. rewrite N. reflexivity. }
  assert (CT : chars t) by (apply decode_iff in DT; apply DT).
  unfold nt_write in S. assert (T : forall P, Forall P (g_list (fst (g_simplify ho n g))) -> Forall P (write_order h (fst (g_simplify ho n g)))).
  { intros P X. rewrite Forall_forall in *. intros st I. apply X. eapply write_order_In; eauto. }
  destruct (nt_cut force _ t u (T _ F) (T _ D) S) as [R|(l1 & l2 & L & W & R)].
  - right. left. unfold nt_read_from. rewrite from_text, R by exact CT. reflexivity.
  - right. right. exists l1, l2. rewrite <- L. split; [apply write_order_NoDup; exact H|]. split; [intros st; apply write_order_In; exact H|].
    split; [apply whole_text; exact W|]. unfold nt_read_from. rewrite from_text, R by exact CT. reflexivity.
Qed.
Lemma quads_writable h ho hd n d : (forall g, orders_ok (h g)) -> (forall g, hash_order (ho g)) -> (forall l, Permutation (hd l) l) ->
  ds_writable iri_parse lang_parse label_ok d -> Forall quad_w (quads_of h ho n (ds_graphs hd d)).
Proof.
  intros H Ho P W. destruct (nq_quads_of iri_parse lang_parse label_ok gext printable h ho hd n d H Ho P W) as (_ & _ & I). destruct W as [_ W].
  rewrite Forall_forall. intros [k st] Q. apply I in Q. unfold ds_statements in Q. destruct (ds_graph d k) as [g|] eqn:G; [|destruct Q].
  destruct (W _ _ G) as (_ & S & NW). rewrite Forall_forall in S. split; [apply S; exact Q|exact NW].
Qed.
Lemma nq_file_cut h ho hd n d kept lost d' : (forall g, orders_ok (h g)) -> (forall g, hash_order (ho g)) -> (forall l, Permutation (hd l) l) ->
  ds_writable iri_parse lang_parse label_ok d -> (forall k, ds_statements d k <> [] -> name_dotless k) ->
  chars (nq_write_dataset Bare h ho hd n d) -> bytes (nq_write_dataset Bare h ho hd n d) = kept ++ lost ->
  from_nq (Some kept) = Ret (Ok d') ->
  exists l1 l2, NoDup (l1 ++ l2) /\ (forall k st, In (k, st) (l1 ++ l2) <-> In st (ds_statements d k)) /\
    whole_lines (map (fun q => nq_line Bare (fst q) (snd q)) l1) kept /\
    forall k st, In st (ds_statements d' k) <-> exists st0, In (k, st0) l1 /\ st = rr st0.
Proof.
  intros H Ho P W D C E R. destruct (decode_cut _ _ _ C E) as [N|(t & u & DT & -> & -> & S)].
  { unfold nq_read_from, read_from in R. rewrite N in R. discriminate R. }
  assert (CT : chars t) by (apply decode_iff in DT; apply DT).
  unfold nq_read_from in R. rewrite from_text in R by exact CT.
  assert (R' : read_nq t = Ret (Ok d')) by (destruct (read_nq t) as [[x|e]|]; congruence || discriminate R). clear R.
  destruct (nq_quads_of iri_parse lang_parse label_ok gext printable h ho hd n d H Ho P W) as (_ & ND & I).
  unfold nq_write_dataset in S. rewrite write_all_lines in S.
  destruct (nq_cut (quads_of h ho n (ds_graphs hd d)) t u d') as (l1 & l2 & L & WL & K).
  - apply quads_writable; assumption.
  - rewrite Forall_forall. intros [k st] Q. apply I in Q. apply D. cbn [fst]. intros Z. rewrite Z in Q. destruct Q.
  - exact S.
  - exact R'.
  - exists l1, l2. rewrite <- L. split; [exact ND|]. split; [exact I|]. split; [apply (whole_text quad_line); exact WL|exact K].
Qed.

(** A full stop in a label. *)
Lemma nt_file_dotted force s p b1 c b2 : subject_writable iri_parse label_ok s -> iri_writable iri_parse p ->
  label_writable label_ok b1 ->
  chars (nt_line Bare force (MkStmt s p (OBlank (b1 ++ $"." ++ c :: b2)))) ->
  exists kept lost, bytes (nt_line Bare force (MkStmt s p (OBlank (b1 ++ $"." ++ c :: b2)))) = kept ++ lost /\
    from_nt (Some kept) = Ret (Ok (g_from_iter [MkStmt s p (OBlank b1)])).
Proof.
  intros WS WP WB C.
  set (t := subj_show Bare s ++ $" <" ++ p ++ $"> _:" ++ b1 ++ $".").
  assert (E : nt_line Bare force (MkStmt s p (OBlank (b1 ++ $"." ++ c :: b2))) = t ++ c :: b2 ++ $" ." ++ [10]).
  { unfold t, nt_line. cbn [st_subject st_predicate st_object obj_show show_iri]. rewrite <- !app_assoc. reflexivity. }
  exists (bytes t), (bytes (c :: b2 ++ $" ." ++ [10])). rewrite E in *. split; [apply bytes_app|].
  apply chars_app in C as [C _]. unfold nt_read_from. rewrite from_text by exact C.
  destruct (subject_node iri_parse label_ok s (60 :: p ++ 62 :: 32 :: 95 :: 58 :: b1 ++ [46]) WS) as (n & NA & NM).
  destruct WB as [L B].
  assert (DA : doc_at triple_at [TripleSrc n (map Plain p) (ONode (NLabel b1))] t).
  { exists t. split; [apply gap_none|]. eapply at_item; [|apply gap_none|constructor].
    eapply at_triple with (s1 := [46]); [|apply gap_none].
    unfold t. eapply at_spo; [exact NA|apply plain_pieces; exact (proj1 WP)| | |].
    - apply gap_white; [left; reflexivity|]. rewrite iri_text. apply gap_none.
    - apply gap_white; [left; reflexivity|]. apply gap_none.
    - apply at_node. apply at_label; [exact L|]. split; reflexivity || auto. }
  rewrite (nt_reads _ _ _ _ _ _ _ DA). unfold triples_meaning, triple_meaning. cbn [map io_all src_s src_p src_o].
  unfold node_good in NM. rewrite NM. cbn [io_bind io_ok]. rewrite iri_mean_plain by exact WP. cbn [io_bind io_ok object_meaning node_meaning].
  unfold blank_meaning. rewrite B. reflexivity.
Qed.
End Main.

(** ** Writing to an output *)
Lemma nt_written out parts m force h ho n g kept res : divides parts -> nt_write_to out parts m force h ho n g = (kept, res) ->
  (exists lost, bytes (nt_write m force h ho n g) = kept ++ lost /\ (res = Ok tt -> lost = [])) /\ (res = Ok tt \/ res = Err FileIo) /\
  ((forall k bs, out k bs = None) -> res = Ok tt).
Proof.
  intros D E. unfold nt_write_to, written in E.
  destruct (put_lines out parts _ nothing) as [w ok] eqn:P. cbn [fst snd] in E. injection E as <- <-.
  split; [|split].
  - apply (put_lines_prefix _ _ _ D) in P as (x & y & A & B & C). exists y. rewrite concat_lines in B. cbn [accepted nothing app] in A. rewrite A.
    split; [exact B|]. destruct ok; [auto|discriminate].
  - destruct ok; auto.
  - intros N. pose proof (put_lines_ok out parts (map (nt_line m force) (write_order h (fst (g_simplify ho n g)))) N nothing) as K.
    rewrite P in K. cbn in K. rewrite K. reflexivity.
Qed.
Lemma nq_written out parts m h ho hd n d kept res : divides parts -> nq_write_to out parts m h ho hd n d = (kept, res) ->
  (exists lost, bytes (nq_write_dataset m h ho hd n d) = kept ++ lost /\ (res = Ok tt -> lost = [])) /\ (res = Ok tt \/ res = Err FileIo) /\
  ((forall k bs, out k bs = None) -> res = Ok tt).
Proof.
  intros D E. unfold nq_write_to, written in E.
  destruct (nq_put_all out parts m h ho n (ds_graphs hd d) nothing) as [w ok] eqn:P. cbn [fst snd] in E. injection E as <- <-.
  split; [|split].
  - apply (put_all_prefix _ _ _ _ _ _ D) in P as (x & y & A & B & C). exists y. cbn [accepted nothing app] in A. rewrite A.
    split; [exact B|]. destruct ok; [auto|discriminate].
  - destruct ok; auto.
  - intros N. pose proof (put_all_ok out parts m h ho (ds_graphs hd d) N n nothing) as K.
    rewrite P in K. cbn in K. rewrite K. reflexivity.
Qed.

(** ** Round trips *)
Lemma nt_file_trip iri_parse lang_parse label_ok gext printable out parts force h ho n g : divides parts -> (forall k bs, out k bs = None) ->
  orders_ok h -> hash_order ho -> Forall (statement_writable iri_parse lang_parse label_ok force) (g_list g) ->
  Forall (stable gext printable) (g_list g) -> chars (nt_write Bare force h ho n g) ->
  exists file g', nt_write_to out parts Bare force h ho n g = (file, Ok tt) /\
    nt_read_from iri_parse lang_parse label_ok gext printable (Some file) = Ret (Ok g') /\
    g_name g' = None /\ NoDup (g_list g') /\ forall st, In st (g_list g') <-> In st (g_list g).
Proof.
  intros D N H Ho W S C. destruct (nt_write_to out parts Bare force h ho n g) as [file res] eqn:E.
  destruct (nt_written _ _ _ _ _ _ _ _ _ _ D E) as ((lost & B & L) & _ & K). specialize (K N). subst res.
  rewrite (L eq_refl), app_nil_r in B.
  destruct (nt_round_trip iri_parse lang_parse label_ok gext printable force h ho n g H Ho W S) as (g' & R & G).
  exists file, g'. split; [reflexivity|]. split; [|exact G]. rewrite <- B. unfold nt_read_from. rewrite from_text, R by exact C. reflexivity.
Qed.
Lemma nq_file_trip iri_parse lang_parse label_ok gext printable out parts h ho hd n d : divides parts -> (forall k bs, out k bs = None) ->
  (forall g, orders_ok (h g)) -> (forall g, hash_order (ho g)) -> (forall l, Permutation (hd l) l) ->
  ds_writable iri_parse lang_parse label_ok d -> ds_statements d None = [] ->
  (forall k, Forall (stable gext printable) (ds_statements d k)) -> chars (nq_write_dataset Bare h ho hd n d) ->
  exists file d', nq_write_to out parts Bare h ho hd n d = (file, Ok tt) /\
    nq_read_from iri_parse lang_parse label_ok gext printable (Some file) = Ret (Ok d') /\
    forall k, (forall g', ds_graph d' k = Some g' -> g_name g' = k) /\ NoDup (ds_statements d' k) /\
      (forall st, In st (ds_statements d' k) <-> In st (ds_statements d k)) /\
      (ds_graph d' k = None <-> ds_statements d k = []).
Proof.
  intros D N H Ho P W Z S C. destruct (nq_write_to out parts Bare h ho hd n d) as [file res] eqn:E.
  destruct (nq_written _ _ _ _ _ _ _ _ _ _ D E) as ((lost & B & L) & _ & K). specialize (K N). subst res.
  rewrite (L eq_refl), app_nil_r in B.
  destruct (nq_round_trip iri_parse lang_parse label_ok gext printable h ho hd n d H Ho P W Z S) as (d' & R & G).
  exists file, d'. split; [reflexivity|]. split; [|exact G]. rewrite <- B. unfold nq_read_from. rewrite from_text, R by exact C. reflexivity.
Qed.
Lemma bytes_inj s t : chars s -> chars t -> bytes s = bytes t -> s = t.
Proof. intros S T E. pose proof (decode_bytes s S) as A. rewrite E, (decode_bytes t T) in A. congruence. Qed.
Lemma file_reads iri_parse lang_parse label_ok gext printable : (forall s, chars s ->
    nt_read_from iri_parse lang_parse label_ok gext printable (Some (bytes s)) =
      match nt_read iri_parse lang_parse label_ok gext printable s with
      | Ret (Ok g) => Ret (Ok g) | Ret (Err e) => Ret (Err (FileContent e)) | Panic => Panic end /\
    nq_read_from iri_parse lang_parse label_ok gext printable (Some (bytes s)) =
      match nq_read iri_parse lang_parse label_ok gext printable s with
      | Ret (Ok d) => Ret (Ok d) | Ret (Err e) => Ret (Err (FileContent e)) | Panic => Panic end).
Proof. intros s C. split; apply from_text; exact C. Qed.
Lemma file_rejects iri_parse lang_parse label_ok gext printable i : (forall s, chars s -> i <> Some (bytes s)) <->
  nt_read_from iri_parse lang_parse label_ok gext printable i = Ret (Err FileIo) /\
  nq_read_from iri_parse lang_parse label_ok gext printable i = Ret (Err FileIo).
Proof.
  split.
  - intros H. destruct i as [bs|]; [|split; reflexivity].
    split; apply from_other; intros s S ->; exact (H s S eq_refl).
  - intros [A _] s S ->. unfold nt_read_from in A. rewrite from_text in A by exact S.
    destruct (nt_read iri_parse lang_parse label_ok gext printable s) as [[g|e]|]; discriminate A.
Qed.
