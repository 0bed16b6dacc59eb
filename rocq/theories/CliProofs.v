(** Proofs about the command line tool (C78, C79). *)
From Coq Require Import Permutation Lia.
From Verif Require Import StrFacts GraphProofs SimplifyProofs LiteralProofs NTriplesProofs NTriplesRead NTriplesDocs NTriplesWrite NTriplesReject
  NTriplesMain JsonProofs JsonMain.
From Verif Require Export CliSpec.

(** ** What is read *)
Section Read.
Variable e : env.
Notation iri_w := (iri_writable (e_iri e)).
Notation escape := (escape_string (e_gext e) (e_printable e)).
Notation itself := (prints_as_itself (e_gext e) (e_printable e)).
Notation readable := (readable_char (e_gext e) (e_printable e)).
Notation stmt_w := (statement_writable (e_iri e) (e_lang e) (e_label e)).
Notation stmt_u := (statement_unreadable (e_iri e) (e_label e) (e_gext e) (e_printable e)).
Notation meaning := (triple_meaning (e_iri e) (e_lang e) (e_label e) (e_gext e) (e_printable e)).
Notation rr := (reread (e_gext e) (e_printable e)).

Lemma io_all_Forall2 {A B} (f : A -> io B) l : forall w, io_all (map f l) = io_ok w -> Forall2 (fun a b => f a = io_ok b) l w.
Proof.
  induction l as [|a l IH]; intros w E; cbn in E; [injection E as <-; constructor|].
  destruct (f a) as [[b|x]|] eqn:F; cbn in E; try discriminate. destruct (io_all (map f l)) as [[w'|x]|]; cbn in E; try discriminate.
  injection E as <-. constructor; [exact F|]. apply IH. reflexivity.
Qed.
Lemma items_each {A} (item : A -> str -> str -> Prop) l s : items_at item l s -> forall t, In t l -> exists a b, item t a b.
Proof. induction 1 as [|x l s0 s1 s2 I G R IH]; intros t; [intros []|]. intros [->|J]; [eauto|auto]. Qed.

Lemma read_back s l g : doc_at triple_at l s -> e_nt_read e s = Ret (Ok g) ->
  g_name g = None /\ Forall2 (fun t st => meaning t = io_ok st) l (g_list g).
Proof.
  intros D R. unfold e_nt_read in R. rewrite (nt_reads _ _ _ _ _ l s D) in R. unfold triples_meaning in R.
  destruct (io_all (map meaning l)) as [[w|x]|] eqn:E; cbn in R; try discriminate. injection R as <-.
  split; [reflexivity|]. cbn. apply io_all_Forall2, E.
Qed.

Lemma iri_meaning_iri l i : iri_meaning (e_iri e) l = io_ok i -> exists t, e_iri e t = Some i.
Proof.
  unfold iri_meaning. destruct (forallb denotes_char l); [|discriminate]. destruct (e_iri e (map code_point l)) as [j|] eqn:E; [|discriminate].
  intros H. injection H as <-. eauto.
Qed.

Hypothesis NF : normalises e.
Lemma meaning_iri l i : iri_meaning (e_iri e) l = io_ok i -> iri_w i.
Proof. intros H. apply iri_meaning_iri in H as (t & H). eapply (proj1 NF). exact H. Qed.

(** A statement read from a triple: everything but the text of a literal can be written. *)
Definition text_of (o : object_src) : option str := match o with OString p _ => Some (pieces_text p) | ONode _ => None end.
Definition literal_from (t : str) (l : literal) : Prop :=
  lexical_form l = escape t /\
  match lit_data_type l, lit_language l with
  | None, None => True
  | None, Some u => tag_writable (e_lang e) u
  | Some (DtOther i), None => iri_w i
  | _, _ => False
  end.
Lemma node_read {A} (iri blank : str -> A) n x a b : node_at n a b -> labelled n ->
  node_meaning (e_iri e) (e_label e) iri blank n = io_ok x ->
  (exists i, x = iri i /\ iri_w i) \/ (exists c, x = blank c /\ label_writable (e_label e) c).
Proof.
  intros AT L H. destruct n as [l|c|c]; cbn in H; [| |destruct L].
  - destruct (iri_meaning (e_iri e) l) as [[i|y]|] eqn:E; cbn in H; try discriminate. injection H as <-. left. exists i. split; [reflexivity|].
    eapply meaning_iri. exact E.
  - unfold blank_meaning in H. destruct (bn_from_str (e_label e) c) as [d|] eqn:E; cbn in H; [|discriminate]. injection H as <-.
    right. exists d. split; [reflexivity|]. inversion AT as [|? ? LS LE|]; subst. unfold bn_from_str in E.
    destruct (bn_is_valid_str (e_label e) c) eqn:V; [|discriminate]. injection E as <-. split; [exact LS|]. unfold bn_from_str. rewrite V. reflexivity.
Qed.
Lemma statement_read t st a b : triple_at t a b -> labelled_triple t -> meaning t = io_ok st ->
  subject_writable (e_iri e) (e_label e) (st_subject st) /\ iri_w (st_predicate st) /\
  match text_of (src_o t), st_object st with
  | Some x, OLit l => literal_from x l
  | None, ORes i => iri_w i
  | None, OBlank c => label_writable (e_label e) c
  | _, _ => False
  end.
Proof.
  intros AT [LS LO] H. inversion AT as [t' s0 s1 r SPO G]; subst. inversion SPO as [n l o ? s1' s2 s3 ? NA FP G1 G2 OA]; subst.
  cbn [src_s src_o] in *. unfold triple_meaning in H. cbn [src_s src_p src_o] in H.
  destruct (node_meaning _ _ SRes SBlank n) as [[sb|y]|] eqn:E1; cbn in H; try discriminate.
  destruct (iri_meaning (e_iri e) l) as [[p|y]|] eqn:E2; cbn in H; try discriminate.
  destruct (object_meaning _ _ _ _ _ o) as [[ob|y]|] eqn:E3; cbn in H; try discriminate. injection H as <-.
  cbn [st_subject st_predicate st_object]. split; [|split].
  - destruct (node_read SRes SBlank n sb _ _ NA LS E1) as [(i & -> & W)|(c & -> & W)]; exact W.
  - eapply meaning_iri. exact E2.
  - destruct o as [n'|ps x]; cbn [text_of object_meaning] in *.
    + inversion OA as [? ? ? NA'|]; subst. destruct (node_read ORes OBlank n' ob _ _ NA' LO E3) as [(i & -> & W)|(c & -> & W)]; exact W.
    + destruct (suffix_meaning _ _ _ x) as [[lt|y]|] eqn:E4; cbn in E3; try discriminate. injection E3 as <-.
      destruct x as [|w ws|tl]; cbn in E4.
      * injection E4 as <-. split; [reflexivity|exact I].
      * destruct (e_lang e (tag_text w ws)) as [u|] eqn:EL; [|discriminate]. injection E4 as <-. split; [reflexivity|]. cbn. eapply (proj2 NF). exact EL.
      * destruct (iri_meaning (e_iri e) tl) as [[i|y]|] eqn:E5; cbn in E4; try discriminate. injection E4 as <-. split; [reflexivity|]. cbn.
        eapply meaning_iri. exact E5.
Qed.

(** ** Writing it again *)
Lemma readable_dec c : {readable c} + {~ readable c}.
Proof.
  unfold readable_char, prints_as_itself.
  destruct (in_dec N.eq_dec c [9; 10; 13; 34; 92]) as [I|I]; [left; auto|].
  destruct (in_dec N.eq_dec c [0; 9; 10; 13; 34; 92]) as [J|J]; [right; tauto|].
  destruct (e_gext e c); [right; intros [(_ & K & _)|K]; [discriminate|auto]|].
  destruct (e_printable e c); [left; auto|right; intros [(_ & _ & K)|K]; [discriminate|auto]].
Qed.
Lemma written_again t st a b : triple_at t a b -> labelled_triple t -> meaning t = io_ok st ->
  (forall x, text_of (src_o t) = Some x -> Forall readable x) /\ stmt_w false st \/
  (exists x, text_of (src_o t) = Some x /\ ~ Forall readable x) /\ stmt_u false st.
Proof.
  intros AT L M. destruct (statement_read t st a b AT L M) as (S & P & O). destruct (text_of (src_o t)) as [x|] eqn:T.
  - destruct (st_object st) as [c|i|l|cs|q] eqn:SO; try destruct O. rename H into LX, H0 into SH.
    destruct (Forall_dec _ readable_dec x) as [R|R]; [left|right].
    + split; [intros y E; injection E as <-; exact R|]. split; [exact S|]. split; [exact P|]. rewrite SO. cbn [object_writable]. unfold literal_writable.
      assert (ST : string_text (lexical_form l)) by (rewrite LX; apply (escape_text (e_iri e) (e_lang e) (e_label e)); exact R).
      destruct (lit_data_type l) as [d|]; [destruct d; destruct (lit_language l); try destruct SH|destruct (lit_language l)];
        (split; [exact ST|]); [split; [discriminate|intros _; split; assumption]|exact SH|exact I].
    + split; [eauto|]. split; [exact S|]. split; [exact P|]. rewrite SO. unfold literal_unreadable.
      destruct (lit_data_type l) as [d|]; [destruct d; destruct (lit_language l); try destruct SH|]; cbn [bare_type andb negb]; exists x; split; assumption.
  - left. split; [discriminate|]. split; [exact S|]. split; [exact P|].
    destruct (st_object st) as [c|i|l|cs|q]; try destruct O; cbn [object_writable]; try (split; assumption); assumption.
Qed.

Lemma read_each s l g : doc_at triple_at l s -> Forall labelled_triple l -> e_nt_read e s = Ret (Ok g) ->
  Forall2 (fun t st => (exists a b, triple_at t a b) /\ labelled_triple t /\ meaning t = io_ok st) l (g_list g).
Proof.
  intros D L R. destruct (read_back s l g D R) as [_ F]. destruct D as (s' & _ & IT).
  assert (X := items_each _ _ _ IT). clear IT R. induction F as [|t st l w M F IH]; [constructor|]. inversion L; subst. constructor.
  - split; [apply X; left; reflexivity|]. split; assumption.
  - apply IH; [assumption|]. intros u J. apply X. right. exact J.
Qed.
Lemma texts_cons t l : quoted_texts (t :: l) = match text_of (src_o t) with Some x => [x] | None => [] end ++ quoted_texts l.
Proof. unfold quoted_texts. cbn [flat_map]. destruct (src_o t); reflexivity. Qed.

(** Either everything can be written, or there is a text that cannot. *)
Lemma writable_or_not s l g : doc_at triple_at l s -> Forall labelled_triple l -> e_nt_read e s = Ret (Ok g) ->
  Forall (fun st => stmt_w false st \/ stmt_u false st) (g_list g) /\
  (Forall (Forall readable) (quoted_texts l) -> Forall (stmt_w false) (g_list g)) /\
  (~ Forall (Forall readable) (quoted_texts l) -> Exists (stmt_u false) (g_list g)).
Proof.
  intros D L R. assert (F := read_each s l g D L R). clear D L R.
  induction F as [|t st l w PP F (IH1 & IH2 & IH3)].
  { split; [constructor|]. split; [constructor|]. intros H. exfalso. apply H. constructor. }
  destruct PP as ((a & b & AT) & LT & M).
  rewrite texts_cons. destruct (written_again t st a b AT LT M) as [[X W]|[(x & X & NR) U]].
  - split; [constructor; [left; exact W|exact IH1]|]. split.
    + intros H. apply Forall_app in H as [_ H]. constructor; [exact W|apply IH2, H].
    + intros H. apply Exists_cons_tl, IH3. intros H'. apply H. apply Forall_app. split; [|exact H'].
      destruct (text_of (src_o t)); [constructor; [apply X; reflexivity|constructor]|constructor].
  - split; [constructor; [right; exact U|exact IH1]|]. rewrite X. split.
    + intros H. inversion H; subst. contradiction.
    + intros _. apply Exists_cons_hd, U.
Qed.

Hypothesis EO : env_ok e.
Definition again (g : graph) : str := nt_write Bare false (e_orders e) (e_order e) (e_counter e) g.
Lemma converted s l g : doc_at triple_at l s -> Forall labelled_triple l -> e_nt_read e s = Ret (Ok g) ->
  (Forall (Forall readable) (quoted_texts l) -> exists g', e_nt_read e (again g) = Ret (Ok g') /\
     forall st', In st' (g_list g') <-> exists st, In st (g_list g) /\ st' = rr st) /\
  (~ Forall (Forall readable) (quoted_texts l) -> e_nt_read e (again g) = Ret (Err Tokenizer)).
Proof.
  intros D L R. destruct (writable_or_not s l g D L R) as (W & A & B). destruct EO as [O1 O2]. split.
  - intros H. apply A in H.
    assert (FL : Forall flat (g_list g)) by (eapply Forall_impl; [|exact H]; intros st; apply writable_flat).
    destruct (nt_back (e_iri e) (e_lang e) (e_label e) (e_gext e) (e_printable e) false (e_orders e) (e_order e) (e_counter e) g O1) as (g' & E & _ & w & EL & _ & IN).
    { rewrite (simplify_flat_list _ _ _ O2 FL). eapply Forall_perm; [|exact H]. apply Permutation_sym, g_iter_perm, O2. }
    exists g'. split; [exact E|]. intros st'. rewrite EL, in_map_iff. rewrite (simplify_flat_list _ _ _ O2 FL) in IN.
    split.
    + intros (st & <- & I). exists st. split; [|reflexivity]. apply IN in I. apply g_iter_In in I; assumption.
    + intros (st & I & ->). exists st. split; [reflexivity|]. apply IN. apply g_iter_In; assumption.
  - intros H. apply (nt_rejected (e_iri e) (e_lang e) (e_label e) (e_gext e) (e_printable e)); auto.
Qed.

(** ** When nothing changes *)
Lemma escape_itself_iff t : Forall itself (escape t) <-> Forall itself t.
Proof.
  split.
  - intros H. induction t as [|c t IH]; [constructor|]. unfold escape_string in H. cbn [flat_map] in H. apply Forall_app in H as [H1 H2].
    constructor; [|apply IH, H2]. destruct (esc_cases (e_gext e) (e_printable e) c) as [(_ & d & E & _)|(_ & [(P & _)|(_ & E)])]; [|exact P|].
    + rewrite E in H1. inversion H1 as [|? ? Z]; subst. exfalso. apply Z. cbn. tauto.
    + rewrite E in H1. unfold u_esc in H1. inversion H1 as [|? ? Z]; subst. exfalso. apply Z. cbn. tauto.
  - intros H. rewrite (proj2 (escape_id_iff _ _ t) H). exact H.
Qed.
Definition lex_length (st : statement) : nat := match st_object st with OLit l => length (lexical_form l) | _ => O end.
Lemma escape_same_length t : length t = length (escape t) -> Forall itself t.
Proof.
  induction t as [|c t IH]; intros H; [constructor|]. pose proof (escape_length (e_gext e) (e_printable e) t) as L.
  unfold escape_string in H, L, IH. cbn [flat_map] in H. rewrite app_length in H. cbn [length] in H.
  pose proof (esc_length (e_gext e) (e_printable e) c) as [L1 L2]. constructor; [apply L2; lia|apply IH; lia].
Qed.
(** A literal, read from a document, that will be escaped again. *)
Definition grows (st : statement) : Prop :=
  exists l, st_object st = OLit l /\ ~ Forall itself (lexical_form l) /\
    match lit_data_type l, lit_language l with None, _ | Some (DtOther _), None => True | _, _ => False end.
Lemma grows_longer st : grows st -> grows (rr st) /\ (lex_length st < lex_length (rr st))%nat.
Proof.
  intros (l & E & N & SH). destruct st as [s p o]. cbn [st_object] in E. subst o. unfold reread, lex_length. cbn [st_object].
  assert (R : reread_literal (e_gext e) (e_printable e) l = OLit (Lit (escape (lexical_form l)) (lit_data_type l) (lit_language l))).
  { unfold reread_literal. destruct (lit_data_type l) as [d|]; [destruct d; destruct (lit_language l); try destruct SH; reflexivity|reflexivity]. }
  unfold grows. cbn [st_object]. rewrite R. split.
  - eexists. split; [reflexivity|]. cbn [lexical_form lit_data_type lit_language]. split; [rewrite escape_itself_iff; exact N|exact SH].
  - cbn [lexical_form]. pose proof (escape_length (e_gext e) (e_printable e) (lexical_form l)) as LE.
    destruct (Nat.eq_dec (length (lexical_form l)) (length (escape (lexical_form l)))) as [Q|Q]; [|lia].
    exfalso. apply N. apply escape_same_length. exact Q.
Qed.
Lemma unbounded (g : list statement) (f : statement -> nat) (P : statement -> Prop) (h : statement -> statement) :
  (forall st, In st g -> P st -> In (h st) g /\ P (h st) /\ (f st < f (h st))%nat) -> forall st, In st g -> ~ P st.
Proof.
  intros H.
  assert (B : exists n, forall st, In st g -> (f st <= n)%nat).
  { clear. induction g as [|x g (n & IH)]; [exists O; intros st []|]. exists (Nat.max (f x) n). intros st [->|I]; [lia|]. apply IH in I. lia. }
  destruct B as (n & B).
  assert (K : forall k st, (n - f st <= k)%nat -> In st g -> ~ P st).
  { induction k as [|k IH]; intros st L I P1; destruct (H st I P1) as (I2 & P2 & LT); pose proof (B _ I2).
    - lia.
    - apply (IH (h st)); [lia|exact I2|exact P2]. }
  intros st I. apply (K _ _ (le_n _) I).
Qed.
Lemma itself_dec c : {itself c} + {~ itself c}.
Proof.
  unfold prints_as_itself. destruct (in_dec N.eq_dec c [0; 9; 10; 13; 34; 92]) as [J|J]; [right; tauto|].
  destruct (e_gext e c); [right; intros (_ & K & _); discriminate|].
  destruct (e_printable e c); [left; auto|right; intros (_ & _ & K); discriminate].
Qed.
Lemma grows_or_not s l g : doc_at triple_at l s -> Forall labelled_triple l -> e_nt_read e s = Ret (Ok g) ->
  (Forall (Forall itself) (quoted_texts l) -> Forall (stable (e_gext e) (e_printable e)) (g_list g)) /\
  (~ Forall (Forall itself) (quoted_texts l) -> Exists grows (g_list g)).
Proof.
  intros D L R. assert (F := read_each s l g D L R). clear D L R.
  induction F as [|t st l w PP F (IH1 & IH2)]; [split; [constructor|intros H; exfalso; apply H; constructor]|].
  destruct PP as ((a & b & AT) & LT & M). destruct (statement_read t st a b AT LT M) as (_ & _ & O). rewrite texts_cons.
  destruct (text_of (src_o t)) as [x|].
  - destruct (st_object st) as [c|i|lt|cs|q] eqn:SO; try destruct O. rename H into LX, H0 into SH. split.
    + intros H. apply Forall_app in H as [H1 H2]. inversion H1; subst. constructor; [|apply IH1, H2].
      unfold stable. rewrite SO. unfold stable_literal. rewrite LX, escape_itself_iff. split; [assumption|].
      destruct (lit_data_type lt) as [d|]; [destruct d; destruct (lit_language lt); try destruct SH; exact I|exact I].
    + intros H. destruct (Forall_dec _ itself_dec x) as [X|X].
      * apply Exists_cons_tl, IH2. intros H'. apply H. constructor; assumption.
      * apply Exists_cons_hd. exists lt. split; [exact SO|]. rewrite LX, escape_itself_iff. split; [exact X|].
        destruct (lit_data_type lt) as [d|]; [destruct d; destruct (lit_language lt); try destruct SH; exact I|exact I].
  - split.
    + intros H. constructor; [|apply IH1, H]. unfold stable. destruct (st_object st); try destruct O; exact I.
    + intros H. apply Exists_cons_tl, IH2, H.
Qed.
Lemma same_again s l g g' : doc_at triple_at l s -> Forall labelled_triple l -> e_nt_read e s = Ret (Ok g) ->
  (forall st', In st' (g_list g') <-> exists st, In st (g_list g) /\ st' = rr st) ->
  ((forall st, In st (g_list g') <-> In st (g_list g)) <-> Forall (Forall itself) (quoted_texts l)).
Proof.
  intros D L R IN. destruct (grows_or_not s l g D L R) as [A B]. split.
  - intros Q. destruct (Forall_dec _ (fun t => Forall_dec _ itself_dec t) (quoted_texts l)) as [X|X]; [exact X|exfalso].
    apply B in X. apply Exists_exists in X as (st & I & G). revert I G.
    apply (unbounded (g_list g) lex_length grows rr). intros st' I G. destruct (grows_longer st' G) as [G' LT].
    split; [|split; assumption]. apply Q, IN. eauto.
  - intros H st. apply A in H. rewrite Forall_forall in H. rewrite IN. split.
    + intros (st0 & I & ->). rewrite (stable_reread _ _ _ (H _ I)). exact I.
    + intros I. exists st. split; [exact I|]. symmetry. apply stable_reread, H, I.
Qed.
Lemma read_flat s l g : doc_at triple_at l s -> e_nt_read e s = Ret (Ok g) -> Forall flat (g_list g).
Proof.
  intros D R. destruct (read_back s l g D R) as [_ F]. clear R D. induction F as [|t st l w M F IH]; [constructor|]. constructor; [|exact IH].
  unfold triple_meaning in M. destruct (node_meaning _ _ SRes SBlank (src_s t)) as [[sb|y]|] eqn:E1; cbn in M; try discriminate.
  destruct (iri_meaning (e_iri e) (src_p t)) as [[p|y]|] eqn:E2; cbn in M; try discriminate.
  destruct (object_meaning _ _ _ _ _ (src_o t)) as [[ob|y]|] eqn:E3; cbn in M; try discriminate. injection M as <-.
  assert (Z : forall (A : Type) (f h : str -> A) n x, node_meaning (e_iri e) (e_label e) f h n = io_ok x -> exists y, x = f y \/ x = h y).
  { intros A f h n x. destruct n as [l1|c|c]; cbn.
    - destruct (iri_meaning _ l1) as [[i|y]|]; cbn; intros Q; try discriminate. injection Q as <-. eauto.
    - destruct (blank_meaning _ c) as [[i|y]|]; cbn; intros Q; try discriminate. injection Q as <-. eauto.
    - destruct (blank_meaning _ _) as [[i|y]|]; cbn; intros Q; try discriminate. injection Q as <-. eauto. }
  apply Z in E1 as (x & [-> | ->]); (destruct (src_o t) as [n'|ps x']; cbn [object_meaning] in E3;
    [apply Z in E3 as (x1 & [-> | ->])|destruct (suffix_meaning _ _ _ x') as [[lt|y]|]; cbn in E3; try discriminate; injection E3 as <-]); (split; [reflexivity|exact I]).
Qed.
End Read.
