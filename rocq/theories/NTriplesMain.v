(** The lemmas behind PropsNTriples.v that combine reading and writing. *)
From Coq Require Import Lia ZArith.
From Verif Require Import NTriplesProofs NTriplesDocs GraphProofs LiteralProofs TermProofs NTriplesWrite NTriplesReject.
From Verif Require Export NTriplesWriteSpec.

(** ** Acceptance *)
Lemma bind_fails {A B} (x : io A) (f : A -> io B) e :
  x <> Ret (Err e) -> (forall a, f a <> Ret (Err e)) -> io_bind x f <> Ret (Err e).
Proof. intros X F. destruct x as [[a|e']|]; cbn; [apply F|congruence|discriminate]. Qed.
Lemma all_fails {A} (l : list (io A)) e : Forall (fun x => x <> Ret (Err e)) l -> io_all l <> Ret (Err e).
Proof.
  induction 1 as [|x l X F IH]; cbn; [discriminate|]. apply bind_fails; [exact X|]. intros a.
  apply bind_fails; [exact IH|]. discriminate.
Qed.

Lemma c59_accepts iri_parse lang_parse label_ok gext printable s :
  ((exists l, doc_at triple_at l s) <-> nt_read iri_parse lang_parse label_ok gext printable s <> Ret (Err Tokenizer)) /\
  ((exists l, doc_at quad_at l s) <-> nq_read iri_parse lang_parse label_ok gext printable s <> Ret (Err Tokenizer)).
Proof.
  assert (IM : forall l, iri_meaning iri_parse l <> Ret (Err Tokenizer)).
  { intros l. unfold iri_meaning. destruct (forallb denotes_char l); [|discriminate]. destruct (iri_parse _); discriminate. }
  assert (NM : forall (A : Type) (f g : str -> A) x, node_meaning iri_parse label_ok f g x <> Ret (Err Tokenizer)).
  { intros A f g [l|b|gap]; cbn [node_meaning]; apply bind_fails; try discriminate.
    - apply IM.
    - unfold blank_meaning. destruct (bn_from_str label_ok b); discriminate.
    - unfold blank_meaning. destruct (bn_from_str label_ok _); discriminate. }
  assert (OM : forall o, object_meaning iri_parse lang_parse label_ok gext printable o <> Ret (Err Tokenizer)).
  { intros [x|l x]; cbn [object_meaning]; [apply NM|]. apply bind_fails; [|discriminate].
    destruct x as [|w ws|l']; cbn [suffix_meaning]; [discriminate| |].
    - destruct (lang_parse _); discriminate.
    - apply bind_fails; [apply IM|discriminate]. }
  assert (TM : forall t, triple_meaning iri_parse lang_parse label_ok gext printable t <> Ret (Err Tokenizer)).
  { intros [n p o]. unfold triple_meaning. cbn [src_s src_p src_o].
    apply bind_fails; [apply NM|intros a]. apply bind_fails; [apply IM|intros b]. apply bind_fails; [apply OM|discriminate]. }
  split; split.
  - intros (l & D). rewrite (nt_reads _ _ _ _ _ l s D). unfold triples_meaning. apply bind_fails; [|discriminate].
    apply all_fails. rewrite Forall_map. apply Forall_forall. intros x _. apply TM.
  - intros N. destruct (ntripleDoc s) as [[[t p] r]|] eqn:E.
    + apply PestFacts.p_rule_Some in E as (q & E & _). eapply doc_inv; [exact triple_inv|apply ntriple_moves|exact E].
    + destruct N. unfold nt_read. rewrite E. reflexivity.
  - intros (l & D). rewrite (nq_reads _ _ _ _ _ l s D). apply bind_fails; [|discriminate].
    apply all_fails. rewrite Forall_map. apply Forall_forall. intros x _. unfold quad_meaning.
    apply bind_fails; [apply TM|intros a]. destruct (src_g x) as [n|]; [|discriminate]. apply bind_fails; [apply NM|discriminate].
  - intros N. destruct (nquadDoc s) as [[[t p] r]|] eqn:E.
    + apply PestFacts.p_rule_Some in E as (q & E & _). eapply doc_inv; [exact quad_inv|apply nquad_moves|exact E].
    + destruct N. unfold nq_read. rewrite E. reflexivity.
Qed.

(** ** Where the quads go *)
Lemma c60_quads iri_parse lang_parse label_ok gext printable l s : doc_at quad_at l s ->
  match io_all (map (quad_meaning iri_parse lang_parse label_ok gext printable) l) with
  | Ret (Ok w) => exists d, nq_read iri_parse lang_parse label_ok gext printable s = Ret (Ok d) /\ holds_quads d w
  | Ret (Err e) => nq_read iri_parse lang_parse label_ok gext printable s = Ret (Err e)
  | Panic => nq_read iri_parse lang_parse label_ok gext printable s = Panic
  end.
Proof.
  intros D. rewrite (nq_reads _ _ _ _ _ l s D). destruct (io_all _) as [[w|e]|]; cbn; [|reflexivity|reflexivity].
  exists (put_all [] w). split; [reflexivity|apply put_all_holds].
Qed.

(** ** Literals made from a text *)
Section Texts.
Variable iri_parse : str -> option str.
Variable lang_parse : str -> option str.
Variable label_ok : str -> bool.
Variable gext printable : chr -> bool.
Notation escape := (escape_string gext printable).
Notation readable := (readable_char gext printable).
Notation itself := (prints_as_itself gext printable).
Notation read_nt := (nt_read iri_parse lang_parse label_ok gext printable).

Lemma itself_readable t : Forall itself t -> Forall readable t.
Proof. apply Forall_impl. intros c H. left. exact H. Qed.

Lemma plain_writable force s p t : subject_writable iri_parse label_ok s -> iri_writable iri_parse p -> Forall readable t ->
  statement_writable iri_parse lang_parse label_ok force (MkStmt s p (OLit (lit_plain gext printable t))).
Proof.
  intros S P R. split; [exact S|]. split; [exact P|]. cbn. unfold literal_writable. cbn. split; [|exact I]. apply (escape_text iri_parse lang_parse label_ok). exact R.
Qed.
Lemma plain_unreadable force s p t : subject_writable iri_parse label_ok s -> iri_writable iri_parse p -> ~ Forall readable t ->
  statement_unreadable iri_parse label_ok gext printable force (MkStmt s p (OLit (lit_plain gext printable t))).
Proof. intros S P R. split; [exact S|]. split; [exact P|]. exists t. split; [reflexivity|exact R]. Qed.

Lemma write_order_single h st n ho : orders_ok h -> hash_order ho -> flat st ->
  write_order h (fst (g_simplify ho n (g_from_iter [st]))) = [st].
Proof.
  intros H Ho F. pose proof (write_order_NoDup h (fst (g_simplify ho n (g_from_iter [st]))) H) as N.
  assert (I : forall x, In x (write_order h (fst (g_simplify ho n (g_from_iter [st])))) <-> x = st).
  { intros x. rewrite write_order_In by exact H. rewrite simplify_flat_list by (auto; constructor; auto).
    rewrite g_iter_In by exact Ho. cbn. intuition. }
  destruct (write_order _ _) as [|a [|b w]].
  - destruct (proj2 (I st) eq_refl).
  - f_equal. apply I. left. reflexivity.
  - inversion N; subst. assert (a = b) by (transitivity st; [apply I; left|symmetry; apply I; right; left]; reflexivity).
    subst. destruct H2. left. reflexivity.
Qed.

Lemma escape_changes t : ~ Forall itself t -> escape t <> t.
Proof. intros N E. apply N. apply escape_id_iff. exact E. Qed.

Lemma c43_text force h ho n s p t : orders_ok h -> hash_order ho ->
  subject_writable iri_parse label_ok s -> iri_writable iri_parse p ->
  let st x := MkStmt s p (OLit (lit_plain gext printable x)) in
  let back := read_nt (nt_write Bare force h ho n (g_from_iter [st t])) in
  (Forall readable t /\ back = Ret (Ok (g_from_iter [st (escape t)]))) \/
  (~ Forall readable t /\ back = Ret (Err Tokenizer)).
Proof.
  intros H Ho S P st back.
  assert (D : forall c, {readable c} + {~ readable c}).
  { intros c. unfold readable_char, prints_as_itself.
    destruct (in_dec N.eq_dec c [9; 10; 13; 34; 92]) as [I|I]; [left; auto|].
    destruct (in_dec N.eq_dec c [0; 9; 10; 13; 34; 92]) as [J|J]; [right; tauto|].
    destruct (gext c); [right; intros [(_ & K & _)|K]; [discriminate|auto]|].
    destruct (printable c); [left; auto|right; intros [(_ & _ & K)|K]; [discriminate|auto]]. }
  destruct (Forall_dec readable D t) as [R|R]; [left|right]; (split; [exact R|]); unfold back, nt_write.
  - rewrite write_order_single; auto; [|split; [destruct s; [reflexivity|reflexivity|destruct S]|exact I]].
    rewrite nt_lines_read; [reflexivity|]. constructor; [|constructor]. apply plain_writable; auto.
  - rewrite write_order_single; auto; [|split; [destruct s; [reflexivity|reflexivity|destruct S]|exact I]].
    apply nt_lines_rejected; constructor; [right|constructor|]; apply plain_unreadable; auto.
Qed.
Lemma c43_same force h ho n s p t : orders_ok h -> hash_order ho ->
  subject_writable iri_parse label_ok s -> iri_writable iri_parse p ->
  let g := g_from_iter [MkStmt s p (OLit (lit_plain gext printable t))] in
  read_nt (nt_write Bare force h ho n g) = Ret (Ok g) <-> Forall itself t.
Proof.
  intros H Ho S P g. destruct (c43_text force h ho n s p t H Ho S P) as [[R E]|[R E]]; cbv zeta in *; unfold g; rewrite E.
  - split.
    + intros Q. injection Q as Q. apply escape_id_iff. apply escape_inj in Q. exact Q.
    + intros F. rewrite (escape_itself _ _ t F). reflexivity.
  - split; [discriminate|]. intros F. destruct R. apply itself_readable. exact F.
Qed.
(** Numbers without quotes. *)
Lemma dec_Z_bare z : bare_text (dec_Z z).
Proof.
  assert (B : forall k, bare_text (dec_N k)).
  { intros k. pose proof (dec_N_nonnil k) as NN. pose proof (dec_N_digits k) as D. destruct (dec_N k) as [|c r]; [congruence|].
    inversion D as [|? ? DC DR]; subst. cbn. left. unfold is_alnum. rewrite DC. apply orb_true_r. }
  destruct z as [|k|k]; unfold dec_Z; [apply B|apply B|]. right. right. reflexivity.
Qed.
Lemma int_unreadable s p t z : subject_writable iri_parse label_ok s -> iri_writable iri_parse p ->
  ascii_tables gext printable ->
  statement_unreadable iri_parse label_ok gext printable false (MkStmt s p (OLit (lit_from_int gext printable t z))).
Proof.
  intros S P A. split; [exact S|]. split; [exact P|]. cbn [st_object]. unfold literal_unreadable.
  rewrite int_literal by exact A. destruct t; cbn; apply dec_Z_bare.
Qed.
Lemma bool_unreadable s p b : subject_writable iri_parse label_ok s -> iri_writable iri_parse p ->
  ascii_tables gext printable ->
  statement_unreadable iri_parse label_ok gext printable false (MkStmt s p (OLit (lit_from_bool gext printable b))).
Proof.
  intros S P A. split; [exact S|]. split; [exact P|]. cbn [st_object]. unfold literal_unreadable. cbn [lit_from_bool lit_with_data_type lit_data_type bare_type andb negb lexical_form].
  rewrite escape_itself; [destruct b; left; reflexivity|].
  assert (K : forall c, 97 <= c <= 122 -> itself c).
  { intros c C. split; [|apply A; lia]. intros I. cbn in I. intuition (subst; lia). }
  destruct b; cbn -[prints_as_itself]; repeat (apply Forall_cons; [apply K; cbn; lia|]); constructor.
Qed.
End Texts.

Lemma all_ok_In {A} (l : list (io A)) w : io_all l = Ret (Ok w) -> forall x, In x l -> exists a, x = Ret (Ok a).
Proof.
  revert w. induction l as [|y l IH]; intros w E x I; [destruct I|]. cbn in E.
  destruct y as [[a|e]|]; try discriminate E. cbn in E. destruct I as [<-|I]; [eauto|].
  destruct (io_all l) as [[v|e]|] eqn:K; try discriminate E. eapply IH; [reflexivity|exact I].
Qed.
Lemma c60_no_label iri_parse lang_parse label_ok gext printable l s : doc_at quad_at l s ->
  (exists q, In q l /\ src_g q = None) ->
  forall d, nq_read iri_parse lang_parse label_ok gext printable s <> Ret (Ok d).
Proof.
  intros D (q & I & Q) d E. rewrite (nq_reads _ _ _ _ _ l s D) in E.
  destruct (io_all (map (quad_meaning iri_parse lang_parse label_ok gext printable) l)) as [[w|e]|] eqn:K; try discriminate E.
  destruct (all_ok_In _ _ K (quad_meaning iri_parse lang_parse label_ok gext printable q)) as (a & A).
  { apply in_map. exact I. }
  unfold quad_meaning in A. rewrite Q in A. destruct (triple_meaning _ _ _ _ _ _) as [[b|e]|]; discriminate A.
Qed.
