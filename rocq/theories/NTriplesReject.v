(** Documents that cannot be read. *)
From Coq Require Import Lia ZArith.
From Verif Require Import PestFacts NTriplesProofs NTriplesRead NTriplesDocs GraphProofs SimplifyProofs LiteralProofs NTriplesWrite.
From Verif Require Export NTriplesWriteSpec.

(** ** A text starts with at most one rendering *)
Lemma node_det n s r n' r' : node_at n s r -> node_at n' s r' -> r = r'.
Proof.
  intros A B.
  assert (E : p_rule R_ntripleSubject (p_alt IRIREF blankNode) s = Some (node_text n, [Pair R_ntripleSubject (node_text n) [node_pair n]], r))
    by (apply node_parser_iff; exists n; auto).
  assert (E' : p_rule R_ntripleSubject (p_alt IRIREF blankNode) s = Some (node_text n', [Pair R_ntripleSubject (node_text n') [node_pair n']], r'))
    by (apply node_parser_iff; exists n'; auto).
  rewrite E in E'. congruence.
Qed.
Lemma iri_det l r l' r' : Forall iri_piece l -> Forall iri_piece l' ->
  $"<" ++ pieces_text l ++ $">" ++ r = $"<" ++ pieces_text l' ++ $">" ++ r' -> r = r'.
Proof.
  intros F F' E. pose proof (IRIREF_fwd l r F) as A. rewrite E, (IRIREF_fwd l' r' F') in A. congruence.
Qed.
Lemma gap_stop s r : gap_at s r -> stops gap_start s -> r = s.
Proof.
  intros G S. inversion G as [|c s' ? W G'|body s' ? FB NL G']; subst; [reflexivity| |].
  - cbn in S. apply gap_start_white in S. destruct S as [S _]. destruct (S W).
  - discriminate S.
Qed.
Lemma object_first o s r : object_at o s r -> exists c s', s = c :: s' /\ In c [60; 95; 91; 34].
Proof.
  intros [n s0 r0 A|l x s0 r0 F A].
  - apply node_first in A as (c & s' & -> & I). exists c, s'. split; [reflexivity|]. cbn in *. tauto.
  - exists 34. eexists. split; [reflexivity|]. cbn. auto.
Qed.
Lemma object_start o s r : object_at o s r -> stops gap_start s.
Proof. intros A. apply object_first in A as (c & s' & -> & I). cbn in I |- *. intuition; subst; reflexivity. Qed.

(** After a subject and a predicate that can be read, no object. *)
Lemma no_spo n l s0 s1 s2 s3 : node_at n s0 s1 -> Forall iri_piece l ->
  gap_at s1 ($"<" ++ pieces_text l ++ $">" ++ s2) -> gap_at s2 s3 -> stops gap_start s3 ->
  (forall o r, ~ object_at o s3 r) -> forall x r, ~ spo_at x s0 r.
Proof.
  intros NA F G1 G2 S NO x r A. inversion A as [n' l' o a b c d r0 NA' F' G1' G2' OA]; subst.
  assert (b = s1) by (eapply node_det; eauto). subst b.
  assert (E : $"<" ++ pieces_text l ++ $">" ++ s2 = $"<" ++ pieces_text l' ++ $">" ++ c)
    by (eapply gap_unique; eauto; reflexivity).
  apply iri_det in E; auto. subst c.
  assert (s3 = d) by (eapply gap_unique; eauto using object_start). subst d. eapply NO. exact OA.
Qed.

Section Stuck.
Context {A B : Type}.
Variable item_at : A -> str -> str -> Prop.
Variable line : B -> str.
Hypothesis item_det : forall x s r x' r', item_at x s r -> item_at x' s r' -> r = r'.
Hypothesis item_start : forall x s r, item_at x s r -> stops gap_start s.

Lemma items_start l s : items_at item_at l s -> stops gap_start s.
Proof. intros [|x w s0 s1 s2 I G R]; [exact I|]. eapply item_start. exact I. Qed.
(** Good lines up to the first bad one. *)
Lemma stuck l : forall pre, forallb is_white pre = true ->
  (forall b r, In b l -> stops gap_start (line b ++ r) /\ line b <> [] /\
     ((exists x, item_at x (line b ++ r) (10 :: r)) \/ forall x r', ~ item_at x (line b ++ r) r')) ->
  (exists b, In b l /\ forall r x r', ~ item_at x (line b ++ r) r') ->
  forall w, ~ doc_at item_at w (pre ++ flat_map line l).
Proof.
  induction l as [|b l IH]; intros pre P H (bad & I & X) w (s' & G & IT); [destruct I|]. cbn [flat_map] in G.
  destruct (H b (flat_map line l) (or_introl eq_refl)) as (S & NE & C).
  assert (E : line b ++ flat_map line l = s').
  { eapply gap_unique; [apply gap_white_app; [exact P|apply gap_none]|exact G|exact S|eapply items_start; exact IT]. }
  subst s'. inversion IT as [E0|x w' s0 s1 s2 IA G' IT']; subst.
  - destruct (line b); [congruence|discriminate].
  - destruct C as [(y & IY)|N]; [|eapply N; exact IA].
    assert (s1 = 10 :: flat_map line l) by (eapply item_det; eauto). subst s1.
    destruct I as [->|I]; [eapply X; exact IY|].
    eapply (IH [10]); [reflexivity|intros; apply H; right; auto|eauto|]. exists s2. split; [exact G'|exact IT'].
Qed.
End Stuck.

Lemma triple_det x s r x' r' : triple_at x s r -> triple_at x' s r' -> r = r'.
Proof.
  intros X Y.
  destruct (triple_fwd (fun _ => None) (fun _ => None) (fun _ => false) (fun _ => false) (fun _ => false) _ _ _ X) as (t & p & E & _).
  destruct (triple_fwd (fun _ => None) (fun _ => None) (fun _ => false) (fun _ => false) (fun _ => false) _ _ _ Y) as (t' & p' & E' & _).
  rewrite E in E'. congruence.
Qed.

(** ** Unreadable objects *)
Section Reject.
Variable iri_parse : str -> option str.
Variable lang_parse : str -> option str.
Variable label_ok : str -> bool.
Variable gext printable : chr -> bool.
Notation escape := (escape_string gext printable).
Notation readable := (readable_char gext printable).
Notation iri_w := (iri_writable iri_parse).
Notation stmt_w := (statement_writable iri_parse lang_parse label_ok).
Notation stmt_u := (statement_unreadable iri_parse label_ok gext printable).
Notation read_nt := (nt_read iri_parse lang_parse label_ok gext printable).

Lemma piece_first_plain q c : In c [34; 92; 13; 10] -> string_piece q -> c <> 92 -> forall w r, piece_text q ++ w = c :: r -> False.
Proof.
  intros I Q N w r E. destruct q as [d|ds vs|d].
  - injection E as -> _. apply Q. exact I.
  - destruct (numeric_first ds vs) as (v & V). rewrite V in E. injection E as E _. congruence.
  - injection E as E _. congruence.
Qed.

(** Quoting text and reading it up to the quote. *)
Lemma escape_pieces t : forall l tail s', Forall string_piece l ->
  escape t ++ 34 :: tail = pieces_text l ++ 34 :: s' -> Forall readable t.
Proof.
  induction t as [|c t IH]; intros l tail s' F E; [constructor|]. unfold escape_string in E. cbn [flat_map] in E.
  fold (escape t) in E. rewrite <- app_assoc in E.
  assert (NN : esc_chr gext printable c <> []) by
    (destruct (esc_cases gext printable c) as [(_ & d & -> & _)|(_ & [(_ & ->)|(_ & ->)])]; discriminate).
  destruct (esc_cases gext printable c) as [(I & d & EQ & CD)|(NI & [(S & EQ)|(S & EQ)])]; rewrite EQ in E.
  - destruct l as [|q l].
    { cbn in E. discriminate. }
    inversion F as [|? ? Q FL]; subst. unfold pieces_text in E. cbn [flat_map] in E. fold (pieces_text l) in E. rewrite <- app_assoc in E. cbn [app] in E.
    destruct q as [e|ds vs|e].
    + injection E as <- _. destruct Q. cbn. auto.
    + exfalso. cbn [piece_text] in E. destruct (Nat.eqb (length ds) 4); cbn [app] in E; injection E as E _; subst d; cbn in CD; intuition congruence.
    + cbn [piece_text app] in E. injection E as <- E. constructor.
      * right. cbn in CD, Q |- *. intuition congruence.
      * eapply IH; eauto.
  - destruct l as [|q l].
    { cbn in E. injection E as E _. subst c. destruct NI. cbn. auto 8. }
    inversion F as [|? ? Q FL]; subst. unfold pieces_text in E. cbn [flat_map] in E. fold (pieces_text l) in E. rewrite <- app_assoc in E. cbn [app] in E.
    assert (C : c <> 92) by (intros ->; apply NI; cbn; auto 8). destruct q as [e|ds vs|e].
    + cbn [piece_text app] in E. injection E as <- E. constructor; [left; exact S|]. eapply IH; eauto.
    + destruct (numeric_first ds vs) as (v & V). rewrite V in E. injection E as E _. congruence.
    + cbn [piece_text app] in E. injection E as E _. congruence.
  - exfalso. rewrite u_esc_app in E. destruct l as [|q l]; [discriminate E|].
    inversion F as [|? ? Q FL]; subst. unfold pieces_text in E. cbn [flat_map] in E. fold (pieces_text l) in E. rewrite <- app_assoc in E.
    destruct q as [e|ds vs|e].
    + injection E as <- _. destruct Q. cbn. auto.
    + destruct Q as [FD LN]. cbn [piece_text] in E. destruct (Nat.eqb (length ds) 4); cbn [app] in E; injection E as E; [|discriminate].
      inversion FD as [|d v ds' vs' HD FD']; subst; [cbn in LN; destruct LN; discriminate|]. injection E as E _. subst d.
      destruct HD as [V [H|H]]; unfold hex_upper, hex_lower in H; destruct (v <? 10) eqn:L; try (apply N.ltb_lt in L); try (apply N.ltb_ge in L); lia.
    + cbn [piece_text app] in E. injection E as <- _. cbn in Q. intuition discriminate.
Qed.
Lemma escape_text t : Forall readable t -> string_text (escape t).
Proof.
  induction 1 as [|c t R F (l & FL & E)]; [exists []; split; [constructor|reflexivity]|].
  unfold escape_string. cbn [flat_map]. fold (escape t). rewrite E.
  destruct (esc_cases gext printable c) as [(I & d & -> & CD)|(NI & [(S & ->)|(S & ->)])].
  - exists (Short d :: l). split; [|reflexivity]. constructor; [|exact FL]. cbn.
    destruct R as [(NI & _)|R]; [destruct (NI I)|]. cbn in R, CD. intuition (subst; auto; congruence).
  - exists (Plain c :: l). split; [|reflexivity]. constructor; [|exact FL]. cbn. cbn in NI. intuition.
  - destruct R as [R|R]; [destruct (S R)|]. destruct NI. cbn in R |- *. tauto.
Qed.
Lemma escape_readable t : string_text (escape t) <-> Forall readable t.
Proof.
  split; [|apply escape_text]. intros (l & F & E). apply (escape_pieces t l [] [] F). rewrite E. reflexivity.
Qed.

Lemma quoted_unreadable t tail : ~ Forall readable t -> forall o r, ~ object_at o (34 :: escape t ++ 34 :: tail) r.
Proof.
  intros N o r A. inversion A as [n s r0 NA|l x s r0 F SA E0]; subst.
  - apply node_first in NA as (c & s' & E & I). injection E as <- _. cbn in I. intuition discriminate.
  - apply N. eapply escape_pieces; [exact F|symmetry; eassumption].
Qed.
Lemma bare_unreadable t tail : bare_text t -> stops gap_start (t ++ tail) /\ forall o r, ~ object_at o (t ++ tail) r.
Proof.
  destruct t as [|c t]; [intros []|]. intros B. assert (C : ~ In c [60; 95; 91; 34; 32; 9; 13; 10; 35]).
  { intros I. cbn in I. destruct B as [B|[E | E]]; [|subst c; intuition discriminate|subst c; intuition discriminate].
    intuition; subst; discriminate B. }
  split.
  - cbn. destruct (gap_start c) eqn:G; [|reflexivity]. exfalso. apply C. unfold gap_start in G.
    apply orb_true_iff in G as [G|G]; [apply is_white_iff in G; cbn in *; intuition|apply N.eqb_eq in G; subst; cbn; auto 12].
  - intros o r A. apply object_first in A as (c' & s' & E & I). injection E as <- _. apply C. cbn in *. intuition.
Qed.

Lemma unreadable_object force l tail : literal_unreadable gext printable force l ->
  stops gap_start (lit_show Bare force l ++ tail) /\ forall o r, ~ object_at o (lit_show Bare force l ++ tail) r.
Proof.
  unfold literal_unreadable, lit_show. intros U.
  assert (Q : (exists t, lexical_form l = escape t /\ ~ Forall readable t) ->
    stops gap_start (lit_show_quoted Bare l ++ tail) /\ forall o r, ~ object_at o (lit_show_quoted Bare l ++ tail) r).
  { intros (t & E & N). unfold lit_show_quoted. rewrite E, <- !app_assoc. split; [reflexivity|]. apply quoted_unreadable. exact N. }
  destruct (lit_data_type l) as [d|]; [|apply Q; exact U].
  destruct (bare_type d) eqn:BT; cbn [andb] in U.
  - destruct force; cbn [negb] in U; destruct d; try discriminate BT; cbn; first [apply Q; exact U | apply bare_unreadable; exact U].
  - destruct d; try discriminate BT; try (apply Q; exact U). destruct U.
Qed.

Lemma subject_start s r : subject_writable iri_parse label_ok s ->
  stops gap_start (subj_show Bare s ++ r) /\ subj_show Bare s <> [].
Proof. destruct s; cbn; intros W; [| |destruct W]; split; try reflexivity; discriminate. Qed.

Lemma unreadable_line force st : stmt_u force st -> forall r x r', ~ triple_at x (nt_line Bare force st ++ r) r'.
Proof.
  destruct st as [s p o]. intros (WS & WP & U) r x r' T. cbn [st_subject st_predicate st_object] in *.
  destruct o as [b|i|l|items|t]; try destruct U. inversion T as [x0 s0 s1 r0 A G]; subst.
  unfold nt_line in A. cbn [st_subject st_predicate st_object show_iri obj_show] in A. rewrite <- !app_assoc in A.
  destruct (subject_node iri_parse label_ok s (60 :: p ++ 62 :: 32 :: lit_show Bare force l ++ $" ." ++ 10 :: r) WS) as (n & NA & _).
  destruct (unreadable_object force l ($" ." ++ 10 :: r) U) as [S NO].
  refine (no_spo n (map Plain p) _ _ (32 :: lit_show Bare force l ++ $" ." ++ 10 :: r) _ NA _ _ _ S NO _ _ A).
  - apply plain_pieces. exact (proj1 WP).
  - apply gap_white; [cbn; auto|]. rewrite iri_text. apply gap_none.
  - apply gap_white; [cbn; auto|apply gap_none].
Qed.

Lemma nt_lines_rejected force l : Forall (fun st => stmt_w force st \/ stmt_u force st) l -> Exists (stmt_u force) l ->
  read_nt (flat_map (nt_line Bare force) l) = Ret (Err Tokenizer).
Proof.
  intros F X. rewrite Forall_forall in F. apply Exists_exists in X as (bad & I & U).
  apply nt_rejects. apply (stuck triple_at (nt_line Bare force) triple_det (triple_start iri_parse lang_parse label_ok gext printable) l []); [reflexivity| |].
  - intros st r J.
    assert (WS : subject_writable iri_parse label_ok (st_subject st)) by (destruct (F _ J) as [W|W]; apply W).
    destruct (subject_start _ ($" <" ++ show_iri Bare (st_predicate st) ++ $"> " ++ obj_show Bare force (st_object st) ++ $" ." ++ [10] ++ r) WS) as [S NE].
    split; [|split].
    + unfold nt_line. rewrite <- !app_assoc. exact S.
    + unfold nt_line. destruct (subj_show Bare (st_subject st)); [congruence|discriminate].
    + destruct (F _ J) as [W|W]; [left|right; intros x r'; apply unreadable_line; exact W].
      destruct (line_rendered iri_parse lang_parse label_ok gext printable force st r W) as (x & A & _). eauto.
  - exists bad. split; [exact I|]. intros r x r'. apply unreadable_line. exact U.
Qed.

Lemma unreadable_flat force st : stmt_u force st -> flat st.
Proof.
  destruct st as [s p o]. intros (S & _ & O). cbn in *. split; cbn.
  - destruct s; [reflexivity|reflexivity|destruct S].
  - destruct o; cbn; auto.
Qed.
Lemma nt_rejected force h ho n g : orders_ok h -> hash_order ho ->
  Forall (fun st => stmt_w force st \/ stmt_u force st) (g_list g) -> Exists (stmt_u force) (g_list g) ->
  read_nt (nt_write Bare force h ho n g) = Ret (Err Tokenizer).
Proof.
  intros H Ho F X. unfold nt_write.
  assert (FL : Forall flat (g_list g)).
  { eapply Forall_impl; [|exact F]. intros st [W|W]; [eapply writable_flat|eapply unreadable_flat]; exact W. }
  assert (Q : forall st, In st (write_order h (fst (g_simplify ho n g))) <-> In st (g_list g)).
  { intros st. rewrite write_order_In by exact H. rewrite simplify_flat_list by auto. apply g_iter_In. exact Ho. }
  apply nt_lines_rejected.
  - rewrite Forall_forall in *. intros st I. apply F, Q, I.
  - apply Exists_exists in X as (st & I & U). apply Exists_exists. exists st. split; [apply Q; exact I|exact U].
Qed.

(** ** The printed form of IRIs at this commit *)
Lemma pieces_no_gt l : Forall iri_piece l -> ~ In 62 (pieces_text l).
Proof.
  intros F I. apply in_flat_map in I as (q & Q & I). rewrite Forall_forall in F. apply F in Q. destruct q as [c|ds vs|c].
  - destruct I as [->|[]]. apply (proj2 Q). cbn. auto.
  - destruct Q as [FD _]. cbn in I. apply in_app_iff in I as [I|I].
    + destruct (Nat.eqb (length ds) 4); cbn in I; intuition discriminate.
    + clear - FD I. induction FD as [|d v ds vs [V H] FD IH]; [destruct I|]. destruct I as [->|I]; [|auto].
      unfold hex_upper, hex_lower in H. destruct (v <? 10) eqn:L; try (apply N.ltb_lt in L); try (apply N.ltb_ge in L); lia.
  - destruct Q.
Qed.
Lemma split_gt a b r r' : ~ In 62 a -> ~ In 62 b -> a ++ 62 :: r = b ++ 62 :: r' -> a = b /\ r = r'.
Proof.
  revert b. induction a as [|c a IH]; intros [|d b] NA NB E; cbn in *.
  - injection E as ->. auto.
  - injection E as <- _. tauto.
  - injection E as -> _. tauto.
  - injection E as -> E. destruct (IH b) as [-> ->]; auto.
Qed.

(** No statement can be read from a doubly bracketed predicate. *)
Lemma angled_pred p n s0 s1 : node_at n s0 (32 :: 60 :: 60 :: p ++ 62 :: 62 :: s1) -> ~ In 62 p -> forall x r, ~ spo_at x s0 r.
Proof.
  intros NA NP x r A. inversion A as [n' l' o a b c d r0 NA' F' G1' G2' OA]; subst.
  assert (b = 32 :: 60 :: 60 :: p ++ 62 :: 62 :: s1) by (eapply node_det; eauto). subst b.
  assert (E : 60 :: 60 :: p ++ 62 :: 62 :: s1 = $"<" ++ pieces_text l' ++ $">" ++ c).
  { eapply gap_unique; [|exact G1'|reflexivity|reflexivity]. apply gap_white; [cbn; auto|apply gap_none]. }
  injection E as E. change (60 :: p ++ 62 :: 62 :: s1) with ((60 :: p) ++ 62 :: 62 :: s1) in E.
  apply split_gt in E as [_ <-]; [| |apply pieces_no_gt; exact F'].
  - apply gap_stop in G2'; [|reflexivity]. subst d. apply object_first in OA as (c' & s' & E & I). injection E as <- _. cbn in I. intuition discriminate.
  - cbn. intros [E1|I]; [discriminate|auto].
Qed.
Lemma angled_subject i s1 : ~ In 62 i -> forall x r, ~ spo_at x (60 :: 60 :: i ++ 62 :: 62 :: s1) r.
Proof.
  intros NI x r A. inversion A as [n' l' o a b c d r0 NA' F' G1' G2' OA]; subst.
  inversion NA' as [l0 r1 F0|b0 r1 L LE|g r1 GA]; subst.
  match goal with H : pieces_text l0 ++ _ = _ |- _ => rename H into E end.
  symmetry in E. change (60 :: i ++ 62 :: 62 :: s1) with ((60 :: i) ++ 62 :: 62 :: s1) in E.
  apply split_gt in E as [_ <-]; [| |apply pieces_no_gt; exact F0].
  - apply gap_stop in G1'; [discriminate G1'|reflexivity].
  - cbn. intros [E1|I]; [discriminate|auto].
Qed.

Lemma angled_spo force st r x r' : unbracketed st -> ~ spo_at x (spo_text Angled force st ++ r) r'.
Proof.
  destruct st as [s p o]. unfold unbracketed, spo_text. cbn [st_subject st_predicate st_object show_iri]. intros (US & UP).
  rewrite <- !app_assoc. cbn [app]. rewrite <- app_assoc. destruct s as [b|i|t]; [| |destruct US].
  - cbn [subj_show]. rewrite <- app_assoc. eapply angled_pred; [|exact UP]. apply at_label; [exact US|]. apply label_ends_space.
  - cbn [subj_show show_iri]. rewrite <- !app_assoc. cbn [app]. rewrite <- app_assoc. apply angled_subject. exact US.
Qed.
Lemma angled_start force st r : unbracketed st -> stops gap_start (spo_text Angled force st ++ r).
Proof. destruct st as [s p o]. intros (US & _). destruct s; [reflexivity|reflexivity|destruct US]. Qed.

Lemma angled_doc {A} (item_at : A -> str -> str -> Prop) text :
  (forall x s r, item_at x s r -> exists t r', spo_at t s r') ->
  text <> [] -> stops gap_start text -> (forall x r', ~ spo_at x text r') -> forall w, ~ doc_at item_at w text.
Proof.
  intros H NE S N w (s' & G & IT). apply gap_stop in G; [|exact S]. subst s'.
  inversion IT as [E|x w' s0 s1 s2 IA _ _]; subst; [congruence|]. apply H in IA as (t & r' & SP). eapply N. exact SP.
Qed.
Lemma triple_spo x s r : triple_at x s r -> exists t r', spo_at t s r'.
Proof. intros [t s0 s1 r0 A _]. eauto. Qed.
Lemma quad_spo x s r : quad_at x s r -> exists t r', spo_at t s r'.
Proof. intros [t s0 r0 A|t n s0 s1 s2 s3 r0 A _ _ _]; [eapply triple_spo; exact A|eauto]. Qed.

Lemma write_order_nonnil h g : orders_ok h -> g_list g <> [] -> exists st w, write_order h g = st :: w /\ In st (g_list g).
Proof.
  intros H N. destruct (write_order h g) as [|st w] eqn:E.
  - destruct (g_list g) as [|st l] eqn:G; [congruence|]. assert (I : In st (write_order h g)) by (apply write_order_In; [exact H|rewrite G; left; reflexivity]).
    rewrite E in I. destruct I.
  - exists st, w. split; [reflexivity|]. apply (write_order_In h g st H). rewrite E. left. reflexivity.
Qed.

Lemma spo_text_nonnil m force st : spo_text m force st <> [].
Proof. unfold spo_text. destruct (subj_show m (st_subject st)); discriminate. Qed.
Lemma app_nonnil {X} (a b : list X) : a <> [] -> a ++ b <> [].
Proof. destruct a; [congruence|discriminate]. Qed.

Lemma nt_angled force h ho n g : orders_ok h -> hash_order ho -> Forall flat (g_list g) -> Forall unbracketed (g_list g) ->
  g_list g <> [] -> read_nt (nt_write Angled force h ho n g) = Ret (Err Tokenizer).
Proof.
  intros H Ho FL U N. apply nt_rejects. unfold nt_write.
  pose proof (simplify_flat_list ho n g Ho FL) as E.
  destruct (write_order_nonnil h (fst (g_simplify ho n g)) H) as (st & w & EQ & I).
  { rewrite E. intros Z. apply N. pose proof (g_iter_perm ho g Ho) as P. rewrite Z in P. apply Permutation_nil. exact P. }
  rewrite EQ. cbn [flat_map]. rewrite nt_line_text. rewrite E in I. apply g_iter_In in I; [|exact Ho].
  rewrite Forall_forall in U. specialize (U _ I). rewrite <- app_assoc. apply angled_doc.
  - exact triple_spo.
  - apply app_nonnil, spo_text_nonnil.
  - apply angled_start. exact U.
  - intros x r'. apply angled_spo. exact U.
Qed.
Lemma nq_angled h ho n g : orders_ok h -> hash_order ho -> Forall flat (g_list g) -> Forall unbracketed (g_list g) ->
  g_list g <> [] -> nq_read iri_parse lang_parse label_ok gext printable (nq_write Angled h ho n g) = Ret (Err Tokenizer).
Proof.
  intros H Ho FL U N. apply nq_rejects. unfold nq_write.
  pose proof (simplify_flat_list ho n g Ho FL) as E.
  destruct (write_order_nonnil h (fst (g_simplify ho n g)) H) as (st & w & EQ & I).
  { rewrite E. intros Z. apply N. pose proof (g_iter_perm ho g Ho) as P. rewrite Z in P. apply Permutation_nil. exact P. }
  rewrite EQ. cbn [flat_map]. rewrite nq_line_text. rewrite E in I. apply g_iter_In in I; [|exact Ho].
  rewrite Forall_forall in U. specialize (U _ I). rewrite <- app_assoc. apply angled_doc.
  - exact quad_spo.
  - apply app_nonnil, spo_text_nonnil.
  - apply angled_start. exact U.
  - intros x r'. apply angled_spo. exact U.
Qed.
End Reject.
