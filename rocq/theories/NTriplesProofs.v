(** The N-Triples and N-Quads parsers read what the documents say. *)
From Coq Require Import Lia.
From Verif Require Import StrFacts PestFacts NTriplesSpec.

(** ** White space and comments *)

Definition gap_start (c : chr) : bool := is_white c || N.eqb c 35.

Lemma is_newline_iff c : is_newline c = true <-> newline c.
Proof. unfold is_newline, newline. rewrite orb_true_iff, !N.eqb_eq. tauto. Qed.
Lemma is_white_iff c : is_white c = true <-> white c.
Proof.
  unfold is_white, white. rewrite !orb_true_iff, !N.eqb_eq. fold (newline c). rewrite is_newline_iff.
  unfold newline. cbn [In]. intuition.
Qed.
Lemma newline_white c : newline c -> white c.
Proof. unfold newline, white. cbn. intuition. Qed.

Lemma gap_white_app w s r : forallb is_white w = true -> gap_at s r -> gap_at (w ++ s) r.
Proof.
  induction w as [|c w IH]; intros W G; [exact G|]. cbn in W. apply andb_true_iff in W as [C W].
  cbn [app]. apply gap_white; [apply is_white_iff; exact C|auto].
Qed.

Lemma comment_Some s t p r : g_comment s = Some (t, p, r) ->
  exists body, t = 35 :: body /\ p = [] /\ s = 35 :: body ++ r /\
    Forall (fun c => ~ newline c) body /\ (r = [] \/ exists c s', r = c :: s' /\ newline c).
Proof.
  intros E. apply p_seq_Some in E as (t1 & p1 & r1 & t2 & p2 & E1 & E2 & -> & ->).
  apply p_lit_Some in E1 as (-> & -> & ->).
  rewrite (star_ext _ _ _ (not_any_eq is_newline)) in E2.
  apply star_chr_inv in E2 as (-> & F & -> & S). exists t2. cbn.
  repeat split; auto.
  - apply Forall_forall. intros c Hc N. rewrite forallb_forall in F. specialize (F c Hc).
    apply is_newline_iff in N. rewrite N in F. discriminate.
  - destruct r as [|c r]; [auto|]. right. exists c, r. split; [reflexivity|].
    apply is_newline_iff. cbn in S. destruct (is_newline c); [reflexivity|discriminate].
Qed.
Lemma comment_moves : moves g_comment.
Proof.
  intros s t p r E. apply comment_Some in E as (body & -> & _ & -> & _). split; [reflexivity|discriminate].
Qed.
Definition unit_comment : parser := p_seq g_comment (p_star g_whitespace).
Lemma unit_moves : moves unit_comment.
Proof.
  intros s t p r E. apply p_seq_Some in E as (t1 & p1 & r1 & t2 & p2 & E1 & E2 & -> & ->).
  apply comment_moves in E1 as [-> T]. apply star_chr_inv in E2 as (-> & _).
  rewrite app_assoc. split; [reflexivity|]. destruct t1; [congruence|discriminate].
Qed.
Lemma iter_comments s t p r : iter unit_comment s t p r -> stops is_white s ->
  p = [] /\ s = t ++ r /\ gap_at s r /\ stops gap_start r.
Proof.
  induction 1 as [s E|s t p r t' p' r' E T S I IH]; intros W.
  - repeat split; [apply gap_none|]. destruct s as [|c s]; [exact Logic.I|]. cbn in W |- *.
    unfold gap_start. rewrite W. cbn. destruct (N.eqb_spec c 35); [|reflexivity]. subst c. exfalso.
    unfold unit_comment, g_comment, p_seq in E. change (35 :: s) with ($"#" ++ s) in E.
    rewrite p_lit_app in E. rewrite (star_ext _ _ _ (not_any_eq is_newline)) in E.
    destruct (star_total (p_chr (fun c => negb (is_newline c))) s) as (t & p & r & Q). rewrite Q in E.
    destruct (star_total g_whitespace r) as (t' & p' & r' & Q'). rewrite Q' in E. discriminate.
  - apply p_seq_Some in E as (t1 & p1 & r1 & t2 & p2 & E1 & E2 & -> & ->).
    apply star_chr_inv in E2 as (-> & F & -> & ST). destruct (IH ST) as (-> & -> & G & GS).
    apply comment_Some in E1 as (body & -> & -> & E & NB & NL). subst s.
    repeat split; auto. { cbn. rewrite <- !app_assoc. reflexivity. }
    apply gap_comment; [exact NB|exact NL|]. apply gap_white_app; [exact F|exact G].
Qed.
Lemma skip_total s : exists t r, g_skip s = Some (t, [], r) /\ s = t ++ r /\ gap_at s r /\ stops gap_start r.
Proof.
  unfold g_skip. destruct (star_total g_whitespace s) as (t1 & p1 & r1 & E1).
  destruct (star_total (p_seq g_comment (p_star g_whitespace)) r1) as (t2 & p2 & r2 & E2).
  exists (t1 ++ t2), r2. pose proof (star_chr_inv _ _ _ _ _ E1) as (-> & F & -> & S).
  pose proof E2 as E2'. apply (star_iter _ _ _ _ _ unit_moves) in E2'.
  destruct (iter_comments _ _ _ _ E2' S) as (-> & -> & G & GS).
  split; [exact (p_seq_eq _ _ _ _ _ _ _ _ _ E1 E2)|]. split; [apply app_assoc|].
  split; [apply gap_white_app; assumption|exact GS].
Qed.

Lemma body_unique b1 : forall b2 s1 s2, Forall (fun c => ~ newline c) b1 -> Forall (fun c => ~ newline c) b2 ->
  (s1 = [] \/ exists c s', s1 = c :: s' /\ newline c) -> (s2 = [] \/ exists c s', s2 = c :: s' /\ newline c) ->
  b1 ++ s1 = b2 ++ s2 -> s1 = s2.
Proof.
  induction b1 as [|c b1 IH]; intros [|d b2] s1 s2 F1 F2 N1 N2 E; cbn in E.
  - exact E.
  - exfalso. destruct N1 as [->|(x & s' & -> & N)]; [discriminate|].
    inversion E; subst. inversion F2; subst. contradiction.
  - exfalso. destruct N2 as [->|(x & s' & -> & N)]; [discriminate|].
    inversion E; subst. inversion F1; subst. contradiction.
  - inversion F1; inversion F2; subst. inversion E; subst. eapply IH; eauto.
Qed.
Lemma gap_start_white c : gap_start c = false -> ~ white c /\ c <> 35.
Proof.
  unfold gap_start. intros H. apply orb_false_iff in H as [H1 H2]. split.
  - intros W. apply is_white_iff in W. congruence.
  - apply N.eqb_neq. exact H2.
Qed.
Lemma gap_unique s r1 : gap_at s r1 -> forall r2, gap_at s r2 -> stops gap_start r1 -> stops gap_start r2 -> r1 = r2.
Proof.
  induction 1 as [r|c s r W G IH|body s r F NL G IH]; intros r2 G2 S1 S2.
  - inversion G2 as [|c s ? W G|body s ? F NL G]; subst; [reflexivity| |].
    + apply gap_start_white in S1 as [S1 _]. contradiction.
    + apply gap_start_white in S1 as [_ S1]. congruence.
  - inversion G2 as [|c' s' ? W' G'|body s' ? F NL G']; subst.
    + apply gap_start_white in S2 as [S2 _]. contradiction.
    + auto.
    + exfalso. unfold white in W. cbn in W. intuition discriminate.
  - inversion G2 as [|c' s' ? W' G'|body' s' ? F' NL' G' Q]; subst.
    + apply gap_start_white in S2 as [_ S2]. congruence.
    + exfalso. unfold white in W'. cbn in W'. intuition discriminate.
    + pose proof (body_unique _ _ _ _ F' F NL' NL Q). subst s'. auto.
Qed.
Lemma skip_gap s r : gap_at s r -> stops gap_start r -> exists t, g_skip s = Some (t, [], r).
Proof.
  intros G S. destruct (skip_total s) as (t & r' & E & _ & G' & S').
  rewrite (gap_unique _ _ G _ G' S S'). exists t. exact E.
Qed.
Lemma skip_inv s t p r : g_skip s = Some (t, p, r) -> p = [] /\ s = t ++ r /\ gap_at s r /\ stops gap_start r.
Proof.
  intros E. destruct (skip_total s) as (t' & r' & E' & S & G & GS). rewrite E in E'. inversion E'; subst. auto.
Qed.
Lemma skip_stop r : stops gap_start r -> g_skip r = Some ([], [], r).
Proof.
  intros S. destruct (skip_total r) as (t & r' & E & Q & G & S').
  rewrite <- (gap_unique _ _ (gap_none r) _ G S S') in *.
  replace t with (@nil N) in E; [exact E|]. destruct t; [reflexivity|].
  apply (f_equal (@length N)) in Q. rewrite app_length in Q. cbn in Q. lia.
Qed.

(** ** Escapes *)

Lemma hex_val_Some d v : hex_val d = Some v <-> hex_digit d v.
Proof.
  unfold hex_val, hex_digit, is_digit, in_range, hex_upper, hex_lower. split.
  - intros H. repeat match type of H with context [if ?b then _ else _] => destruct b eqn:?; [inversion H; subst; clear H|] end; try discriminate;
    repeat match goal with K : andb _ _ = true |- _ => apply andb_true_iff in K as [? ?] end;
    repeat match goal with K : N.leb _ _ = true |- _ => apply N.leb_le in K end;
    (split; [lia|]).
    + left. destruct (N.ltb_spec (d - 48) 10); lia.
    + left. destruct (N.ltb_spec (d - 55) 10); lia.
    + right. destruct (N.ltb_spec (d - 87) 10); lia.
  - intros [L [E|E]]; destruct (N.ltb_spec v 10) in E; subst d.
    + replace (N.leb 48 (48 + v)) with true by (symmetry; apply N.leb_le; lia).
      replace (N.leb (48 + v) 57) with true by (symmetry; apply N.leb_le; lia). cbn [andb]. f_equal. lia.
    + replace (N.leb (55 + v) 57) with false by (symmetry; apply N.leb_gt; lia). rewrite andb_false_r.
      replace (N.leb 65 (55 + v)) with true by (symmetry; apply N.leb_le; lia).
      replace (N.leb (55 + v) 70) with true by (symmetry; apply N.leb_le; lia). cbn [andb]. f_equal. lia.
    + replace (N.leb 48 (48 + v)) with true by (symmetry; apply N.leb_le; lia).
      replace (N.leb (48 + v) 57) with true by (symmetry; apply N.leb_le; lia). cbn [andb]. f_equal. lia.
    + replace (N.leb (87 + v) 57) with false by (symmetry; apply N.leb_gt; lia). rewrite andb_false_r.
      replace (N.leb (87 + v) 70) with false by (symmetry; apply N.leb_gt; lia). rewrite andb_false_r.
      replace (N.leb 97 (87 + v)) with true by (symmetry; apply N.leb_le; lia).
      replace (N.leb (87 + v) 102) with true by (symmetry; apply N.leb_le; lia). cbn [andb]. f_equal. lia.
Qed.
Lemma is_hex_iff d : is_hex d = true <-> exists v, hex_digit d v.
Proof.
  unfold is_hex. destruct (hex_val d) as [v|] eqn:E.
  - split; [|reflexivity]. intros _. exists v. apply hex_val_Some. exact E.
  - split; [discriminate|]. intros (v & H). apply hex_val_Some in H. congruence.
Qed.
Lemma hex_digits_fwd ds vs : Forall2 hex_digit ds vs -> forall r,
  p_times (length ds) (p_chr is_hex) (ds ++ r) = Some (ds, [], r).
Proof.
  induction 1 as [|d v ds vs D F IH]; intros r; cbn [length p_times app]; [reflexivity|].
  eapply p_seq_to; [apply p_chr_cons; apply is_hex_iff; eauto|apply IH|reflexivity|reflexivity].
Qed.
Lemma hex_digits_inv n : forall s t p r, p_times n (p_chr is_hex) s = Some (t, p, r) ->
  p = [] /\ s = t ++ r /\ length t = n /\ exists vs, Forall2 hex_digit t vs.
Proof.
  induction n; intros s t p r E; cbn [p_times] in E.
  - inversion E; subst. repeat split. exists []. constructor.
  - apply p_seq_Some in E as (t1 & p1 & r1 & t2 & p2 & E1 & E2 & -> & ->).
    apply p_chr_Some in E1 as (c & C & -> & -> & ->). apply IHn in E2 as (-> & -> & L & vs & F).
    apply is_hex_iff in C as (v & C). repeat split; [cbn; lia|]. exists (v :: vs). constructor; assumption.
Qed.
Lemma UCHAR_iff s t p r : UCHAR s = Some (t, p, r) <->
  p = [] /\ s = t ++ r /\ exists ds vs, numeric_ok ds vs /\ t = piece_text (Numeric ds vs).
Proof.
  unfold UCHAR. split.
  - intros E. apply p_alt_Some in E as [E|[_ E]];
    apply p_seq_Some in E as (t1 & p1 & r1 & t2 & p2 & E1 & E2 & -> & ->);
    apply p_lit_Some in E1 as (-> & -> & ->); apply hex_digits_inv in E2 as (-> & -> & L & vs & F);
    (split; [reflexivity|]); (split; [rewrite <- app_assoc; reflexivity|]); exists t2, vs;
    unfold numeric_ok, piece_text; rewrite L; cbn [Nat.eqb]; auto.
  - intros (-> & -> & ds & vs & [F [L|L]] & ->); unfold piece_text; rewrite L; cbn [Nat.eqb];
    rewrite <- app_assoc; apply p_alt_Some.
    + right. split.
      * apply p_seq_None1. unfold p_lit. reflexivity.
      * eapply p_seq_to; [apply p_lit_app| |reflexivity|reflexivity].
        rewrite <- L. apply (hex_digits_fwd _ _ F).
    + left. eapply p_seq_to; [apply p_lit_app| |reflexivity|reflexivity].
      rewrite <- L. apply (hex_digits_fwd _ _ F).
Qed.

Lemma piece_text_nonnil q : piece_text q <> [].
Proof. destruct q as [c|ds vs|c]; cbn; try discriminate. destruct (Nat.eqb _ _); discriminate. Qed.
Lemma numeric_first ds vs : exists w, piece_text (Numeric ds vs) = 92 :: w.
Proof. cbn. destruct (Nat.eqb _ _); cbn; eauto. Qed.
Lemma UCHAR_plain c r : c <> 92 -> UCHAR (c :: r) = None.
Proof.
  intros N. destruct (UCHAR (c :: r)) as [[[t p] r']|] eqn:E; [|reflexivity].
  apply UCHAR_iff in E as (_ & E & ds & vs & _ & ->). destruct (numeric_first ds vs) as [w W].
  rewrite W in E. inversion E. congruence.
Qed.
Lemma UCHAR_short c r : ~ In c [85; 117] -> UCHAR (92 :: c :: r) = None.
Proof.
  intros N. destruct (UCHAR (92 :: c :: r)) as [[[t p] r']|] eqn:E; [|reflexivity].
  apply UCHAR_iff in E as (_ & E & ds & vs & _ & ->). cbn in E, N.
  destruct (Nat.eqb _ _); cbn in E; inversion E; subst; intuition.
Qed.

Lemma not_in_iriref_false c : not_in_iriref c = false <-> iri_piece (Plain c).
Proof.
  unfold not_in_iriref, iri_piece. rewrite !orb_false_iff, !N.eqb_neq, N.leb_gt. cbn [In]. intuition.
Qed.
Lemma not_in_quote_false c : not_in_quote c = false <-> string_piece (Plain c).
Proof. unfold not_in_quote, string_piece. rewrite !orb_false_iff, !N.eqb_neq. cbn [In]. intuition. Qed.
Lemma is_echar_iff c : is_echar c = true <-> In c [116; 98; 110; 114; 102; 34; 39; 92].
Proof. unfold is_echar. rewrite !orb_true_iff, !N.eqb_eq. cbn [In]. intuition. Qed.

Definition piece_parser (a : parser) (ok : piece -> Prop) : Prop := forall s t p r,
  a s = Some (t, p, r) <-> p = [] /\ s = t ++ r /\ exists q, ok q /\ t = piece_text q.

Lemma IRIREF_CHAR_iff : piece_parser IRIREF_CHAR iri_piece.
Proof.
  intros s t p r. unfold IRIREF_CHAR. split.
  - intros E. apply p_alt_Some in E as [E|[_ E]].
    + apply not_any_Some in E as (c & C & -> & -> & ->). repeat split. exists (Plain c).
      split; [apply not_in_iriref_false; exact C|reflexivity].
    + apply UCHAR_iff in E as (-> & -> & ds & vs & O & ->). repeat split. exists (Numeric ds vs). auto.
  - intros (-> & -> & q & O & ->). apply p_alt_Some. destruct q as [c|ds vs|c].
    + left. apply not_any_Some. exists c. split; [apply not_in_iriref_false; exact O|auto].
    + right. split.
      * destruct (numeric_first ds vs) as [w ->]. cbn [app]. reflexivity.
      * apply UCHAR_iff. repeat split. eauto.
    + contradiction.
Qed.
Lemma QUOTE_CHAR_iff : piece_parser QUOTE_CHAR string_piece.
Proof.
  intros s t p r. unfold QUOTE_CHAR. split.
  - intros E. apply p_alt_Some in E as [E|[_ E]]; [|apply p_alt_Some in E as [E|[_ E]]].
    + apply not_any_Some in E as (c & C & -> & -> & ->). repeat split. exists (Plain c).
      split; [apply not_in_quote_false; exact C|reflexivity].
    + apply UCHAR_iff in E as (-> & -> & ds & vs & O & ->). repeat split. exists (Numeric ds vs). auto.
    + apply p_seq_Some in E as (t1 & p1 & r1 & t2 & p2 & E1 & E2 & -> & ->).
      apply p_lit_Some in E1 as (-> & -> & ->). apply p_chr_Some in E2 as (c & C & -> & -> & ->).
      repeat split. exists (Short c). split; [apply is_echar_iff; exact C|reflexivity].
  - intros (-> & -> & q & O & ->). apply p_alt_Some. destruct q as [c|ds vs|c].
    + left. apply not_any_Some. exists c. split; [apply not_in_quote_false; exact O|auto].
    + right. split.
      * destruct (numeric_first ds vs) as [w ->]. reflexivity.
      * apply p_alt_Some. left. apply UCHAR_iff. repeat split. eauto.
    + right. split; [reflexivity|]. apply p_alt_Some. right. split.
      * cbn [piece_text app]. apply UCHAR_short. cbn in O |- *. intuition; subst; discriminate.
      * cbn [piece_text app].
        eapply p_seq_to; [apply (p_lit_app $"\")|apply p_chr_cons; apply is_echar_iff; exact O|reflexivity|reflexivity].
Qed.

Lemma piece_moves a ok : piece_parser a ok -> moves a.
Proof. intros H s t p r E. apply H in E as (_ & -> & q & _ & ->). split; [reflexivity|apply piece_text_nonnil]. Qed.
Lemma star_pieces a ok l r : piece_parser a ok -> Forall ok l -> a r = None ->
  p_star a (pieces_text l ++ r) = Some (pieces_text l, [], r).
Proof.
  intros H F N. apply iter_star. induction F as [|q l O F IH]; [apply iter_stop; exact N|].
  cbn [pieces_text flat_map]. fold (pieces_text l). rewrite <- app_assoc.
  change (@nil pair) with (@nil pair ++ []). eapply iter_go with (r := pieces_text l ++ r);
    [apply H; eauto 6|apply piece_text_nonnil|reflexivity|exact IH].
Qed.
Lemma star_pieces_inv a ok s t p r : piece_parser a ok -> p_star a s = Some (t, p, r) ->
  exists l, Forall ok l /\ t = pieces_text l /\ p = [] /\ s = t ++ r /\ a r = None.
Proof.
  intros H E. apply (star_iter _ _ _ _ _ (piece_moves _ _ H)) in E.
  induction E as [s E|s t p r t' p' r' E T S I (l & F & -> & -> & -> & N)].
  - exists []. repeat split; auto.
  - apply H in E as (-> & _ & q & O & ->). exists (q :: l). repeat split; auto. subst s. apply app_assoc.
Qed.

(** ** Tokens *)

Definition iriref_text (l : list piece) : str := $"<" ++ pieces_text l ++ $">".
Definition iriref_pair (l : list piece) : pair :=
  Pair R_IRIREF (iriref_text l) [Pair R_IRIREF_INNER (pieces_text l) []].
Lemma IRIREF_iff s t p r : IRIREF s = Some (t, p, r) <->
  exists l, Forall iri_piece l /\ t = iriref_text l /\ p = [iriref_pair l] /\ s = t ++ r.
Proof.
  unfold IRIREF, IRIREF_INNER. split.
  - intros E. apply p_rule_Some in E as (q & E & ->).
    apply p_seq_Some in E as (t1 & p1 & r1 & t2 & p2 & E1 & E2 & -> & ->).
    apply p_lit_Some in E1 as (-> & -> & ->).
    apply p_seq_Some in E2 as (t3 & p3 & r3 & t4 & p4 & E3 & E4 & -> & ->).
    apply p_atomic_Some in E3 as (q & E3 & ->).
    apply (star_pieces_inv _ _ _ _ _ _ IRIREF_CHAR_iff) in E3 as (l & F & -> & -> & -> & N).
    apply p_lit_Some in E4 as (-> & -> & ->). exists l. unfold iriref_text, iriref_pair. cbn [app].
    repeat split; auto. rewrite <- !app_assoc. reflexivity.
  - intros (l & F & -> & -> & ->). apply p_rule_Some. exists [Pair R_IRIREF_INNER (pieces_text l) []].
    split; [|reflexivity]. unfold iriref_text. rewrite <- !app_assoc.
    assert (I : p_atomic R_IRIREF_INNER (p_star IRIREF_CHAR) (pieces_text l ++ $">" ++ r)
      = Some (pieces_text l, [Pair R_IRIREF_INNER (pieces_text l) []], $">" ++ r)).
    { apply p_atomic_Some. exists []. split; [|reflexivity].
      apply (star_pieces _ _ _ _ IRIREF_CHAR_iff); [exact F|reflexivity]. }
    eapply p_seq_to; [apply p_lit_app| |reflexivity|reflexivity].
    eapply p_seq_to; [exact I|apply p_lit_app|reflexivity|reflexivity].
Qed.
Lemma IRIREF_fwd l r : Forall iri_piece l ->
  IRIREF ($"<" ++ pieces_text l ++ $">" ++ r) = Some (iriref_text l, [iriref_pair l], r).
Proof.
  intros F. apply IRIREF_iff. exists l. unfold iriref_text. repeat split; auto. rewrite <- !app_assoc. reflexivity.
Qed.
Lemma IRIREF_None c r : c <> 60 -> IRIREF (c :: r) = None.
Proof.
  intros N. destruct (IRIREF (c :: r)) as [[[t p] r']|] eqn:E; [|reflexivity].
  apply IRIREF_iff in E as (l & _ & -> & _ & E). inversion E. congruence.
Qed.

(** ** Unescaping *)

Lemma from_hex_value ds vs : Forall2 hex_digit ds vs -> forall a,
  from_hex a ds = Some (fold_left (fun a v => 16 * a + v) vs a).
Proof.
  induction 1 as [|d v ds vs D F IH]; intros a; [reflexivity|]. cbn [from_hex fold_left].
  apply hex_val_Some in D. rewrite D. apply IH.
Qed.
Lemma esc_match_numeric ds vs r : numeric_ok ds vs ->
  esc_match (piece_text (Numeric ds vs) ++ r) = Some (piece_text (Numeric ds vs), r).
Proof.
  intros O. unfold esc_match.
  assert (E : UCHAR (piece_text (Numeric ds vs) ++ r) = Some (piece_text (Numeric ds vs), [], r)).
  { apply UCHAR_iff. repeat split. eauto. }
  rewrite E. reflexivity.
Qed.
Lemma unescape_uchar_numeric ds vs : numeric_ok ds vs ->
  unescape_uchar (piece_text (Numeric ds vs)) = if is_scalar (hex_value vs) then Ret (hex_value vs) else Panic.
Proof.
  intros [F _]. unfold unescape_uchar, piece_text.
  replace (skipn 2 _) with ds by (destruct (Nat.eqb _ _); reflexivity).
  rewrite (from_hex_value _ _ F). reflexivity.
Qed.
Lemma unescape_pieces l : Forall iri_piece l -> forall n, (length (pieces_text l) <= n)%nat ->
  unescape_n n (pieces_text l) = if forallb denotes_char l then Ret (map code_point l) else Panic.
Proof.
  induction 1 as [|q l O F IH]; intros n L; [destruct n; reflexivity|].
  cbn [pieces_text flat_map] in L |- *. fold (pieces_text l) in L |- *. rewrite app_length in L.
  destruct q as [c|ds vs|c]; [| |contradiction].
  - destruct n; [cbn in L; lia|]. cbn [piece_text app unescape_n forallb denotes_char map code_point andb].
    unfold esc_match. rewrite UCHAR_plain by (cbn in O; intuition). rewrite IH by (cbn in L; lia).
    destruct (forallb denotes_char l); reflexivity.
  - destruct n; [destruct (numeric_first ds vs) as [w W]; rewrite W in L; cbn in L; lia|].
    cbn [unescape_n]. rewrite (esc_match_numeric _ _ _ O), (unescape_uchar_numeric _ _ O).
    cbn [forallb denotes_char map code_point]. destruct (is_scalar (hex_value vs)); cbn [andb]; [|reflexivity].
    rewrite IH. { destruct (forallb denotes_char l); reflexivity. }
    destruct (numeric_first ds vs) as [w W]; rewrite W in L; cbn in L; lia.
Qed.
Lemma unescape_iri_pieces l : Forall iri_piece l ->
  unescape_iri (pieces_text l) = if forallb denotes_char l then Ret (map code_point l) else Panic.
Proof. intros F. apply unescape_pieces; [exact F|lia]. Qed.
