(** The N-Triples and N-Quads parsers read what the documents say (continued). *)
From Coq Require Import Lia.
From Verif Require Import StrFacts PestFacts NTriplesSpec NTriplesProofs.

(** ** Blank nodes *)

Definition tail_ok (c : chr) (r : str) : Prop :=
  is_pn_chars c = true \/ c = 46 /\ match r with d :: _ => is_pn_chars d = true | [] => False end.
Lemma TAIL_Some s t p r : BLANK_NODE_LABEL_TAIL s = Some (t, p, r) <->
  p = [] /\ exists c, t = [c] /\ s = c :: r /\ tail_ok c r.
Proof.
  unfold BLANK_NODE_LABEL_TAIL, tail_ok. split.
  - intros E. apply p_alt_Some in E as [E|[_ E]].
    + apply p_chr_Some in E as (c & C & -> & -> & ->). split; [reflexivity|]. exists c. auto.
    + apply p_seq_Some in E as (t1 & p1 & r1 & t2 & p2 & E1 & E2 & -> & ->).
      unfold p_pos in E1. destruct (p_seq (p_lit $".") (p_chr is_pn_chars) s) as [[[t3 p3] r3]|] eqn:E3; [|discriminate].
      inversion E1; subst; clear E1. apply p_lit_Some in E2 as (-> & -> & ->).
      apply p_seq_Some in E3 as (t4 & p4 & r4 & t5 & p5 & E4 & E5 & _ & _).
      rewrite p_lit_app in E4. inversion E4; subst; clear E4.
      apply p_chr_Some in E5 as (d & D & _ & _ & ->). split; [reflexivity|]. exists 46. auto.
  - intros (-> & c & -> & -> & H). apply p_alt_Some. destruct H as [C|[-> D]].
    + left. apply p_chr_cons. exact C.
    + right. split; [reflexivity|]. destruct r as [|d r]; [contradiction|].
      assert (Q : p_seq (p_lit $".") (p_chr is_pn_chars) (46 :: d :: r) = Some ([46; d], [], r)).
      { eapply p_seq_to; [apply (p_lit_app $".")|apply p_chr_cons; exact D|reflexivity|reflexivity]. }
      eapply p_seq_to; [unfold p_pos; rewrite Q; reflexivity|apply (p_lit_app $".")|reflexivity|reflexivity].
Qed.
Lemma TAIL_None r : BLANK_NODE_LABEL_TAIL r = None <-> label_ends r.
Proof.
  split.
  - intros E. destruct r as [|c r]; [exact I|]. cbn. split.
    + destruct (is_pn_chars c) eqn:C; [|reflexivity].
      assert (H : BLANK_NODE_LABEL_TAIL (c :: r) = Some ([c], [], r)).
      { apply TAIL_Some. split; [reflexivity|]. exists c. unfold tail_ok. auto. }
      congruence.
    + intros ->. destruct r as [|d r]; [exact I|]. destruct (is_pn_chars d) eqn:D; [|reflexivity].
      assert (H : BLANK_NODE_LABEL_TAIL (46 :: d :: r) = Some ([46], [], d :: r)).
      { apply TAIL_Some. split; [reflexivity|]. exists 46. unfold tail_ok. auto. }
      congruence.
  - intros E. destruct (BLANK_NODE_LABEL_TAIL r) as [[[t p] r']|] eqn:H; [|reflexivity].
    apply TAIL_Some in H as (_ & c & _ & -> & T). cbn in E. destruct E as [E1 E2].
    destruct T as [T|[-> T]]; [congruence|]. specialize (E2 eq_refl). destruct r'; [contradiction|congruence].
Qed.
Lemma TAIL_moves : moves BLANK_NODE_LABEL_TAIL.
Proof. intros s t p r E. apply TAIL_Some in E as (_ & c & -> & -> & _). split; [reflexivity|discriminate]. Qed.
Lemma star_tail b r : label_rest b -> label_ends r -> p_star BLANK_NODE_LABEL_TAIL (b ++ r) = Some (b, [], r).
Proof.
  intros L E. apply iter_star. induction b as [|c b IH]; [apply iter_stop; apply TAIL_None; exact E|].
  destruct L as [T L]. change (c :: b) with ([c] ++ b). change (@nil pair) with (@nil pair ++ []).
  eapply iter_go with (r := b ++ r); [|discriminate|reflexivity|apply IH; exact L].
  apply TAIL_Some. split; [reflexivity|]. exists c. repeat split. unfold tail_ok.
  destruct T as [T|[-> T]]; [auto|]. right. split; [reflexivity|]. destruct b; [contradiction|exact T].
Qed.
Lemma star_tail_inv s t p r : p_star BLANK_NODE_LABEL_TAIL s = Some (t, p, r) ->
  p = [] /\ s = t ++ r /\ label_rest t /\ label_ends r.
Proof.
  intros E. apply (star_iter _ _ _ _ _ TAIL_moves) in E.
  induction E as [s E|s t p r t' p' r' E T S I (-> & -> & L & LE)].
  - repeat split. apply TAIL_None. exact E.
  - apply TAIL_Some in E as (-> & c & -> & _ & TK). subst s. repeat split; auto.
    destruct TK as [TK|[-> D]]; [auto|]. right. split; [reflexivity|].
    destruct t' as [|d t']; [|exact D]. cbn [app] in D. destruct r' as [|d r']; [contradiction|].
    cbn in LE. destruct LE. congruence.
Qed.

Definition label_pair (b : str) : pair :=
  Pair R_blankNode ($"_:" ++ b) [Pair R_BLANK_NODE_LABEL ($"_:" ++ b) []].
Definition anon_pair (g : str) : pair :=
  Pair R_blankNode ($"[" ++ g ++ $"]") [Pair R_ANON ($"[" ++ g ++ $"]") []].

Lemma LABEL_iff s t p r : BLANK_NODE_LABEL s = Some (t, p, r) <->
  exists b, label_src b /\ label_ends r /\ t = $"_:" ++ b /\ p = [Pair R_BLANK_NODE_LABEL t []] /\ s = t ++ r.
Proof.
  unfold BLANK_NODE_LABEL. split.
  - intros E. apply p_atomic_Some in E as (q & E & ->).
    apply p_seq_Some in E as (t1 & p1 & r1 & t2 & p2 & E1 & E2 & -> & ->).
    apply p_lit_Some in E1 as (-> & -> & ->).
    apply p_seq_Some in E2 as (t3 & p3 & r3 & t4 & p4 & E3 & E4 & -> & ->).
    apply p_chr_Some in E3 as (c & C & -> & -> & ->).
    apply star_tail_inv in E4 as (-> & -> & L & LE). exists (c :: t4).
    split; [|auto 6]. split; [apply orb_true_iff; exact C|exact L].
  - intros (b & L & LE & -> & -> & ->). apply p_atomic_Some. exists []. split; [|reflexivity].
    destruct b as [|c b]; [contradiction|]. destruct L as [C L]. rewrite <- app_assoc.
    eapply p_seq_to; [apply p_lit_app| |reflexivity|reflexivity].
    eapply p_seq_to; [apply p_chr_cons; apply orb_true_iff; exact C|apply star_tail; eassumption|reflexivity|reflexivity].
Qed.
Lemma then_Some a b s t p r : p_then a b s = Some (t, p, r) <->
  exists t1 p1 r1 tg r2 t2 p2, a s = Some (t1, p1, r1) /\ g_skip r1 = Some (tg, [], r2) /\
    b r2 = Some (t2, p2, r) /\ t = t1 ++ tg ++ t2 /\ p = p1 ++ p2.
Proof.
  unfold p_then. split.
  - intros E. apply p_seq_Some in E as (t1 & p1 & r1 & t2 & p2 & E1 & E2 & -> & ->).
    apply p_seq_Some in E2 as (t3 & p3 & r3 & t4 & p4 & E3 & E4 & -> & ->).
    destruct (skip_inv _ _ _ _ E3) as (-> & _). exists t1, p1, r1, t3, r3, t4, p4. auto.
  - intros (t1 & p1 & r1 & tg & r2 & t2 & p2 & A & G & B & -> & ->).
    eapply p_seq_to; [exact A|eapply p_seq_eq; eassumption|reflexivity|reflexivity].
Qed.
Lemma ANON_iff s t p r : ANON s = Some (t, p, r) <->
  exists g, gap_at (g ++ $"]" ++ r) ($"]" ++ r) /\ t = $"[" ++ g ++ $"]" /\ p = [Pair R_ANON t []] /\ s = t ++ r.
Proof.
  unfold ANON. split.
  - intros E. apply p_rule_Some in E as (q & E & ->).
    apply then_Some in E as (t1 & p1 & r1 & tg & r2 & t2 & p2 & A & G & B & -> & ->).
    apply p_lit_Some in A as (-> & -> & ->). apply p_lit_Some in B as (-> & -> & ->).
    destruct (skip_inv _ _ _ _ G) as (_ & -> & GA & _). exists tg. repeat split; auto.
    rewrite <- !app_assoc. reflexivity.
  - intros (g & GA & -> & -> & ->). apply p_rule_Some. exists []. split; [|reflexivity].
    destruct (skip_gap _ _ GA) as [tg G]; [reflexivity|].
    destruct (skip_inv _ _ _ _ G) as (_ & Q & _). apply app_inv_tail in Q. subst tg.
    apply then_Some. exists $"[", [], (g ++ $"]" ++ r), g, ($"]" ++ r), $"]", [].
    rewrite <- !app_assoc. split; [apply p_lit_app|]. split; [exact G|]. split; [apply p_lit_app|]. auto.
Qed.

(** ** Nodes *)

Definition node_text (n : node_src) : str :=
  match n with
  | NIri l => iriref_text l
  | NLabel b => $"_:" ++ b
  | NAnon g => $"[" ++ g ++ $"]"
  end.
Definition node_pair (n : node_src) : pair :=
  match n with NIri l => iriref_pair l | NLabel b => label_pair b | NAnon g => anon_pair g end.

Lemma blankNode_iff s t p r : blankNode s = Some (t, p, r) <->
  exists n, node_at n s r /\ (forall l, n <> NIri l) /\ t = node_text n /\ p = [node_pair n].
Proof.
  unfold blankNode. split.
  - intros E. apply p_rule_Some in E as (q & E & ->). apply p_alt_Some in E as [E|[_ E]].
    + apply LABEL_iff in E as (b & L & LE & -> & -> & ->). exists (NLabel b).
      repeat split; [|discriminate]. rewrite <- app_assoc. apply at_label; assumption.
    + apply ANON_iff in E as (g & GA & -> & -> & ->). exists (NAnon g).
      repeat split; [|discriminate]. rewrite <- !app_assoc. apply at_anon; assumption.
  - intros (n & A & N & -> & ->). apply p_rule_Some. destruct A as [l r F|b r L LE|g r GA].
    + destruct (N l). reflexivity.
    + exists [Pair R_BLANK_NODE_LABEL ($"_:" ++ b) []]. split; [|reflexivity]. apply p_alt_Some. left.
      apply LABEL_iff. exists b. auto 6.
    + exists [Pair R_ANON ($"[" ++ g ++ $"]") []]. split; [|reflexivity]. apply p_alt_Some. right. split.
      * destruct (BLANK_NODE_LABEL _) as [[[t p] r']|] eqn:E; [|reflexivity].
        apply LABEL_iff in E as (b & _ & _ & -> & _ & E). discriminate.
      * apply ANON_iff. exists g. cbn [node_text]. rewrite <- !app_assoc. auto 6.
Qed.
Lemma node_parser_iff r0 s t p r : p_rule r0 (p_alt IRIREF blankNode) s = Some (t, p, r) <->
  exists n, node_at n s r /\ t = node_text n /\ p = [Pair r0 t [node_pair n]].
Proof.
  split.
  - intros E. apply p_rule_Some in E as (q & E & ->). apply p_alt_Some in E as [E|[_ E]].
    + apply IRIREF_iff in E as (l & F & -> & -> & ->). exists (NIri l). repeat split.
      unfold iriref_text. rewrite <- !app_assoc. apply at_iri. exact F.
    + apply blankNode_iff in E as (n & A & _ & -> & ->). eauto.
  - intros (n & A & -> & ->). apply p_rule_Some. exists [node_pair n]. split; [|reflexivity].
    apply p_alt_Some. destruct A as [l r F|b r L LE|g r GA].
    + left. apply IRIREF_fwd. exact F.
    + right. split; [apply IRIREF_None; discriminate|]. apply blankNode_iff. exists (NLabel b).
      repeat split; [apply at_label; assumption|discriminate].
    + right. split; [apply IRIREF_None; discriminate|]. apply blankNode_iff. exists (NAnon g).
      repeat split; [apply at_anon; assumption|discriminate].
Qed.
Lemma node_first n s r : node_at n s r -> exists c s', s = c :: s' /\ In c [60; 95; 91].
Proof. intros [l r0 F|b r0 L LE|g r0 GA]; cbn; eauto 8. Qed.

(** ** Strings and literals *)

Definition string_pair (l : list piece) : pair :=
  Pair R_ntripleString ([34] ++ pieces_text l ++ [34])
    [Pair R_STRING_LITERAL_QUOTE ([34] ++ pieces_text l ++ [34]) [Pair R_QUOTE_INNER (pieces_text l) []]].
Lemma string_iff s t p r : ntripleString s = Some (t, p, r) <->
  exists l, Forall string_piece l /\ t = [34] ++ pieces_text l ++ [34] /\ p = [string_pair l] /\ s = t ++ r.
Proof.
  unfold ntripleString, STRING_LITERAL_QUOTE, QUOTE_INNER. split.
  - intros E. apply p_rule_Some in E as (q0 & E & ->). apply p_rule_Some in E as (q & E & ->).
    apply p_seq_Some in E as (t1 & p1 & r1 & t2 & p2 & E1 & E2 & -> & ->).
    apply p_lit_Some in E1 as (-> & -> & ->).
    apply p_seq_Some in E2 as (t3 & p3 & r3 & t4 & p4 & E3 & E4 & -> & ->).
    apply p_atomic_Some in E3 as (q & E3 & ->).
    apply (star_pieces_inv _ _ _ _ _ _ QUOTE_CHAR_iff) in E3 as (l & F & -> & -> & -> & N).
    apply p_lit_Some in E4 as (-> & -> & ->). exists l. unfold string_pair.
    repeat split; auto. rewrite <- !app_assoc. reflexivity.
  - intros (l & F & -> & -> & ->). apply p_rule_Some. eexists. split; [|reflexivity].
    apply p_rule_Some. eexists. split; [|reflexivity]. rewrite <- !app_assoc.
    assert (I : p_atomic R_QUOTE_INNER (p_star QUOTE_CHAR) (pieces_text l ++ [34] ++ r)
      = Some (pieces_text l, [Pair R_QUOTE_INNER (pieces_text l) []], [34] ++ r)).
    { apply p_atomic_Some. exists []. split; [|reflexivity].
      apply (star_pieces _ _ _ _ QUOTE_CHAR_iff); [exact F|reflexivity]. }
    eapply p_seq_to; [apply p_lit_app| |reflexivity|reflexivity].
    eapply p_seq_to; [exact I|apply p_lit_app|reflexivity|reflexivity].
Qed.

Definition tag_char (c : chr) : bool := is_alnum c || N.eqb c 45.
Definition subtag : parser := p_seq (p_lit $"-") (p_plus (p_chr is_alnum)).
Lemma plus_chr f w r : w <> [] -> forallb f w = true -> stops f r -> p_plus (p_chr f) (w ++ r) = Some (w, [], r).
Proof.
  intros N F S. destruct w as [|c w]; [congruence|]. cbn in F. apply andb_true_iff in F as [C F].
  eapply p_seq_to; [apply p_chr_cons; exact C|apply star_chr; eassumption|reflexivity|reflexivity].
Qed.
Lemma plus_chr_inv f s t p r : p_plus (p_chr f) s = Some (t, p, r) ->
  t <> [] /\ forallb f t = true /\ p = [] /\ s = t ++ r /\ stops f r.
Proof.
  intros E. apply p_seq_Some in E as (t1 & p1 & r1 & t2 & p2 & E1 & E2 & -> & ->).
  apply p_chr_Some in E1 as (c & C & -> & -> & ->). apply star_chr_inv in E2 as (-> & F & -> & S).
  split; [discriminate|]. split; [cbn; rewrite C; exact F|]. auto.
Qed.
Lemma subtag_Some s t p r : subtag s = Some (t, p, r) ->
  exists w, w <> [] /\ forallb is_alnum w = true /\ t = $"-" ++ w /\ p = [] /\ s = t ++ r /\ stops is_alnum r.
Proof.
  intros E. apply p_seq_Some in E as (t1 & p1 & r1 & t2 & p2 & E1 & E2 & -> & ->).
  apply p_lit_Some in E1 as (-> & -> & ->). apply plus_chr_inv in E2 as (N & F & -> & -> & S).
  exists t2. auto 8.
Qed.
Lemma subtag_moves : moves subtag.
Proof. intros s t p r E. apply subtag_Some in E as (w & _ & _ & -> & _ & -> & _). split; [reflexivity|discriminate]. Qed.
Lemma alpha_alnum c : is_alpha c = true -> is_alnum c = true.
Proof. unfold is_alnum. intros ->. reflexivity. Qed.
Lemma stops_sub (f g : chr -> bool) r : (forall c, g c = true -> f c = true) -> stops f r -> stops g r.
Proof.
  intros H. destruct r as [|c r]; cbn; [auto|]. intros S. destruct (g c) eqn:G; [|reflexivity].
  apply H in G. congruence.
Qed.
Lemma tag_stops_alnum r : stops tag_char r -> stops is_alnum r.
Proof. apply stops_sub. unfold tag_char. intros c ->. reflexivity. Qed.
Lemma subtags_stop ws r : stops tag_char r -> stops is_alnum (flat_map (fun w => $"-" ++ w) ws ++ r).
Proof. destruct ws; intros S; [apply tag_stops_alnum; exact S|reflexivity]. Qed.
Lemma star_subtags ws r : Forall (fun w => w <> [] /\ forallb is_alnum w = true) ws -> stops tag_char r ->
  p_star subtag (flat_map (fun w => $"-" ++ w) ws ++ r) = Some (flat_map (fun w => $"-" ++ w) ws, [], r).
Proof.
  intros F S. apply iter_star. induction F as [|w ws [N A] F IH].
  - apply iter_stop. cbn [flat_map app]. apply p_seq_None1. apply p_lit1_None. intros r' ->. discriminate.
  - cbn [flat_map]. rewrite <- app_assoc. change (@nil pair) with (@nil pair ++ []).
    eapply iter_go with (r := flat_map (fun w => $"-" ++ w) ws ++ r); [|discriminate|reflexivity|exact IH].
    rewrite <- app_assoc.
    eapply p_seq_to; [apply p_lit_app|apply plus_chr; [exact N|exact A|apply subtags_stop; exact S]|reflexivity|reflexivity].
Qed.
Lemma star_subtags_inv s t p r : p_star subtag s = Some (t, p, r) ->
  exists ws, Forall (fun w => w <> [] /\ forallb is_alnum w = true) ws /\
    t = flat_map (fun w => $"-" ++ w) ws /\ p = [] /\ s = t ++ r.
Proof.
  intros E. apply (star_iter _ _ _ _ _ subtag_moves) in E.
  induction E as [s E|s t p r t' p' r' E T S I (ws & F & -> & -> & ->)].
  - exists []. auto.
  - apply subtag_Some in E as (w & N & A & -> & -> & _ & _). exists (w :: ws). subst s.
    split; [constructor; auto|]. repeat split. cbn [flat_map]. rewrite <- !app_assoc. reflexivity.
Qed.
Lemma LANGTAG_fwd w ws r : w <> [] -> forallb is_alpha w = true ->
  Forall (fun w => w <> [] /\ forallb is_alnum w = true) ws -> stops tag_char r ->
  LANGTAG ($"@" ++ tag_text w ws ++ r) = Some ($"@" ++ tag_text w ws, [Pair R_LANGTAG ($"@" ++ tag_text w ws) []], r).
Proof.
  intros N A F S. unfold LANGTAG. apply p_atomic_Some. exists []. split; [|reflexivity].
  unfold tag_text. rewrite <- app_assoc.
  eapply p_seq_to; [apply p_lit_app| |reflexivity|reflexivity].
  eapply p_seq_to; [|apply star_subtags; [exact F|exact S]|reflexivity|].
  - apply plus_chr; [exact N|exact A|]. eapply stops_sub; [exact alpha_alnum|apply subtags_stop; exact S].
  - reflexivity.
Qed.
Lemma LANGTAG_inv s t p r : LANGTAG s = Some (t, p, r) ->
  exists w ws, w <> [] /\ forallb is_alpha w = true /\
    Forall (fun w => w <> [] /\ forallb is_alnum w = true) ws /\
    t = $"@" ++ tag_text w ws /\ p = [Pair R_LANGTAG t []] /\ s = t ++ r.
Proof.
  unfold LANGTAG. intros E. apply p_atomic_Some in E as (q & E & ->).
  apply p_seq_Some in E as (t1 & p1 & r1 & t2 & p2 & E1 & E2 & -> & ->).
  apply p_lit_Some in E1 as (-> & -> & ->).
  apply p_seq_Some in E2 as (t3 & p3 & r3 & t4 & p4 & E3 & E4 & -> & ->).
  apply plus_chr_inv in E3 as (N & A & -> & -> & _). apply star_subtags_inv in E4 as (ws & F & -> & -> & ->).
  exists t3, ws. unfold tag_text. repeat split; auto. rewrite <- !app_assoc. reflexivity.
Qed.
Lemma LANGTAG_None c r : c <> 64 -> LANGTAG (c :: r) = None.
Proof.
  intros N. destruct (LANGTAG (c :: r)) as [[[t p] r']|] eqn:E; [|reflexivity].
  apply LANGTAG_inv in E as (w & ws & _ & _ & _ & -> & _ & E). inversion E. congruence.
Qed.

(** What comes after an object: the final '.' or a graph label. *)
Definition follow (r : str) : Prop := exists c r', r = c :: r' /\ In c [46; 60; 95; 91].
Lemma follow_stops r : follow r -> stops gap_start r.
Proof. intros (c & r' & -> & H). cbn in H |- *. intuition; subst; reflexivity. Qed.
Lemma gap_follow r r2 : gap_at r r2 -> follow r2 -> stops tag_char r.
Proof.
  intros G F. inversion G as [|c s ? W G'|body s ? FB NL G']; subst.
  - destruct F as (c & r' & -> & H). cbn in H |- *. intuition; subst; reflexivity.
  - cbn. unfold white in W. cbn in W. intuition; subst; reflexivity.
  - reflexivity.
Qed.
Lemma gap_trans a b : gap_at a b -> forall c, gap_at b c -> gap_at a c.
Proof. induction 1; intros x G; [exact G|apply gap_white; auto|apply gap_comment; auto]. Qed.
