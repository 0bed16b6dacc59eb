(** Objects, statements and whole documents. *)
From Coq Require Import Lia.
From Verif Require Import StrFacts PestFacts NTriplesSpec NTriplesProofs NTriplesRead.

Section Docs.
Variable iri_parse : str -> option str.
Variable lang_parse : str -> option str.
Variable label_ok : str -> bool.
Variable gext printable : chr -> bool.

Notation iri_ref := (nt_iri_ref iri_parse).
Notation iri_mean := (iri_meaning iri_parse).
Notation obj_mean := (object_meaning iri_parse lang_parse label_ok gext printable).
Notation tri_mean := (triple_meaning iri_parse lang_parse label_ok gext printable).
Notation quad_mean := (quad_meaning iri_parse lang_parse label_ok gext printable).
Notation rd_object := (nt_object iri_parse lang_parse label_ok gext printable).
Notation rd_triple := (nt_triple iri_parse lang_parse label_ok gext printable).
Notation rd_quad := (nq_quad iri_parse lang_parse label_ok gext printable).

Lemma iri_ref_meaning l : Forall iri_piece l -> iri_ref (iriref_pair l) = iri_mean l.
Proof.
  intros F. unfold nt_iri_ref, iriref_pair. cbn [as_rule as_str]. destruct (rule_dec R_IRIREF R_IRIREF); [|congruence].
  replace (removelast (tl (iriref_text l))) with (pieces_text l).
  - rewrite (unescape_iri_pieces _ F). unfold iri_meaning. destruct (forallb denotes_char l); reflexivity.
  - unfold iriref_text. cbn [lit tl app]. symmetry. apply removelast_snoc.
Qed.
Lemma blank_label b : nt_blank label_ok (label_pair b) = blank_meaning label_ok b.
Proof. reflexivity. Qed.
Lemma blank_anon g : nt_blank label_ok (anon_pair g) = blank_meaning label_ok (tl (g ++ $"]")).
Proof. unfold nt_blank, anon_pair. cbn [as_str lit app]. destruct (g ++ [93]); reflexivity. Qed.

Lemma bind_assoc {A B C} (x : io A) (f : A -> io B) (g : B -> io C) :
  io_bind (io_bind x f) g = io_bind x (fun a => io_bind (f a) g).
Proof. destruct x as [[a|e]|]; reflexivity. Qed.
Lemma bind_ext {A B} (x : io A) (f g : A -> io B) : (forall a, f a = g a) -> io_bind x f = io_bind x g.
Proof. intros H. destruct x as [[a|e]|]; cbn; [apply H|reflexivity|reflexivity]. Qed.
Lemma bind_ok {A} (x : io A) : io_bind x io_ok = x.
Proof. destruct x as [[a|e]|]; reflexivity. Qed.

Lemma subject_meaning n s r t : node_at n s r ->
  nt_subject iri_parse label_ok (Pair R_ntripleSubject t [node_pair n]) = node_meaning iri_parse label_ok SRes SBlank n.
Proof.
  intros A. unfold nt_subject. cbn [as_rule into_inner io_next io_bind io_ok].
  destruct (rule_dec R_ntripleSubject R_ntripleSubject); [|congruence]. cbn [io_bind].
  destruct A as [l r F|b r L LE|g r GA]; cbn [node_pair as_rule iriref_pair label_pair anon_pair rule_dec].
  - destruct (rule_dec R_IRIREF R_IRIREF); [|congruence]. rewrite (iri_ref_meaning _ F). reflexivity.
  - destruct (rule_dec R_blankNode R_IRIREF); [discriminate|]. destruct (rule_dec R_blankNode R_blankNode); [|congruence].
    rewrite blank_label. reflexivity.
  - destruct (rule_dec R_blankNode R_IRIREF); [discriminate|]. destruct (rule_dec R_blankNode R_blankNode); [|congruence].
    rewrite blank_anon. reflexivity.
Qed.
Lemma graph_name_meaning n s r t : node_at n s r ->
  io_bind (nt_subject iri_parse label_ok (Pair R_ntripleSubject t [node_pair n])) nq_graph_name
  = node_meaning iri_parse label_ok GnIri GnBlank n.
Proof.
  intros A. rewrite (subject_meaning _ _ _ _ A). destruct n as [l|b|g]; cbn [node_meaning]; rewrite bind_assoc; reflexivity.
Qed.
Lemma predicate_meaning l t : Forall iri_piece l ->
  nt_predicate iri_parse (Pair R_ntriplePredicate t [iriref_pair l]) = iri_mean l.
Proof.
  intros F. unfold nt_predicate. cbn [as_rule into_inner io_next io_bind io_ok].
  destruct (rule_dec R_ntriplePredicate R_ntriplePredicate); [|congruence]. cbn [as_rule iriref_pair].
  destruct (rule_dec R_IRIREF R_IRIREF); [|congruence]. apply iri_ref_meaning. exact F.
Qed.
Lemma object_node_meaning n s r t : node_at n s r ->
  rd_object (Pair R_ntripleObject t [node_pair n]) = node_meaning iri_parse label_ok ORes OBlank n.
Proof.
  intros A. unfold nt_object. cbn [as_rule into_inner io_next io_bind io_ok].
  destruct (rule_dec R_ntripleObject R_ntripleObject); [|congruence]. cbn [io_bind].
  destruct A as [l r F|b r L LE|g r GA]; cbn [node_pair as_rule iriref_pair label_pair anon_pair rule_dec].
  - destruct (rule_dec R_IRIREF R_IRIREF); [|congruence]. rewrite (iri_ref_meaning _ F). reflexivity.
  - destruct (rule_dec R_blankNode R_IRIREF); [discriminate|]. destruct (rule_dec R_blankNode R_blankNode); [|congruence].
    rewrite blank_label. reflexivity.
  - destruct (rule_dec R_blankNode R_IRIREF); [discriminate|]. destruct (rule_dec R_blankNode R_blankNode); [|congruence].
    rewrite blank_anon. reflexivity.
Qed.

(** The pairs of a suffix. *)
Definition suffix_pairs (x : suffix_src) : list pair :=
  match x with
  | NoSuffix => []
  | LangSuffix w ws => [Pair R_LANGTAG ($"@" ++ tag_text w ws) []]
  | TypeSuffix l => [iriref_pair l]
  end.
Lemma string_meaning l x t1 t2 t3 : Forall string_piece l ->
  match x with TypeSuffix w => Forall iri_piece w | _ => True end ->
  rd_object (Pair R_ntripleObject t1 [Pair R_ntripleLiteral t2 [Pair R_ntripleRdfLiteral t3 (string_pair l :: suffix_pairs x)]])
  = obj_mean (OString l x).
Proof.
  intros F X. unfold nt_object, nt_literal, nt_rdf_literal, nt_string. cbn -[escape_string tag_text iriref_pair].
  destruct x as [|w ws|w]; cbn -[escape_string tag_text iriref_pair].
  - reflexivity.
  - destruct (lang_parse (tag_text w ws)); reflexivity.
  - rewrite (iri_ref_meaning _ X). unfold lit_with_data_type. destruct (iri_mean w) as [[a|e]|]; reflexivity.
Qed.

Lemma suffix_wf x s r : suffix_at x s r -> match x with TypeSuffix w => Forall iri_piece w | _ => True end.
Proof. intros []; auto. Qed.

(** The optional suffix of a literal. *)
Definition suffix_parser : parser := p_opt (p_alt LANGTAG (p_then (p_lit $"^^") IRIREF)).
Lemma suffix_none c r : c <> 64 -> c <> 94 -> suffix_parser (c :: r) = Some ([], [], c :: r).
Proof.
  intros N1 N2. apply p_opt_Some. right. split; [|reflexivity]. apply p_alt_None. split; [apply LANGTAG_None; exact N1|].
  apply p_seq_None1. destruct (p_lit $"^^" (c :: r)) as [[[t p] r']|] eqn:E; [|reflexivity].
  apply p_lit_Some in E as (_ & _ & E). inversion E. congruence.
Qed.
Lemma suffix_fwd x s r r2 : suffix_at x s r -> gap_at r r2 -> follow r2 ->
  exists tg s1 t rest tg2, g_skip s = Some (tg, [], s1) /\ suffix_parser s1 = Some (t, suffix_pairs x, rest) /\
    g_skip rest = Some (tg2, [], r2).
Proof.
  intros A G F. destruct A as [r|w ws s r N AL FS GA|l s s' r FI G1 G2].
  - destruct (skip_gap _ _ G (follow_stops _ F)) as [tg E]. exists tg, r2, [], r2, [].
    split; [exact E|]. split; [|apply skip_stop; apply follow_stops; exact F].
    destruct F as (c & r' & -> & H). apply suffix_none; intros ->; cbn in H; intuition discriminate.
  - destruct (skip_gap _ _ GA eq_refl) as [tg E]. destruct (skip_gap _ _ G (follow_stops _ F)) as [tg2 E2].
    exists tg, ($"@" ++ tag_text w ws ++ r), ($"@" ++ tag_text w ws), r, tg2.
    split; [exact E|]. split; [|exact E2]. apply p_opt_Some. left. apply p_alt_Some. left.
    apply LANGTAG_fwd; auto. eapply gap_follow; eassumption.
  - destruct (skip_gap _ _ G1 eq_refl) as [tg E]. destruct (skip_gap _ _ G2 eq_refl) as [tg1 E1].
    destruct (skip_gap _ _ G (follow_stops _ F)) as [tg2 E2].
    exists tg, ($"^^" ++ s'), ($"^^" ++ tg1 ++ iriref_text l), r, tg2.
    split; [exact E|]. split; [|exact E2]. apply p_opt_Some. left. apply p_alt_Some. right.
    split; [apply LANGTAG_None; discriminate|]. apply then_Some.
    exists $"^^", [], s', tg1, ($"<" ++ pieces_text l ++ $">" ++ r), (iriref_text l), [iriref_pair l].
    split; [apply p_lit_app|]. split; [exact E1|]. split; [apply IRIREF_fwd; exact FI|]. auto.
Qed.
Lemma suffix_inv s tg s1 t p rest : g_skip s = Some (tg, [], s1) -> suffix_parser s1 = Some (t, p, rest) ->
  exists x r, suffix_at x s r /\ gap_at r rest /\ p = suffix_pairs x.
Proof.
  intros G E. destruct (skip_inv _ _ _ _ G) as (_ & _ & GA & _).
  apply p_opt_Some in E as [E|[_ E]]; [apply p_alt_Some in E as [E|[_ E]]|].
  - apply LANGTAG_inv in E as (w & ws & N & A & F & -> & -> & ->). exists (LangSuffix w ws), rest.
    split; [|split; [apply gap_none|reflexivity]]. rewrite <- app_assoc in GA. apply at_lang; assumption.
  - apply then_Some in E as (t1 & p1 & r1 & tg1 & r2 & t2 & p2 & E1 & G1 & E2 & -> & ->).
    apply p_lit_Some in E1 as (-> & -> & ->). apply IRIREF_iff in E2 as (l & F & -> & -> & ->).
    destruct (skip_inv _ _ _ _ G1) as (_ & _ & GA1 & _). exists (TypeSuffix l), rest.
    split; [|split; [apply gap_none|reflexivity]]. unfold iriref_text in GA1. rewrite <- !app_assoc in GA1.
    eapply at_type; eassumption.
  - inversion E; subst. exists NoSuffix, s. split; [apply at_none|]. split; [exact GA|reflexivity].
Qed.

(** ** Objects *)

Lemma object_fwd o s r r2 : object_at o s r -> gap_at r r2 -> follow r2 ->
  exists t p rest tg, ntripleObject s = Some (t, [p], rest) /\ g_skip rest = Some (tg, [], r2) /\ rd_object p = obj_mean o.
Proof.
  intros A G F. destruct (skip_gap _ _ G (follow_stops _ F)) as [tg E]. destruct A as [n s r A|l x s r FP SA].
  - exists (node_text n), (Pair R_ntripleObject (node_text n) [node_pair n]), r, tg.
    split; [|split; [exact E|]]. 2: eapply object_node_meaning; exact A.
    pose proof (proj2 (node_parser_iff R_ntripleObject s (node_text n) _ r) (ex_intro _ n (conj A (conj eq_refl eq_refl)))) as P.
    apply p_rule_Some in P as (q & P & Q). inversion Q; subst q; clear Q.
    apply p_rule_Some. exists [node_pair n]. split; [|reflexivity].
    apply p_alt_Some. apply p_alt_Some in P as [P|[N P]]; [left; exact P|right]. split; [exact N|].
    apply p_alt_Some. left. exact P.
  - destruct (suffix_fwd _ _ _ _ SA G F) as (tg1 & s1 & t & rest & tg2 & E1 & E2 & E3).
    assert (P : ntripleRdfLiteral ([34] ++ pieces_text l ++ [34] ++ s)
      = Some (([34] ++ pieces_text l ++ [34]) ++ tg1 ++ t,
              [Pair R_ntripleRdfLiteral (([34] ++ pieces_text l ++ [34]) ++ tg1 ++ t) (string_pair l :: suffix_pairs x)], rest)).
    { apply p_rule_Some. eexists. split; [|reflexivity]. apply then_Some.
      exists ([34] ++ pieces_text l ++ [34]), [string_pair l], s, tg1, s1, t, (suffix_pairs x).
      split; [|auto]. apply string_iff. exists l. repeat split; auto. cbn [app]. rewrite <- !app_assoc. reflexivity. }
    eexists _, _, rest, tg2. split; [|split; [exact E3|]].
    + apply p_rule_Some. eexists. split; [|reflexivity]. apply p_alt_Some. right. split; [apply IRIREF_None; discriminate|].
      apply p_alt_Some. right. split; [|apply p_rule_Some; eexists; split; [exact P|reflexivity]].
      destruct (blankNode _) as [[[t' p'] r']|] eqn:B; [|reflexivity].
      apply blankNode_iff in B as (n & B & _). apply node_first in B as (c & s' & B & I). inversion B; subst.
      cbn in I. intuition discriminate.
    + apply string_meaning; [exact FP|eapply suffix_wf; exact SA].
Qed.
Lemma object_inv s t p rest : ntripleObject s = Some (t, p, rest) ->
  exists o r q, object_at o s r /\ gap_at r rest /\ p = [q].
Proof.
  intros E. apply p_rule_Some in E as (q & E & ->). apply p_alt_Some in E as [E|[_ E]]; [|apply p_alt_Some in E as [E|[_ E]]].
  - apply IRIREF_iff in E as (l & F & -> & -> & ->). exists (ONode (NIri l)), rest. eexists. split; [|split; [apply gap_none|reflexivity]].
    apply at_node. unfold iriref_text. rewrite <- !app_assoc. apply at_iri. exact F.
  - apply blankNode_iff in E as (n & A & _ & -> & ->). exists (ONode n), rest. eexists. split; [|split; [apply gap_none|reflexivity]].
    apply at_node. exact A.
  - apply p_rule_Some in E as (q1 & E & ->). apply p_rule_Some in E as (q2 & E & ->).
    apply then_Some in E as (t1 & p1 & r1 & tg & r2 & t2 & p2 & E1 & G & E2 & -> & ->).
    apply string_iff in E1 as (l & F & -> & -> & ->).
    destruct (suffix_inv _ _ _ _ _ _ G E2) as (x & r & SA & GA & ->).
    exists (OString l x), r. eexists. split; [|split; [exact GA|reflexivity]]. rewrite <- !app_assoc. apply at_string; assumption.
Qed.

(** ** Subject, predicate, object *)

Definition spo_parser (k : parser) : parser :=
  p_then ntripleSubject (p_then ntriplePredicate (p_then ntripleObject k)).
Lemma spo_fwd x s0 s1 s2 : spo_at x s0 s1 -> gap_at s1 s2 -> follow s2 ->
  exists p1 p2 p3,
    (forall k tk pk rk, k s2 = Some (tk, pk, rk) -> exists t, spo_parser k s0 = Some (t, p1 :: p2 :: p3 :: pk, rk)) /\
    nt_subject iri_parse label_ok p1 = node_meaning iri_parse label_ok SRes SBlank (src_s x) /\
    nt_predicate iri_parse p2 = iri_mean (src_p x) /\
    rd_object p3 = obj_mean (src_o x).
Proof.
  intros A G F. destruct A as [n l o s0 sa sb sc r NA FI GA GB OA].
  destruct (object_fwd _ _ _ _ OA G F) as (to & po & rest & tg & EO & EG & MO).
  exists (Pair R_ntripleSubject (node_text n) [node_pair n]), (Pair R_ntriplePredicate (iriref_text l) [iriref_pair l]), po.
  split; [|split; [eapply subject_meaning; exact NA|split; [apply predicate_meaning; exact FI|exact MO]]].
  intros k tk pk rk K. unfold spo_parser.
  destruct (skip_gap _ _ GA eq_refl) as [tg1 E1].
  assert (SC : stops gap_start sc).
  { destruct OA as [m s r NA'|l' x s r FP SA]; [|reflexivity].
    apply node_first in NA' as (c & s' & -> & I). cbn in I |- *. intuition; subst; reflexivity. }
  destruct (skip_gap _ _ GB SC) as [tg2 E2].
  eexists. apply then_Some.
  exists (node_text n), [Pair R_ntripleSubject (node_text n) [node_pair n]], sa, tg1, ($"<" ++ pieces_text l ++ $">" ++ sb).
  eexists. exists (Pair R_ntriplePredicate (iriref_text l) [iriref_pair l] :: po :: pk).
  split; [apply node_parser_iff; eauto|]. split; [exact E1|]. split; [|split; reflexivity].
  apply then_Some. exists (iriref_text l), [Pair R_ntriplePredicate (iriref_text l) [iriref_pair l]], sb, tg2, sc.
  eexists. exists (po :: pk). split; [apply p_rule_Some; eexists; split; [apply IRIREF_fwd; exact FI|reflexivity]|].
  split; [exact E2|]. split; [|split; reflexivity].
  apply then_Some. exists to, [po], rest, tg, s2, tk, pk. auto.
Qed.
Lemma spo_inv k s0 t p r : spo_parser k s0 = Some (t, p, r) ->
  exists x s1 s2 tk pk, spo_at x s0 s1 /\ gap_at s1 s2 /\ k s2 = Some (tk, pk, r).
Proof.
  intros E. unfold spo_parser in E.
  apply then_Some in E as (t1 & p1 & r1 & tg1 & r1' & t1' & p1' & E1 & G1 & E & -> & ->).
  apply then_Some in E as (t2 & p2 & r2 & tg2 & r2' & t2' & p2' & E2 & G2 & E & -> & ->).
  apply then_Some in E as (t3 & p3 & r3 & tg3 & r3' & t3' & p3' & E3 & G3 & E & -> & ->).
  apply node_parser_iff in E1 as (n & NA & -> & ->).
  apply p_rule_Some in E2 as (q & E2 & ->). apply IRIREF_iff in E2 as (l & F & -> & -> & ->).
  apply object_inv in E3 as (o & ro & q & OA & GO & ->).
  destruct (skip_inv _ _ _ _ G1) as (_ & _ & GA1 & _). destruct (skip_inv _ _ _ _ G2) as (_ & _ & GA2 & _).
  destruct (skip_inv _ _ _ _ G3) as (_ & _ & GA3 & _).
  exists (TripleSrc n l o), ro, r3', t3', p3'. split; [|split; [eapply gap_trans; eassumption|exact E]].
  unfold iriref_text in GA1. rewrite <- !app_assoc in GA1. eapply at_spo; eassumption.
Qed.

(** ** Statements *)

Lemma end_fwd r : END_OF_STATEMENT ($"." ++ r) = Some ($".", [Pair R_END_OF_STATEMENT $"." []], r).
Proof. apply p_rule_Some. exists []. split; [apply p_lit_app|reflexivity]. Qed.
Lemma end_inv s t p r : END_OF_STATEMENT s = Some (t, p, r) -> s = $"." ++ r.
Proof. intros E. apply p_rule_Some in E as (q & E & _). apply p_lit_Some in E as (_ & _ & E). exact E. Qed.
Lemma follow_dot r : follow ($"." ++ r).
Proof. exists 46, r. cbn. auto. Qed.
Lemma splits_then a b : splits a -> splits b -> splits (p_then a b).
Proof.
  intros A B s t p r E. apply then_Some in E as (t1 & p1 & r1 & tg & r2 & t2 & p2 & E1 & G & E2 & -> & _).
  apply A in E1. apply B in E2. destruct (skip_inv _ _ _ _ G) as (_ & Q & _). subst. rewrite <- !app_assoc. reflexivity.
Qed.
Lemma node_splits n s r : node_at n s r -> s = node_text n ++ r.
Proof. intros []; cbn [node_text iriref_text]; unfold iriref_text; rewrite <- ?app_assoc; reflexivity. Qed.
Lemma subject_moves : moves ntripleSubject.
Proof.
  intros s t p r E. apply node_parser_iff in E as (n & NA & -> & _). split; [apply node_splits; exact NA|].
  destruct n; discriminate.
Qed.
Lemma then_moves a b : moves a -> splits b -> moves (p_then a b).
Proof.
  intros A B s t p r E. pose proof (splits_then a b (moves_splits _ A) B _ _ _ _ E) as S. split; [exact S|].
  apply then_Some in E as (t1 & p1 & r1 & tg & r2 & t2 & p2 & E1 & _ & _ & -> & _). apply A in E1 as [_ N].
  destruct t1; [congruence|discriminate].
Qed.
Lemma rule_splits r0 a : splits a -> splits (p_rule r0 a).
Proof. intros H s t p r E. apply p_rule_Some in E as (q & E & _). exact (H _ _ _ _ E). Qed.
Lemma rule_moves r0 a : moves a -> moves (p_rule r0 a).
Proof. intros H s t p r E. apply p_rule_Some in E as (q & E & _). exact (H _ _ _ _ E). Qed.
Lemma alt_splits a b : splits a -> splits b -> splits (p_alt a b).
Proof. intros A B s t p r E. apply p_alt_Some in E as [E|[_ E]]; eauto. Qed.
Lemma opt_splits a : splits a -> splits (p_opt a).
Proof. intros A s t p r E. apply p_opt_Some in E as [E|[_ E]]; [eauto|]. inversion E. reflexivity. Qed.
Lemma lit_splits t0 : splits (p_lit t0).
Proof. intros s t p r E. apply p_lit_Some in E as (-> & _ & ->). reflexivity. Qed.
Lemma IRIREF_splits : splits IRIREF.
Proof. intros s t p r E. apply IRIREF_iff in E as (l & _ & -> & _ & ->). reflexivity. Qed.
Lemma blank_splits : splits blankNode.
Proof. intros s t p r E. apply blankNode_iff in E as (n & NA & _ & -> & _). apply node_splits. exact NA. Qed.
Lemma LANGTAG_splits : splits LANGTAG.
Proof. intros s t p r E. apply LANGTAG_inv in E as (w & ws & _ & _ & _ & -> & _ & ->). reflexivity. Qed.
Lemma string_splits : splits ntripleString.
Proof. intros s t p r E. apply string_iff in E as (l & _ & -> & _ & ->). reflexivity. Qed.
Lemma object_splits : splits ntripleObject.
Proof.
  apply rule_splits, alt_splits; [exact IRIREF_splits|]. apply alt_splits; [exact blank_splits|].
  apply rule_splits, rule_splits, splits_then; [exact string_splits|]. apply opt_splits, alt_splits; [exact LANGTAG_splits|].
  apply splits_then; [apply lit_splits|exact IRIREF_splits].
Qed.
Lemma spo_moves k : splits k -> moves (spo_parser k).
Proof.
  intros K. apply then_moves; [exact subject_moves|]. apply splits_then; [apply rule_splits; exact IRIREF_splits|].
  apply splits_then; [exact object_splits|exact K].
Qed.
Lemma ntriple_moves : moves ntriple.
Proof. apply rule_moves, spo_moves, rule_splits, lit_splits. Qed.
Definition label_end : parser := p_then (p_opt ntripleSubject) END_OF_STATEMENT.
Lemma nquad_moves : moves nquad.
Proof.
  apply rule_moves. apply (spo_moves label_end). apply splits_then; [apply opt_splits, moves_splits; exact subject_moves|].
  apply rule_splits, lit_splits.
Qed.

Lemma triple_fwd x s r : triple_at x s r ->
  exists t p, ntriple s = Some (t, [p], r) /\ as_rule p = R_ntriple /\ rd_triple p = tri_mean x.
Proof.
  intros [x0 s0 s1 r0 A G]. destruct (spo_fwd _ _ _ _ A G (follow_dot _)) as (p1 & p2 & p3 & P & M1 & M2 & M3).
  destruct (P _ _ _ _ (end_fwd r0)) as [t E].
  exists t, (Pair R_ntriple t [p1; p2; p3; Pair R_END_OF_STATEMENT $"." []]).
  split; [apply p_rule_Some; eexists; split; [exact E|reflexivity]|]. split; [reflexivity|].
  unfold nt_triple. cbn [as_rule]. destruct (rule_dec R_ntriple R_ntriple); [|congruence].
  cbn [into_inner io_next io_bind io_ok]. rewrite M1. unfold triple_meaning.
  apply bind_ext. intros a. cbn [io_next io_bind io_ok]. rewrite M2. apply bind_ext. intros b. cbn [io_next io_bind io_ok].
  rewrite M3. reflexivity.
Qed.
Lemma triple_inv s t p r : ntriple s = Some (t, p, r) -> exists x, triple_at x s r.
Proof.
  intros E. apply p_rule_Some in E as (q & E & _). apply spo_inv in E as (x & s1 & s2 & tk & pk & A & G & K).
  apply end_inv in K. subst s2. exists x. eapply at_triple; eassumption.
Qed.

Lemma quad_fwd x s r : quad_at x s r ->
  exists t p, nquad s = Some (t, [p], r) /\ as_rule p = R_nquad /\
    forall d, rd_quad d p = let? (n, st) := quad_mean x in io_ok (nq_put d (Some n) st).
Proof.
  intros [x0 s0 r0 [x1 s1 s2 r1 A G]|x0 n s0 s1 s2 s3 r0 A G NA GE].
  - destruct (spo_fwd _ _ _ _ A G (follow_dot _)) as (p1 & p2 & p3 & P & M1 & M2 & M3).
    assert (K : label_end ($"." ++ r1) = Some ($".", [Pair R_END_OF_STATEMENT $"." []], r1)).
    { apply then_Some. exists [], [], ($"." ++ r1), [], ($"." ++ r1), $".", [Pair R_END_OF_STATEMENT $"." []].
      split; [|split; [apply skip_stop; reflexivity|split; [apply end_fwd|auto]]].
      apply p_opt_Some. right. split; [|reflexivity].
      destruct (ntripleSubject _) as [[[t9 p9] r9]|] eqn:E; [|reflexivity]. apply node_parser_iff in E as (n & NA & _).
      apply node_first in NA as (c & s' & NA & I). inversion NA; subst. cbn in I. intuition discriminate. }
    destruct (P _ _ _ _ K) as [t E]. exists t. eexists.
    split; [apply p_rule_Some; eexists; split; [exact E|reflexivity]|]. split; [reflexivity|]. intros d.
    unfold nq_quad. cbn [as_rule]. destruct (rule_dec R_nquad R_nquad); [|congruence].
    cbn [into_inner io_next io_bind io_ok]. rewrite M1. unfold quad_meaning, triple_meaning. cbn [src_t src_g].
    rewrite !bind_assoc. apply bind_ext. intros a. rewrite !bind_assoc. cbn [io_next io_bind io_ok]. rewrite M2.
    apply bind_ext. intros b. rewrite !bind_assoc. cbn [io_next io_bind io_ok]. rewrite M3. apply bind_ext. intros o.
    cbn [io_bind io_ok]. unfold nt_subject. cbn [as_rule]. destruct (rule_dec R_END_OF_STATEMENT R_ntripleSubject); [discriminate|].
    reflexivity.
  - assert (FW : follow s2). { apply node_first in NA as (c & s' & -> & I). exists c, s'. cbn in I |- *. intuition. }
    destruct (spo_fwd _ _ _ _ A G FW) as (p1 & p2 & p3 & P & M1 & M2 & M3).
    destruct (skip_gap _ _ GE eq_refl) as [tg EG].
    assert (K : label_end s2 = Some (node_text n ++ tg ++ $".",
      [Pair R_ntripleSubject (node_text n) [node_pair n]; Pair R_END_OF_STATEMENT $"." []], r0)).
    { apply then_Some. exists (node_text n), [Pair R_ntripleSubject (node_text n) [node_pair n]], s3, tg, ($"." ++ r0), $".", [Pair R_END_OF_STATEMENT $"." []].
      split; [|split; [exact EG|split; [apply end_fwd|auto]]].
      apply p_opt_Some. left. apply node_parser_iff. eauto. }
    destruct (P _ _ _ _ K) as [t E]. exists t. eexists.
    split; [apply p_rule_Some; eexists; split; [exact E|reflexivity]|]. split; [reflexivity|]. intros d.
    unfold nq_quad. cbn [as_rule]. destruct (rule_dec R_nquad R_nquad); [|congruence].
    cbn [into_inner io_next io_bind io_ok]. rewrite M1. unfold quad_meaning, triple_meaning. cbn [src_t src_g].
    rewrite !bind_assoc. apply bind_ext. intros a. rewrite !bind_assoc. cbn [io_next io_bind io_ok]. rewrite M2.
    apply bind_ext. intros b. rewrite !bind_assoc. cbn [io_next io_bind io_ok]. rewrite M3. apply bind_ext. intros o.
    cbn [io_bind io_ok]. rewrite <- (graph_name_meaning _ _ _ (node_text n) NA). rewrite !bind_assoc. apply bind_ext. intros sub.
    apply bind_ext. intros nm. reflexivity.
Qed.
Lemma quad_inv s t p r : nquad s = Some (t, p, r) -> exists x, quad_at x s r.
Proof.
  intros E. apply p_rule_Some in E as (q & E & _). apply (spo_inv label_end) in E as (x & s1 & s2 & tk & pk & A & G & K).
  apply then_Some in K as (t1 & p1 & r1 & tg & r2 & t2 & p2 & E1 & G2 & E2 & _).
  destruct (skip_inv _ _ _ _ G2) as (_ & _ & GA & _). apply end_inv in E2. subst r2.
  apply p_opt_Some in E1 as [E1|[_ E1]].
  - apply node_parser_iff in E1 as (n & NA & _). exists (QuadSrc x (Some n)). eapply at_quad; eassumption.
  - inversion E1; subst. exists (QuadSrc x None). apply at_quad_default. eapply at_triple; [eassumption|eapply gap_trans; eassumption].
Qed.

(** ** Documents *)

Section Items.
Context {A : Type} (item : parser) (item_at : A -> str -> str -> Prop) (good : A -> pair -> Prop).
Hypothesis item_fwd : forall x s r, item_at x s r -> exists t p, item s = Some (t, [p], r) /\ good x p.
Hypothesis item_inv : forall s t p r, item s = Some (t, p, r) -> exists x, item_at x s r.
Hypothesis item_moves : moves item.

Lemma item_nil : item [] = None.
Proof.
  destruct (item []) as [[[t p] r]|] eqn:E; [|reflexivity]. apply item_moves in E as [E N].
  symmetry in E. apply app_eq_nil in E as [E _]. congruence.
Qed.
Definition skip_item : parser := p_seq g_skip item.
Lemma skip_item_moves : moves skip_item.
Proof.
  intros s t p r E. apply p_seq_Some in E as (t1 & p1 & r1 & t2 & p2 & E1 & E2 & -> & _).
  destruct (skip_inv _ _ _ _ E1) as (_ & -> & _). apply item_moves in E2 as [-> N]. rewrite <- app_assoc.
  split; [reflexivity|]. intros Q. apply app_eq_nil in Q as [_ Q]. congruence.
Qed.
Definition stuck (s : str) : Prop := forall s', gap_at s s' -> stops gap_start s' -> item s' = None.
Lemma item_stops x s r : item_at x s r -> s <> [].
Proof. intros H ->. apply item_fwd in H as (t & p & E & _). rewrite item_nil in E. discriminate. Qed.

Hypothesis item_start : forall x s r, item_at x s r -> stops gap_start s.

Lemma items_iter l : forall s0 s, gap_at s0 s -> items_at item_at l s ->
  exists t ps r tg, iter skip_item s0 t ps r /\ Forall2 good l ps /\ g_skip r = Some (tg, [], []).
Proof.
  induction l as [|x l IH]; intros s0 s G I; inversion I as [|? ? s1 s2 s3 IA GA IL]; subst.
  - destruct (skip_gap _ _ G Logic.I) as [tg E]. exists [], [], s0, tg. split; [|split; [constructor|exact E]].
    apply iter_stop. eapply p_seq_None2; [exact E|exact item_nil].
  - destruct (item_fwd _ _ _ IA) as (t & p & E & GD). destruct (skip_gap _ _ G (item_start _ _ _ IA)) as [tg EG].
    destruct (IH _ _ GA IL) as (t' & ps & r & tg' & IT & F & EE).
    assert (SI : skip_item s0 = Some (tg ++ t, [p], s2)) by (eapply p_seq_to; [exact EG|exact E|reflexivity|reflexivity]).
    destruct (skip_item_moves _ _ _ _ SI) as [Q N].
    exists ((tg ++ t) ++ t'), ([p] ++ ps), r, tg'.
    split; [exact (iter_go _ _ _ _ _ _ _ _ SI N Q IT)|]. split; [constructor; assumption|exact EE].
Qed.
Definition doc_parser : parser := p_seq g_skip (p_then (p_many item) p_eoi).
Lemma doc_fwd l s : doc_at item_at l s ->
  exists t ps, doc_parser s = Some (t, ps ++ [Pair R_EOI [] []], []) /\ Forall2 good l ps.
Proof.
  intros (s' & G & I).
  assert (ST : stops gap_start s'). { destruct I as [|x l s0 s1 s2 IA _ _]; [exact Logic.I|eapply item_start; exact IA]. }
  destruct (skip_gap _ _ G ST) as [tg EG].
  assert (M : exists t ps r tg', p_many item s' = Some (t, ps, r) /\ Forall2 good l ps /\ g_skip r = Some (tg', [], [])).
  { destruct I as [|x l s0 s1 s2 IA GA IL].
    - exists [], [], [], []. split; [|split; [constructor|reflexivity]]. apply p_opt_Some. right. split; [|reflexivity].
      apply p_seq_None1. exact item_nil.
    - destruct (item_fwd _ _ _ IA) as (t & p & E & GD). destruct (items_iter _ _ _ GA IL) as (t' & ps & r & tg' & IT & F & EE).
      exists (t ++ t'), ([p] ++ ps), r, tg'. split; [|split; [constructor; assumption|exact EE]].
      apply p_opt_Some. left. eapply p_seq_eq; [exact E|]. apply (iter_star skip_item). exact IT. }
  destruct M as (t & ps & r & tg' & M & F & EE). eexists. exists ps. split; [|exact F].
  eapply p_seq_to; [exact EG| |reflexivity|reflexivity].
  apply then_Some. exists t, ps, r, tg', [], [], [Pair R_EOI [] []]. auto.
Qed.
Lemma iter_items s0 t p r tg p' r' : iter skip_item s0 t p r -> g_skip r = Some (tg, p', r') -> r' = [] ->
  exists l s, gap_at s0 s /\ items_at item_at l s.
Proof.
  induction 1 as [s E|s t p r t1 p1 r1 E T S I IH]; intros G Q.
  - subst r'. destruct (skip_inv _ _ _ _ G) as (_ & _ & GA & _). exists [], []. split; [exact GA|constructor].
  - destruct (IH G Q) as (l & s1 & G1 & I1).
    apply p_seq_Some in E as (t2 & p2 & r2 & t3 & p3 & E1 & E2 & _ & _).
    destruct (skip_inv _ _ _ _ E1) as (_ & _ & GA & _). apply item_inv in E2 as [x IA].
    exists (x :: l), r2. split; [exact GA|]. econstructor; eassumption.
Qed.
Lemma doc_inv s t p r : doc_parser s = Some (t, p, r) -> exists l, doc_at item_at l s.
Proof.
  intros E. apply p_seq_Some in E as (t1 & p1 & r1 & t2 & p2 & E1 & E2 & _ & _).
  destruct (skip_inv _ _ _ _ E1) as (_ & _ & GA & _).
  apply then_Some in E2 as (t3 & p3 & r3 & tg & r4 & t4 & p4 & E3 & G & E4 & _).
  destruct r4; [|discriminate]. unfold doc_at.
  apply p_opt_Some in E3 as [E3|[_ E3]].
  - apply p_seq_Some in E3 as (t5 & p5 & r5 & t6 & p6 & E5 & E6 & _ & _).
    apply (star_iter _ _ _ _ _ skip_item_moves) in E6. apply item_inv in E5 as [x IA].
    destruct (iter_items _ _ _ _ _ _ _ E6 G eq_refl) as (l & s1 & G1 & I1).
    exists (x :: l), r1. split; [exact GA|]. econstructor; eassumption.
  - inversion E3; subst. destruct (skip_inv _ _ _ _ G) as (_ & _ & GB & _).
    exists [], []. split; [eapply gap_trans; eassumption|constructor].
Qed.
End Items.

Lemma spo_start x s r : spo_at x s r -> stops gap_start s.
Proof.
  intros [n l o s0 s1 s2 s3 r0 NA _ _ _ _]. apply node_first in NA as (c & s' & -> & I). cbn in I |- *.
  intuition; subst; reflexivity.
Qed.
Lemma triple_start x s r : triple_at x s r -> stops gap_start s.
Proof. intros [x0 s0 s1 r0 A _]. eapply spo_start; exact A. Qed.
Lemma quad_start x s r : quad_at x s r -> stops gap_start s.
Proof. intros [x0 s0 r0 A|x0 n s0 s1 s2 s3 r0 A _ _ _]; [eapply triple_start|eapply spo_start]; exact A. Qed.

Definition good_triple (x : triple_src) (p : pair) : Prop := as_rule p = R_ntriple /\ rd_triple p = tri_mean x.
Definition good_quad (x : quad_src) (p : pair) : Prop :=
  as_rule p = R_nquad /\ forall d, rd_quad d p = let? (n, st) := quad_mean x in io_ok (nq_put d (Some n) st).

Lemma insert_from_iter sts st : g_insert (g_from_iter sts) st = g_from_iter (sts ++ [st]).
Proof. reflexivity. Qed.
Lemma loop_meaning l ps : Forall2 good_triple l ps -> forall sts,
  nt_loop iri_parse lang_parse label_ok gext printable (g_from_iter sts) (ps ++ [Pair R_EOI [] []])
  = let? w := io_all (map tri_mean l) in io_ok (g_from_iter (sts ++ w)).
Proof.
  induction 1 as [|x p l ps [R M] F IH]; intros sts.
  - cbn. rewrite app_nil_r. reflexivity.
  - cbn [app nt_loop map io_all]. rewrite R. destruct (rule_dec R_ntriple R_ntriple); [|congruence].
    rewrite M, bind_assoc. apply bind_ext. intros st. rewrite insert_from_iter, IH, bind_assoc. apply bind_ext. intros w.
    cbn [io_bind io_ok]. rewrite <- app_assoc. reflexivity.
Qed.
Lemma nt_reads l s : doc_at triple_at l s ->
  nt_read iri_parse lang_parse label_ok gext printable s
  = triples_meaning iri_parse lang_parse label_ok gext printable l.
Proof.
  intros D. destruct (doc_fwd ntriple triple_at good_triple) with (l := l) (s := s) as (t & ps & E & F); auto.
  - exact triple_fwd.
  - exact ntriple_moves.
  - exact triple_start.
  - unfold nt_read.
    assert (P : ntripleDoc s = Some (t, [Pair R_ntripleDoc t (ps ++ [Pair R_EOI [] []])], [])).
    { apply p_rule_Some. eexists. split; [exact E|reflexivity]. }
    rewrite P. cbn [io_next io_bind io_ok]. unfold nt_parse_doc. cbn [as_rule into_inner].
    destruct (rule_dec R_ntripleDoc R_ntripleDoc); [|congruence]. apply (loop_meaning _ _ F []).
Qed.
Lemma nt_rejects s : (forall l, ~ doc_at triple_at l s) ->
  nt_read iri_parse lang_parse label_ok gext printable s = Ret (Err Tokenizer).
Proof.
  intros N. unfold nt_read. destruct (ntripleDoc s) as [[[t p] r]|] eqn:E; [|reflexivity].
  apply p_rule_Some in E as (q & E & _). destruct (doc_inv ntriple triple_at triple_inv ntriple_moves _ _ _ _ E) as [l D].
  destruct (N l D).
Qed.

(** N-Quads: the statements collected so far, graph by graph. *)
Fixpoint put_all (d : data_set) (l : list (graph_name * statement)) : data_set :=
  match l with [] => d | (n, st) :: r => put_all (nq_put d (Some n) st) r end.
Lemma quad_loop_meaning l ps : Forall2 good_quad l ps -> forall d,
  nq_loop iri_parse lang_parse label_ok gext printable d (ps ++ [Pair R_EOI [] []])
  = let? w := io_all (map quad_mean l) in io_ok (put_all d w).
Proof.
  induction 1 as [|x p l ps [R M] F IH]; intros d.
  - reflexivity.
  - cbn [app nq_loop map io_all]. rewrite R. destruct (rule_dec R_nquad R_nquad); [|congruence].
    rewrite M, !bind_assoc. apply bind_ext. intros [n st]. cbn [io_bind io_ok]. rewrite IH, bind_assoc. apply bind_ext. intros w.
    reflexivity.
Qed.
Lemma nq_reads l s : doc_at quad_at l s ->
  nq_read iri_parse lang_parse label_ok gext printable s
  = let? w := io_all (map quad_mean l) in io_ok (put_all [] w).
Proof.
  intros D. destruct (doc_fwd nquad quad_at good_quad) with (l := l) (s := s) as (t & ps & E & F); auto.
  - exact quad_fwd.
  - exact nquad_moves.
  - exact quad_start.
  - unfold nq_read.
    assert (P : nquadDoc s = Some (t, [Pair R_nquadDoc t (ps ++ [Pair R_EOI [] []])], [])).
    { apply p_rule_Some. eexists. split; [exact E|reflexivity]. }
    rewrite P. cbn [io_next io_bind io_ok]. unfold nq_parse_doc. cbn [as_rule into_inner].
    destruct (rule_dec R_nquadDoc R_nquadDoc); [|congruence]. apply (quad_loop_meaning _ _ F []).
Qed.
Lemma nq_rejects s : (forall l, ~ doc_at quad_at l s) ->
  nq_read iri_parse lang_parse label_ok gext printable s = Ret (Err Tokenizer).
Proof.
  intros N. unfold nq_read. destruct (nquadDoc s) as [[[t p] r]|] eqn:E; [|reflexivity].
  apply p_rule_Some in E as (q & E & _). destruct (doc_inv nquad quad_at quad_inv nquad_moves _ _ _ _ E) as [l D].
  destruct (N l D).
Qed.
End Docs.
