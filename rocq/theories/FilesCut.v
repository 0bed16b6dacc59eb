From Verif Require Import FilesSpec FilesProofs StrFacts PestFacts NTriplesProofs NTriplesRead NTriplesDocs NTriplesWrite NTriplesMain.
From Coq Require Import Lia.

(** ** Texts that go on *)
Lemma gap_more s r q : gap_at s r -> r <> [] -> gap_at (s ++ q) (r ++ q).
Proof.
  induction 1 as [r|c s r W G IH|body s r F NL G IH]; intros N.
  - apply gap_none.
  - cbn [app]. apply gap_white; [exact W|]. apply IH. exact N.
  - change ((35 :: body ++ s) ++ q) with (35 :: (body ++ s) ++ q). rewrite <- app_assoc. apply gap_comment; [exact F| |apply IH; exact N].
    destruct NL as [->|(c & s' & -> & H)].
    + exfalso. inversion G; subst; congruence.
    + right. exists c, (s' ++ q). auto.
Qed.
Lemma gap_nonnil s r : gap_at s r -> r <> [] -> s <> [].
Proof. intros [r0|c s0 r0 W G|body s0 r0 F NL G] N; [exact N|discriminate|discriminate]. Qed.
(** The label at the end of the text may go on, if what follows it is a single full stop. *)
Lemma label_more r q : label_ends r -> r <> [] -> r <> [46] -> label_ends (r ++ q).
Proof.
  destruct r as [|c [|d r]]; intros L N1 N2; [congruence| |exact L].
  destruct L as [L _]. split; [exact L|]. intros ->. congruence.
Qed.
Lemma node_more n s r q : node_at n s r -> r <> [] -> (r = [46] -> forall b, n <> NLabel b) -> node_at n (s ++ q) (r ++ q).
Proof.
  intros [l r0 F|b r0 L LE|g r0 GA] N D.
  - rewrite <- !app_assoc. apply at_iri. exact F.
  - rewrite <- !app_assoc. apply at_label; [exact L|]. apply label_more; [exact LE|exact N|]. intros E. exact (D E b eq_refl).
  - rewrite <- !app_assoc. apply at_anon. rewrite app_assoc in GA. apply (gap_more _ _ q) in GA; [|discriminate].
    rewrite <- !app_assoc in GA. exact GA.
Qed.
Lemma suffix_more x s r q : suffix_at x s r -> suffix_at x (s ++ q) (r ++ q).
Proof.
  intros [r0|w ws s0 r0 N A F G|l s0 s' r0 F G1 G2].
  - apply at_none.
  - apply at_lang; auto. apply (gap_more _ _ q) in G; [|discriminate]. rewrite <- !app_assoc in G. exact G.
  - apply at_type with (s' := s' ++ q); [exact F| |].
    + apply (gap_more _ _ q) in G1; [|discriminate]. exact G1.
    + apply (gap_more _ _ q) in G2; [|discriminate]. rewrite <- !app_assoc in G2. exact G2.
Qed.
Lemma object_more o s r q : object_at o s r -> r <> [] -> (r = [46] -> forall b, o <> ONode (NLabel b)) ->
  object_at o (s ++ q) (r ++ q).
Proof.
  intros [n s0 r0 A|l x s0 r0 F A] N D.
  - apply at_node. apply node_more; [exact A|exact N|]. intros E b ->. exact (D E b eq_refl).
  - rewrite <- !app_assoc. apply at_string; [exact F|]. apply suffix_more. exact A.
Qed.
Lemma object_nonnil o s r : object_at o s r -> s <> [].
Proof.
  intros [n s0 r0 A|l x s0 r0 F A]; [|discriminate]. apply node_first in A as (c & s' & -> & _). discriminate.
Qed.
Lemma gap_dot_iri t : ~ gap_at [46] ($"<" ++ t).
Proof. intros G. inversion G as [|c' s' r' W'|]. subst. cbn in W'. intuition discriminate. Qed.
(** What comes before the object goes on. *)
Lemma spo_more x s r q : spo_at x s r -> r <> [] -> (r = [46] -> forall b, src_o x <> ONode (NLabel b)) ->
  spo_at x (s ++ q) (r ++ q).
Proof.
  intros [n l o s0 s1 s2 s3 r0 NA F G1 G2 OA] N D. cbn [src_o] in D.
  assert (N3 : s3 <> []) by (eapply object_nonnil; exact OA).
  apply at_spo with (s1 := s1 ++ q) (s2 := s2 ++ q) (s3 := s3 ++ q).
  - apply node_more; [exact NA|eapply gap_nonnil; [exact G1|discriminate]|]. intros ->. destruct (gap_dot_iri _ G1).
  - exact F.
  - apply (gap_more _ _ q) in G1; [|discriminate]. rewrite <- !app_assoc in G1. exact G1.
  - apply gap_more; assumption.
  - apply object_more; assumption.
Qed.

(** ** Only one way to read *)
Lemma triple_det x y s r r' : triple_at x s r -> triple_at y s r' -> r = r'.
Proof.
  intros A B. destruct (triple_fwd (fun _ => None) (fun _ => None) (fun _ => false) (fun _ => false) (fun _ => false) _ _ _ A) as (t & p & E & _).
  destruct (triple_fwd (fun _ => None) (fun _ => None) (fun _ => false) (fun _ => false) (fun _ => false) _ _ _ B) as (t' & p' & E' & _).
  congruence.
Qed.
Lemma quad_det x y s r r' : quad_at x s r -> quad_at y s r' -> r = r'.
Proof.
  intros A B. destruct (quad_fwd (fun _ => None) (fun _ => None) (fun _ => false) (fun _ => false) (fun _ => false) _ _ _ A) as (t & p & E & _).
  destruct (quad_fwd (fun _ => None) (fun _ => None) (fun _ => false) (fun _ => false) (fun _ => false) _ _ _ B) as (t' & p' & E' & _).
  congruence.
Qed.
Lemma spo_det x y s r r' r2 r2' : spo_at x s r -> spo_at y s r' -> gap_at r r2 -> gap_at r' r2' -> follow r2 -> follow r2' -> r2 = r2'.
Proof.
  intros A B G G' F F'.
  destruct (spo_fwd (fun _ => None) (fun _ => None) (fun _ => false) (fun _ => false) (fun _ => false) _ _ _ _ A G F) as (p1 & p2 & p3 & P & _).
  destruct (spo_fwd (fun _ => None) (fun _ => None) (fun _ => false) (fun _ => false) (fun _ => false) _ _ _ _ B G' F') as (q1 & q2 & q3 & Q & _).
  destruct (P (fun s => Some ([], [], s)) _ _ _ eq_refl) as [t E].
  destruct (Q (fun s => Some ([], [], s)) _ _ _ eq_refl) as [t' E']. congruence.
Qed.
Lemma node_det n m s r r' : node_at n s r -> node_at m s r' -> r = r'.
Proof.
  intros A B.
  assert (E : p_rule R_ntripleSubject (p_alt IRIREF blankNode) s = Some (node_text n, [Pair R_ntripleSubject (node_text n) [node_pair n]], r))
    by (apply node_parser_iff; eauto).
  assert (E' : p_rule R_ntripleSubject (p_alt IRIREF blankNode) s = Some (node_text m, [Pair R_ntripleSubject (node_text m) [node_pair m]], r'))
    by (apply node_parser_iff; eauto). congruence.
Qed.
Lemma object_stops o s r : object_at o s r -> stops gap_start s.
Proof.
  intros [m s0 r0 NA'|l' x s0 r0 FP SA]; [|reflexivity].
  apply node_first in NA' as (c & s' & -> & I). cbn in I |- *. intuition; subst; reflexivity.
Qed.
(** The object starts at the same place. *)
Lemma object_place n l s1 s2 s3 n' l' s1' s2' s3' s :
  node_at n s s1 -> Forall iri_piece l -> gap_at s1 ($"<" ++ pieces_text l ++ $">" ++ s2) -> gap_at s2 s3 -> stops gap_start s3 ->
  node_at n' s s1' -> Forall iri_piece l' -> gap_at s1' ($"<" ++ pieces_text l' ++ $">" ++ s2') -> gap_at s2' s3' -> stops gap_start s3' ->
  s3 = s3'.
Proof.
  intros NA F G1 G2 OA NA' F' G1' G2' OA'.
  assert (s1' = s1) by (eapply node_det; eassumption). subst s1'.
  assert (E : $"<" ++ pieces_text l ++ $">" ++ s2 = $"<" ++ pieces_text l' ++ $">" ++ s2').
  { eapply gap_unique; [exact G1|exact G1'|reflexivity|reflexivity]. }
  pose proof (IRIREF_fwd l s2 F) as I. rewrite E, (IRIREF_fwd l' s2' F') in I.
  assert (s2' = s2) by congruence. subst s2'. eapply gap_unique; eassumption.
Qed.

(** ** Labels that are cut *)
Lemma label_no_space b : label_src b -> ~ In 32 b.
Proof.
  destruct b as [|c b]; [intros []|]. intros [H R].
  assert (X : forall w, label_rest w -> ~ In 32 w).
  { induction w as [|d w IH]; intros L; [intros []|]. destruct L as [L1 L2]. intros [->|I]; [|exact (IH L2 I)].
    destruct L1 as [L1|[L1 _]]; discriminate L1. }
  intros [->|I]; [destruct H as [H|H]; discriminate H|]. exact (X b R I).
Qed.
Lemma cut_dotted b b0 q r : label_src b -> ~ In 46 b0 -> b ++ 46 :: q = b0 ++ 32 :: r -> False.
Proof.
  intros L D E. apply D. clear D. apply label_no_space in L. revert b0 E.
  induction b as [|c b IH]; intros b0 E.
  - destruct b0 as [|d b0]; cbn [app] in E; [discriminate E|]. injection E as <- _. left. reflexivity.
  - destruct b0 as [|d b0]; cbn [app] in E.
    + exfalso. injection E as -> _. apply L. left. reflexivity.
    + right. apply IH; [intros I; apply L; right; exact I|]. injection E as _ E. exact E.
Qed.

Section Cut.
Variable iri_parse : str -> option str.
Variable lang_parse : str -> option str.
Variable label_ok : str -> bool.
Variable gext printable : chr -> bool.
Notation stmt_w := (statement_writable iri_parse lang_parse label_ok).
Notation tri_mean := (triple_meaning iri_parse lang_parse label_ok gext printable).
Notation quad_mean := (quad_meaning iri_parse lang_parse label_ok gext printable).
Notation rr := (reread gext printable).

Lemma quoted_first l r w : lit_show_quoted Bare l ++ r <> 95 :: w.
Proof. discriminate. Qed.
Lemma object_label force o r w : object_writable iri_parse lang_parse label_ok force o ->
  obj_show Bare force o ++ r = 95 :: 58 :: w -> exists b, o = OBlank b /\ w = b ++ r.
Proof.
  intros W E. destruct o as [b|i|l|items|t]; cbn [object_writable] in W; try destruct W; cbn [obj_show] in E.
  - exists b. split; [reflexivity|]. cbn [app] in E. injection E as <-. reflexivity.
  - discriminate E.
  - exfalso. unfold literal_writable in W. unfold lit_show in E. destruct (lit_data_type l) as [d|].
    + assert (C : d = DtIri \/ d <> DtIri) by (destruct d; (left; reflexivity) || (right; discriminate)).
      destruct C as [->|C]; [discriminate E|].
      assert (W' : bare_type d = true -> force = true) by (destruct d; try exact (proj1 (proj2 W)); destruct (C eq_refl)).
      destruct (bare_type d) eqn:B.
      * rewrite (W' eq_refl) in E. destruct d; try discriminate B; discriminate E.
      * destruct d; try discriminate B; discriminate E.
    + discriminate E.
Qed.
Lemma name_label n r w : gn_show Bare n ++ r = 95 :: 58 :: w -> exists b, n = GnBlank b /\ w = b ++ r.
Proof.
  destruct n as [b|i]; cbn [gn_show]; intros E; [|discriminate E]. exists b. split; [reflexivity|]. cbn [app] in E. injection E as <-. reflexivity.
Qed.

(** The parts of a written line. *)
Lemma spo_parts force st r : stmt_w force st ->
  exists n o s1, node_at n (spo_text Bare force st ++ 32 :: r) s1 /\
    Forall iri_piece (map Plain (st_predicate st)) /\
    gap_at s1 ($"<" ++ pieces_text (map Plain (st_predicate st)) ++ $">" ++ 32 :: obj_show Bare force (st_object st) ++ 32 :: r) /\
    object_at o (obj_show Bare force (st_object st) ++ 32 :: r) (32 :: r).
Proof.
  destruct st as [s p o]. intros (WS & WP & WO). cbn [st_subject st_predicate st_object] in *.
  destruct (object_rendered iri_parse lang_parse label_ok gext printable force o r WO) as (x & OA & OM).
  destruct (subject_node iri_parse label_ok s (60 :: p ++ 62 :: 32 :: obj_show Bare force o ++ 32 :: r) WS) as (n & NA & NM).
  exists n, x. eexists. split; [|split; [|split; [|exact OA]]].
  - unfold spo_text. cbn [st_subject st_predicate st_object show_iri]. rewrite <- !app_assoc. exact NA.
  - apply plain_pieces. exact (proj1 WP).
  - apply gap_white; [cbn; auto|]. rewrite iri_text. apply gap_none.
Qed.

Lemma one_split {A} (r q : list A) c : r ++ q = [c] -> q <> [] -> r = [] /\ q = [c].
Proof.
  intros E N. destruct r as [|a r]; [auto|]. cbn in E. injection E as _ E. apply app_eq_nil in E as [_ E]. congruence.
Qed.
Lemma gap_dot r : gap_at [46] ($"." ++ r) -> r = [].
Proof.
  intros G. inversion G as [|c s r' W G'|]; subst; [reflexivity|]. exfalso. cbn in W. intuition discriminate.
Qed.

(** A triple that ends before the line does ends just before the line feed. *)
Lemma triple_cut force st p q x r : stmt_w force st -> object_dotless (st_object st) ->
  nt_line Bare force st = p ++ q -> q <> [] -> triple_at x p r -> r = [] /\ q = [10].
Proof.
  intros W D E N A. inversion A as [x0 s0 s1 r0 SP G]; subst x0 s0 r0.
  destruct (line_rendered iri_parse lang_parse label_ok gext printable force st [] W) as (y & Y & _). rewrite app_nil_r, E in Y.
  assert (C : (s1 = [46] /\ exists b, src_o x = ONode (NLabel b)) \/ (s1 = [46] -> forall b, src_o x <> ONode (NLabel b))).
  { destruct (list_eq_dec N.eq_dec s1 [46]) as [->|NE]; [|right; intros; congruence].
    destruct (src_o x) as [[l|b|g]|l0 x0]; [right; intros ? ? Q; discriminate Q|left; eauto|right; intros ? ? Q; discriminate Q|right; intros ? ? Q; discriminate Q]. }
  destruct C as [[-> [b B]]|C].
  - (* the label goes on, or the line ends *)
    exfalso. apply gap_dot in G. subst r. inversion SP as [n l o s0 sa sb sc r0 NA F G1 G2 OA]; subst. cbn [src_o] in B. subst o.
    inversion OA as [n0 s0 r0 NO|]; subst. inversion NO as [|b0 r0 L LE|]; subst.
    destruct (spo_parts force st [46; 10] W) as (n' & o' & s1' & NA' & F' & G1' & OA').
    assert (T : spo_text Bare force st ++ [32; 46; 10] = p ++ q) by (rewrite <- E, nt_line_text; reflexivity).
    rewrite T in NA'.
    assert (Q : (q <> [] /\ exists d q', q = d :: q') ) by (destruct q; [congruence|split; [discriminate|eauto]]).
    destruct Q as [_ (d & q' & ->)].
    assert (PL : ($"_:" ++ b ++ [46]) ++ d :: q' = obj_show Bare force (st_object st) ++ [32; 46; 10]).
    { assert (NM : node_at n (p ++ d :: q') (sa ++ d :: q')).
      { apply node_more; [exact NA|eapply gap_nonnil; [exact G1|discriminate]|]. intros ->. destruct (gap_dot_iri _ G1). }
      apply (gap_more _ _ (d :: q')) in G1; [|discriminate]. rewrite <- !app_assoc in G1.
      apply (gap_more _ _ (d :: q')) in G2; [|discriminate].
      eapply object_place; [exact NM|exact F|exact G1|exact G2|reflexivity|exact NA'|exact F'|exact G1'| |].
      - apply gap_white; [cbn; auto|apply gap_none].
      - eapply object_stops. exact OA'. }
    rewrite <- !app_assoc in PL. symmetry in PL. apply (object_label force _ _ (b ++ [46] ++ d :: q')) in PL as (b0 & O & PL); [|apply W].
    rewrite O in D. cbn [object_dotless] in D.
    exact (cut_dotted b b0 _ _ L D PL).
  - apply (spo_more _ _ _ q) in SP; [|eapply gap_nonnil; [exact G|discriminate]|exact C].
    apply (gap_more _ _ q) in G; [|discriminate].
    assert (Z : triple_at x (p ++ q) (r ++ q)) by (eapply at_triple; [exact SP|exact G]).
    pose proof (triple_det _ _ _ _ _ Z Y) as R. apply one_split; assumption.
Qed.

Lemma node_follow n s r q : node_at n s r -> follow (s ++ q).
Proof.
  intros A. apply node_first in A as (c & s' & -> & I). exists c, (s' ++ q). split; [reflexivity|]. cbn in I |- *. tauto.
Qed.
Notation name_w k := (match k with Some n => name_writable iri_parse label_ok n | None => True end).
Lemma quad_line_rendered k st : stmt_w false st -> name_w k -> exists y, quad_at y (nq_line Bare k st) [10].
Proof.
  intros W NW. destruct k as [nm|].
  - destruct (quad_rendered iri_parse lang_parse label_ok gext printable nm st [] W NW) as (y & Y & _). rewrite app_nil_r in Y. eauto.
  - destruct (default_quad_rendered iri_parse lang_parse label_ok gext printable st [] W) as (y & Y & _). rewrite app_nil_r in Y. eauto.
Qed.
Lemma name_first nm r : follow (gn_show Bare nm ++ r).
Proof. destruct nm as [b|i]; cbn [gn_show app]; eexists; eexists; (split; [reflexivity|]); cbn; auto. Qed.
Lemma quad_cut k st p q x r : stmt_w false st -> name_w k -> name_dotless k ->
  nq_line Bare k st = p ++ q -> q <> [] -> quad_at x p r -> src_g x <> None -> r = [] /\ q = [10].
Proof.
  intros W NW D E N A SG. destruct A as [t p r A|t n p s1 s2 s3 r SP G NA GE]; [cbn in SG; congruence|].
  destruct (quad_line_rendered k st W NW) as (y & Y). rewrite E in Y.
  assert (N2 : s2 <> []) by (destruct (node_first _ _ _ NA) as (c & s' & -> & _); discriminate).
  assert (N3 : s3 <> []) by (eapply gap_nonnil; [exact GE|discriminate]).
  assert (SP' : spo_at t (p ++ q) (s1 ++ q)).
  { apply spo_more; [exact SP|eapply gap_nonnil; eassumption|]. intros ->. exfalso.
    inversion G as [|c' s' r' W' G'|]; subst; [|cbn in W'; intuition discriminate].
    apply node_first in NA as (c & s' & Q & I). injection Q as <- <-. cbn in I. intuition discriminate. }
  pose proof (gap_more _ _ q G N2) as G'.
  assert (C : (s3 = [46] /\ exists b, n = NLabel b) \/ (s3 = [46] -> forall b, n <> NLabel b)).
  { destruct (list_eq_dec N.eq_dec s3 [46]) as [->|NE]; [|right; intros; congruence].
    destruct n as [l|b|g]; [right; intros ? ? Q; discriminate Q|left; eauto|right; intros ? ? Q; discriminate Q]. }
  destruct C as [[-> [b ->]]|C].
  - exfalso. inversion NA as [|b0 r0 L LE|]; subst.
    assert (PL : exists z, match k with Some nm => gn_show Bare nm ++ [32; 46; 10] | None => [46; 10] end = z /\ ($"_:" ++ b ++ [46]) ++ q = z).
    { eexists. split; [reflexivity|].
      destruct (spo_rendered iri_parse lang_parse label_ok gext printable false st
        (match k with Some nm => gn_show Bare nm ++ [32; 46; 10] | None => [46; 10] end) W) as (x' & A' & _).
      eapply spo_det; [exact SP'| |exact G'|apply (gap_white 32); [left; reflexivity|apply gap_none]|eapply node_follow; exact NA|].
      - rewrite <- E, nq_line_text. destruct k; cbn [app]; [rewrite <- app_assoc|]; exact A'.
      - destruct k; [apply name_first|]. exists 46, [10]. cbn. auto. }
    destruct PL as (z & <- & PL). rewrite <- !app_assoc in PL. destruct k as [nm|]; [|discriminate PL].
    symmetry in PL. apply (name_label nm _ (b ++ [46] ++ q)) in PL as (b0 & -> & PL). cbn [name_dotless] in D.
    exact (cut_dotted b b0 _ _ L D PL).
  - apply (node_more _ _ _ q) in NA; [|exact N3|exact C]. apply (gap_more _ _ q) in GE; [|discriminate].
    assert (Z : quad_at (QuadSrc t (Some n)) (p ++ q) (r ++ q)) by (eapply at_quad; eassumption).
    pose proof (quad_det _ _ _ _ _ Z Y) as R. apply one_split; assumption.
Qed.
End Cut.

(** ** Documents that are cut *)
Section CutDoc.
Context {A B : Type} (item_at : A -> str -> str -> Prop) (line : B -> str) (usable : A -> Prop).
Hypothesis item_det : forall x y s r r', item_at x s r -> item_at y s r' -> r = r'.
Hypothesis item_start : forall x s r, item_at x s r -> stops gap_start s /\ s <> [].
Variable all : list B.
Hypothesis rendered : forall b r, In b all -> exists x, item_at x (line b ++ r) (10 :: r).
Hypothesis item_cut : forall b p q x r, In b all -> line b = p ++ q -> q <> [] -> item_at x p r -> usable x -> r = [] /\ q = [10].

Lemma gap_starts s r : gap_at s r -> stops gap_start s -> s = r.
Proof. intros G S. eapply gap_unique; [apply gap_none|exact G|exact S|]. clear - G S. inversion G as [|c' s' r' W'|]; subst; [exact S| |].
  - exfalso. cbn [stops] in S. apply gap_start_white in S as [S _]. contradiction.
  - exfalso. cbn [stops] in S. apply gap_start_white in S as [_ S]. congruence.
Qed.
Lemma line_start b r : In b all -> stops gap_start (line b ++ r) /\ line b <> [].
Proof.
  intros I. destruct (rendered b r I) as (x & X). split; [eapply item_start; exact X|].
  intros Q. destruct (rendered b [] I) as (y & Y). rewrite Q in Y. cbn [app] in Y. apply item_start in Y as [_ Y]. congruence.
Qed.
Lemma app_cases {C} (a b c d : list C) : a ++ b = c ++ d ->
  (exists w, c = a ++ w /\ w <> [] /\ b = w ++ d) \/ (exists w, a = c ++ w /\ d = w ++ b).
Proof.
  revert c. induction a as [|x a IH]; intros [|y c] E; cbn [app] in E.
  - right. exists []. auto.
  - left. exists (y :: c). repeat split; [discriminate|exact E].
  - right. exists (x :: a). auto.
  - injection E as <- E. destruct (IH c E) as [(w & -> & N & ->)|(w & -> & ->)]; [left|right]; exists w; auto.
Qed.
Lemma doc_cut l : (forall b, In b l -> In b all) -> forall w t u, Forall usable w -> doc_at item_at w t ->
  flat_map line l = t ++ u -> exists l1 l2, l = l1 ++ l2 /\ (t = flat_map line l1 \/ t ++ [10] = flat_map line l1).
Proof.
  induction l as [|b l IH]; intros I w t u U (s' & G & IT) E.
  - exists [], []. split; [reflexivity|left]. cbn [flat_map] in E. symmetry in E. apply app_eq_nil in E as [-> _]. reflexivity.
  - cbn [flat_map] in E. assert (IB : In b all) by (apply I; left; reflexivity). destruct (line_start b [] IB) as [_ LN].
    symmetry in E. apply app_cases in E as [(v & EB & NV & ->)|(v & -> & E)].
    + destruct t as [|c t]; [exists [], (b :: l); auto|].
      exists [b], l. split; [reflexivity|right]. cbn [flat_map]. rewrite app_nil_r.
      assert (S : stops gap_start (c :: t)).
      { destruct (line_start b [] IB) as [S _]. rewrite EB in S. exact S. }
      apply gap_starts in G; [|exact S]. subst s'. inversion IT as [|x w' s0 s1 s2 X G IT']; subst.
      inversion U as [|? ? UX UW]; subst. destruct (item_cut b (c :: t) v x s1 IB EB NV X UX) as [_ ->]. rewrite EB. reflexivity.
    + assert (S : stops gap_start (line b ++ v)) by (apply line_start; exact IB).
      apply gap_starts in G; [|exact S]. subst s'.
      inversion IT as [|x w' s0 s1 s2 X G IT']; subst.
      { match goal with Q : [] = _ ++ _ |- _ => symmetry in Q; apply app_eq_nil in Q as [Q _]; congruence end. }
      destruct (rendered b v IB) as (y & Y). rewrite (item_det _ _ _ _ _ X Y) in G. inversion U as [|? ? UX UW]; subst.
      assert (G2 : gap_at v s2).
      { inversion G as [|c' s' r' W' G'|]; subst; [|assumption].
        exfalso. inversion IT' as [|x' w2 s0 s1' s2' X' _ _]; subst. apply item_start in X' as [X' _]. discriminate X'. }
      destruct (IH (fun b J => I b (or_intror J)) w' v u UW (ex_intro _ s2 (conj G2 IT')) E) as (l1 & l2 & -> & [->|R]).
      * exists (b :: l1), l2. split; [reflexivity|left; reflexivity].
      * exists (b :: l1), l2. split; [reflexivity|right]. cbn [flat_map]. rewrite <- app_assoc, R. reflexivity.
Qed.
End CutDoc.
