(** Proofs about the tokens of SPARQL. *)
From Verif Require Import StrFacts SparqlSpec.
From Coq Require Import Lia.

(** ** Classes *)
Lemma in_range_iff a b c : in_range a b c = true <-> a <= c <= b.
Proof. unfold in_range. lia. Qed.
Lemma whitespace_iff c : is_whitespace c = true <-> white c.
Proof. unfold is_whitespace, in_range, white. cbn [In]. lia. Qed.
Lemma iri_char_iff c : negb (is_iri_reserved c) = true <-> iri_char c.
Proof. unfold is_iri_reserved, in_range, iri_char. cbn [In existsb]. lia. Qed.
Lemma ranges_cons a b l c : one_of_ranges ((a, b) :: l) c <-> a <= c <= b \/ one_of_ranges l c.
Proof.
  unfold one_of_ranges. cbn [In]. split.
  - intros (x & y & [E|I] & H); [injection E as -> ->; auto|right; eauto].
  - intros [H|(x & y & I & H)]; eauto 6.
Qed.
Lemma ranges_nil c : one_of_ranges [] c <-> False.
Proof. unfold one_of_ranges. cbn. firstorder. Qed.
Ltac ranges := rewrite ?ranges_cons, ?ranges_nil.
Lemma base_iff c : sp_chars_base c = true <-> name_start c.
Proof. unfold sp_chars_base, name_start, in_range. ranges. lia. Qed.
Lemma digit_iff c : is_digit c = true <-> digit c.
Proof. apply in_range_iff. Qed.
Lemma u_iff c : sp_chars_u c = true <-> name_start c \/ c = 95.
Proof. unfold sp_chars_u. rewrite Bool.orb_true_iff, base_iff, N.eqb_eq. tauto. Qed.
Lemma chars_iff c : sp_chars c = true <-> name_char c.
Proof.
  unfold sp_chars, name_char, joiner. ranges. rewrite !Bool.orb_true_iff, u_iff, digit_iff, !in_range_iff, !N.eqb_eq.
  assert (E : 0xB7 <= c <= 0xB7 <-> c = 0xB7) by lia. rewrite E. tauto.
Qed.
Lemma head_iff c : is_var_name_head c = true <-> var_head c.
Proof. unfold is_var_name_head, var_head. rewrite Bool.orb_true_iff, base_iff, digit_iff. tauto. Qed.
Lemma tail_iff c : is_var_name_tail c = true <-> var_tail c.
Proof.
  unfold is_var_name_tail, var_tail, joiner. ranges. rewrite !Bool.orb_true_iff, base_iff, digit_iff, !in_range_iff, !N.eqb_eq.
  assert (E : 0xB7 <= c <= 0xB7 <-> c = 0xB7) by lia. rewrite E. tauto.
Qed.
Lemma hex_iff c : is_hex c = true <-> hexadecimal c.
Proof.
  unfold is_hex, hex_val, hexadecimal, digit, is_digit, in_range.
  destruct (N.leb 48 c && N.leb c 57) eqn:A; [lia|]. destruct (N.leb 65 c && N.leb c 70) eqn:B; [lia|].
  destruct (N.leb 97 c && N.leb c 102) eqn:C; lia.
Qed.
Lemma escape_iff c : is_local_escape c = true <-> escapable c.
Proof. unfold is_local_escape, escapable. cbn [lit In existsb]. cbn. lia. Qed.
Lemma alpha_iff c : is_alpha c = true <-> letter c.
Proof. unfold is_alpha, is_upper, is_lower, in_range, letter. lia. Qed.
Lemma alnum_iff c : is_alnum c = true <-> letter_or_digit c.
Proof. unfold is_alnum, letter_or_digit. rewrite Bool.orb_true_iff, alpha_iff, digit_iff. tauto. Qed.
Lemma caseless_iff a b : eq_ignore_ascii_case a b = true <-> caseless a b.
Proof.
  unfold eq_ignore_ascii_case, ascii_lower, caseless, is_upper, in_range. rewrite N.eqb_eq.
  destruct (N.leb 65 a && N.leb a 90) eqn:A, (N.leb 65 b && N.leb b 90) eqn:B; lia.
Qed.

(** ** Repetitions of one character *)
Definition filled (w : str) : bool := match w with [] => false | _ => true end.
Section Span.
Variable f : chr -> bool.
Variable P : chr -> Prop.
Hypothesis FP : forall c, f c = true <-> P c.

Lemma satisfy_yes c r : P c -> satisfy f (c :: r) = Good true c r.
Proof. intros H. apply FP in H. cbn. rewrite H. reflexivity. Qed.
Lemma satisfy_no s : ~ starts P s -> satisfy f s = Bad false.
Proof. destruct s as [|c r]; [reflexivity|]. cbn. intros H. destruct (f c) eqn:E; [apply FP in E; contradiction|reflexivity]. Qed.
Lemma starts_dec s : (exists c r, s = c :: r /\ P c) \/ ~ starts P s.
Proof. destruct s as [|c r]; [right; intros []|]. destruct (f c) eqn:E; [left; exists c, r; split; [reflexivity|apply FP, E]|right]. cbn. rewrite <- FP. congruence. Qed.

Lemma up_to_satisfy w r : Forall P w -> ~ starts P r -> forall n, (length w <= n)%nat ->
  up_to n (satisfy f) (w ++ r) = Good (filled w) w r.
Proof.
  intros F N. induction F as [|c w H F IH]; intros n L.
  - cbn [app filled]. destruct n; [reflexivity|]. cbn [up_to]. rewrite (satisfy_no r N). reflexivity.
  - destruct n as [|n]; [cbn in L; lia|]. cbn [app up_to]. rewrite (satisfy_yes c _ H).
    rewrite IH by (cbn in L; lia). reflexivity.
Qed.
Lemma many_satisfy w r : Forall P w -> ~ starts P r -> many (satisfy f) (w ++ r) = Good (filled w) w r.
Proof. intros F N. unfold many. apply up_to_satisfy; auto. rewrite app_length. lia. Qed.
Lemma span s : exists w r, s = w ++ r /\ Forall P w /\ ~ starts P r.
Proof.
  induction s as [|c s (w & r & -> & F & N)].
  - exists [], []. split; [reflexivity|]. split; [constructor|intros []].
  - destruct (starts_dec (c :: w ++ r)) as [(d & t & E & H)|H].
    + injection E as <- <-. exists (c :: w), r. split; [reflexivity|]. split; [constructor; assumption|exact N].
    + exists [], (c :: w ++ r). split; [reflexivity|]. split; [constructor|exact H].
Qed.
Lemma many1_satisfy w r : w <> [] -> Forall P w -> ~ starts P r -> many1 (satisfy f) (w ++ r) = Good true w r.
Proof.
  destruct w as [|c w]; [congruence|]. intros _ F N. inversion F; subst. unfold many1, pmap, pair. cbn [app].
  rewrite satisfy_yes by assumption. rewrite many_satisfy by assumption. reflexivity.
Qed.
Lemma many1_none s : ~ starts P s -> many1 (satisfy f) s = Bad false.
Proof. intros N. unfold many1, pmap, pair. rewrite satisfy_no by exact N. reflexivity. Qed.
End Span.

Lemma char_iff c d : N.eqb c d = true <-> c = d.
Proof. apply N.eqb_eq. Qed.
Lemma char_yes c r : char c (c :: r) = Good true c r.
Proof. apply (satisfy_yes _ _ (char_iff c)). reflexivity. Qed.
Lemma char_no c s : ~ starts (eq c) s -> char c s = Bad false.
Proof. apply (satisfy_no _ _ (char_iff c)). Qed.
Lemma char_dec c s : (exists r, s = c :: r) \/ ~ starts (eq c) s.
Proof. destruct (starts_dec _ _ (char_iff c) s) as [(d & r & -> & <-)|H]; eauto. Qed.

(** ** White space *)
Lemma spaces_layout s r : layout_at s r -> exists c, spaces s = Good c tt r.
Proof.
  intros (w & -> & F & N). unfold spaces, space, pmap. rewrite (many_satisfy _ _ whitespace_iff) by assumption. eauto.
Qed.
Lemma layout_total s : exists r, layout_at s r.
Proof. destruct (span _ _ whitespace_iff s) as (w & r & E & F & N). exists r, w. auto. Qed.
Lemma layout_unique s r r' : layout_at s r -> layout_at s r' -> r = r'.
Proof. intros H H'. apply spaces_layout in H as (c & H). apply spaces_layout in H' as (c' & H'). congruence. Qed.
Lemma spaces_sound s c r : spaces s = Good c tt r -> layout_at s r.
Proof. intros E. destruct (layout_total s) as (r' & L). destruct (spaces_layout s r' L) as (c' & E'). replace r with r' by congruence. exact L. Qed.
Lemma layout_refl s : ~ starts white s -> layout_at s s.
Proof. intros N. exists []. split; [reflexivity|]. split; [constructor|exact N]. Qed.
Lemma layout_stop s r : layout_at s r -> ~ starts white r.
Proof. intros (w & _ & _ & N). exact N. Qed.

Lemma spaces_spec s : exists c r, spaces s = Good c tt r /\ layout_at s r.
Proof. destruct (layout_total s) as (r & L). destruct (spaces_layout s r L) as (c & E). eauto. Qed.

(** ** Keywords *)
Lemma string_rest_spec k s : (exists w r, s = w ++ r /\ Forall2 caseless k w /\ string_rest eq_ignore_ascii_case k s = Good true tt r) \/
  ((forall w r, s = w ++ r -> ~ Forall2 caseless k w) /\ string_rest eq_ignore_ascii_case k s = Bad true).
Proof.
  revert s. induction k as [|c k IH]; intros s; cbn [string_rest].
  - left. exists [], s. auto.
  - destruct s as [|d s].
    + right. split; [|reflexivity]. intros w r E F. inversion F; subst. discriminate E.
    + destruct (eq_ignore_ascii_case c d) eqn:C.
      * destruct (IH s) as [(w & r & -> & F & E)|(F & E)].
        -- left. exists (d :: w), r. split; [reflexivity|]. split; [constructor; [apply caseless_iff, C|exact F]|exact E].
        -- right. split; [|exact E]. intros w r W X. inversion X; subst. injection W as -> ->. apply (F l' r); auto.
      * right. split; [|reflexivity]. intros w r W X. inversion X; subst. injection W as -> ->.
        apply caseless_iff in H1. congruence.
Qed.
Lemma string_cmp_spec k s : k <> [] ->
  (exists w r, s = w ++ r /\ Forall2 caseless k w /\ string_cmp eq_ignore_ascii_case k s = Good true tt r) \/
  ((forall w r, s = w ++ r -> ~ Forall2 caseless k w) /\ exists c, string_cmp eq_ignore_ascii_case k s = Bad c).
Proof.
  destruct k as [|c k]; [congruence|]. intros _. pose proof (string_rest_spec (c :: k) s) as H. cbn [string_rest string_cmp] in *.
  destruct s as [|d s]; [|destruct (eq_ignore_ascii_case c d)].
  - destruct H as [(w & r & E & F & _)|(H & _)]; [|right; eauto]. inversion F; subst. discriminate E.
  - destruct H as [H|(H & E)]; [left; exact H|right; eauto].
  - destruct H as [(w & r & E & F & X)|(H & _)]; [discriminate X|right; eauto].
Qed.
Lemma word_unique k : forall w w' r r', w ++ r = w' ++ r' -> Forall2 caseless k w -> Forall2 caseless k w' -> w = w' /\ r = r'.
Proof.
  induction k as [|c k IH]; intros w w' r r' E F F'; inversion F; inversion F'; subst; [auto|].
  injection E as -> E. destruct (IH _ _ _ _ E H3 H8) as [-> ->]. auto.
Qed.

Section Words.
Variable al : chr -> bool.
Lemma al_iff c : al c = true <-> (fun c => al c = true) c.
Proof. reflexivity. Qed.
Lemma keyword_spec k s : k <> [] ->
  (exists r, keyword_at al k s r /\ keyword al k s = Good true tt r) \/
  ((forall r, ~ keyword_at al k s r) /\ keyword al k s = Bad false).
Proof.
  intros K. unfold keyword, attempt, skip, pmap, pair. destruct (string_cmp_spec k s K) as [(w & r & -> & F & ->)|(H & c & ->)].
  - destruct (starts_dec _ _ al_iff r) as [(c & t & -> & A)|N].
    + right. unfold not_followed_by. rewrite (satisfy_yes _ _ al_iff c t A). split; [|reflexivity].
      intros r' (w' & E & F' & N). destruct (word_unique k _ _ _ _ E F F') as [-> <-]. apply N. exact A.
    + left. exists r. split; [exists w; auto|]. unfold not_followed_by. rewrite (satisfy_no _ _ al_iff r N). reflexivity.
  - right. split; [|reflexivity]. intros r (w & E & F & _). apply (H w r E F).
Qed.
Lemma keyword_unique k s r r' : keyword_at al k s r -> keyword_at al k s r' -> r = r'.
Proof. intros (w & -> & F & _) (w' & E & F' & _). apply (word_unique k w w' r r' E F F'). Qed.
Lemma keyword_yes k s r : k <> [] -> keyword_at al k s r -> keyword al k s = Good true tt r.
Proof.
  intros K H. destruct (keyword_spec k s K) as [(r' & H' & E)|(N & _)]; [|destruct (N r H)].
  rewrite (keyword_unique k s r r' H H'). exact E.
Qed.
Lemma keyword_sound k s c r : k <> [] -> keyword al k s = Good c tt r -> keyword_at al k s r.
Proof. intros K E. destruct (keyword_spec k s K) as [(r' & H & E')|(_ & E')]; [|congruence]. replace r with r' by congruence. exact H. Qed.
Lemma keyword_no k s : k <> [] -> (forall r, ~ keyword_at al k s r) -> keyword al k s = Bad false.
Proof. intros K N. destruct (keyword_spec k s K) as [(r & H & _)|(_ & E)]; [destruct (N r H)|exact E]. Qed.
End Words.

(** ** IRIs and prefixes *)
Ltac steps := unfold skip, pmap, pair in *.
Lemma gt_not_iri : ~ iri_char 62.
Proof. intros (_ & N). apply N. cbn. auto. Qed.
Lemma iri_yes i s r : iri_at i s r -> iri_ref s = Good true i r.
Proof.
  intros (F & t & -> & L). unfold iri_ref. steps. rewrite char_yes.
  rewrite (many_satisfy _ _ iri_char_iff i (62 :: t) F gt_not_iri). rewrite char_yes.
  destruct (spaces_layout t r L) as (c & ->). destruct i; reflexivity.
Qed.
Lemma iri_spec s : (exists i r, iri_at i s r) \/ (exists c, iri_ref s = Bad c /\ (c = true <-> starts (eq 60) s)).
Proof.
  destruct (char_dec 60 s) as [(t & ->)|N].
  - destruct (span _ _ iri_char_iff t) as (i & u & -> & F & N). destruct (char_dec 62 u) as [(v & ->)|M].
    + left. destruct (layout_total v) as (r & L). exists i, r. split; [exact F|]. eauto.
    + right. exists true. split; [|cbn; tauto]. unfold iri_ref. steps. rewrite char_yes, (many_satisfy _ _ iri_char_iff i u F N), (char_no 62 u M).
      reflexivity.
  - right. exists false. split; [|split; [discriminate|contradiction]]. unfold iri_ref. steps. rewrite (char_no 60 s N). reflexivity.
Qed.
Lemma iri_sound s c i r : iri_ref s = Good c i r -> iri_at i s r.
Proof.
  intros E. destruct (iri_spec s) as [(i' & r' & H)|(c' & E' & _)]; [|congruence].
  pose proof (iri_yes _ _ _ H) as E'. replace i with i' by congruence. replace r with r' by congruence. exact H.
Qed.
Lemma iri_stop i s r : iri_at i s r -> ~ starts white r.
Proof. intros (_ & t & _ & L). apply (layout_stop t r L). Qed.

Lemma dotted_iff c : (fun c => sp_chars c || N.eqb c 46) c = true <-> (fun c => name_char c \/ c = 46) c.
Proof. cbn. rewrite Bool.orb_true_iff, chars_iff, N.eqb_eq. tauto. Qed.
Lemma up_to_ext {A} (p q : parser A) : (forall s, p s = q s) -> forall n s, up_to n p s = up_to n q s.
Proof. intros E. induction n as [|n IH]; intros s; [reflexivity|]. cbn [up_to]. rewrite E. destruct (q s); auto. rewrite IH. reflexivity. Qed.
Lemma por_satisfy f g s : por (satisfy f) (satisfy g) s = satisfy (fun c => f c || g c) s.
Proof. unfold por, satisfy. destruct s as [|c r]; [reflexivity|]. destruct (f c); cbn; [reflexivity|]. destruct (g c); reflexivity. Qed.
Lemma dotted_por s : por (satisfy sp_chars) (char 46) s = satisfy (fun c => sp_chars c || N.eqb c 46) s.
Proof. unfold char. rewrite por_satisfy. unfold satisfy. destruct s as [|c r]; [reflexivity|]. rewrite (N.eqb_sym 46 c). reflexivity. Qed.
Lemma colon_not_dotted : ~ (name_char 58 \/ 58 = 46).
Proof. intros H. apply (dotted_iff 58) in H. discriminate H. Qed.
Lemma colon_not_start : ~ name_start 58.
Proof. intros H. apply base_iff in H. discriminate H. Qed.

Lemma prefix_part q t : prefix_read q -> ~ starts (fun c => name_char c \/ c = 46) t ->
  prefixed_name_prefix (q ++ t) = Good true q t.
Proof.
  destruct q as [|c q]; [intros []|]. intros (H & F) N. unfold prefixed_name_prefix. steps. cbn [app].
  rewrite (satisfy_yes _ _ base_iff c _ H). unfold optional, many. rewrite (up_to_ext _ _ dotted_por).
  rewrite (up_to_satisfy _ _ dotted_iff q t F N) by (rewrite app_length; lia). reflexivity.
Qed.
Lemma prefix_none s : ~ starts name_start s -> prefixed_name_prefix s = Bad false.
Proof. intros N. unfold prefixed_name_prefix. steps. rewrite (satisfy_no _ _ base_iff s N). reflexivity. Qed.

Lemma namespace_yes p s r : namespace_at p s r -> prefixed_name_namespace s = Good true p r.
Proof.
  intros (P & t & -> & L). destruct (spaces_layout t r L) as (c & E). unfold prefixed_name_namespace. steps. unfold optional.
  destruct p as [q|].
  - rewrite (prefix_part q (58 :: t) P) by exact colon_not_dotted. rewrite char_yes, E. reflexivity.
  - cbn [app]. rewrite (prefix_none (58 :: t)) by exact colon_not_start. rewrite char_yes, E. reflexivity.
Qed.
Lemma namespace_spec s : (exists p r, namespace_at p s r) \/
  (exists c, prefixed_name_namespace s = Bad c /\ (c = true <-> starts name_start s)).
Proof.
  destruct (starts_dec _ _ base_iff s) as [(c & t & -> & H)|N].
  - destruct (span _ _ dotted_iff t) as (q & u & -> & F & N). destruct (char_dec 58 u) as [(v & ->)|M].
    + left. destruct (layout_total v) as (r & L). exists (Some (c :: q)), r. split; [split; assumption|]. exists v. auto.
    + right. exists true. split; [|cbn; tauto]. unfold prefixed_name_namespace. steps. unfold optional.
      change (c :: q ++ u) with ((c :: q) ++ u). rewrite (prefix_part (c :: q) u) by (try split; assumption). rewrite (char_no 58 u M). reflexivity.
  - destruct (char_dec 58 s) as [(v & ->)|M].
    + left. destruct (layout_total v) as (r & L). exists None, r. split; [exact I|]. exists v. auto.
    + right. exists false. split; [|split; [discriminate|contradiction]]. unfold prefixed_name_namespace. steps. unfold optional.
      rewrite (prefix_none s N), (char_no 58 s M). reflexivity.
Qed.
Lemma namespace_sound s c p r : prefixed_name_namespace s = Good c p r -> namespace_at p s r.
Proof.
  intros E. destruct (namespace_spec s) as [(p' & r' & H)|(c' & E' & _)]; [|congruence].
  pose proof (namespace_yes _ _ _ H) as E'. replace p with p' by congruence. replace r with r' by congruence. exact H.
Qed.

(** ** Declarations *)
Section Decls.
Variable al : chr -> bool.
Notation dat := (decl_at al).
Lemma layout_more t u : starts white t -> layout_at t u -> many1 space t = Good true (firstn (length t - length u) t) u.
Proof.
  intros S (w & -> & F & N). replace (firstn _ (w ++ u)) with w.
  - apply (many1_satisfy _ _ whitespace_iff); auto. destruct w; [contradiction|discriminate].
  - rewrite app_length, PeanoNat.Nat.add_sub, firstn_app, PeanoNat.Nat.sub_diag, firstn_O, firstn_all, app_nil_r. reflexivity.
Qed.
Lemma spaces_none s : ~ starts white s -> spaces s = Good false tt s.
Proof. intros N. unfold spaces, space, pmap. change s with ([] ++ s) at 1. rewrite (many_satisfy _ _ whitespace_iff [] s) by auto. reflexivity. Qed.

Lemma base_yes i s r : dat (DBase i) s r -> base_decl al s = Good true i r.
Proof.
  intros (t & u & K & S & L & I). unfold base_decl. steps. rewrite (keyword_yes al $"base" s t) by (auto; discriminate).
  rewrite (layout_more t u S L), (iri_yes i u r I), (spaces_none r (iri_stop i u r I)). reflexivity.
Qed.
Lemma base_spec s : (exists i r, dat (DBase i) s r) \/
  (exists c, base_decl al s = Bad c /\ (c = true <-> exists r, keyword_at al $"base" s r)).
Proof.
  destruct (keyword_spec al $"base" s) as [(t & K & EK)|(N & EK)]; [discriminate| |].
  - assert (X : forall c, c = true -> (c = true <-> exists r, keyword_at al $"base" s r)) by (intros c ->; split; eauto).
    destruct (starts_dec _ _ whitespace_iff t) as [(c & v & -> & W)|N].
    + destruct (layout_total (c :: v)) as (u & L). destruct (iri_spec u) as [(i & r & I)|(b & E & _)].
      * left. exists i, r, (c :: v), u. auto.
      * right. exists true. split; [|apply X; reflexivity]. unfold base_decl. steps. rewrite EK, (layout_more (c :: v) u W L), E. reflexivity.
    + right. exists true. split; [|apply X; reflexivity]. unfold base_decl. steps. rewrite EK. unfold space. rewrite (many1_none _ _ whitespace_iff t N). reflexivity.
  - right. exists false. split; [|split; [discriminate|intros (r & H); destruct (N r H)]]. unfold base_decl. steps. rewrite EK. reflexivity.
Qed.
Lemma prefix_yes p i s r : dat (DPrefix p i) s r -> prefix_decl al s = Good true (p, i) r.
Proof.
  intros (t & u & v & K & L & P & I). unfold prefix_decl. steps. rewrite (keyword_yes al $"prefix" s t) by (auto; discriminate).
  destruct (spaces_layout t u L) as (c & ->). rewrite (namespace_yes p u v P), (iri_yes i v r I), (spaces_none r (iri_stop i v r I)). reflexivity.
Qed.
Lemma prefix_spec s : (exists p i r, dat (DPrefix p i) s r) \/
  (exists c, prefix_decl al s = Bad c /\ (c = true <-> exists r, keyword_at al $"prefix" s r)).
Proof.
  destruct (keyword_spec al $"prefix" s) as [(t & K & EK)|(N & EK)]; [discriminate| |].
  - assert (X : forall c, c = true -> (c = true <-> exists r, keyword_at al $"prefix" s r)) by (intros c ->; split; eauto).
    destruct (spaces_spec t) as (c & u & E & L). destruct (namespace_spec u) as [(p & v & P)|(b & EP & _)].
    + destruct (iri_spec v) as [(i & r & I)|(b & EI & _)].
      * left. exists p, i, r, t, u, v. auto.
      * right. exists true. split; [|apply X; reflexivity]. unfold prefix_decl. steps. rewrite EK, E, (namespace_yes p u v P), EI. reflexivity.
    + right. exists true. split; [|apply X; reflexivity]. unfold prefix_decl. steps. rewrite EK, E, EP. reflexivity.
  - right. exists false. split; [|split; [discriminate|intros (r & H); destruct (N r H)]]. unfold prefix_decl. steps. rewrite EK. reflexivity.
Qed.
Lemma base_sound s c i r : base_decl al s = Good c i r -> dat (DBase i) s r.
Proof.
  intros E. destruct (base_spec s) as [(i' & r' & H)|(c' & E' & _)]; [|congruence].
  pose proof (base_yes _ _ _ H) as E'. replace i with i' by congruence. replace r with r' by congruence. exact H.
Qed.
Lemma prefix_sound s c p i r : prefix_decl al s = Good c (p, i) r -> dat (DPrefix p i) s r.
Proof.
  intros E. destruct (prefix_spec s) as [(p' & i' & r' & H)|(c' & E' & _)]; [|congruence].
  pose proof (prefix_yes _ _ _ _ H) as E'. replace p with p' by congruence. replace i with i' by congruence. replace r with r' by congruence. exact H.
Qed.

Lemma keywords_differ s r r' : keyword_at al $"base" s r -> keyword_at al $"prefix" s r' -> False.
Proof.
  intros (w & -> & F & _) (w' & E & F' & _). inversion F as [|? a ? ? A]; subst. inversion F' as [|? b ? ? B]; subst.
  injection E as -> _. unfold caseless in A, B. lia.
Qed.
Definition one : parser unit := por (pmap (base_decl al) (fun _ => tt)) (pmap (prefix_decl al) (fun _ => tt)).
Lemma one_yes d s r : dat d s r -> one s = Good true tt r.
Proof.
  unfold one, por, pmap. destruct d as [i|p i]; intros D.
  - rewrite (base_yes i s r D). reflexivity.
  - destruct (base_spec s) as [(i' & r' & H)|(c & E & C)].
    + exfalso. destruct D as (t & u & v & K & _). destruct H as (t' & u' & K' & _). eapply keywords_differ; eauto.
    + rewrite E. destruct c.
      * exfalso. destruct (proj1 C eq_refl) as (t' & K'). destruct D as (t & u & v & K & _). eapply keywords_differ; eauto.
      * rewrite (prefix_yes p i s r D). reflexivity.
Qed.
Lemma one_spec s : (exists d r, dat d s r) \/
  (exists c, one s = Bad c /\ (c = false <-> no_keyword al [$"base"; $"prefix"] s)).
Proof.
  destruct (base_spec s) as [(i & r & H)|(c & E & C)]; [left; eauto|].
  destruct (prefix_spec s) as [(p & i & r & H)|(c' & E' & C')]; [left; eauto|]. right.
  unfold one, por, pmap. rewrite E, E'. destruct c.
  - exists true. split; [reflexivity|]. split; [discriminate|]. intros N. destruct (proj1 C eq_refl) as (r & K).
    exfalso. eapply N; [left; reflexivity|exact K].
  - exists c'. split; [reflexivity|]. split.
    + intros -> k r [<-|[<-|[]]] K.
      * assert (X : false = true) by (apply C; eauto). discriminate X.
      * assert (X : false = true) by (apply C'; eauto). discriminate X.
    + intros N. destruct c'; [|reflexivity]. destruct (proj1 C' eq_refl) as (r & K). exfalso. eapply N; [right; left; reflexivity|exact K].
Qed.
Lemma caseless_length k w : Forall2 caseless k w -> length k = length w.
Proof. induction 1; cbn; congruence. Qed.
Lemma decl_shorter d s r : dat d s r -> (length r < length s)%nat.
Proof.
  assert (A : forall s r, layout_at s r -> (length r <= length s)%nat).
  { intros s' r' (w & -> & _). rewrite app_length. lia. }
  assert (B : forall k s r, keyword_at al k s r -> (length r + length k = length s)%nat).
  { intros k s' r' (w & -> & F & _). apply caseless_length in F. rewrite app_length. lia. }
  assert (C : forall i s r, iri_at i s r -> (length r <= length s)%nat).
  { intros i s' r' (_ & t & -> & L). apply A in L. cbn. rewrite app_length. cbn. lia. }
  destruct d as [i|p i]; cbn [decl_at].
  - intros (t & u & K & _ & L & I). apply B in K. apply A in L. apply C in I. cbn in K. lia.
  - intros (t & u & v & K & L & (_ & x & -> & X) & I). apply B in K. apply A in L. apply A in X. apply C in I.
    rewrite app_length in L. cbn in *. lia.
Qed.
Lemma decls_read ds s r : decls_at al ds s r -> no_keyword al [$"base"; $"prefix"] r -> forall n, (length s <= n)%nat ->
  up_to n one s = Good (match ds with [] => false | _ => true end) (map (fun _ => tt) ds) r.
Proof.
  intros D N. induction D as [s|d l s t r D Ds IH]; intros n L.
  - destruct n as [|n]; [reflexivity|]. cbn [up_to map]. destruct (one_spec s) as [(d & r & D)|(c & -> & C)].
    + exfalso. destruct d as [i|p i]; cbn [decl_at] in D.
      * destruct D as (t & u & K & _). eapply N; [left; reflexivity|exact K].
      * destruct D as (t & u & v & K & _). eapply N; [right; left; reflexivity|exact K].
    + destruct c; [|reflexivity]. apply C in N. discriminate N.
  - pose proof (decl_shorter d s t D). destruct n as [|n]; [lia|]. cbn [up_to map]. rewrite (one_yes d s t D).
    rewrite (IH N n) by lia. reflexivity.
Qed.
Lemma decls_total n : forall s, (length s <= n)%nat ->
  (exists ds r, decls_at al ds s r /\ no_keyword al [$"base"; $"prefix"] r) \/
  (up_to n one s = Bad true /\ exists ds r k t, decls_at al ds s r /\ In k [$"base"; $"prefix"] /\ keyword_at al k r t /\ forall d u, ~ dat d r u).
Proof.
  induction n as [|n IH]; intros s L.
  - left. exists [], s. split; [constructor|]. destruct s; [|cbn in L; lia].
    intros k r [<-|[<-|[]]] (w & E & F & _); inversion F; subst; discriminate E.
  - cbn [up_to]. destruct (one_spec s) as [(d & t & D)|(c & E & C)].
    + pose proof (decl_shorter d s t D). rewrite (one_yes d s t D). destruct (IH t) as [(ds & r & Ds & N)|(B & ds & r & k & u & Ds & K)]; [lia| |].
      * left. exists (d :: ds), r. split; [econstructor; eauto|exact N].
      * right. rewrite B. split; [reflexivity|]. exists (d :: ds), r, k, u. split; [econstructor; eauto|exact K].
    + destruct c.
      * right. rewrite E. split; [reflexivity|].
        assert (NN : forall d u, ~ dat d s u) by (intros d u D; rewrite (one_yes d s u D) in E; discriminate E).
        destruct (keyword_spec al $"base" s) as [(t & K & _)|(N1 & _)]; [discriminate| |].
        -- exists [], s, $"base", t. split; [constructor|]. split; [left; reflexivity|]. split; [exact K|exact NN].
        -- destruct (keyword_spec al $"prefix" s) as [(t & K & _)|(N2 & _)]; [discriminate| |].
           ++ exists [], s, $"prefix", t. split; [constructor|]. split; [right; left; reflexivity|]. split; [exact K|exact NN].
           ++ exfalso. assert (X : true = false); [|discriminate X]. apply C. intros k r [<-|[<-|[]]] K; [apply (N1 r K)|apply (N2 r K)].
      * left. exists [], s. split; [constructor|]. apply C. reflexivity.
Qed.

Theorem prologue_reads s ds r : decls_at al ds s r -> no_keyword al [$"base"; $"prefix"] r ->
  prologue al s = Good (match ds with [] => false | _ => true end) tt r.
Proof. intros D N. change (prologue al s) with (pmap (fun s => up_to (length s) (one) s) (fun _ => tt) s). unfold pmap. rewrite (decls_read ds s r D N) by lia. reflexivity. Qed.
Theorem prologue_exact s :
  (exists ds r, decls_at al ds s r /\ no_keyword al [$"base"; $"prefix"] r) \/
  (prologue al s = Bad true /\ exists ds r k t, decls_at al ds s r /\ In k [$"base"; $"prefix"] /\ keyword_at al k r t /\ forall d u, ~ dat d r u).
Proof.
  destruct (decls_total (length s) s) as [H|(E & H)]; [lia|left; exact H|right; split; [|exact H]].
  change (prologue al s) with (pmap (fun s => up_to (length s) (one) s) (fun _ => tt) s). unfold pmap. rewrite E. reflexivity.
Qed.
End Decls.

(** ** Truth values *)
Lemma string_rest_is k s : (exists r, s = k ++ r /\ string_rest N.eqb k s = Good true tt r) \/
  ((forall r, s <> k ++ r) /\ exists c, string_rest N.eqb k s = Bad c).
Proof.
  revert s. induction k as [|c k IH]; intros s.
  - left. exists s. split; reflexivity.
  - cbn [string_rest]. destruct s as [|d s]; [right; split; [discriminate|eauto]|]. destruct (N.eqb_spec c d) as [<- | N].
    + destruct (IH s) as [(r & -> & E)|(H & x & E)].
      * left. exists r. split; [reflexivity|exact E].
      * right. split; [|eauto]. intros r X. injection X as X. exact (H r X).
    + right. split; [|eauto]. intros r X. injection X as -> _. apply N. reflexivity.
Qed.
Lemma string_is_not k s : k <> [] -> (forall r, s <> k ++ r) -> exists c, string_cmp N.eqb k s = Bad c.
Proof.
  destruct k as [|c k]; [congruence|]. intros _ H. cbn [string_cmp]. destruct s as [|d s]; [eexists; reflexivity|].
  destruct (N.eqb_spec c d) as [<- | N]; [|eexists; reflexivity].
  destruct (string_rest_is k s) as [(r & -> & _)|(_ & E)]; [destruct (H r); reflexivity|exact E].
Qed.
Lemma c101_booleans s :
  (forall r, s = $"true" ++ r -> boolean_literal s = Good true true r) /\
  (forall r, s = $"false" ++ r -> boolean_literal s = Good true false r) /\
  ((forall r, s <> $"true" ++ r) -> (forall r, s <> $"false" ++ r) -> boolean_literal s = Bad false).
Proof.
  split; [intros r ->; reflexivity|]. split; [intros r ->; reflexivity|]. intros T F.
  unfold boolean_literal, attempt, por, pmap.
  assert (A : exists c, string_cmp N.eqb $"false" s = Bad c) by (apply string_is_not; [discriminate|exact F]).
  assert (B : exists c, string_cmp N.eqb $"true" s = Bad c) by (apply string_is_not; [discriminate|exact T]).
  destruct A as [c ->], B as [d ->]. destruct c; [reflexivity|]. destruct d; reflexivity.
Qed.
