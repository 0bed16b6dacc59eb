(** Proofs about the words for literals (C72). *)
From Coq Require Import Lia ZArith.
From Verif Require Import Turtle TurtleSpec StrFacts LiteralSpec LiteralProofs TurtleTop.
From Verif Require NTriplesSpec NTriplesProofs NTriplesWriteSpec NTriplesReject Url.
From Verif Require Export TurtleLitSpec.

(** ** Strings *)
Lemma hex_fun ds : forall vs ws, Forall2 NTriplesSpec.hex_digit ds vs -> Forall2 NTriplesSpec.hex_digit ds ws -> vs = ws.
Proof.
  induction ds as [|d ds IH]; intros vs ws A B; inversion A; inversion B; subst; [reflexivity|].
  f_equal; [|apply IH; assumption].
  match goal with H : NTriplesSpec.hex_digit d ?x, K : NTriplesSpec.hex_digit d ?y |- ?x = ?y =>
    apply NTriplesProofs.hex_val_Some in H; apply NTriplesProofs.hex_val_Some in K; congruence end.
Qed.
Lemma app_len_inv {A} (a b c d : list A) : length a = length b -> a ++ c = b ++ d -> a = b /\ c = d.
Proof.
  revert b. induction a as [|x a IH]; intros [|y b] L E; try discriminate; [auto|].
  injection E as -> E. destruct (IH b) as [-> ->]; auto.
Qed.
Lemma echar_fun e x y : In (e, x) echars -> In (e, y) echars -> x = y.
Proof. cbn. intuition congruence. Qed.
Lemma echar_not_u e x : In (e, x) echars -> e <> 117 /\ e <> 85.
Proof. cbn. intros H. split; intros ->; intuition congruence. Qed.
Lemma sr_cut b1 t1 : string_reads b1 t1 -> forall b2 t2 r1 r2, string_reads b2 t2 ->
  b1 ++ 34 :: r1 = b2 ++ 34 :: r2 -> b1 = b2 /\ t1 = t2 /\ r1 = r2.
Proof.
  induction 1 as [|c s t NI R IH|e c s t I R IH|ds vs s t D L S R IH|ds vs s t D L S R IH];
    intros b2 t2 r1 r2 R2 E; destruct R2 as [|c2 s2 t2 NI2 R2|e2 c2 s2 t2 I2 R2|ds2 vs2 s2 t2 D2 L2 S2 R2|ds2 vs2 s2 t2 D2 L2 S2 R2];
    cbn [app] in E; rewrite <- ?app_assoc in E;
    try (injection E as E; subst; auto; fail);
    try (injection E as E _; subst; exfalso; cbn in *; intuition; fail);
    try (injection E as E; try discriminate E; exfalso; subst;
         match goal with H : In (_, _) echars |- _ => apply echar_not_u in H; intuition congruence end).
  - injection E as -> E. destruct (IH _ _ _ _ R2 E) as (-> & -> & ->). auto.
  - injection E as -> E. destruct (IH _ _ _ _ R2 E) as (-> & -> & ->). rewrite (echar_fun _ _ _ I I2). auto.
  - injection E as E. apply app_len_inv in E as [-> E]; [|congruence]. destruct (IH _ _ _ _ R2 E) as (-> & -> & ->).
    rewrite (hex_fun _ _ _ D D2). auto.
  - injection E as E. apply app_len_inv in E as [-> E]; [|congruence]. destruct (IH _ _ _ _ R2 E) as (-> & -> & ->).
    rewrite (hex_fun _ _ _ D D2). auto.
Qed.
Lemma sr_length b t : string_reads b t -> (length t <= length b)%nat.
Proof. induction 1; cbn [length]; rewrite ?app_length; lia. Qed.
Lemma sr_text b t : string_reads b t -> NTriplesWriteSpec.string_text b.
Proof.
  induction 1 as [|c s t NI R (l & F & ->)|e c s t I R (l & F & ->)|ds vs s t D L S R (l & F & ->)|ds vs s t D L S R (l & F & ->)].
  - exists []. split; [constructor|reflexivity].
  - exists (NTriplesSpec.Plain c :: l). split; [|reflexivity]. constructor; [cbn in *; tauto|exact F].
  - exists (NTriplesSpec.Short e :: l). split; [|reflexivity]. constructor; [|exact F].
    unfold echars in I. cbn in I |- *. intuition congruence.
  - exists (NTriplesSpec.Numeric ds vs :: l). split.
    + constructor; [|exact F]. split; auto.
    + unfold NTriplesSpec.pieces_text. cbn [flat_map NTriplesSpec.piece_text]. rewrite L. reflexivity.
  - exists (NTriplesSpec.Numeric ds vs :: l). split.
    + constructor; [|exact F]. split; auto.
    + unfold NTriplesSpec.pieces_text. cbn [flat_map NTriplesSpec.piece_text]. rewrite L. reflexivity.
Qed.
Lemma escape_reads c t : Forall (turtle_char c) t -> string_reads (escape_string (t_gext c) (t_printable c) t) t.
Proof.
  induction 1 as [|x t R F IH]; [constructor|]. unfold escape_string. cbn [flat_map].
  destruct R as [R|R].
  - rewrite esc_itself by exact R. apply Sr_plain; [|exact IH]. destruct R as [R _]. cbn in *. tauto.
  - cbn in R. destruct R as [<-|[<-|[<-|[<-|[<-|[]]]]]]; cbn; apply Sr_echar; cbn; auto 10.
Qed.
Lemma escape_reads_iff c t v : string_reads (escape_string (t_gext c) (t_printable c) t) v <-> Forall (turtle_char c) t /\ v = t.
Proof.
  split.
  - intros R. pose proof (sr_text _ _ R) as S. apply (NTriplesReject.escape_readable (fun _ => None) (fun _ => None) (fun _ => false)) in S.
    split; [exact S|]. pose proof (escape_reads c t S) as R'.
    destruct (sr_cut _ _ R _ _ [] [] R' eq_refl) as (_ & -> & _). reflexivity.
  - intros [F ->]. apply escape_reads, F.
Qed.

(** ** Words *)
Lemma in_58_absolute i : absolute i -> In 58 i.
Proof. intros (s & r & ->). apply in_or_app. right. cbn. auto. Qed.
Lemma wd_fun base expand w i j : word_denotes base expand w i -> word_denotes base expand w j -> i = j.
Proof.
  intros A B. destruct A as [i A|b r Eb S|q i H X]; inversion B as [j' A' E'|b' r' Eb' S' E'|q' j' H' X' E']; subst;
    try (exfalso; cbn in *; congruence).
  - apply app_inj_tail in E' as [-> _]. reflexivity.
  - apply app_inj_tail in E' as [-> _]. exfalso. apply in_58_absolute in A.
    destruct S' as (_ & _ & _ & F). rewrite Forall_forall in F. apply (F _ A). cbn. auto.
  - apply app_inj_tail in E' as [-> _]. exfalso. apply in_58_absolute in A'.
    destruct S as (_ & _ & _ & F). rewrite Forall_forall in F. apply (F _ A'). cbn. auto.
  - apply app_inj_tail in E' as [-> _]. congruence.
  - congruence.
Qed.

(** What a word starts with. *)
Definition numeric_start (x : chr) : Prop := is_digit x = true \/ In x [43; 45; 46].
Lemma digits_start d w : digits d -> d <> [] -> numeric_start (hd 0 (d ++ w)).
Proof. intros [|x l D _] N; [congruence|]. left. exact D. Qed.
Lemma sign_start sg w : a_sign sg -> numeric_start (hd 0 w) -> numeric_start (hd 0 (sg ++ w)).
Proof. intros [-> | [-> | ->]] H; [exact H| |]; right; cbn; auto. Qed.
Lemma dot_start a w : digits a -> numeric_start (hd 0 (a ++ $"." ++ w)).
Proof. intros [|x l D _]; [right; cbn; auto|left; exact D]. Qed.
Lemma integer_start w : integer_text w -> numeric_start (hd 0 w).
Proof.
  intros (sg & d & -> & S & D & N). apply sign_start; [exact S|]. rewrite <- (app_nil_r d). apply digits_start; auto.
Qed.
Lemma decimal_start w : decimal_text w -> numeric_start (hd 0 w).
Proof. intros (sg & a & b & -> & S & A & _). apply sign_start; [exact S|]. apply dot_start, A. Qed.
Lemma double_start w : double_text w -> numeric_start (hd 0 w).
Proof.
  intros (sg & a & b & x & -> & S & A & _ & [[-> N]|(b' & -> & _)]); (apply sign_start; [exact S|]).
  - apply digits_start; auto.
  - rewrite <- app_assoc. apply dot_start, A.
Qed.
Lemma numeric_not x : numeric_start x -> ~ In x [34; 60; 116; 102].
Proof. intros [D|H] I; cbn in *; intuition; subst; try discriminate; lia. Qed.
Lemma name_not w : name_like w -> ~ numeric_start (hd 0 w) /\ hd 0 w <> 34 /\ hd 0 w <> 60.
Proof.
  intros (_ & N & D). split; [|split; intros E; apply N; rewrite E; cbn; auto 10].
  intros [X|X]; [congruence|]. apply N. cbn in *. tauto.
Qed.
Lemma boolean_not w : boolean_text w -> ~ In 58 w /\ hd 0 w <> 60 /\ hd 0 w <> 34 /\ ~ numeric_start (hd 0 w).
Proof.
  intros [-> | ->]; (split; [cbn; intuition discriminate|split; [discriminate|split; [discriminate|]]]);
    intros X; apply numeric_not in X; apply X; cbn; auto.
Qed.

(** Words in quotes. *)
Lemma quoted_denotes base expand b t rest v : string_reads b t ->
  denotes base expand (34 :: b ++ 34 :: rest) v ->
  (rest = [] /\ v = VText t (xsd_type $"string") None) \/
  (exists tag, rest = $"@" ++ tag /\ tag_ok tag /\ v = VText t lang_string (Some tag)) \/
  (exists w i, rest = $"^^" ++ w /\ word_denotes base expand w i /\ v = VText t i None).
Proof.
  intros R H. remember (34 :: b ++ 34 :: rest) as x eqn:Ex.
  destruct H as [w i K W|b' t' R'|b' t' tag R' T|b' t' w i R' W|w I|w I|w I|w I]; cbn [app] in Ex.
  - subst w. exfalso. destruct K as [K|K]; [discriminate|apply name_not in K; cbn in K; tauto].
  - injection Ex as Ex. destruct (sr_cut _ _ R' _ _ _ _ R Ex) as (-> & -> & <-). auto.
  - injection Ex as Ex. destruct (sr_cut _ _ R' _ _ _ _ R Ex) as (-> & -> & <-). right. left. exists tag. auto.
  - injection Ex as Ex. destruct (sr_cut _ _ R' _ _ _ _ R Ex) as (-> & -> & <-). right. right. exists w, i. auto.
  - subst w. apply integer_start, numeric_not in I. exfalso. apply I. cbn. auto.
  - subst w. apply decimal_start, numeric_not in I. exfalso. apply I. cbn. auto.
  - subst w. apply double_start, numeric_not in I. exfalso. apply I. cbn. auto.
  - subst w. apply boolean_not in I. cbn in I. tauto.
Qed.

(** ... can only be read if the text between the quotes can. *)
Lemma quoted_inv base expand c t rest v :
  denotes base expand (34 :: escape_string (t_gext c) (t_printable c) t ++ 34 :: rest) v -> Forall (turtle_char c) t.
Proof.
  intros H. remember (34 :: escape_string (t_gext c) (t_printable c) t ++ 34 :: rest) as x eqn:Ex.
  assert (K : forall b' t' r', string_reads b' t' -> 34 :: b' ++ 34 :: r' = x -> Forall (turtle_char c) t).
  { intros b' t' r' R E. rewrite <- E in Ex. injection Ex as Ex. destruct (sr_text _ _ R) as (l & F & ->).
    exact (NTriplesReject.escape_pieces (fun _ => None) (fun _ => None) (fun _ => false) _ _ t l rest r' F (eq_sym Ex)). }
  destruct H as [w i W0 W|b' t' R'|b' t' tag R' T|b' t' w i R' W|w I|w I|w I|w I]; try (eapply K; [exact R'|reflexivity]).
  - subst w. exfalso. destruct W0 as [W0|W0]; [discriminate|apply name_not in W0; cbn in W0; tauto].
  - subst w. apply integer_start, numeric_not in I. exfalso. apply I. cbn. auto.
  - subst w. apply decimal_start, numeric_not in I. exfalso. apply I. cbn. auto.
  - subst w. apply double_start, numeric_not in I. exfalso. apply I. cbn. auto.
  - subst w. apply boolean_not in I. cbn in I. tauto.
Qed.

(** ** The words the writer makes *)
Lemma bare_unquoted d : bare_type d = true <-> unquoted d.
Proof. destruct d; cbn; split; intros H; try discriminate; try reflexivity; intuition discriminate. Qed.
Definition quoted_word (c : setting) (l : literal) (rest : str) : str :=
  34 :: escape_string (t_gext c) (t_printable c) (lexical_form l) ++ 34 :: rest.
Lemma quoted_shape c l w : quoted_literal l -> lit_word c l = Some w ->
  exists rest, w = quoted_word c l rest /\
  match lit_data_type l, lit_language l with
  | Some d, _ => exists x, iri_word c (dt_as_iri d) = Some x /\ rest = $"^^" ++ x
  | None, Some t => rest = $"@" ++ t
  | None, None => rest = []
  end.
Proof.
  destruct l as [t dt lang]. unfold quoted_literal, lit_word, word_of, literal_word, quoted_word. cbn [lexical_form lit_data_type lit_language].
  destruct dt as [d|]; destruct lang as [tag|]; intros Q H; try contradiction.
  - destruct Q as [NI NB]. destruct (bare_type d) eqn:B; [apply bare_unquoted in B; contradiction|].
    unfold iri_word, word_of. destruct d; try congruence; try discriminate B;
      (destruct (compress_iri _ _ _ _ _) as [[x|]|]; cbn in H; try discriminate; injection H as <-;
       exists ($"^^" ++ x); split; [rewrite <- app_assoc; reflexivity|exists x; auto]).
  - injection H as <-. exists ($"@" ++ tag). split; [rewrite <- app_assoc; reflexivity|reflexivity].
  - injection H as <-. exists []. auto.
Qed.
Lemma c72_quoted c base expand l w v : no_conversion c -> names_expand c expand ->
  id_base (t_opts c) = option_map Url.url_ser base -> type_words_ok c base l ->
  quoted_literal l -> lit_word c l = Some w ->
  denotes base expand w v <-> Forall (turtle_char c) (lexical_form l) /\ v = literal_value l.
Proof.
  intros NC NE IB TW Q H. destruct (quoted_shape _ _ _ Q H) as (rest & -> & S). split.
  - intros D. pose proof (quoted_inv _ _ _ _ _ _ D) as F. split; [exact F|].
    apply (quoted_denotes _ _ _ _ _ _ (escape_reads _ _ F)) in D. unfold literal_value, quoted_literal, type_words_ok in *.
    destruct (lit_data_type l) as [d|]; [|destruct (lit_language l) as [tag|]].
    + destruct S as (x & X & ->). destruct TW as (P & A & B).
      pose proof (c65_denotes _ _ _ _ _ NC NE IB P A B X) as W.
      destruct D as [[E _]|[(tag & E & _)|(x' & i & E & W' & ->)]]; try discriminate.
      injection E as <-. rewrite (wd_fun _ _ _ _ _ W W'). reflexivity.
    + subst rest. destruct D as [[E _]|[(tag' & E & _ & ->)|(x' & i & E & _)]]; try discriminate.
      injection E as <-. reflexivity.
    + subst rest. destruct D as [[_ ->]|[(tag' & E & _)|(x' & i & E & _)]]; try discriminate. reflexivity.
  - intros [F ->]. apply escape_reads in F. unfold literal_value, quoted_literal, type_words_ok, quoted_word in *.
    destruct (lit_data_type l) as [d|]; [|destruct (lit_language l) as [tag|]].
    + destruct S as (x & X & ->). destruct TW as (P & A & B).
      pose proof (c65_denotes _ _ _ _ _ NC NE IB P A B X) as W. exact (Dn_typed _ _ _ _ _ _ F W).
    + subst rest. exact (Dn_lang _ _ _ _ _ F Q).
    + subst rest. exact (Dn_plain _ _ _ _ F).
Qed.

(** ** Words without quotes *)
Lemma bare_shape c l d w : lit_data_type l = Some d -> unquoted d -> lit_word c l = Some w -> w = lexical_form l.
Proof.
  destruct l as [t dt lang]. cbn [lit_data_type lexical_form]. intros -> U. apply bare_unquoted in U.
  unfold lit_word, word_of, literal_word.
  destruct d; try discriminate U; intros H; injection H as <-; reflexivity.
Qed.
(** A word in quotes is longer than the text it stands for. *)
Lemma quoted_longer b t rest : string_reads b t -> 34 :: b ++ 34 :: rest <> t.
Proof. intros R E. apply sr_length in R. apply (f_equal (@length _)) in E. cbn in E. rewrite app_length in E. cbn in E. lia. Qed.
Lemma c72_bare c base expand l d w : lit_data_type l = Some d -> unquoted d -> lit_word c l = Some w ->
  denotes base expand w (literal_value l) <->
  (d = DtBoolean /\ boolean_text w) \/ (d = DtDecimal /\ decimal_text w) \/ (d = DtDouble /\ double_text w).
Proof.
  intros D U H. pose proof (bare_shape _ _ _ _ D U H) as Ew. unfold literal_value. rewrite D, <- Ew. split.
  - intros X. remember (VText w (dt_as_iri d) None) as v eqn:Ev.
    destruct X as [x i K W|b t R|b t tag R T|b t x i R W|x I|x I|x I|x I]; try discriminate;
      try (injection Ev as Ev _; exfalso; eapply quoted_longer; [exact R|symmetry; exact Ev]);
      try (injection Ev as Ev; exfalso; eapply quoted_longer; [exact R|symmetry; eassumption]);
      injection Ev as Ev; apply bare_unquoted in U; destruct d; try discriminate U; vm_compute in Ev; try discriminate Ev; auto.
  - intros [[-> B]|[[-> B]|[-> B]]]; [exact (Dn_boolean _ _ _ B)|exact (Dn_decimal _ _ _ B)|exact (Dn_double _ _ _ B)].
Qed.

(** ** Integers *)
Definition number_chr (x : chr) : Prop := is_digit x = true \/ In x [43; 45].
Lemma digits_chr d : digits d -> Forall number_chr d.
Proof. intros D. eapply Forall_impl; [|exact D]. intros x H. left. exact H. Qed.
Lemma integer_chr w : integer_text w -> Forall number_chr w.
Proof.
  intros (sg & d & -> & S & D & _). apply Forall_app. split; [|apply digits_chr, D].
  destruct S as [-> | [-> | ->]]; [constructor| |]; (constructor; [right; cbn; auto|constructor]).
Qed.
Lemma chr_not w x : Forall number_chr w -> In x w -> ~ In x [46; 101; 69; 58].
Proof.
  intros F I J. rewrite Forall_forall in F. destruct (F _ I) as [D|K]; cbn in *; intuition; subst; discriminate.
Qed.
Lemma integer_denotes base expand w v : integer_text w -> denotes base expand w v <-> v = VText w (xsd_type $"integer") None.
Proof.
  intros T. split; [|intros ->; apply Dn_integer, T]. intros D. pose proof (integer_start _ T) as S. pose proof (integer_chr _ T) as C.
  destruct D as [x i K W|b t R|b t tag R X|b t x i R W|x I|x I|x I|x I]; try reflexivity;
    try (apply numeric_not in S; exfalso; apply S; cbn; auto; fail).
  - exfalso. destruct K as [K|K]; [apply numeric_not in S; apply S; rewrite K; cbn; auto|].
    destruct K as [K _]. apply (chr_not _ _ C K). cbn. auto.
  - exfalso. destruct I as (sg & a & b & -> & _). apply (chr_not _ 46 C); [|cbn; auto]. apply in_or_app. right. apply in_or_app. right. cbn. auto.
  - exfalso. destruct I as (sg & a & b & y & -> & _ & _ & (e & sg' & ds & -> & E & _) & _).
    apply (chr_not _ e C); [|cbn in *; tauto]. apply in_or_app. right. apply in_or_app. right. apply in_or_app. right. cbn. auto.
  - exfalso. apply boolean_not in I. tauto.
Qed.
Lemma dec_Z_integer z : integer_text (dec_Z z).
Proof.
  destruct z as [|p|p].
  - exists [], (dec_N 0). repeat split; [left; reflexivity|apply dec_N_digits|apply dec_N_nonnil].
  - exists [], (dec_N (Npos p)). repeat split; [left; reflexivity|apply dec_N_digits|apply dec_N_nonnil].
  - exists $"-", (dec_N (Npos p)). repeat split; [right; right; reflexivity|apply dec_N_digits|apply dec_N_nonnil].
Qed.
Lemma int_unquoted t : unquoted (int_data_type t).
Proof. apply bare_unquoted. destruct t; reflexivity. Qed.
Lemma c72_integer c base expand t z w v : ascii_tables (t_gext c) (t_printable c) ->
  lit_word c (lit_from_int (t_gext c) (t_printable c) t z) = Some w ->
  denotes base expand w v <-> v = VText (dec_Z z) (xsd_type $"integer") None.
Proof.
  intros A H. pose proof (bare_shape c (lit_from_int (t_gext c) (t_printable c) t z) (int_data_type t) w eq_refl (int_unquoted t) H) as ->. rewrite int_literal by exact A.
  apply integer_denotes, dec_Z_integer.
Qed.
Lemma c72_integer_type t : xsd_type $"integer" <> dt_as_iri (int_data_type t).
Proof. destruct t; vm_compute; discriminate. Qed.

(** ** Literals that hold an IRI *)
Lemma c72_iri c base expand l i w v : no_conversion c -> names_expand c expand ->
  (forall j q, t_compress c j = Ret (Some q) -> name_like q) ->
  id_base (t_opts c) = option_map Url.url_ser base ->
  lit_data_type l = Some DtIri -> t_parse c (lexical_form l) = Some i -> iri_words_ok c base i ->
  lit_word c l = Some w -> denotes base expand w v <-> v = VIri i.
Proof.
  intros NC NE NL IB D P (P' & A & B) H. unfold lit_word, word_of, literal_word in H. rewrite D, P in H. fold (word_of (compress_iri (t_iri c) (t_parse c) (t_compress c) (t_opts c)) i) in H.
  change (iri_word c i = Some w) in H. pose proof (c65_denotes _ _ _ _ _ NC NE IB P' A B H) as W.
  assert (K : hd 0 w = 60 \/ name_like w).
  { destruct (iri_word_plain _ _ _ NC H) as [K1 K2]. destruct (id_base (t_opts c)) as [b|].
    - destruct (strip_prefix b i) as [r|]; [left; rewrite K1; reflexivity|].
      destruct (K2 eq_refl) as (j & _ & [C|[_ C]]); [right; eapply NL, C|left; rewrite C; reflexivity].
    - destruct (K2 I) as (j & _ & [C|[_ C]]); [right; eapply NL, C|left; rewrite C; reflexivity]. }
  split; [|intros ->; apply Dn_iri; assumption].
  intros X. destruct X as [x j K' W'|b' t R|b' t tag R X|b' t x j R W'|x N|x N|x N|x N].
  - rewrite (wd_fun _ _ _ _ _ W W'). reflexivity.
  - exfalso. destruct K as [K|K]; [discriminate|apply name_not in K; cbn in K; tauto].
  - exfalso. destruct K as [K|K]; [discriminate|apply name_not in K; cbn in K; tauto].
  - exfalso. destruct K as [K|K]; [discriminate|apply name_not in K; cbn in K; tauto].
  - exfalso. apply integer_start in N. destruct K as [K|K]; [rewrite K in N; apply numeric_not in N; apply N; cbn; auto|apply name_not in K; tauto].
  - exfalso. apply decimal_start in N. destruct K as [K|K]; [rewrite K in N; apply numeric_not in N; apply N; cbn; auto|apply name_not in K; tauto].
  - exfalso. apply double_start in N. destruct K as [K|K]; [rewrite K in N; apply numeric_not in N; apply N; cbn; auto|apply name_not in K; tauto].
  - exfalso. apply boolean_not in N. destruct K as [K|[K _]]; tauto.
Qed.

(** ** The text a literal was made from *)
Lemma c72_text c base expand t w : no_conversion c -> names_expand c expand ->
  id_base (t_opts c) = option_map Url.url_ser base ->
  lit_word c (lit_plain (t_gext c) (t_printable c) t) = Some w ->
  denotes base expand w (VText t (xsd_type $"string") None) <-> Forall (prints_as_itself (t_gext c) (t_printable c)) t.
Proof.
  intros NC NE IB H. rewrite (c72_quoted c base expand (lit_plain (t_gext c) (t_printable c) t) w _ NC NE IB I I H).
  rewrite <- escape_id_iff. split.
  - intros [_ E]. injection E as E. auto.
  - intros E. unfold literal_value, lit_plain. cbn [lexical_form lit_data_type lit_language]. rewrite E. split; [|reflexivity].
    apply escape_id_iff in E. eapply Forall_impl; [|exact E]. intros x K. left. exact K.
Qed.
