(** Turtle documents can be read back (C100). *)
From Verif Require Import StrFacts PNameSpec Turtle TurtleSpec TurtleLitSpec TurtleProofs TurtleShape TurtleTop TurtleLitProofs
  TurtleReadSpec TurtleLex TurtleWalk TurtleParse.
From Verif Require IriProofs XmlProofs Url.
From Verif Require Import GraphSpec.
From Coq Require Import Relations Permutation Lia.

(** ** Characters *)
Lemma within_table c t u : within c t -> (forall lo hi, In (lo, hi) t -> exists lo' hi', In (lo', hi') u /\ lo' <= lo /\ hi <= hi') ->
  in_table c u = true.
Proof.
  intros (lo & hi & I & A & B) H. destruct (H lo hi I) as (lo' & hi' & J & C & D). apply existsb_exists. exists (lo', hi').
  split; [exact J|]. cbn [fst snd]. apply andb_true_intro. split; apply N.leb_le; lia.
Qed.
Lemma pn_chars_true c : PN_CHARS c -> pn_char c = true.
Proof.
  intros [[H| ->]|[-> |H]]; try reflexivity; (eapply within_table; [exact H|]); intros lo hi I; cbn [In] in I;
    repeat match goal with
    | I : _ \/ _ |- _ => destruct I as [I|I]
    end; try contradiction; injection I as <- <-;
    try (exists 65, 90; split; [cbn; auto 30|lia]);
    try (exists 97, 122; split; [cbn; auto 30|lia]);
    try (exists 192, 214; split; [cbn; auto 30|lia]);
    try (exists 216, 246; split; [cbn; auto 30|lia]);
    try (exists 248, 893; split; [cbn; auto 30|lia]);
    try (exists 895, 8191; split; [cbn; auto 30|lia]);
    try (exists 8204, 8205; split; [cbn; auto 30|lia]);
    try (exists 8304, 8591; split; [cbn; auto 30|lia]);
    try (exists 11264, 12271; split; [cbn; auto 30|lia]);
    try (exists 12289, 55295; split; [cbn; auto 30|lia]);
    try (exists 63744, 64975; split; [cbn; auto 30|lia]);
    try (exists 65008, 65533; split; [cbn; auto 30|lia]);
    try (exists 65536, 983039; split; [cbn; auto 30|lia]);
    try (exists 48, 57; split; [cbn; auto 30|lia]);
    try (exists 183, 183; split; [cbn; auto 30|lia]);
    try (exists 8255, 8256; split; [cbn; auto 30|lia]).
Qed.
Lemma pn_name c : PN_CHARS c -> name_char c = true.
Proof. intros H. unfold name_char. rewrite (pn_chars_true c H). reflexivity. Qed.
Lemma pn_not c x : PN_CHARS c -> In x [46; 58; 43; 34; 60; 64] -> c <> x.
Proof. intros H I ->. apply pn_chars_true in H. cbn in I. repeat (destruct I as [<-|I]; [vm_compute in H; discriminate|]). destruct I. Qed.
Lemma dotted_chars (first : N -> Prop) w : (forall c, first c -> PN_CHARS c) -> dotted first w ->
  forallb name_char w = true /\ last w 0 <> 46 /\ w <> [] /\ ~ In 58 w /\ first (hd 0 w).
Proof.
  intros F [c H|c mid d H M D].
  - specialize (F c H). cbn [forallb last]. rewrite (pn_name c F). split; [reflexivity|]. split; [apply pn_not; cbn; auto|].
    split; [discriminate|]. split; [|exact H]. intros [E|[]]. exact (pn_not c 58 F ltac:(cbn; auto) E).
  - pose proof (F c H) as C. assert (Mn : forallb name_char mid = true).
    { apply forallb_forall. intros x I. rewrite Forall_forall in M. destruct (M x I) as [X| ->]; [apply pn_name, X|reflexivity]. }
    split; [cbn [forallb]; rewrite forallb_app, (pn_name c C), Mn; cbn [forallb]; rewrite (pn_name d D); reflexivity|].
    split; [change (c :: mid ++ [d]) with ((c :: mid) ++ [d]); rewrite last_last; apply pn_not; cbn; auto|].
    split; [discriminate|]. split; [|exact H]. intros [E|I]; [exact (pn_not c 58 C ltac:(cbn; auto) E)|].
    apply in_app_or in I as [I|[E|[]]]; [|exact (pn_not d 58 D ltac:(cbn; auto) E)].
    rewrite Forall_forall in M. destruct (M 58 I) as [X|X]; [exact (pn_not 58 58 X ltac:(cbn; auto) eq_refl)|discriminate].
Qed.
Lemma local_chars l : PN_LOCAL l -> forallb name_char l = true /\ last l 0 <> 46 /\ l <> [] /\ ~ In 58 l.
Proof.
  intros H. apply dotted_chars in H as (A & B & C & D & _); auto. intros c [X|(lo & hi & I & X)]; [left; exact X|right; right].
  cbn in I. destruct I as [I|[]]. injection I as <- <-. exists 48, 57. split; [cbn; auto|exact X].
Qed.
Lemma prefix_chars p : PNAME_NS (p ++ [58]) -> p = [] \/ forallb name_char p = true /\ p <> [] /\ ~ In 58 p /\ PN_CHARS_BASE (hd 0 p).
Proof.
  intros H. remember (p ++ [58]) as q eqn:E. destruct H as [|p' H].
  - left. apply (app_inj_tail [] p) in E as [E _]. auto.
  - right. apply app_inj_tail in E as [-> _]. apply dotted_chars in H as (A & B & C & D & X); auto. intros c X. left. left. exact X.
Qed.
Lemma base_not c x : PN_CHARS_BASE c -> In x [43; 45; 46; 34; 60; 95; 64; 48; 49; 50; 51; 52; 53; 54; 55; 56; 57] -> c <> x.
Proof.
  intros (lo & hi & I & A & B) J ->. cbn in I, J. repeat (destruct J as [<-|J]; [repeat (destruct I as [I|I]; [injection I as <- <-; lia|]); destruct I|]). destruct J.
Qed.
Lemma base_not_digit c : PN_CHARS_BASE c -> is_digit c = false.
Proof.
  intros H. apply Bool.not_true_iff_false. intros D. unfold is_digit in D. apply andb_prop in D as [D1 D2].
  apply N.leb_le in D1, D2. assert (K : In c [48; 49; 50; 51; 52; 53; 54; 55; 56; 57]).
  { cbn [In]. lia. }
  apply (base_not c c H); [|reflexivity]. cbn in *. tauto.
Qed.

(** ** Names *)
Lemma last_skip {A} (u w : list A) d : w <> [] -> last (u ++ w) d = last w d.
Proof. destruct w as [|c w]; [congruence|]. intros _. apply last_app_cons. Qed.
(** A prefixed name. *)
Lemma name_facts p l : PNAME_NS (p ++ $":") -> l = [] \/ PN_LOCAL l ->
  let w := p ++ $":" ++ l in
  forallb name_char w = true /\ last w 0 <> 46 /\ hd 0 w <> 46 /\ w <> [] /\ name_like w /\ ~ labels_start w /\ In 58 w.
Proof.
  intros P L w. assert (Hl : forallb name_char l = true /\ last ($":" ++ l) 0 <> 46).
  { destruct L as [->|L]; [split; [reflexivity|discriminate]|]. apply local_chars in L as (A & B & C & _). split; [exact A|].
    rewrite last_skip by exact C. exact B. }
  destruct Hl as [Hl1 Hl2]. apply prefix_chars in P as [->|(A & B & C & D)].
  - subst w. cbn [app]. split; [exact Hl1|]. split; [exact Hl2|]. split; [discriminate|]. split; [discriminate|].
    split; [|split; [intros (b & E); discriminate|left; reflexivity]]. split; [left; reflexivity|]. split; [cbn; intuition discriminate|reflexivity].
  - destruct p as [|c p]; [congruence|]. cbn [hd] in D. subst w. split; [rewrite forallb_app, A; exact Hl1|].
    split; [rewrite last_skip by discriminate; exact Hl2|]. cbn [app hd].
    split; [apply base_not; [exact D|cbn; auto 20]|]. split; [discriminate|].
    assert (I : In 58 (c :: p ++ $":" ++ l)) by (right; apply in_or_app; right; left; reflexivity).
    split; [|split; [|exact I]].
    + split; [exact I|]. cbn [hd]. split; [|apply base_not_digit, D]. intros J. apply (base_not c c D); [|reflexivity]. cbn in *. tauto.
    + intros (b & E). injection E as E _. revert E. apply base_not; [exact D|cbn; auto 20].
Qed.

Section Words.
Variable c : setting.
Variable base : option Url.url.
Variable mappings : list (str * str).
Hypothesis Hd : readable_head c base mappings.
Notation expand := (expand_with mappings).

Lemma namespace_found p ns : In (p, ns) mappings -> namespace_of mappings p = Some ns.
Proof.
  intros I. destruct Hd as (_ & _ & _ & N & _). unfold namespace_of.
  assert (K : forall l : list (str * str), NoDup (map fst l) -> In (p, ns) l -> find (fun e => str_eqb (fst e) p) l = Some (p, ns)).
  { induction l as [|[q m] l IH]; intros Nd J; [destruct J|]. cbn [find fst]. inversion_clear Nd as [|? ? N1 N2].
    destruct (str_eqb q p) eqn:E.
    - apply str_eqb_eq in E. subst q. destruct J as [J|J]; [congruence|]. exfalso. apply N1. cbn. apply (in_map fst) in J. exact J.
    - destruct J as [J|J]; [injection J as -> ->; rewrite str_eqb_refl in E; discriminate|]. apply IH; auto. }
  rewrite (K (rev mappings)); [reflexivity| |apply in_rev in I; exact I].
  rewrite map_rev. apply NoDup_rev. exact N.
Qed.
Lemma name_expands p ns l : In (p, ns) mappings -> expand (p ++ $":" ++ l) = Some (ns ++ l).
Proof.
  intros I. unfold expand_with. assert (E : split_first 58 (p ++ $":" ++ l) = Some (p, l)).
  { apply split_first_Some. split; [reflexivity|]. destruct Hd as (_ & _ & _ & _ & H). destruct (H _ _ I) as (P & _).
    apply prefix_chars in P as [->|(_ & _ & X & _)]; [intros []|exact X]. }
  rewrite E, (namespace_found _ _ I). reflexivity.
Qed.
(** What is written for an IRI. *)
Lemma iri_written i : readable_iri c base mappings i -> exists w, iri_word c i = Some w /\
  ((exists r, w = [60] ++ r ++ [62] /\ forallb iri_char r = true) \/
   exists p ns l, w = p ++ $":" ++ l /\ In (p, ns) mappings /\ (l = [] \/ PN_LOCAL l)) /\
  word_denotes base expand w i.
Proof.
  intros (Ch & (P & A & B) & N). destruct Hd as (NC & IB & _). pose proof NC as (M & C1 & C2).
  assert (W : exists w, iri_word c i = Some w).
  { unfold iri_word, word_of, compress_iri. rewrite M, C1, C2. cbn [show_iri fold_left]. rewrite P.
    destruct (id_base (t_opts c)) as [b|]; [unfold relative_to; destruct (strip_prefix (show_iri Bare b) i); [eexists; reflexivity|]|];
      (destruct N as [->|(p & ns & l & -> & _)]; eexists; reflexivity). }
  destruct W as (w & W). exists w. split; [exact W|]. destruct (iri_word_plain c i w NC W) as [W1 W2]. rewrite IB in W1, W2.
  assert (Abs : match option_map Url.url_ser base with Some b => strip_prefix b i = None | None => True end ->
    ((exists r, w = [60] ++ r ++ [62] /\ forallb iri_char r = true) \/
     exists p ns l, w = p ++ $":" ++ l /\ In (p, ns) mappings /\ (l = [] \/ PN_LOCAL l)) /\ word_denotes base expand w i).
  { intros Q. destruct (W2 Q) as (j & Ej & K). rewrite P in Ej. injection Ej as <-. destruct K as [K|[K ->]].
    - destruct N as [N|(p & ns & l & N & I & L & E)]; [congruence|]. rewrite K in N. injection N as ->. split.
      + right. exists p, ns, l. auto.
      + rewrite E. apply Wd_name; [|apply name_expands, I]. destruct Hd as (_ & _ & _ & _ & H). destruct (H _ _ I) as (X & _).
        destruct (name_facts p l X L) as (_ & _ & _ & _ & Nl & _). apply name_not in Nl. tauto.
    - split; [left; exists i; auto|]. constructor. exact A. }
  destruct base as [b|]; cbn [option_map] in *; [|apply Abs; auto]. destruct (strip_prefix (Url.url_ser b) i) as [r|] eqn:S; [|apply Abs; auto].
  apply strip_prefix_Some in S. destruct B as [D H]. specialize (H r S). split.
  - left. exists r. split; [exact W1|]. rewrite S, forallb_app in Ch. apply andb_prop in Ch. tauto.
  - rewrite W1, S. assert (Np : Url.u_path b <> []) by (destruct D as [(p & ->) _]; destruct p; discriminate).
    rewrite <- (proj2 (resolved_iff b r Np) D). constructor; auto.
Qed.
Lemma name_token p ns l : In (p, ns) mappings -> l = [] \/ PN_LOCAL l -> token (p ++ $":" ++ l).
Proof.
  intros I L. destruct Hd as (_ & _ & _ & _ & H). destruct (H _ _ I) as (X & _).
  destruct (name_facts p l X L) as (A & B & C & D & _). destruct (p ++ $":" ++ l) as [|x w]; [congruence|]. apply Tk_name; auto.
Qed.
Lemma iri_token i w : readable_iri c base mappings i -> iri_word c i = Some w -> token w /\ ~ keyword w /\ ~ labels_start w /\
  denotes base expand w (VIri i) /\ w <> [].
Proof.
  intros R W. destruct (iri_written i R) as (w' & W' & S & D). rewrite W in W'. injection W' as <-.
  destruct S as [(r & -> & F)|(p & ns & l & -> & I & L)].
  - split; [apply Tk_iri, F|]. split; [intros K; unfold keyword in K; cbn in K; intuition discriminate|].
    split; [intros (b & E); discriminate|]. split; [|discriminate]. apply Dn_iri; [left; reflexivity|exact D].
  - split; [eapply name_token; eauto|]. destruct Hd as (_ & _ & _ & _ & H). destruct (H _ _ I) as (X & _).
    destruct (name_facts p l X L) as (_ & _ & _ & Nn & Nl & Ns & Nc). split; [|split; [exact Ns|split; [|exact Nn]]].
    + intros K. unfold keyword in K. cbn [In] in K. repeat (destruct K as [K|K]; [rewrite <- K in Nc; cbn in Nc; intuition discriminate|]). destruct K.
    + apply Dn_iri; [right; exact Nl|exact D].
Qed.
Lemma blank_token b : PN_LOCAL b -> token ($"_:" ++ b) /\ ~ keyword ($"_:" ++ b).
Proof.
  intros L. apply local_chars in L as (A & B & C & _). split.
  - change ($"_:" ++ b) with (95 :: (58 :: b)). apply Tk_name; [cbn [forallb]; rewrite A; reflexivity|discriminate|].
    change (95 :: 58 :: b) with ([95; 58] ++ b). rewrite last_skip by exact C. exact B.
  - intros K. unfold keyword in K. cbn in K. intuition discriminate.
Qed.
(** Words without quotes. *)
Lemma number_name x : is_digit x = true \/ In x [43; 45; 46; 101; 69] -> name_char x = true.
Proof.
  intros [D|I].
  - unfold is_digit in D. apply andb_prop in D as [D1 D2]. unfold name_char, pn_char. apply orb_true_intro. left.
    apply existsb_exists. exists (48, 57). split; [cbn; auto|]. cbn [fst snd]. rewrite D1, D2. reflexivity.
  - cbn in I. intuition; subst x; reflexivity.
Qed.
Definition number_text (w : str) : Prop := Forall (fun x => is_digit x = true \/ In x [43; 45; 46; 101; 69]) w.
Lemma digits_number w : digits w -> number_text w.
Proof. intros D. eapply Forall_impl; [|exact D]. intros x H. left. exact H. Qed.
Lemma sign_number w : a_sign w -> number_text w.
Proof. intros [-> | [-> | ->]]; [constructor| |]; (constructor; [right; cbn; auto|constructor]). Qed.
Lemma digit_not_dot x : is_digit x = true -> x <> 46.
Proof. intros H ->. discriminate. Qed.
Lemma digits_last u w : digits w -> w <> [] -> last (u ++ w) 0 <> 46.
Proof.
  intros D N. rewrite last_skip by exact N. destruct (exists_last N) as (w' & x & ->). rewrite last_last.
  apply Forall_app in D as [_ D]. inversion D; subst. apply digit_not_dot. assumption.
Qed.
Lemma number_token w : number_text w -> last w 0 <> 46 -> w <> [] ->
  (hd 0 w = 46 -> exists d r, w = 46 :: d :: r /\ is_digit d = true) -> token w.
Proof.
  intros F L N H. assert (C : forallb name_char w = true).
  { apply forallb_forall. intros x I. apply number_name. exact (proj1 (Forall_forall _ _) F x I). }
  destruct w as [|x w]; [congruence|]. destruct (N.eq_dec x 46) as [->|E].
  - destruct (H eq_refl) as (d & r & E & D). injection E as ->. cbn [forallb] in C. apply Tk_point; auto.
    apply andb_prop in C as [_ C]. apply andb_prop in C as [_ C]. exact C.
  - apply Tk_name; auto.
Qed.
Lemma decimal_token w : decimal_text w -> token w.
Proof.
  intros (sg & a & b & -> & S & A & B & N). apply number_token.
  - repeat (apply Forall_app; split); [apply sign_number, S|apply digits_number, A| |apply digits_number, B].
    constructor; [right; cbn; auto|constructor].
  - rewrite !app_assoc. apply digits_last; auto.
  - destruct sg; [destruct a|]; discriminate.
  - destruct S as [-> | [-> | ->]]; try discriminate. destruct a as [|x a]; cbn [app hd].
    + intros _. destruct b as [|d b]; [congruence|]. exists d, b. split; [reflexivity|]. inversion B; assumption.
    + intros ->. inversion A; subst. discriminate.
Qed.
Lemma exponent_number x : exponent x -> number_text x /\ (forall u, last (u ++ x) 0 <> 46) /\ x <> [].
Proof.
  intros (e & sg & ds & -> & E & S & D & N). split; [|split; [|discriminate]].
  - constructor; [right; cbn in *; tauto|]. apply Forall_app. split; [apply sign_number, S|apply digits_number, D].
  - intros u. change (u ++ e :: sg ++ ds) with (u ++ [e] ++ sg ++ ds). rewrite !app_assoc. apply digits_last; auto.
Qed.
Lemma double_token w : double_text w -> token w.
Proof.
  intros (sg & a & b & x & -> & S & A & X & B). destruct (exponent_number x X) as (Xn & Xl & Xe). apply number_token.
  - repeat (apply Forall_app; split); [apply sign_number, S|apply digits_number, A| |exact Xn].
    destruct B as [[-> _]|(b' & -> & B & _)]; [constructor|]. constructor; [right; cbn; auto|]. apply digits_number, B.
  - rewrite !app_assoc. apply Xl.
  - intros E. apply app_eq_nil in E as [_ E]. apply app_eq_nil in E as [_ E]. apply app_eq_nil in E as [_ E]. contradiction.
  - destruct S as [-> | [-> | ->]]; try discriminate. destruct a as [|y a]; cbn [app hd].
    + destruct B as [[-> N]|(b' & -> & B & [N|N])]; try congruence. intros _. destruct b' as [|d b']; [congruence|].
      exists d, (b' ++ x). split; [reflexivity|]. inversion B; assumption.
    + intros ->. inversion A; subst. discriminate.
Qed.
Lemma tag_chars t : tag_ok t -> forallb tag_char t = true.
Proof.
  intros (w & ws & -> & _ & A & B). rewrite forallb_app. apply andb_true_intro. split.
  - apply forallb_forall. intros x I. rewrite forallb_forall in A. unfold tag_char, is_alnum. rewrite (A x I). reflexivity.
  - apply forallb_forall. intros x I. apply in_flat_map in I as (v & I & J). rewrite Forall_forall in B. destruct (B v I) as [_ F].
    destruct J as [<-|J]; [reflexivity|]. rewrite forallb_forall in F. unfold tag_char. rewrite (F x J). reflexivity.
Qed.
(** Literals. *)
Lemma literal_written l : readable_literal c base mappings l -> exists w, lit_word c l = Some w.
Proof.
  destruct l as [t dt lang]. unfold readable_literal, quoted_literal, lit_word, word_of, literal_word. cbn [lexical_form lit_data_type lit_language].
  intros [(Q & _ & R)|(d & E & H)].
  - destruct dt as [d|]; [destruct lang as [tag|]; [contradiction|]|destruct lang; eexists; reflexivity].
    destruct Q as [NI NB]. destruct (bare_type d) eqn:Bt; [apply bare_unquoted in Bt; contradiction|].
    destruct (iri_written _ R) as (w & W & _). apply word_of_Some in W.
    destruct d; try congruence; rewrite W; eexists; reflexivity.
  - subst dt. destruct H as [[-> _]|[[-> _]|[-> _]]]; eexists; reflexivity.
Qed.
Lemma literal_token l w : readable_literal c base mappings l -> lit_word c l = Some w ->
  token w /\ ~ labels_start w /\ denotes base expand w (literal_value l).
Proof.
  intros [(Q & F & R)|(d & E & H)] W.
  - destruct (quoted_shape _ _ _ Q W) as (rest & -> & S). pose proof (escape_reads c _ F) as X. unfold quoted_word.
    set (b := escape_string (t_gext c) (t_printable c) (lexical_form l)) in *.
    split; [|split; [intros (k & E); discriminate|]]; unfold literal_value, quoted_literal in *;
      (destruct (lit_data_type l) as [d|]; [|destruct (lit_language l) as [tag|]]).
    + destruct S as (x & Wx & ->). destruct (iri_written _ R) as (x' & Wx' & Sx & _). rewrite Wx in Wx'. injection Wx' as <-.
      destruct Sx as [(r & -> & Fr)|(p & ns & k & -> & I & L)].
      * change (token ([34] ++ b ++ [34] ++ $"^^" ++ [60] ++ r ++ [62])). eapply Tk_typed; eauto.
      * destruct Hd as (_ & _ & _ & _ & H). destruct (H _ _ I) as (Y & _). destruct (name_facts p k Y L) as (A & B & _ & D & _).
        change (token ([34] ++ b ++ [34] ++ $"^^" ++ (p ++ $":" ++ k))). destruct (p ++ $":" ++ k) as [|y v]; [congruence|]. eapply Tk_named; eauto.
    + subst rest. change (token ([34] ++ b ++ [34] ++ $"@" ++ tag)). eapply Tk_lang; [exact X|apply tag_chars, Q].
    + subst rest. change (token ([34] ++ b ++ [34])). eapply Tk_string, X.
    + destruct S as (x & Wx & ->). destruct (iri_written _ R) as (x' & Wx' & _ & Dx). rewrite Wx in Wx'. injection Wx' as <-.
      exact (Dn_typed _ _ _ _ _ _ X Dx).
    + subst rest. exact (Dn_lang _ _ _ _ _ X Q).
    + subst rest. exact (Dn_plain _ _ _ _ X).
  - assert (U : unquoted d) by (destruct H as [[-> _]|[[-> _]|[-> _]]]; cbn; auto 20).
    pose proof (bare_shape _ _ _ _ E U W) as ->. unfold literal_value. rewrite E.
    destruct H as [[-> T]|[[-> T]|[-> T]]].
    + split; [|split; [|exact (Dn_boolean _ _ _ T)]].
      * destruct T as [-> | ->]; apply Tk_name; try reflexivity; discriminate.
      * intros (k & K). destruct T as [T|T]; rewrite T in K; discriminate.
    + split; [apply decimal_token, T|]. split; [|exact (Dn_decimal _ _ _ T)]. intros (k & K). apply decimal_start in T. rewrite K in T.
      destruct T as [T|T]; [discriminate|cbn in T; intuition discriminate].
    + split; [apply double_token, T|]. split; [|exact (Dn_double _ _ _ T)]. intros (k & K). apply double_start in T. rewrite K in T.
      destruct T as [T|T]; [discriminate|cbn in T; intuition discriminate].
Qed.
End Words.

(** ** Readings are unique *)
Lemma decimal_no_e w : decimal_text w -> ~ In 101 w /\ ~ In 69 w.
Proof.
  intros (sg & a & b & -> & S & A & B & _). assert (F : Forall (fun x => is_digit x = true \/ In x [43; 45; 46]) (sg ++ a ++ $"." ++ b)).
  { repeat (apply Forall_app; split).
    - destruct S as [-> | [-> | ->]]; [constructor| |]; (constructor; [right; cbn; auto|constructor]).
    - eapply Forall_impl; [|exact A]. auto.
    - constructor; [right; cbn; auto|constructor].
    - eapply Forall_impl; [|exact B]. auto. }
  rewrite Forall_forall in F. split; intros I; destruct (F _ I) as [D|K]; try discriminate; cbn in K; intuition discriminate.
Qed.
Lemma denotes_fun base expand w u v : denotes base expand w u -> denotes base expand w v -> u = v.
Proof.
  intros A B. assert (Q : forall b t rest x, string_reads b t -> denotes base expand (34 :: b ++ 34 :: rest) x ->
    denotes base expand (34 :: b ++ 34 :: rest) v -> x = v).
  { intros b t rest x R X Y. apply (quoted_denotes _ _ _ _ _ _ R) in X, Y.
    destruct X as [[-> ->]|[(tag & -> & T & ->)|(w' & i & -> & W & ->)]];
      destruct Y as [[E ->]|[(tag' & E & T' & ->)|(w'' & j & E & W' & ->)]]; try discriminate; try reflexivity.
    - injection E as <-. reflexivity.
    - injection E as <-. rewrite (wd_fun _ _ _ _ _ W W'). reflexivity. }
  pose proof A as A'. destruct A as [w i K W|b t R|b t tag R X|b t x i R W|w I|w I|w I|w I];
    try (exact (Q _ _ _ _ R A' B)); clear Q.
  - assert (H : ~ numeric_start (hd 0 w) /\ hd 0 w <> 34 /\ ~ boolean_text w).
    { destruct K as [K|K].
      - rewrite K. split; [intros N; apply numeric_not in N; apply N; cbn; auto|]. split; [discriminate|].
        intros N. apply boolean_not in N. tauto.
      - pose proof (proj1 K) as K1. apply name_not in K. split; [tauto|]. split; [tauto|]. intros N. apply boolean_not in N. tauto. }
    destruct H as (H1 & H2 & H3).
    destruct B as [w j L V|b t R|b t tag R X|b t x j R V|w I|w I|w I|w I]; try (exfalso; cbn in H2; discriminate H2 || (now destruct (H2 eq_refl))).
    + rewrite (wd_fun _ _ _ _ _ W V). reflexivity.
    + exfalso. apply H1, integer_start, I.
    + exfalso. apply H1, decimal_start, I.
    + exfalso. apply H1, double_start, I.
    + contradiction.
  - symmetry. exact (proj1 (integer_denotes base expand w v I) B).
  - pose proof (decimal_start _ I) as N. pose proof (decimal_no_e _ I) as [E1 E2].
    destruct B as [w j L V|b t R|b t tag R X|b t x j R V|w J|w J|w J|w J];
      try (exfalso; apply numeric_not in N; apply N; cbn; auto; fail).
    + exfalso. destruct L as [L|L]; [apply numeric_not in N; rewrite L in N; apply N; cbn; auto|apply name_not in L; tauto].
    + exact (proj1 (integer_denotes base expand w _ J) A').
    + reflexivity.
    + exfalso. destruct J as (sg & a & b & y & -> & _ & _ & (e & sg' & ds & -> & E & _) & _).
      assert (M : In e (sg ++ a ++ b ++ e :: sg' ++ ds)) by (rewrite !in_app_iff; cbn; auto 10).
      cbn in E. destruct E as [<-|[<-|[]]]; contradiction.
    + exfalso. apply boolean_not in J. tauto.
  - pose proof (double_start _ I) as N.
    destruct B as [w j L V|b t R|b t tag R X|b t x j R V|w J|w J|w J|w J];
      try (exfalso; apply numeric_not in N; apply N; cbn; auto; fail).
    + exfalso. destruct L as [L|L]; [apply numeric_not in N; rewrite L in N; apply N; cbn; auto|apply name_not in L; tauto].
    + exact (proj1 (integer_denotes base expand w _ J) A').
    + exfalso. apply decimal_no_e in J as [E1 E2]. destruct I as (sg & a & b & y & -> & _ & _ & (e & sg' & ds & -> & E & _) & _).
      assert (M : In e (sg ++ a ++ b ++ e :: sg' ++ ds)) by (rewrite !in_app_iff; cbn; auto 10).
      cbn in E. destruct E as [<-|[<-|[]]]; contradiction.
    + reflexivity.
    + exfalso. apply boolean_not in J. tauto.
  - pose proof (boolean_not _ I) as (N1 & N2 & N3 & N4).
    destruct B as [w j L V|b t R|b t tag R X|b t x j R V|w J|w J|w J|w J]; try (exfalso; cbn in N3; congruence).
    + exfalso. destruct L as [L|L]; [contradiction|]. destruct L as [L _]. contradiction.
    + exfalso. apply N4, integer_start, J.
    + exfalso. apply N4, decimal_start, J.
    + exfalso. apply N4, double_start, J.
    + reflexivity.
Qed.
Section Fun.
Variable base : option Url.url.
Variable expand : str -> option str.
Lemma leaf_fun w r r' : tree_reads base expand (Leaf w) r -> tree_reads base expand (Leaf w) r' -> r = r'.
Proof.
  intros A B. remember (Leaf w) as t eqn:E. destruct A as [b L|w' v N D| |]; [| |discriminate|discriminate]; injection E as <-.
  - inversion B as [b' L' E'|w' v N D E'| |]; [reflexivity|]. exfalso. apply N. exists b. auto.
  - inversion B as [b' L' E'|w'' v' N' D' E'| |]; [exfalso; apply N; exists b'; auto|]. rewrite (denotes_fun _ _ _ _ _ D D'). reflexivity.
Qed.
Lemma verb_fun w p q : verb_reads base expand w p -> verb_reads base expand w q -> p = q.
Proof.
  assert (A : forall i, ~ denotes base expand $"a" (VIri i)).
  { intros i D. remember $"a" as w' eqn:E. remember (VIri i) as v eqn:V. destruct D; try discriminate. subst. destruct H as [H|[H _]]; [discriminate|].
    cbn in H. intuition discriminate. }
  intros [[-> ->]|[_ D]] [[E ->]|[_ D']]; try reflexivity.
  - exfalso. exact (A _ D').
  - subst w. exfalso. exact (A _ D).
  - pose proof (denotes_fun _ _ _ _ _ D D') as X. congruence.
Qed.
Lemma tree_fun t : forall r r', tree_reads base expand t r -> tree_reads base expand t r' -> r = r'.
Proof.
  assert (L : forall ts, (forall t, In t ts -> forall r r', tree_reads base expand t r -> tree_reads base expand t r' -> r = r') ->
    forall x x', Forall2 (tree_reads base expand) ts x -> Forall2 (tree_reads base expand) ts x' -> x = x').
  { intros ts IH x x' F. revert x'. induction F as [|a b l x H F IHF]; intros x' F'; inversion_clear F' as [|? b' ? y H' F'']; [reflexivity|].
    f_equal; [apply (IH a); cbn; auto|]. apply IHF; [|exact F'']. intros t' I. apply IH. right. exact I. }
  induction t as [w|po IH|l IH] using tree_induction; intros r r' A B; [eapply leaf_fun; eauto| |].
  - inversion A as [| |po' x F|]; subst. inversion B as [| |po' x' F'|]; subst. f_equal. clear A B. revert x' F'.
    induction F as [|[v ts] [p a] po x (H1 & H2) F IHF]; intros x' F'; inversion_clear F' as [|? [p' a'] ? y (H1' & H2') F'']; [reflexivity|].
    cbn [fst snd] in *. f_equal; [f_equal|].
    + eapply verb_fun; eauto.
    + eapply (L ts); [|exact H2|exact H2']. intros t I. apply (IH (v, ts)); [left; reflexivity|exact I].
    + apply IHF; [|exact F'']. intros e t I. apply IH. right. exact I.
  - inversion A as [| | |ts x F]; subst. inversion B as [| | |ts x' F']; subst. f_equal. eapply L; eauto.
Qed.
Lemma triples_fun d : forall l l', Forall2 (triple_reads base expand) d l -> Forall2 (triple_reads base expand) d l' -> l = l'.
Proof.
  intros l l' F. revert l'. induction F as [|x y d l (S & V & T) F IH]; intros l' F'; inversion_clear F' as [|? y' ? l'' (S' & V' & T') F'']; [reflexivity|].
  f_equal; [|apply IH, F'']. destruct y as [[s p] o], y' as [[s' p'] o']. cbn [fst snd] in *.
  rewrite (leaf_fun _ _ _ (proj1 S) (proj1 S')), (verb_fun _ _ _ V V'), (tree_fun _ _ _ T T'). reflexivity.
Qed.
End Fun.
Lemma headings_fun hs b ps : headings_read hs b ps -> forall b' ps', headings_read hs b' ps' -> b = b' /\ ps = ps'.
Proof.
  intros H. induction H as [|hs b b0 ps H IH W|hs b ps p ns H IH P A]; intros b' ps' K.
  - remember [] as e eqn:E. destruct K; [auto| |]; destruct hs; discriminate.
  - remember (hs ++ _) as e eqn:E in K. destruct K as [|hs' c c0 qs K W'|hs' c qs p ns K P A].
    + destruct hs; discriminate.
    + apply app_inj_tail in E as [-> E]. injection E as E. apply app_inj_tail in E as [E _].
      apply IriProofs.url_ser_inj in E; auto. subst c. split; [reflexivity|]. exact (proj2 (IH _ _ K)).
    + apply app_inj_tail in E as [_ E]. discriminate.
  - remember (hs ++ _) as e eqn:E in K. destruct K as [|hs' c c0 qs K W'|hs' c qs p' ns' K P' A'].
    + destruct hs; discriminate.
    + apply app_inj_tail in E as [_ E]. discriminate.
    + apply app_inj_tail in E as [-> E]. injection E as E1 E2. apply app_inj_tail in E1 as [-> _]. apply app_inj_tail in E2 as [-> _].
      destruct (IH _ _ K) as [-> ->]. auto.
Qed.
Lemma c100_unique text l l' : turtle_reads text l -> turtle_reads text l' -> l = l'.
Proof.
  intros (hs & d & b & ps & S & H & F) (hs' & d' & b' & ps' & S' & H' & F'). rewrite S in S'. injection S' as <- <-.
  destruct (headings_fun _ _ _ H _ _ H') as [<- <-]. eapply triples_fun; eauto.
Qed.

(** ** Documents *)
Lemma Forall_joinp (P : piece -> Prop) sep ls : Forall P sep -> (forall l, In l ls -> Forall P l) -> Forall P (joinp sep ls).
Proof.
  intros S H. induction ls as [|x [|y ls] IH]; [constructor|apply H; left; reflexivity|].
  change (joinp sep (x :: y :: ls)) with (x ++ sep ++ joinp sep (y :: ls)).
  apply Forall_app. split; [apply H; left; reflexivity|]. apply Forall_app. split; [exact S|]. apply IH. intros l I. apply H. right. exact I.
Qed.
Lemma sign_one s : In s [$","; $";"; $"["; $"]"; $"("; $")"; $"."] -> Forall sign_ok [Sign s].
Proof. intros H. constructor; [exact H|constructor]. Qed.
Lemma sign_blanks l : Forall sign_ok (tight l) -> Forall sign_ok l.
Proof.
  induction l as [|[w|w|w] l IH]; cbn [tight filter is_blanks negb]; intros H; [constructor| | |].
  - inversion_clear H. constructor; [assumption|]. apply IH. assumption.
  - inversion_clear H. constructor; [assumption|]. apply IH. assumption.
  - constructor; [exact I|]. apply IH, H.
Qed.

Section Doc.
Variable c : setting.
Variable g : graph.
Variable base : option Url.url.
Variable mappings : list (str * str).
Hypothesis R : readable_graph c base mappings g.
Notation expand := (expand_with mappings).
Notation shown := (shows g (nest_blank_nodes (t_opts c)) (iri_word c) (verb c) (lit_word c)).

Lemma rd_head : readable_head c base mappings.
Proof. exact (proj1 (proj2 R)). Qed.
Lemma rd_statement st : In st (g_list g) -> readable_statement c base mappings st.
Proof. exact (proj2 (proj2 (proj2 R)) st). Qed.
Lemma rd_iri i : readable_iri c base mappings i -> exists w, iri_word c i = Some w.
Proof. intros H. destruct (iri_written c base mappings rd_head i H) as (w & W & _). eauto. Qed.
Lemma rd_object o : readable_object c base mappings o -> writable_object (iri_word c) (lit_word c) o.
Proof.
  induction 1 as [b L|i H|l H|items H IH]; cbn [writable_object].
  - exact I.
  - destruct (rd_iri i H) as (w & ->). discriminate.
  - destruct (literal_written c base mappings rd_head l H) as (w & ->). discriminate.
  - clear H. induction items as [|x items IHi]; cbn [fold_right]; [exact I|]. split; [apply IH; left; reflexivity|].
    apply IHi. intros o J. apply IH. right. exact J.
Qed.
Lemma rd_verb p : readable_iri c base mappings p -> (type_like p -> p = rdf $"type") -> exists v, verb c p = Some v /\
  (v = $"a" /\ p = rdf $"type" \/ iri_word c p = Some v).
Proof.
  intros H T. destruct (rd_iri p H) as (w & W). unfold verb, verb_word. destruct (type_like_dec p) as [L|L]; [|exists w; auto].
  specialize (T L). subst p. destruct (use_rdf_type_a (t_opts c)); [exists $"a"; auto|exists w; auto].
Qed.
Lemma rd_can_write : can_write c g.
Proof.
  intros s p o I. destruct (rd_statement _ I) as (S & P & T & O). cbn [st_subject st_predicate st_object] in *. split; [|split; [|split]].
  - destruct s as [b|i|st]; cbn [subject_w]; [discriminate| |contradiction]. destruct (rd_iri i S) as (w & ->). discriminate.
  - destruct (rd_iri p P) as (w & ->). discriminate.
  - destruct (rd_verb p P T) as (v & -> & _). discriminate.
  - apply rd_object, O.
Qed.
Lemma rd_inside o o' : inside o' o -> readable_object c base mappings o -> readable_object c base mappings o'.
Proof. induction 1 as [o|o x items I J IH]; intros H; [exact H|]. apply IH. inversion H; auto. Qed.
Lemma rd_acyclic : nest_blank_nodes (t_opts c) = false \/ ~ cyclic g.
Proof. exact (proj1 (proj2 (proj2 R))). Qed.
(** A predicate and its verb. *)
Lemma rd_verb_token p v : readable_iri c base mappings p -> (type_like p -> p = rdf $"type") -> verb c p = Some v ->
  token v /\ verb_reads base expand v p.
Proof.
  intros H T V. destruct (rd_verb p H T) as (v' & V' & K). rewrite V in V'. injection V' as <-. destruct K as [[-> ->]|W].
  - split; [apply Tk_name; try reflexivity; discriminate|left; auto].
  - destruct (iri_token c base mappings rd_head p v H W) as (A & _ & N & D & _). split; [exact A|right; auto].
Qed.
(** A term and the tree for it. *)
Notation meaning := (means g (nest_blank_nodes (t_opts c))).
Definition reads_as (o : object) (t : tree) : Prop :=
  good t /\ Forall sign_ok (tp t) /\ (exists r, tree_reads base expand t r /\ meaning o r) /\
  (short_collections g -> (forall items, inside (OColl items) o -> (length items <= 1)%nat) -> long_items t = 0%nat) /\
  (long_items t = 0%nat -> forall items, inside (OColl items) o -> (length items <= 1)%nat).
Lemma reads_list os ts : Forall2 reads_as os ts -> exists rs, Forall2 (tree_reads base expand) ts rs /\ Forall2 meaning os rs.
Proof.
  intros K. induction K as [|o t os ts (_ & _ & (r & A & B) & _) K (rs & A' & B')]; [exists []; auto|].
  exists (r :: rs). auto.
Qed.
Lemma rd_tree t : forall o, readable_object c base mappings o -> shown o t -> reads_as o t.
Proof.
  induction t as [w|po IH|ts IH] using tree_induction; intros o O S.
  - inversion S as [i w' W|l w' W|b N E| |]; subst.
    + inversion O as [|i' H| |]; subst. destruct (iri_token c base mappings rd_head i w H W) as (T & _ & Nl & D & _).
      split; [constructor|]. split; [constructor; [exact T|constructor]|]. split; [|split; [reflexivity|intros _ items J; inversion J]].
      exists (RValue (VIri i)). split; [constructor; auto|constructor].
    + inversion O as [| |l' H|]; subst. destruct (literal_token c base mappings rd_head l w H W) as (T & Nl & D).
      split; [constructor|]. split; [constructor; [exact T|constructor]|]. split; [|split; [reflexivity|intros _ items J; inversion J]].
      exists (RValue (literal_value l)). split; [constructor; auto|constructor].
    + inversion O as [b' L| | |]; subst. specialize (L N). split; [constructor|].
      split; [constructor; [exact (proj1 (blank_token b L))|constructor]|]. split; [|split; [reflexivity|intros _ items J; inversion J]].
      exists (RBlank b). split; [constructor; exact L|constructor; exact N].
  - inversion S as [| | |b po' N H E|]; subst. inversion H as [s ps po' Nd _ A F Sn]; subst. clear S H O Sn.
    assert (K : Forall2 (fun p e => exists v os ts, e = (v, ts) /\ ts <> [] /\ token v /\ verb_reads base expand v p /\ NoDup os /\
      (forall o, In o os <-> In (MkStmt (SBlank b) p o) (g_list g)) /\ Forall2 reads_as os ts) ps po).
    { assert (A' : forall p, In p ps -> exists o, In (MkStmt (SBlank b) p o) (g_list g)) by (intros p J; apply A, J). clear A Nd. revert IH A'.
      induction F as [|p e ps po H F IHF]; intros IH A'; constructor.
      - destruct (A' p (or_introl eq_refl)) as (o & I). inversion H as [s q v os ts V Nd Ao Fo _]; subst.
        destruct (rd_statement _ I) as (_ & P & T & _). cbn [st_predicate] in *. destruct (rd_verb_token p v P T V) as [T1 T2].
        exists v, os, ts. split; [reflexivity|]. split; [|split; [exact T1|split; [exact T2|split; [exact Nd|split; [exact Ao|]]]]].
        + apply Ao in I. destruct (Forall2_In_l _ _ _ o Fo I) as (t & J & _). intros ->. destruct J.
        + assert (Ro : forall o, In o os -> readable_object c base mappings o).
          { intros o' J. apply Ao in J. apply rd_statement in J. apply J. }
          assert (It : forall t, In t ts -> forall o, readable_object c base mappings o -> shown o t -> reads_as o t).
          { intros t J. apply (IH (v, ts)); [left; reflexivity|exact J]. }
          clear -Fo Ro It. induction Fo as [|o t os ts Sh Fo IHo]; constructor.
          * apply It; [left; reflexivity|apply Ro; left; reflexivity|exact Sh].
          * apply IHo; [intros o' J; apply Ro; right; exact J|intros t' J; apply It; right; exact J].
      - apply IHF; [|intros q J; apply A'; right; exact J]. intros e' t J. apply IH. right. exact J. }
    clear IH F.
    assert (Ke : forall e, In e po -> exists p v os ts, e = (v, ts) /\ ts <> [] /\ token v /\ Forall2 reads_as os ts /\
      forall o, In o os -> In (MkStmt (SBlank b) p o) (g_list g)).
    { intros e I. destruct (Forall2_In_r _ _ _ e K I) as (p & _ & v & os & ts & X1 & X2 & X3 & _ & _ & X4 & X5).
      exists p, v, os, ts. split; [exact X1|]. split; [exact X2|]. split; [exact X3|]. split; [exact X5|]. intros o J. apply X4, J. }
    split; [|split; [|split; [|split]]].
    + constructor.
      * intros e I. destruct (Ke e I) as (p & v & os & ts & -> & X & _). exact X.
      * intros e t I J. destruct (Ke e I) as (p & v & os & ts & -> & _ & _ & X & _). destruct (Forall2_In_r _ _ _ t X J) as (o & _ & G & _). exact G.
    + rewrite props_pieces. constructor; [cbn; auto 10|]. apply Forall_app. split; [|apply sign_one; cbn; auto 10].
      apply Forall_joinp; [apply sign_one; cbn; auto|]. intros x I. apply in_map_iff in I as (e & <- & I).
      destruct (Ke e I) as (p & v & os & ts & -> & _ & T & X & _). unfold entry_pieces. cbn [fst snd]. constructor; [exact T|].
      apply Forall_joinp; [apply sign_one; cbn; auto|]. intros x J. apply in_map_iff in J as (t & <- & J).
      destruct (Forall2_In_r _ _ _ t X J) as (o & _ & _ & G & _). exact G.
    + assert (X : exists l, Forall2 (fun e x => verb_reads base expand (fst e) (fst x) /\ Forall2 (tree_reads base expand) (snd e) (snd x)) po l /\
        Forall2 (means_entry g (nest_blank_nodes (t_opts c)) b) ps l).
      { clear -K. induction K as [|p e ps po (v & os & ts & -> & _ & _ & V & Nd & Ao & X) K (l & A1 & A2)]; [exists []; auto|].
        destruct (reads_list os ts X) as (rs & B1 & B2). exists ((p, rs) :: l). split; constructor; auto. econstructor; eauto. }
      destruct X as (l & X1 & X2). exists (RNode l). split; [constructor; exact X1|]. eapply Mn_node; eauto.
    + intros Sh _. cbn [long_items]. apply list_sum_0. intros e I. apply list_sum_0. intros t J.
      destruct (Ke e I) as (p & v & os & ts & -> & _ & _ & X & Y). cbn [snd] in J. destruct (Forall2_In_r _ _ _ t X J) as (o & Io & _ & _ & _ & Q & _).
      apply Q; [exact Sh|]. intros items Ji. exact (Sh _ items (Y o Io) Ji).
    + intros _ items J. inversion J.
  - inversion S as [| | | |l' ts' F]; subst. inversion O as [| | |items' H]; subst.
    assert (K : Forall2 reads_as l' ts).
    { clear -IH F H. induction F as [|o t os ts S F IHF]; constructor; [apply IH; [left; reflexivity|apply H; left; reflexivity|exact S]|].
      apply IHF; [intros t' J; apply IH; right; exact J|intros o' J; apply H; right; exact J]. }
    clear IH F H O S. rename l' into items. split; [|split; [|split; [|split]]].
    + constructor. intros t I. destruct (Forall2_In_r _ _ _ t K I) as (o & _ & G & _). exact G.
    + cbn [tree_pieces]. constructor; [cbn; auto 10|]. apply Forall_app. split; [|apply sign_one; cbn; auto 10].
      apply Forall_joinp; [apply sign_one; cbn; auto|]. intros x I. apply in_map_iff in I as (t & <- & I).
      destruct (Forall2_In_r _ _ _ t K I) as (o & _ & _ & G & _). exact G.
    + destruct (reads_list _ _ K) as (rs & A & B). exists (RColl rs). split; constructor; assumption.
    + assert (Ln : length items = length ts) by (clear -K; induction K; cbn; auto). intros Sh Q. cbn [long_items].
      assert (Z : list_sum (map long_items ts) = 0%nat).
      { apply list_sum_0. intros t I. destruct (Forall2_In_r _ _ _ t K I) as (o & Io & _ & _ & _ & Q' & _). apply Q'; [exact Sh|].
        intros its J. apply Q. econstructor; eauto. }
      rewrite Z. specialize (Q items (In_self _)). rewrite Ln in Q. destruct ts as [|t1 [|t2 ts]]; cbn in Q |- *; lia.
    + assert (Ln : length items = length ts) by (clear -K; induction K; cbn; auto). cbn [long_items].
      intros Z items' J. inversion J as [o E|o x its I J' E]; subst.
      * rewrite Ln. destruct ts as [|t1 [|t2 ts]]; cbn; lia.
      * destruct (Forall2_In_l _ _ _ x K I) as (t & It & _ & _ & _ & _ & Q). apply Q; [|exact J'].
        apply (list_sum_0_In long_items ts t); [lia|exact It].
Qed.
Lemma rd_subject_token s p o w : In (MkStmt s p o) (g_list g) -> subject_w (iri_word c) s = Some w ->
  token w /\ ~ keyword w /\ exists r, subject_reads base expand w r /\ subject_means s r.
Proof.
  intros I W. destruct (rd_statement _ I) as (S & _). cbn [st_subject] in S. destruct s as [b|i|st]; cbn [subject_w] in W; [| |contradiction].
  - injection W as <-. destruct (blank_token b S) as [A B]. split; [exact A|]. split; [exact B|]. exists (RBlank b). split; [|reflexivity].
    split; [constructor; exact S|left; eauto].
  - destruct (iri_token c base mappings rd_head i w S W) as (A & B & N & D & _). split; [exact A|]. split; [exact B|].
    exists (RValue (VIri i)). split; [|reflexivity]. split; [constructor; auto|right; eauto].
Qed.
Lemma rd_says st x : In st (g_list g) -> says g (nest_blank_nodes (t_opts c)) (iri_word c) (verb c) (lit_word c) st x ->
  exists y, triple_reads base expand x y /\ statement_means g (nest_blank_nodes (t_opts c)) st y.
Proof.
  destruct st as [s p o], x as [[w v] t]. intros I (A & B & S). cbn [fst snd st_subject st_predicate st_object] in *.
  destruct (rd_subject_token _ _ _ _ I A) as (_ & _ & r & A1 & A2). destruct (rd_statement _ I) as (_ & P & T & O).
  cbn [st_predicate st_object] in *. destruct (rd_verb_token _ _ P T B) as [_ V].
  destruct (rd_tree t o O S) as (_ & _ & (r' & C1 & C2) & _). exists (r, p, r'). split.
  - split; [exact A1|split; [exact V|exact C1]].
  - split; [exact A2|split; [reflexivity|exact C2]].
Qed.
(** Blocks. *)
Lemma rd_entry s p e : shows_entry g (nest_blank_nodes (t_opts c)) (iri_word c) (verb c) (lit_word c) s p e ->
  (exists o, In (MkStmt s p o) (g_list g)) -> good_entry e /\ Forall sign_ok (entry_pieces comma e).
Proof.
  intros H (o & I). destruct H as [s p v os ts V N A F].
  assert (K : forall t, In t ts -> good t /\ Forall sign_ok (tp t)).
  { intros t J. destruct (Forall2_In_r _ _ _ t F J) as (o' & Io & S). apply A in Io. destruct (rd_statement _ Io) as (_ & _ & _ & O).
    destruct (rd_tree t o' O S) as (G & X & _). auto. }
  split.
  - split; cbn [snd]; [|intros t J; apply K, J]. apply A in I. destruct (Forall2_In_l _ _ _ o F I) as (t & J & _). intros ->. destruct J.
  - unfold entry_pieces. cbn [fst snd]. destruct (rd_statement _ I) as (_ & P & T & _). constructor; [exact (proj1 (rd_verb_token p v P T V))|].
    apply Forall_joinp; [apply sign_one; cbn; auto|]. intros x J. apply in_map_iff in J as (t & <- & J). apply K, J.
Qed.
Lemma rd_block s b : shows_block g (nest_blank_nodes (t_opts c)) (iri_word c) (verb c) (lit_word c) s b ->
  (exists p o, In (MkStmt s p o) (g_list g)) -> good_block b /\ ~ keyword (fst b) /\ Forall sign_ok (block_pieces comma b).
Proof.
  intros [W H] (p & o & I). destruct (rd_subject_token _ _ _ _ I W) as (T & N & _). destruct b as [w po]. cbn [fst snd] in *.
  destruct H as [s ps po Nd Rk A F].
  assert (K : forall e, In e po -> good_entry e /\ Forall sign_ok (entry_pieces comma e)).
  { intros e J. destruct (Forall2_In_r _ _ _ e F J) as (q & Iq & E). apply A in Iq. apply (rd_entry _ _ _ E Iq). }
  split; [|split; [exact N|]].
  - split; cbn [snd]; [|intros e J; apply K, J]. assert (Ip : In p ps) by (apply A; eauto).
    destruct (Forall2_In_l _ _ _ p F Ip) as (e & J & _). intros ->. destruct J.
  - unfold block_pieces. cbn [fst snd]. constructor; [exact T|]. apply Forall_app. split; [|apply sign_one; cbn; auto 10].
    apply Forall_joinp; [apply sign_one; cbn; auto|]. intros x J. apply in_map_iff in J as (e & <- & J). apply K, J.
Qed.
Lemma rd_blocks d b : document c g d -> In b d -> good_block b /\ ~ keyword (fst b) /\ Forall sign_ok (block_pieces comma b).
Proof.
  intros (nodes & blanks & _ & A & _ & _ & _ & F) I. destruct (Forall2_In_r _ _ _ b F I) as (s & Is & B). apply A in Is.
  apply (rd_block _ _ B Is).
Qed.
Lemma rd_types : types_fit c g.
Proof.
  intros s p o v I T V. destruct (rd_statement _ I) as (_ & P & Q & _). cbn [st_predicate] in *. destruct (rd_verb p P Q) as (v' & V' & K).
  rewrite V in V'. injection V' as <-. right. right. right. destruct (rd_iri p P) as (w & W).
  destruct (iri_token c base mappings rd_head p w P W) as (_ & _ & _ & _ & N). exists p, o, w. split; [exact I|]. split; [exact W|].
  pose proof (XmlProofs.byte_len_ge w). destruct K as [[-> _]|K].
  - destruct w; [congruence|]. change (length $"a") with 1%nat. cbn [length] in *. lia.
  - rewrite W in K. injection K as ->. assumption.
Qed.
(** The head. *)
Lemma rd_ns i : convert_first (t_iri c) (convert_base (t_opts c)) (show_iri (t_iri c) i) = i.
Proof. destruct rd_head as ((M & _ & C) & _). rewrite M, C. reflexivity. Qed.
Lemma rd_head_of : head_of c mappings = directives (t_opts c) (fun i => i) (option_map Url.url_ser base) mappings.
Proof.
  unfold head_of, directives. destruct rd_head as ((M & _ & _) & B & _). rewrite B, M.
  assert (E : option_map (show_iri Bare) (option_map Url.url_ser base) = option_map Url.url_ser base) by (destruct base; reflexivity).
  rewrite E. f_equal. rewrite <- M. apply flat_map_ext. intros e. rewrite rd_ns. reflexivity.
Qed.
Lemma iri_ref_token r : forallb iri_char r = true -> sign_ok (Word ([60] ++ r ++ [62])).
Proof. intros F. apply Tk_iri, F. Qed.
Lemma rd_head_signs : Forall sign_ok (head_of c mappings).
Proof.
  rewrite rd_head_of. destruct rd_head as (_ & _ & B & _ & H).
  assert (Dr : forall ttl sparql args, token ttl -> token sparql -> Forall token args ->
    Forall sign_ok (directive (t_opts c) ttl sparql args)).
  { intros ttl sparql args T S A. assert (W : Forall sign_ok (map Word args)) by (apply Forall_map; exact A). unfold directive.
    destruct (use_sparql_style (t_opts c) && negb (use_intellij_style (t_opts c))).
    - constructor; [exact S|exact W].
    - constructor; [exact T|]. apply Forall_app. split; [exact W|apply sign_one; cbn; auto 10]. }
  unfold directives. apply Forall_app. split.
  - destruct base as [b|]; cbn [option_map]; [|constructor]. apply Dr.
    + apply Tk_keyword. reflexivity.
    + apply Tk_name; try reflexivity; discriminate.
    + constructor; [|constructor]. apply Tk_iri, B.
  - apply Forall_flat_map, Forall_forall. intros [p ns] I. destruct (H _ _ I) as (P & _ & F). cbn [fst snd]. apply Dr.
    + apply Tk_keyword. reflexivity.
    + apply Tk_name; try reflexivity; discriminate.
    + constructor; [|constructor; [apply Tk_iri, F|constructor]].
      rewrite <- (app_nil_r $":"). eapply name_token; [exact rd_head|exact I|left; reflexivity].
Qed.
Lemma rd_headings : headings_read (headings (fun i => i) (option_map Url.url_ser base) mappings) base mappings.
Proof.
  destruct rd_head as (_ & _ & B & _ & H). clear R. revert H. unfold headings. induction mappings as [|[p ns] l IH] using rev_ind; intros H.
  - destruct base as [b|]; cbn [option_map map app]; [|constructor]. apply (Hr_base [] b None []); [constructor|apply B].
  - rewrite map_app, app_assoc. cbn [map fst snd]. destruct (H p ns) as (P & A & _); [apply in_or_app; right; left; reflexivity|].
    apply Hr_prefix; auto. apply IH. intros q m I. apply H. apply in_or_app. auto.
Qed.
(** The whole text. *)
Lemma rd_parsed f out d : doc_of c g mappings f = Done out -> document c g d ->
  tight out = head_of c mappings ++ flat_map (block_pieces comma) d ->
  (no_long_items d -> turtle_syntax (pieces_text out) = Some (headings (fun i => i) (option_map Url.url_ser base) mappings, d)) /\
  (~ no_long_items d -> turtle_syntax (pieces_text out) = None).
Proof.
  intros O D T. assert (Sg : Forall sign_ok out).
  { apply sign_blanks. rewrite T. apply Forall_app. split; [apply rd_head_signs|]. apply Forall_flat_map, Forall_forall. intros b I.
    apply (rd_blocks d b D I). }
  unfold turtle_syntax. rewrite (doc_lexed c g (proj1 R) rd_types mappings f out O Sg), T.
  assert (G : forall b, In b d -> good_block b) by (intros b I; apply (rd_blocks d b D I)).
  rewrite rd_head_of, p_headings_all.
  - split; intros L.
    + rewrite blocks_done; [reflexivity|exact G|exact L|]. rewrite app_length. lia.
    + destruct (p_blocks _ _) as [r|] eqn:E; [|reflexivity]. apply blocks_ok in E as [_ E]; [contradiction|exact G].
  - destruct d as [|b d]; [exact I|]. cbn [flat_map block_pieces app]. apply (rd_blocks (b :: d) b D). left. reflexivity.
Qed.
Lemma rd_long d : document c g d -> no_long_items d <-> short_collections g.
Proof.
  intros D. destruct (graph_triples _ _ _ _ _ d D) as (l & _ & A & F). split.
  - intros L st items I J. destruct (Forall2_In_l _ _ _ st F (proj2 (A st) I)) as ([[s v] t] & K & S).
    destruct S as (_ & _ & S). cbn [snd] in S. destruct (rd_statement _ I) as (_ & _ & _ & O).
    destruct (rd_tree t _ O S) as (_ & _ & _ & _ & Q). apply Q; [|exact J]. exact (L _ _ _ K).
  - intros Sh s v t K. destruct (Forall2_In_r _ _ _ (s, v, t) F K) as (st & I & S). destruct S as (_ & _ & S). cbn [snd] in S.
    apply A in I. destruct (rd_statement _ I) as (_ & _ & _ & O). destruct (rd_tree t _ O S) as (_ & _ & _ & Q & _). apply Q; [exact Sh|].
    intros items J. exact (Sh st items I J).
Qed.
End Doc.

Lemma rd_document c base mappings g f : readable_graph c base mappings g -> has_room c f -> (graph_size g < f)%nat ->
  exists out d, doc_of c g mappings f = Done out /\ document c g d /\
    tight out = head_of c mappings ++ flat_map (block_pieces comma) d.
Proof.
  intros R Rm L. apply c62_document; auto; [exact (proj1 R)|eapply rd_can_write; exact R|eapply rd_acyclic; exact R].
Qed.
Lemma c100_read_back c base mappings g f : readable_graph c base mappings g -> short_collections g -> has_room c f ->
  (graph_size g < f)%nat ->
  exists out l read, doc_of c g mappings f = Done out /\ NoDup l /\ (forall st, In st l <-> In st (g_list g)) /\
    turtle_reads (pieces_text out) read /\ Forall2 (statement_means g (nest_blank_nodes (t_opts c))) l read.
Proof.
  intros R Sh Rm L. destruct (rd_document _ _ _ _ _ R Rm L) as (out & d & O & D & T).
  destruct (graph_triples _ _ _ _ _ d D) as (l & N & A & F). exists out, l.
  assert (X : exists read, Forall2 (triple_reads base (expand_with mappings)) (top_triples d) read /\ Forall2 (statement_means g (nest_blank_nodes (t_opts c))) l read).
  { assert (A' : forall st, In st l -> In st (g_list g)) by (intros st I; apply A, I). clear N A. revert A'.
    induction F as [|st x l ts S F IH]; intros A'; [exists []; auto|].
    destruct (rd_says c g base mappings R st x (A' st (or_introl eq_refl)) S) as (y & Y1 & Y2).
    destruct IH as (read & I1 & I2); [intros st' I; apply A'; right; exact I|]. exists (y :: read). auto. }
  destruct X as (read & X1 & X2). exists read. split; [exact O|]. split; [exact N|]. split; [exact A|]. split; [|exact X2].
  exists (headings (fun i => i) (option_map Url.url_ser base) mappings), d, base, mappings. split; [|split; [|exact X1]].
  - apply (rd_parsed c g base mappings R f out d O D T). apply (rd_long c g base mappings R d D). exact Sh.
  - eapply rd_headings. exact R.
Qed.
Lemma c100_long c base mappings g f : readable_graph c base mappings g -> ~ short_collections g -> has_room c f ->
  (graph_size g < f)%nat -> exists out, doc_of c g mappings f = Done out /\ forall read, ~ turtle_reads (pieces_text out) read.
Proof.
  intros R Sh Rm L. destruct (rd_document _ _ _ _ _ R Rm L) as (out & d & O & D & T). exists out. split; [exact O|].
  assert (E : turtle_syntax (pieces_text out) = None).
  { apply (rd_parsed c g base mappings R f out d O D T). intros X. apply Sh. apply (rd_long c g base mappings R d D). exact X. }
  intros read (hs & d' & b & ps & S & _). congruence.
Qed.

(** ** With everything before it *)
Lemma means_same g g' nest : (forall st, In st (g_list g) <-> In st (g_list g')) -> forall o r, means g nest o r -> means g' nest o r.
Proof.
  intros E. fix IH 3. intros o r H. destruct H as [b N|b ps po N Nd A F|i|l|os l F].
  - constructor. exact N.
  - apply (Mn_node g' nest b ps po N Nd).
    + intros p. rewrite A. split; intros (o & I); exists o; apply E, I.
    + clear A Nd. induction F as [|p e ps po H F IHF]; constructor; [|exact IHF]. destruct H as [b p os l Nd A F']. apply (Mn_entry g' nest b p os l Nd).
      * intros o. rewrite A. apply E.
      * clear A Nd. induction F' as [|o x os l H F' IHF']; constructor; [apply IH, H|exact IHF'].
  - constructor.
  - constructor.
  - constructor. induction F as [|o x os l H F IHF]; constructor; [apply IH, H|exact IHF].
Qed.
Lemma statement_same g g' nest : (forall st, In st (g_list g) <-> In st (g_list g')) -> forall l read,
  Forall2 (statement_means g nest) l read -> Forall2 (statement_means g' nest) l read.
Proof.
  intros E l read F. induction F as [|st y l read (A & B & C) F IH]; constructor; [|exact IH]. split; [exact A|split; [exact B|]].
  eapply means_same; eauto.
Qed.
Lemma cyclic_same g g' : (forall st, In st (g_list g) -> In st (g_list g')) -> cyclic g -> cyclic g'.
Proof.
  intros E (b & T). exists b. revert T. generalize b at 1 3. intros a T.
  induction T as [x y (p & o & I & J)|x y z _ IH1 _ IH2]; [|eapply t_trans; eauto]. apply t_step. exists p, o. auto.
Qed.
Lemma rd_same c base mappings g g' : readable_graph c base mappings g -> Permutation (g_list g') (g_list g) ->
  readable_graph c base mappings g' /\ graph_size g' = graph_size g /\ (short_collections g' <-> short_collections g).
Proof.
  intros (A & B & Cy & D) P. split; [|split].
  - split; [exact A|split; [exact B|split]]; [destruct Cy as [Cy|Cy]; [left; exact Cy|right; intros X; apply Cy; revert X; apply cyclic_same; intros st; apply (Permutation_in _ P)]|].
    intros st I. apply D. exact (Permutation_in _ P I).
  - unfold graph_size. clear -P. induction P; cbn [map]; rewrite ?list_sum_cons; lia.
  - unfold short_collections. split; intros H st items I; apply H; [exact (Permutation_in _ (Permutation_sym P) I)|exact (Permutation_in _ P I)].
Qed.
Lemma rd_plain c base mappings g st : readable_graph c base mappings g -> In st (g_list g) -> is_nested st = false.
Proof.
  intros (_ & _ & _ & D) I. destruct (D st I) as (S & _ & _ & O). unfold is_nested. destruct st as [s p o]. cbn [st_subject st_object] in *.
  destruct s; [| |contradiction]; (inversion O; subst; reflexivity).
Qed.
Lemma rd_denest c base mappings g ho n : readable_graph c base mappings g -> hash_order ho ->
  Permutation (g_list (ttl_denest ho n g)) (g_list g).
Proof. intros R H. apply c63_plain; [exact H|]. intros st. apply (rd_plain c base mappings g st R). Qed.
Lemma c100_written c base mappings g f ho n : readable_graph c base mappings g -> short_collections g -> has_room c f ->
  (graph_size g < f)%nat -> hash_order ho ->
  exists out l read, written c ho n mappings f g = Done out /\ NoDup l /\ (forall st, In st l <-> In st (g_list g)) /\
    turtle_reads (pieces_text out) read /\ Forall2 (statement_means g (nest_blank_nodes (t_opts c))) l read.
Proof.
  intros R Sh Rm L Ho. pose proof (rd_denest c base mappings g ho n R Ho) as P. destruct (rd_same _ _ _ _ _ R P) as (R' & Sz & Sh').
  rewrite <- Sz in L. apply Sh' in Sh. destruct (c100_read_back _ _ _ _ _ R' Sh Rm L) as (out & l & read & O & N & A & X & F).
  assert (Eq : forall st, In st (g_list (ttl_denest ho n g)) <-> In st (g_list g)) by (intros st; split; apply Permutation_in; auto; apply Permutation_sym; exact P).
  exists out, l, read. split; [exact O|]. split; [exact N|]. split; [intros st; rewrite A; apply Eq|]. split; [exact X|].
  eapply statement_same; [exact Eq|exact F].
Qed.
Lemma c100_written_long c base mappings g f ho n : readable_graph c base mappings g -> ~ short_collections g -> has_room c f ->
  (graph_size g < f)%nat -> hash_order ho ->
  exists out, written c ho n mappings f g = Done out /\ forall read, ~ turtle_reads (pieces_text out) read.
Proof.
  intros R Sh Rm L Ho. pose proof (rd_denest c base mappings g ho n R Ho) as P. destruct (rd_same _ _ _ _ _ R P) as (R' & Sz & Sh').
  rewrite <- Sz in L. rewrite <- Sh' in Sh. exact (c100_long _ _ _ _ _ R' Sh Rm L).
Qed.
(** Two graphs with the same text say the same. *)
Lemma c100_same_text c c' base base' mappings mappings' g g' f f' ho ho' n n' out :
  readable_graph c base mappings g -> short_collections g -> has_room c f -> (graph_size g < f)%nat -> hash_order ho ->
  readable_graph c' base' mappings' g' -> short_collections g' -> has_room c' f' -> (graph_size g' < f')%nat -> hash_order ho' ->
  written c ho n mappings f g = Done out -> forall out', written c' ho' n' mappings' f' g' = Done out' ->
  pieces_text out = pieces_text out' ->
  forall st, In st (g_list g) -> exists st' y, In st' (g_list g') /\ statement_means g (nest_blank_nodes (t_opts c)) st y /\
    statement_means g' (nest_blank_nodes (t_opts c')) st' y.
Proof.
  intros R1 S1 M1 L1 H1 R2 S2 M2 L2 H2 W1 out' W2 E st I.
  destruct (c100_written c base mappings g f ho n R1 S1 M1 L1 H1) as (o1 & l1 & rd1 & O1 & _ & A1 & T1 & F1).
  destruct (c100_written c' base' mappings' g' f' ho' n' R2 S2 M2 L2 H2) as (o2 & l2 & rd2 & O2 & _ & A2 & T2 & F2).
  rewrite W1 in O1. injection O1 as <-. rewrite W2 in O2. injection O2 as <-. rewrite <- E in T2.
  rewrite (c100_unique _ _ _ T2 T1) in F2. apply A1 in I. destruct (Forall2_In_l _ _ _ st F1 I) as (y & Iy & Y).
  destruct (Forall2_In_r _ _ _ y F2 Iy) as (st' & I' & Y'). exists st', y. split; [apply A2, I'|auto].
Qed.
(** With nesting a blank node is written twice, once without its label. *)
Lemma c100_twice c base mappings g f ho n s p b q o : readable_graph c base mappings g -> short_collections g -> has_room c f ->
  (graph_size g < f)%nat -> hash_order ho -> nest_blank_nodes (t_opts c) = true ->
  In (MkStmt s p (OBlank b)) (g_list g) -> In (MkStmt (SBlank b) q o) (g_list g) ->
  exists out read, written c ho n mappings f g = Done out /\ turtle_reads (pieces_text out) read /\
    (exists r po l, In (r, p, RNode po) read /\ subject_means s r /\ In (q, l) po /\ l <> []) /\
    exists r, In (RBlank b, q, r) read.
Proof.
  intros R Sh Rm L Ho Ne I J. destruct (c100_written c base mappings g f ho n R Sh Rm L Ho) as (out & l & read & W & _ & A & T & F).
  exists out, read. split; [exact W|]. split; [exact T|]. apply A in I, J. split.
  - destruct (Forall2_In_l _ _ _ _ F I) as ([[r p'] x] & Iy & S & E & M). cbn [st_subject st_predicate st_object fst snd] in *. subst p'.
    inversion M as [|b' ps po N Nd Ap Fp| | |]; subst; [congruence|]. apply A in J. assert (Iq : In q ps) by (apply Ap; eauto).
    destruct (Forall2_In_l _ _ _ _ Fp Iq) as (e & Ie & H). inversion H as [b' q' os rs No Ao Fo]; subst. exists r, po, rs.
    split; [exact Iy|]. split; [exact S|]. split; [exact Ie|]. apply Ao in J. destruct (Forall2_In_l _ _ _ _ Fo J) as (t & It & _). intros ->. destruct It.
  - destruct (Forall2_In_l _ _ _ _ F J) as ([[r p'] x] & Iy & S & E & M). cbn [st_subject st_predicate st_object fst snd subject_means] in *. subst. eauto.
Qed.
