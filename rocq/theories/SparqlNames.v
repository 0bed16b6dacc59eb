(** Variables, names and language tags of SPARQL. *)
From Verif Require Import StrFacts SparqlSpec SparqlProofs.
From Coq Require Import Lia.

(** ** Variables *)
Lemma var_part v r : var_read v -> ~ starts var_tail r -> var_name (v ++ r) = Good true v r.
Proof.
  destruct v as [|c t]; [intros []|]. intros (H & F) N. unfold var_name. steps. cbn [app].
  rewrite (satisfy_yes _ _ head_iff c _ H), (many_satisfy _ _ tail_iff t r F N). reflexivity.
Qed.
Lemma var_part_no s : ~ starts var_head s -> var_name s = Bad false.
Proof. intros N. unfold var_name. steps. rewrite (satisfy_no _ _ head_iff s N). reflexivity. Qed.
Definition mark (c : chr) : Prop := c = 63 \/ c = 36.
Lemma mark_iff c : existsb (N.eqb c) $"?$" = true <-> mark c.
Proof. unfold mark. cbn. lia. Qed.
Lemma mark_not_head c : mark c -> ~ var_head c.
Proof. intros [-> | ->] H; apply head_iff in H; discriminate H. Qed.
Lemma variable_yes v s r : variable_at v s r -> variable s = Good true v r.
Proof.
  intros (V & N & S). unfold variable. steps. unfold optional, one_of. destruct S as [-> |S].
  - rewrite (satisfy_no _ _ mark_iff), (var_part v r V N); [reflexivity|].
    destruct v as [|c t]; [destruct V|]. cbn. intros M. apply (mark_not_head c M). apply V.
  - assert (E : exists c, mark c /\ s = c :: v ++ r) by (unfold mark; destruct S; eauto).
    destruct E as (c & M & ->). rewrite (satisfy_yes _ _ mark_iff c _ M), (var_part v r V N). reflexivity.
Qed.
Lemma var_total s : (exists v r, var_read v /\ ~ starts var_tail r /\ s = v ++ r) \/ ~ starts var_head s.
Proof.
  destruct (starts_dec _ _ head_iff s) as [(c & t & -> & H)|N]; [|right; exact N]. left.
  destruct (span _ _ tail_iff t) as (w & r & -> & F & N). exists (c :: w), r. cbn. auto.
Qed.
Lemma variable_spec s : (exists v r, variable_at v s r) \/ (exists c, variable s = Bad c /\ (c = true <-> starts mark s)).
Proof.
  destruct (starts_dec _ _ mark_iff s) as [(c & t & -> & M)|N].
  - destruct (var_total t) as [(v & r & V & NT & ->)|N].
    + left. exists v, r. split; [exact V|]. split; [exact NT|]. right. destruct M as [-> | ->]; auto.
    + right. exists true. split; [|cbn; tauto]. unfold variable. steps. unfold optional, one_of.
      rewrite (satisfy_yes _ _ mark_iff c _ M), (var_part_no t N). reflexivity.
  - destruct (var_total s) as [(v & r & V & NT & ->)|NH].
    + left. exists v, r. split; [exact V|]. auto.
    + right. exists false. split; [|split; [discriminate|contradiction]]. unfold variable. steps. unfold optional, one_of.
      rewrite (satisfy_no _ _ mark_iff s N), (var_part_no s NH). reflexivity.
Qed.
Theorem variable_exact s v r : variable_at v s r <-> exists c, variable s = Good c v r.
Proof.
  split; [intros H; exists true; apply variable_yes, H|]. intros (c & E).
  destruct (variable_spec s) as [(v' & r' & H)|(c' & E' & _)]; [|congruence].
  pose proof (variable_yes _ _ _ H) as E'. replace v with v' by congruence. replace r with r' by congruence. exact H.
Qed.
Theorem variable_no_panic s : variable s <> Boom.
Proof. destruct (variable_spec s) as [(v & r & H)|(c & E & _)]; [rewrite (variable_yes _ _ _ H)|rewrite E]; discriminate. Qed.

(** ** Language tags *)
Definition part : parser str := pmap (pair (char 45) (many1 (satisfy is_alnum))) (fun x => fst x :: snd x).
Lemma part_yes t r : subtag t -> ~ starts letter_or_digit r -> part (45 :: t ++ r) = Good true (45 :: t) r.
Proof.
  intros (N & F) NR. unfold part. steps. rewrite char_yes, (many1_satisfy _ _ alnum_iff t r N F NR). reflexivity.
Qed.
Lemma part_total s : (exists t r, subtag t /\ ~ starts letter_or_digit r /\ s = 45 :: t ++ r) \/
  (exists c, part s = Bad c /\ (c = true <-> starts (eq 45) s)).
Proof.
  destruct (char_dec 45 s) as [(t & ->)|N].
  - destruct (span _ _ alnum_iff t) as (w & r & -> & F & N). destruct w as [|c w].
    + right. exists true. split; [|cbn; tauto]. unfold part. steps. rewrite char_yes, (many1_none _ _ alnum_iff ([] ++ r) N). reflexivity.
    + left. exists (c :: w), r. split; [split; [discriminate|exact F]|auto].
  - right. exists false. split; [|split; [discriminate|contradiction]]. unfold part. steps. rewrite (char_no 45 s N). reflexivity.
Qed.
Lemma hyphen_not_alnum : ~ letter_or_digit 45.
Proof. intros H. apply alnum_iff in H. discriminate H. Qed.
Lemma hyphen_not_letter : ~ letter 45.
Proof. intros H. apply alpha_iff in H. discriminate H. Qed.
Lemma parts_stop l r : ~ starts letter_or_digit r -> ~ starts letter_or_digit (concat (map (cons 45) l) ++ r).
Proof. intros N. destruct l as [|t l]; [exact N|]. cbn. exact hyphen_not_alnum. Qed.
Lemma parts_yes l r : Forall subtag l -> (l <> [] -> ~ starts letter_or_digit r) -> ~ starts (eq 45) r ->
  forall n, (length (concat (map (cons 45%N) l) ++ r) <= n)%nat ->
  exists c, up_to n part (concat (map (cons 45) l) ++ r) = Good c (map (cons 45) l) r.
Proof.
  intros F NR NH. induction F as [|t l H F IH]; intros n L.
  - cbn [map concat app]. exists false. destruct n as [|n]; [reflexivity|]. cbn [up_to].
    destruct (part_total r) as [(t & u & _ & _ & ->)|(c & -> & C)]; [destruct NH; reflexivity|].
    destruct c; [destruct NH; apply C; reflexivity|reflexivity].
  - cbn [map concat]. rewrite <- app_assoc. cbn [map concat] in L. rewrite <- app_assoc in L. change ((45 :: t) ++ concat (map (cons 45) l) ++ r) with (45 :: t ++ concat (map (cons 45) l) ++ r) in *.
    destruct n as [|n]; [cbn in L; lia|]. cbn [up_to].
    rewrite (part_yes t _ H) by (apply parts_stop, NR; discriminate).
    destruct IH with (n := n) as (c & ->); [intros _; apply NR; discriminate| |exists true; reflexivity].
    cbn [length] in L. rewrite app_length in L. lia.
Qed.
Lemma parts_total n : forall s, (length s <= n)%nat ->
  (exists l r, Forall subtag l /\ (l <> [] -> ~ starts letter_or_digit r) /\ ~ starts (eq 45) r /\ s = concat (map (cons 45) l) ++ r) \/
  up_to n part s = Bad true.
Proof.
  induction n as [|n IH]; intros s L.
  - left. exists [], s. split; [constructor|]. split; [congruence|]. split; [|reflexivity]. destruct s; [intros []|cbn in L; lia].
  - cbn [up_to]. destruct (part_total s) as [(t & r & H & N & ->)|(c & -> & C)].
    + rewrite (part_yes t r H N). destruct (IH r) as [(l & u & F & NU & NH & ->)| ->].
      * cbn in L. rewrite app_length in L. lia.
      * left. exists (t :: l), u. split; [constructor; assumption|]. split.
        -- intros _. destruct l as [|t' l]; [exact N|apply NU; discriminate].
        -- split; [exact NH|]. cbn. rewrite <- app_assoc. reflexivity.
      * right. reflexivity.
    + destruct c; [right; reflexivity|left]. exists [], s. split; [constructor|]. split; [congruence|]. split; [|reflexivity].
      intros H. apply C in H. discriminate H.
Qed.
Lemma lang_yes m l s r : lang_tag_at m l s r -> lang_tag s = Good true (tag_text m l) r.
Proof.
  intros (M & F & S & -> & NR & NH). unfold lang_tag. change (pmap (pair (char 45) (many1 (satisfy is_alnum))) (fun x => fst x :: snd x)) with part.
  unfold tag_text. rewrite <- app_assoc. unfold pmap at 1. unfold pair at 1. rewrite char_yes. unfold pair at 1.
  rewrite (many1_satisfy _ _ alpha_iff m _ M F).
  - unfold many. destruct (parts_yes l r S) with (n := length (concat (map (cons 45) l) ++ r)) as (c & ->).
    + destruct l; [congruence|auto].
    + exact NH.
    + lia.
    + destruct c; reflexivity.
  - destruct l as [|t l]; [exact NR|exact hyphen_not_letter].
Qed.
Lemma lang_spec s : (exists m l r, lang_tag_at m l s r) \/ (exists c, lang_tag s = Bad c /\ (c = true <-> starts (eq 64) s)).
Proof.
  destruct (char_dec 64 s) as [(t & ->)|N].
  - destruct (span _ _ alpha_iff t) as (m & u & -> & F & N). destruct m as [|c m].
    + right. exists true. split; [|cbn; tauto]. unfold lang_tag. steps. rewrite char_yes, (many1_none _ _ alpha_iff ([] ++ u) N). reflexivity.
    + destruct (parts_total (length u) u) as [(l & r & S & NR & NH & ->)|B]; [lia| |].
      * left. exists (c :: m), l, r. split; [discriminate|]. split; [exact F|]. split; [exact S|].
        split; [unfold tag_text; rewrite <- app_assoc; reflexivity|]. split; [|exact NH]. destruct l; [exact N|apply NR; discriminate].
      * right. exists true. split; [|cbn; tauto]. unfold lang_tag.
        change (pmap (pair (char 45) (many1 (satisfy is_alnum))) (fun x => fst x :: snd x)) with part.
        unfold pmap at 1. unfold pair at 1. rewrite char_yes. unfold pair at 1.
        rewrite (many1_satisfy _ _ alpha_iff (c :: m) u) by (auto; discriminate). unfold many. rewrite B. reflexivity.
  - right. exists false. split; [|split; [discriminate|contradiction]]. unfold lang_tag. steps. rewrite (char_no 64 s N). reflexivity.
Qed.
Theorem lang_exact s t r : (exists m l, t = tag_text m l /\ lang_tag_at m l s r) <-> exists c, lang_tag s = Good c t r.
Proof.
  split.
  - intros (m & l & -> & H). exists true. apply lang_yes, H.
  - intros (c & E). destruct (lang_spec s) as [(m & l & r' & H)|(c' & E' & _)]; [|congruence].
    pose proof (lang_yes _ _ _ _ H) as E'. exists m, l. replace r with r' by congruence. split; [congruence|exact H].
Qed.
Theorem lang_no_panic s : lang_tag s <> Boom.
Proof. destruct (lang_spec s) as [(m & l & r & H)|(c & E & _)]; [rewrite (lang_yes _ _ _ _ H)|rewrite E]; discriminate. Qed.

(** ** Local names *)
Lemma decimal_one d : digit d -> parse_u32 [d] = Some (d - 48).
Proof. intros H. apply digit_iff in H. unfold parse_u32, decimal. rewrite H. reflexivity. Qed.
Lemma decimal_two d e : digit d -> digit e -> parse_u32 [d; e] = Some (10 * (d - 48) + (e - 48)).
Proof. intros H H'. apply digit_iff in H, H'. unfold parse_u32, decimal. rewrite H, H'. f_equal; lia. Qed.
Lemma decimal_letter_first d l : ~ digit d -> parse_u32 (d :: l) = None.
Proof. rewrite <- digit_iff. intros H. unfold parse_u32, decimal. destruct (is_digit d); [congruence|reflexivity]. Qed.
Lemma decimal_letter_second d e : ~ digit e -> parse_u32 [d; e] = None.
Proof. rewrite <- digit_iff. intros H. unfold parse_u32, decimal. destruct (is_digit d), (is_digit e); congruence. Qed.
Lemma small_scalar n : n < 200 -> is_scalar n = true.
Proof. unfold is_scalar, in_range. lia. Qed.
Lemma digit_dec c : digit c \/ ~ digit c.
Proof. destruct (is_digit c) eqn:E; [left; apply digit_iff, E|right; rewrite <- digit_iff; congruence]. Qed.

(** What can follow a percent sign. *)
Lemma percent_spec t :
  (exists x r, local_char_at x (37 :: t) r /\ percent_escape (37 :: t) = Good true x r) \/
  (percent_trap (37 :: t) /\ percent_escape (37 :: t) = Boom).
Proof.
  unfold percent_escape, pmap_or_panic, pair. rewrite char_yes. unfold count.
  destruct (starts_dec _ _ hex_iff t) as [(d & u & -> & H)|N].
  2:{ right. split; [exists t; split; [reflexivity|left; exact N]|]. cbn [up_to]. unfold hex_digit. rewrite (satisfy_no _ _ hex_iff t N). reflexivity. }
  destruct (starts_dec _ _ hex_iff u) as [(e & v & -> & H')|N].
  - assert (E : up_to 2 hex_digit (d :: e :: v) = Good true [d; e] v).
    { cbn [up_to]. unfold hex_digit. rewrite (satisfy_yes _ _ hex_iff d _ H), (satisfy_yes _ _ hex_iff e _ H'). reflexivity. }
    rewrite E. cbn [snd]. destruct (digit_dec d) as [D|D].
    + destruct (digit_dec e) as [D'|D'].
      * left. eexists _, _. split; [apply lc_percent2; assumption|]. rewrite (decimal_two d e D D').
        rewrite small_scalar by (unfold digit in *; lia). reflexivity.
      * right. split; [|rewrite decimal_letter_second by exact D'; reflexivity].
        exists (d :: e :: v). split; [reflexivity|]. right. exists d, (e :: v). split; [reflexivity|]. split; [exact H|]. right. cbn. auto.
    + right. split; [|rewrite decimal_letter_first by exact D; reflexivity].
      exists (d :: e :: v). split; [reflexivity|]. right. exists d, (e :: v). auto.
  - assert (E : up_to 2 hex_digit (d :: u) = Good true [d] u).
    { cbn [up_to]. unfold hex_digit. rewrite (satisfy_yes _ _ hex_iff d _ H), (satisfy_no _ _ hex_iff u N). reflexivity. }
    rewrite E. cbn [snd]. destruct (digit_dec d) as [D|D].
    + left. eexists _, _. split; [apply lc_percent1; assumption|]. rewrite (decimal_one d D).
      rewrite small_scalar by (unfold digit in *; lia). reflexivity.
    + right. split; [|rewrite decimal_letter_first by exact D; reflexivity].
      exists (d :: u). split; [reflexivity|]. right. exists d, u. auto.
Qed.
Lemma percent_no s : ~ starts (eq 37) s -> percent_escape s = Bad false.
Proof. intros N. unfold percent_escape, pmap_or_panic, pair. rewrite (char_no 37 s N). reflexivity. Qed.
Theorem percent_exact s : percent_escape s = Boom <-> percent_trap s.
Proof.
  split.
  - intros E. destruct (char_dec 37 s) as [(t & ->)|N]; [|rewrite (percent_no s N) in E; discriminate E].
    destruct (percent_spec t) as [(x & r & _ & E')|(T & _)]; [congruence|exact T].
  - intros (t & -> & T). destruct (percent_spec t) as [(x & r & H & _)|(_ & E)]; [exfalso|exact E].
    inversion H as [c r0 LH E1 E2|c r0 X E1 E2|d r0 D N E1 E2|d e r0 D D' E1 E2]; subst.
    + destruct LH as [L|[L|[L|L]]]; [apply base_iff in L; discriminate L|discriminate L|discriminate L|unfold digit in L; lia].
    + destruct T as [T|(d' & u & E & Hx & T)]; [apply T; cbn; left; exact D|]. injection E as <- <-.
      destruct T as [T|T]; [contradiction|]. apply N. destruct r; [destruct T|apply T].
    + destruct T as [T|(d' & u & E & Hx & T)]; [apply T; cbn; left; exact D|]. injection E as <- <-.
      destruct T as [T|T]; [contradiction|]. cbn in T. tauto.
Qed.

Definition tail_char (c : chr) : Prop := name_start c \/ c = 95 \/ c = 46 \/ c = 58.
Lemma local_head_iff c : (fun c => sp_chars_u c || N.eqb c 58 || is_digit c) c = true <-> local_head c.
Proof. cbn. unfold local_head. rewrite !Bool.orb_true_iff, u_iff, digit_iff, N.eqb_eq. tauto. Qed.
Lemma tail_char_iff c : (fun c => sp_chars_u c || N.eqb c 46 || N.eqb c 58) c = true <-> tail_char c.
Proof. cbn. unfold tail_char. rewrite !Bool.orb_true_iff, u_iff, !N.eqb_eq. tauto. Qed.
Definition end_char (c : chr) : Prop := name_start c \/ c = 95 \/ c = 58.
Lemma end_char_iff c : (fun c => sp_chars_u c || N.eqb c 58) c = true <-> end_char c.
Proof. cbn. unfold end_char. rewrite !Bool.orb_true_iff, u_iff, !N.eqb_eq. tauto. Qed.

(** An escape: read, or fatal, or not there. *)
Lemma escape_spec s :
  (exists x r, prefixed_local_escape s = Good true x r /\ local_char_at x s r /\ (starts (eq 37) s \/ starts (eq 92) s)) \/
  prefixed_local_escape s = Boom \/ (prefixed_local_escape s = Bad true) \/
  (prefixed_local_escape s = Bad false /\ ~ starts (eq 37) s /\ ~ starts (eq 92) s).
Proof.
  unfold prefixed_local_escape, por. destruct (char_dec 37 s) as [(t & ->)|N].
  - destruct (percent_spec t) as [(x & r & H & ->)|(_ & ->)]; [left; exists x, r; cbn; auto|auto].
  - rewrite (percent_no s N). unfold prefixed_name_local_escape. steps. destruct (char_dec 92 s) as [(t & ->)|M].
    + rewrite char_yes. destruct (starts_dec _ _ escape_iff t) as [(c & r & -> & H)|X].
      * rewrite (satisfy_yes _ _ escape_iff c r H). left. exists c, r. split; [reflexivity|]. split; [constructor; exact H|cbn; auto].
      * rewrite (satisfy_no _ _ escape_iff t X). auto.
    + rewrite (char_no 92 s M). auto 8.
Qed.
Definition tail_one : parser chr := por (satisfy (fun c => sp_chars_u c || N.eqb c 46 || N.eqb c 58)) prefixed_local_escape.
Definition tail_end : parser chr := por (satisfy (fun c => sp_chars_u c || N.eqb c 58)) prefixed_local_escape.
Lemma tail_end_stops s : tail_one s = Bad false -> tail_end s = Bad false.
Proof.
  unfold tail_one, tail_end, por. destruct (starts_dec _ _ tail_char_iff s) as [(c & t & -> & H)|N].
  - rewrite (satisfy_yes _ _ tail_char_iff c t H). discriminate.
  - rewrite (satisfy_no _ _ tail_char_iff s N). intros E. rewrite (satisfy_no _ _ end_char_iff s); [exact E|].
    destruct s as [|c s]; [intros []|]. cbn in *. unfold end_char, tail_char in *. tauto.
Qed.
Lemma local_char_shorter x s r : local_char_at x s r -> (length r < length s)%nat.
Proof. intros H. destruct H; cbn; lia. Qed.
Lemma tail_one_shorter s c x r : tail_one s = Good c x r -> c = true /\ (length r < length s)%nat.
Proof.
  unfold tail_one, por. destruct (starts_dec _ _ tail_char_iff s) as [(d & t & -> & H)|N].
  - rewrite (satisfy_yes _ _ tail_char_iff d t H). intros E. injection E as <- <- <-. cbn. auto.
  - rewrite (satisfy_no _ _ tail_char_iff s N). destruct (escape_spec s) as [(y & u & -> & H & _)|[-> |[-> |(-> & _)]]]; try discriminate.
    intros E. injection E as <- <- <-. split; [reflexivity|]. eapply local_char_shorter; eauto.
Qed.
(** The repetition leaves nothing for the last character. *)
Lemma tail_greedy n : forall s, (length s <= n)%nat -> forall c l r, up_to n tail_one s = Good c l r ->
  tail_one r = Bad false /\ (c = true <-> l <> []) /\ (l = [] -> r = s).
Proof.
  induction n as [|n IH]; intros s L c l r; cbn [up_to].
  - intros E. injection E as <- <- <-. destruct s; [|cbn in L; lia]. split; [reflexivity|]. split; [split; congruence|reflexivity].
  - destruct (tail_one s) as [c1 x t|[|]|] eqn:T; try discriminate.
    + destruct (tail_one_shorter s c1 x t T) as [-> SH]. destruct (up_to n tail_one t) as [c2 m u| |] eqn:U; try discriminate.
      intros E. injection E as <- <- <-. destruct (IH t) with (1 := ltac:(lia) : (length t <= n)%nat) (c := c2) (l := m) (r := u) as (A & _); [exact U|].
      split; [exact A|]. split; [split; [discriminate|reflexivity]|discriminate].
    + intros E. injection E as <- <- <-. split; [exact T|]. split; [split; congruence|reflexivity].
Qed.
Lemma tail_never s c x r : prefixed_name_local_tail s <> Good c x r.
Proof.
  unfold prefixed_name_local_tail. change (por (satisfy (fun c => sp_chars_u c || N.eqb c 46 || N.eqb c 58)) prefixed_local_escape) with tail_one.
  change (por (satisfy (fun c => sp_chars_u c || N.eqb c 58)) prefixed_local_escape) with tail_end.
  unfold pmap, pair, many. destruct (up_to (length s) tail_one s) as [c1 l t| |] eqn:U; try discriminate.
  destruct (tail_greedy (length s) s) with (c := c1) (l := l) (r := t) as (A & _); [lia|exact U|].
  rewrite (tail_end_stops t A). discriminate.
Qed.
(** Before white space there is no tail, and that is accepted. *)
Lemma white_not_tail c : white c -> c <> 0x1680 -> ~ tail_char c /\ c <> 37 /\ c <> 92.
Proof.
  intros W NO. split; [|split; intros ->; apply whitespace_iff in W; discriminate W].
  intros T. apply tail_char_iff in T. unfold white in W. cbn [In] in W.
  repeat (destruct W as [<-|W]; [(discriminate T || congruence)|]). destruct W.
Qed.
Lemma ogham_tail : tail_char 0x1680.
Proof. apply tail_char_iff. reflexivity. Qed.
Lemma tail_one_white s : starts white s -> ~ starts (eq 0x1680) s -> tail_one s = Bad false.
Proof.
  destruct s as [|c s]; [intros []|]. intros W NO. destruct (white_not_tail c W) as (T & A & B); [intros ->; apply NO; reflexivity|].
  unfold tail_one, por. rewrite (satisfy_no _ _ tail_char_iff (c :: s)) by exact T.
  unfold prefixed_local_escape, por. rewrite percent_no by (cbn; congruence). unfold prefixed_name_local_escape. steps.
  rewrite char_no by (cbn; congruence). reflexivity.
Qed.
Lemma tail_empty s : tail_one s = Bad false -> prefixed_name_local_tail s = Bad false.
Proof.
  intros E. unfold prefixed_name_local_tail. change (por (satisfy (fun c => sp_chars_u c || N.eqb c 46 || N.eqb c 58)) prefixed_local_escape) with tail_one.
  change (por (satisfy (fun c => sp_chars_u c || N.eqb c 58)) prefixed_local_escape) with tail_end.
  unfold pmap, pair, many. assert (U : forall n, up_to n tail_one s = Good false [] s) by (intros [|n]; cbn [up_to]; [|rewrite E]; reflexivity).
  rewrite U, (tail_end_stops s E). reflexivity.
Qed.
Lemma tail_bad_false s : prefixed_name_local_tail s = Bad false -> tail_one s = Bad false.
Proof.
  unfold prefixed_name_local_tail. change (por (satisfy (fun c => sp_chars_u c || N.eqb c 46 || N.eqb c 58)) prefixed_local_escape) with tail_one.
  change (por (satisfy (fun c => sp_chars_u c || N.eqb c 58)) prefixed_local_escape) with tail_end.
  unfold pmap, pair, many. destruct s as [|c s]; [reflexivity|]. cbn [length up_to].
  destruct (tail_one (c :: s)) as [c1 x t|[|]|] eqn:T; try discriminate; [|reflexivity].
  destruct (tail_one_shorter _ _ _ _ T) as [-> _]. destruct (up_to (length s) tail_one t); try discriminate.
  destruct (tail_end rest); discriminate.
Qed.

Definition head_one : parser chr := por (satisfy (fun c => sp_chars_u c || N.eqb c 58 || is_digit c)) prefixed_local_escape.
Lemma head_yes x s r : local_char_at x s r -> head_one s = Good true x r.
Proof.
  intros H. unfold head_one, por. destruct H as [c r H|c r H|d r D N|d e r D D'].
  - rewrite (satisfy_yes _ _ local_head_iff c r H). reflexivity.
  - rewrite (satisfy_no _ _ local_head_iff) by (cbn; intros X; apply local_head_iff in X; discriminate X).
    unfold prefixed_local_escape, por. rewrite percent_no by (cbn; congruence). unfold prefixed_name_local_escape. steps.
    rewrite char_yes, (satisfy_yes _ _ escape_iff c r H). reflexivity.
  - rewrite (satisfy_no _ _ local_head_iff) by (cbn; intros X; apply local_head_iff in X; discriminate X).
    unfold prefixed_local_escape, por. destruct (percent_spec (d :: r)) as [(x & u & X & ->)|(T & _)].
    + inversion X as [c r0 LH E1 E2|c r0 E1 E2|d0 r0 D0 N0 E1 E2|d0 e0 r0 D0 D0' E1 E2]; subst; [exfalso; apply local_head_iff in LH; discriminate LH|reflexivity|].
      exfalso. apply N. left. exact D0'.
    + exfalso. destruct T as (t & E & T). injection E as <-. destruct T as [T|(d' & u & E & _ & [T|T])].
      * apply T. left. exact D.
      * injection E as <- <-. contradiction.
      * injection E as <- <-. apply N. destruct r; [destruct T|apply T].
  - rewrite (satisfy_no _ _ local_head_iff) by (cbn; intros X; apply local_head_iff in X; discriminate X).
    unfold prefixed_local_escape, por. destruct (percent_spec (d :: e :: r)) as [(x & u & X & ->)|(T & _)].
    + inversion X as [c r0 LH E1 E2|c r0 E1 E2|d0 r0 D0 N0 E1 E2|d0 e0 r0 D0 D0' E1 E2]; subst; [exfalso; apply local_head_iff in LH; discriminate LH| |reflexivity].
      exfalso. apply N0. left. exact D'.
    + exfalso. destruct T as (t & E & T). injection E as <-. destruct T as [T|(d' & u & E & _ & [T|T])].
      * apply T. left. exact D.
      * injection E as <- <-. contradiction.
      * injection E as <- <-. cbn in T. tauto.
Qed.
Lemma head_sound s c x r : head_one s = Good c x r -> local_char_at x s r.
Proof.
  unfold head_one, por. destruct (starts_dec _ _ local_head_iff s) as [(d & t & -> & H)|N].
  - rewrite (satisfy_yes _ _ local_head_iff d t H). intros E. injection E as <- <- <-. constructor. exact H.
  - rewrite (satisfy_no _ _ local_head_iff s N). destruct (escape_spec s) as [(y & u & -> & H & _)|[-> |[-> |(-> & _)]]]; try discriminate.
    intros E. injection E as <- <- <-. exact H.
Qed.

(** The local names that are read: one character and white space. *)
Theorem local_exact s v r : (exists c, prefixed_name_local s = Good c v r) <->
  exists x t, v = [x] /\ local_char_at x s t /\ starts white t /\ ~ starts (eq 0x1680) t /\ layout_at t r.
Proof.
  unfold prefixed_name_local. change (por (satisfy (fun c => sp_chars_u c || N.eqb c 58 || is_digit c)) prefixed_local_escape) with head_one.
  unfold skip, pmap. unfold pair. split.
  - intros (c & E). destruct (head_one s) as [c1 x t| |] eqn:H; try discriminate. unfold optional in E.
    destruct (prefixed_name_local_tail t) as [c2 y u|[|]|] eqn:T; [destruct (tail_never _ _ _ _ T)| |exists x, t|]; try discriminate.
    unfold whitespace, pmap in E. destruct (starts_dec _ _ whitespace_iff t) as [(d & u & -> & W)|N].
    + destruct (layout_total (d :: u)) as (r' & L). rewrite (layout_more (d :: u) r' W L) in E. injection E as _ <- <-.
      split; [reflexivity|]. split; [eapply head_sound; eauto|]. split; [exact W|]. split; [|exact L].
      cbn. intros <-. apply tail_bad_false in T. unfold tail_one, por in T. rewrite (satisfy_yes _ _ tail_char_iff _ u ogham_tail) in T. discriminate T.
    + unfold space in E. rewrite (many1_none _ _ whitespace_iff t N) in E. discriminate E.
  - intros (x & t & -> & H & W & NO & L). exists true. rewrite (head_yes x s t H). unfold optional.
    rewrite (tail_empty t (tail_one_white t W NO)). unfold whitespace, pmap. rewrite (layout_more t r W L). reflexivity.
Qed.

(** Prefixed names: a namespace alone is never read as one. *)
Theorem prefixed_exact s r : (exists c, prefixed_name s = Good c tt r) <->
  exists p t v, namespace_at p s t /\ (exists c, prefixed_name_local t = Good c v r).
Proof.
  unfold prefixed_name, por, pmap, prefixed_name_local_name, pair. destruct (namespace_spec s) as [(p & t & H)|(b & E & _)].
  - rewrite (namespace_yes p s t H). split.
    + intros (c & E). destruct (prefixed_name_local t) as [c1 v u|b|] eqn:L; try discriminate.
      injection E as _ <-. exists p, t, v. eauto.
    + intros (p' & t' & v & H' & c & E). pose proof (namespace_yes _ _ _ H) as A. rewrite (namespace_yes _ _ _ H') in A.
      injection A as -> ->. rewrite E. eauto.
  - rewrite E. split.
    + intros (c & X). destruct b; discriminate X.
    + intros (p & t & v & H & _). rewrite (namespace_yes p s t H) in E. discriminate E.
Qed.
Theorem local_name_exact s p v r : (exists c, prefixed_name_local_name s = Good c (p, v) r) <->
  exists t, namespace_at p s t /\ (exists c, prefixed_name_local t = Good c v r).
Proof.
  unfold prefixed_name_local_name, pair. split.
  - intros (c & E). destruct (prefixed_name_namespace s) as [c1 q t| |] eqn:N; try discriminate.
    destruct (prefixed_name_local t) as [c2 w u| |] eqn:L; try discriminate. injection E as _ <- <- <-.
    exists t. split; [eapply namespace_sound; eauto|eauto].
  - intros (t & H & c & E). rewrite (namespace_yes p s t H), E. eauto.
Qed.

Lemma white_name c : white c -> name_char c \/ c = 46 \/ c = 58 -> c = 0x1680.
Proof.
  intros W T.
  assert (B : sp_chars c || N.eqb c 46 || N.eqb c 58 = true) by (rewrite !Bool.orb_true_iff, chars_iff, !N.eqb_eq; tauto).
  unfold white in W. cbn [In] in W. repeat (destruct W as [<-|W]; [(reflexivity || discriminate B)|]). destruct W.
Qed.
Theorem long_names_unread c1 c2 s : local_head c1 -> (name_char c2 \/ c2 = 46 \/ c2 = 58) ->
  forall c v r, prefixed_name_local (c1 :: c2 :: s) <> Good c v r.
Proof.
  intros H T c v r E. destruct (proj1 (local_exact (c1 :: c2 :: s) v r) (ex_intro _ c E)) as (x & t & -> & L & W & NO & _).
  assert (X : t = c2 :: s).
  { inversion L as [c0 r0 LH E1 E2|c0 r0 E1 E2|d0 r0 D0 N0 E1 E2|d0 e0 r0 D0 D0' E1 E2]; subst; auto;
      apply local_head_iff in H; discriminate H. }
  subst t. cbn in W, NO. apply NO. symmetry. apply white_name; assumption.
Qed.

(** ** Data sets of a query *)
Section Dataset.
Variable al : chr -> bool.
Theorem dataset_exact s r : (exists c, dataset_clause al s = Good c tt r) <-> exists named i, dataset_at al named i s r.
Proof.
  unfold dataset_clause, skip, pmap, pair. split.
  - intros (c & E). destruct (keyword_spec al $"from" s) as [(t & K & EK)|(N & EK)]; [discriminate| |rewrite EK in E; discriminate E].
    rewrite EK in E. destruct (spaces_spec t) as (c1 & u & E1 & L1). rewrite E1 in E. unfold optional in E.
    destruct (keyword_spec al $"named" u) as [(v & K2 & EK2)|(N & EK2)]; [discriminate| |]; rewrite EK2 in E.
    + destruct (spaces_spec v) as (c2 & w & E2 & L2). rewrite E2 in E. destruct (iri_spec w) as [(i & r' & I)|(b & EI & _)]; [|rewrite EI in E; discriminate E].
      rewrite (iri_yes i w r' I), (spaces_none r' (iri_stop i w r' I)) in E. injection E as _ <-.
      exists true, i, t, u. split; [exact K|]. split; [exact L1|]. exists v, w. auto.
    + rewrite (spaces_none u (layout_stop t u L1)) in E. destruct (iri_spec u) as [(i & r' & I)|(b & EI & _)]; [|rewrite EI in E; discriminate E].
      rewrite (iri_yes i u r' I), (spaces_none r' (iri_stop i u r' I)) in E. injection E as _ <-.
      exists false, i, t, u. split; [exact K|]. split; [exact L1|]. split; [|exact I]. intros k x [<-|[]]. apply N.
  - intros (named & i & t & u & K & L & H). exists true. rewrite (keyword_yes al $"from" s t) by (auto; discriminate).
    destruct (spaces_layout t u L) as (c1 & ->). unfold optional. destruct named.
    + destruct H as (v & w & K2 & L2 & I). rewrite (keyword_yes al $"named" u v) by (auto; discriminate).
      destruct (spaces_layout v w L2) as (c2 & ->). rewrite (iri_yes i w r I), (spaces_none r (iri_stop i w r I)). reflexivity.
    + destruct H as (N & I). rewrite (keyword_no al $"named" u) by (try discriminate; intros x; apply N; left; reflexivity).
      rewrite (spaces_none u (layout_stop t u L)), (iri_yes i u r I), (spaces_none r (iri_stop i u r I)). reflexivity.
Qed.
Theorem keyword_exact k s : k <> [] ->
  (forall r, keyword_at al k s r -> keyword al k s = Good true tt r) /\
  ((forall r, ~ keyword_at al k s r) -> keyword al k s = Bad false).
Proof. intros K. split; [intros r; apply keyword_yes, K|apply keyword_no, K]. Qed.
Theorem decl_exact s r :
  (forall i, decl_at al (DBase i) s r <-> exists c, base_decl al s = Good c i r) /\
  (forall p i, decl_at al (DPrefix p i) s r <-> exists c, prefix_decl al s = Good c (p, i) r).
Proof.
  split; [intros i|intros p i]; (split; [intros H; exists true|intros (c & E)]).
  - apply base_yes, H.
  - eapply base_sound, E.
  - apply prefix_yes, H.
  - eapply prefix_sound, E.
Qed.
Theorem iri_exact s i r : iri_at i s r <-> exists c, iri_ref s = Good c i r.
Proof. split; [intros H; exists true; apply iri_yes, H|intros (c & E); eapply iri_sound, E]. Qed.
Theorem namespace_exact s p r : namespace_at p s r <-> exists c, prefixed_name_namespace s = Good c p r.
Proof. split; [intros H; exists true; apply namespace_yes, H|intros (c & E); eapply namespace_sound, E]. Qed.
Theorem iri_or_name s r : (exists c, sparql_iri s = Good c tt r) <->
  (exists i, iri_at i s r) \/ (exists p t v, namespace_at p s t /\ (exists c, prefixed_name_local t = Good c v r)).
Proof.
  unfold sparql_iri, por, pmap at 1. destruct (iri_spec s) as [(i & r' & I)|(b & E & B)].
  - rewrite (iri_yes i s r' I). split.
    + intros (c & E). injection E as _ <-. left. eauto.
    + intros [(i' & I')|(p & t & v & (P & u & S & _) & _)].
      * pose proof (iri_yes _ _ _ I) as A. rewrite (iri_yes _ _ _ I') in A. injection A as _ ->. eauto.
      * exfalso. destruct I as (_ & y & -> & _). destruct p as [[|c q]|].
        -- destruct P.
        -- cbn in S. injection S as <- _. destruct P as [P _]. apply base_iff in P. discriminate P.
        -- cbn in S. discriminate S.
  - rewrite E. destruct b.
    + split; [intros (c & X); discriminate X|]. intros [(i & I)|(p & t & v & (P & u & S & _) & _)].
      * rewrite (iri_yes _ _ _ I) in E. discriminate E.
      * exfalso. assert (X : starts (eq 60) s) by (apply B; reflexivity). destruct p as [[|c q]|].
        -- destruct P.
        -- subst s. cbn in X. subst c. destruct P as [P _]. apply base_iff in P. discriminate P.
        -- subst s. cbn in X. discriminate X.
    + rewrite prefixed_exact. split; [auto|]. intros [(i & I)|H]; [|exact H]. rewrite (iri_yes _ _ _ I) in E. discriminate E.
Qed.
End Dataset.
