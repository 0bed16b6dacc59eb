From Verif Require Import StrFacts PName PNameSpec.

(** ** Character classes *)

Lemma in_range_iff lo hi c : in_range lo hi c = true <-> lo <= c /\ c <= hi.
Proof. unfold in_range. rewrite andb_true_iff, !N.leb_le. tauto. Qed.

Lemma within_nil c : within c [] <-> False.
Proof. unfold within. split; [intros (lo & hi & [] & _)|tauto]. Qed.

Lemma within_cons c lo hi t : within c ((lo, hi) :: t) <-> (lo <= c /\ c <= hi) \/ within c t.
Proof.
  unfold within. split.
  - intros (l & h & [E|Hin] & H); [injection E as -> ->; tauto|right; eauto].
  - intros [H|(l & h & Hin & H)].
    + exists lo, hi. split; [left; reflexivity|exact H].
    + exists l, h. split; [right; exact Hin|exact H].
Qed.

Lemma is_pn_chars_base_iff c : is_pn_chars_base c = true <-> PN_CHARS_BASE c.
Proof.
  unfold is_pn_chars_base, PN_CHARS_BASE.
  rewrite !orb_true_iff, !in_range_iff, !within_cons, within_nil. tauto.
Qed.

Lemma is_pn_chars_u_iff c : is_pn_chars_u c = true <-> PN_CHARS_U c.
Proof.
  unfold is_pn_chars_u, PN_CHARS_U. rewrite orb_true_iff, is_pn_chars_base_iff, N.eqb_eq. tauto.
Qed.

Lemma is_digit_iff c : is_digit c = true <-> DIGIT c.
Proof. unfold is_digit, DIGIT. rewrite in_range_iff, within_cons, within_nil. tauto. Qed.

Lemma is_pn_chars_iff c : is_pn_chars c = true <-> PN_CHARS c.
Proof.
  unfold is_pn_chars, PN_CHARS.
  rewrite !orb_true_iff, is_pn_chars_u_iff, is_digit_iff, !in_range_iff, !N.eqb_eq.
  unfold DIGIT. rewrite !within_cons, within_nil.
  assert (c = 0xB7 <-> 183 <= c /\ c <= 183) by lia. tauto.
Qed.

Lemma is_pn_local_first_iff c : is_pn_local_first c = true <-> PN_CHARS_U c \/ DIGIT c.
Proof. unfold is_pn_local_first. rewrite orb_true_iff, is_pn_chars_u_iff, is_digit_iff. tauto. Qed.

Lemma is_rest_iff c : is_pn_prefix_local_rest c = true <-> PN_CHARS_or_dot c.
Proof. unfold is_pn_prefix_local_rest, PN_CHARS_or_dot. rewrite orb_true_iff, is_pn_chars_iff, N.eqb_eq. tauto. Qed.

Lemma forallb_rest_iff l : forallb is_pn_prefix_local_rest l = true <-> Forall PN_CHARS_or_dot l.
Proof.
  rewrite forallb_forall, Forall_forall. split; intros H x Hx; apply is_rest_iff, H, Hx.
Qed.

Lemma sep_not_rest : ~ PN_CHARS_or_dot 58.
Proof. rewrite <- is_rest_iff. vm_compute. discriminate. Qed.

Lemma sep_not_base : ~ PN_CHARS_BASE 58.
Proof. rewrite <- is_pn_chars_base_iff. vm_compute. discriminate. Qed.

Lemma dot_not_chars : ~ PN_CHARS 46.
Proof. rewrite <- is_pn_chars_iff. vm_compute. discriminate. Qed.

(** ** dotted, in the shape the acceptors test it *)

Lemma dotted_iff (first : chr -> Prop) c rest :
  ~ first 46 ->
  dotted first (c :: rest) <->
  first c /\ Forall PN_CHARS_or_dot rest /\ ends_with_chr 46 (c :: rest) = false.
Proof.
  intros Hdot. split.
  - intros H. inversion H as [c' Hc E|c' mid d Hc Hmid Hd E]; subst.
    + split; [exact Hc|]. split; [constructor|].
      simpl. apply N.eqb_neq. intros ->. exact (Hdot Hc).
    + split; [exact Hc|]. split.
      * apply Forall_app. split; [exact Hmid|]. constructor; [left; exact Hd|constructor].
      * change (c :: mid ++ [d]) with ((c :: mid) ++ [d]). rewrite ends_with_chr_snoc.
        apply N.eqb_neq. intros ->. exact (dot_not_chars Hd).
  - intros (Hc & Hrest & He). destruct rest as [|d mid _] using rev_ind.
    + constructor. exact Hc.
    + apply Forall_app in Hrest as [Hmid Hd]. inversion Hd as [|? ? Hd' _]; subst.
      change (c :: mid ++ [d]) with ((c :: mid) ++ [d]) in He. rewrite ends_with_chr_snoc in He.
      apply N.eqb_neq in He. constructor; auto. destruct Hd'; [assumption|congruence].
Qed.

(** ** C01 *)

Lemma name_from_str_ok s n : name_from_str s = Ok n <-> PN_LOCAL s /\ name_text n = s.
Proof.
  unfold PN_LOCAL. destruct s as [|c rest].
  - simpl. split; [discriminate|]. intros [H _]. inversion H.
  - rewrite dotted_iff.
    2:{ intros H. apply is_pn_local_first_iff in H. vm_compute in H. discriminate. }
    cbv beta. pose proof (is_pn_local_first_iff c) as Hf. rewrite <- Hf, <- forallb_rest_iff. clear Hf.
    unfold name_from_str. destruct (ends_with_chr 46 (c :: rest)); [split; [discriminate|intros [(_ & _ & E) _]; discriminate]|].
    destruct (is_pn_local_first c && forallb is_pn_prefix_local_rest rest) eqn:E.
    + apply andb_true_iff in E as [-> ->]. split.
      * intros H; injection H as <-. auto.
      * intros [_ H]. destruct n as [t]; simpl in H; subst. reflexivity.
    + split; [discriminate|]. intros [(Ha & Hb & _) _]. rewrite Ha, Hb in E. discriminate.
Qed.

Lemma name_from_str_dec s : (exists n, name_from_str s = Ok n) <-> PN_LOCAL s.
Proof.
  split.
  - intros [n H]. apply name_from_str_ok in H. tauto.
  - intros H. exists (MkName s). apply name_from_str_ok. auto.
Qed.

Lemma c01_name_grammar s :
  (forall n, name_from_str s = Ok n <-> PN_LOCAL s /\ name_text n = s) /\
  (name_is_valid_str s = true <-> PN_LOCAL s).
Proof.
  split; [intros n; apply name_from_str_ok|].
  rewrite <- name_from_str_dec. unfold name_is_valid_str.
  destruct (name_from_str s) as [n|e]; simpl; split; try discriminate; eauto.
  intros [n H]; discriminate.
Qed.

(** ** C02 *)

Lemma lax_snoc c rest : PNAME_NS_lax ((c :: rest) ++ [58]) -> PN_CHARS_BASE c /\ Forall PN_CHARS_or_dot rest.
Proof.
  remember ((c :: rest) ++ [58]) as s eqn:E. intros H. destruct H as [|c' mid Hc Hm].
  - destruct rest; discriminate.
  - injection E as -> E. apply app_inj_tail in E as [-> _]. auto.
Qed.

Lemma namespace_from_str_ok s n : namespace_from_str s = Ok n <-> PNAME_NS_lax s /\ ns_text n = s.
Proof.
  unfold namespace_from_str. destruct s as [|x s'] eqn:Es.
  - split; [discriminate|]. intros [H _]. inversion H as [|c mid ? ? E].
  - rewrite <- Es. clear x s' Es. destruct (str_eqb s ns_default_string) eqn:Ed.
    + apply str_eqb_eq in Ed. subst. split.
      * intros H; injection H as <-. split; [constructor|reflexivity].
      * intros [_ H]. destruct n; simpl in H; subst; reflexivity.
    + apply str_eqb_neq in Ed. destruct (strip_suffix_chr sep s) as [p|] eqn:Ep.
      * apply strip_suffix_chr_Some in Ep. subst s.
        destruct (contains_chr sep p) eqn:Ec.
        -- split; [discriminate|]. intros [H _]. exfalso.
           apply contains_chr_In in Ec. inversion H as [E|c mid Hc Hm E].
           ++ apply Ed. symmetry. exact E.
           ++ change (c :: mid ++ [58]) with ((c :: mid) ++ [58]) in E.
              apply app_inj_tail in E as [<- _]. destruct Ec as [E|Hin].
              ** apply sep_not_base. rewrite E in Hc. exact Hc.
              ** rewrite Forall_forall in Hm. apply sep_not_rest, Hm, Hin.
        -- destruct p as [|c rest]; [exfalso; apply Ed; reflexivity|].
           destruct (is_pn_chars_base c && forallb is_pn_prefix_local_rest rest) eqn:E.
           ++ apply andb_true_iff in E as [H1 H2].
              apply is_pn_chars_base_iff in H1. apply forallb_rest_iff in H2. split.
              ** intros H; injection H as <-. split; [|reflexivity]. apply lax_prefix; assumption.
              ** intros [_ H]. destruct n; simpl in H; subst; reflexivity.
           ++ split; [discriminate|]. intros [H _]. exfalso. apply lax_snoc in H as [Hc Hm].
              apply is_pn_chars_base_iff in Hc. apply forallb_rest_iff in Hm.
              rewrite Hc, Hm in E. discriminate.
      * split; [discriminate|]. intros [H _]. exfalso. apply strip_suffix_chr_None in Ep.
        inversion H as [E|c mid Hc Hm E]; subst.
        -- vm_compute in Ep. discriminate.
        -- change (c :: mid ++ [58]) with ((c :: mid) ++ [sep]) in Ep.
           rewrite ends_with_chr_app in Ep. discriminate.
Qed.

Lemma lax_iff s : PNAME_NS_lax s <-> PNAME_NS s \/ exists c mid, PN_CHARS_BASE c /\ Forall PN_CHARS_or_dot mid /\ s = c :: mid ++ [46; 58].
Proof.
  split.
  - intros H. inversion H as [|c mid Hc Hm]; subst; [left; constructor|].
    destruct mid as [|d mid _] using rev_ind.
    + left. apply (pname_ns_prefix [c]). constructor. exact Hc.
    + apply Forall_app in Hm as [Hm Hd]. inversion Hd as [|? ? Hd' _]; subst.
      destruct Hd' as [Hd'| ->].
      * left. apply (pname_ns_prefix (c :: mid ++ [d])). constructor; assumption.
      * right. exists c, mid. rewrite <- app_assoc. auto.
  - intros [H|(c & mid & Hc & Hm & ->)].
    + inversion H as [|p Hp]; subst; [constructor|].
      inversion Hp as [c Hc|c mid d Hc Hm Hd]; subst.
      * apply (lax_prefix c []); [exact Hc|constructor].
      * change ((c :: mid ++ [d]) ++ [58]) with (c :: (mid ++ [d]) ++ [58]).
        apply lax_prefix; [exact Hc|]. apply Forall_app. split; [exact Hm|]. constructor; [left; exact Hd|constructor].
    + change [46; 58] with ([46] ++ [58]). rewrite app_assoc.
      apply lax_prefix; [exact Hc|]. apply Forall_app. split; [exact Hm|]. constructor; [right; reflexivity|constructor].
Qed.

Lemma c02_namespace_exact s :
  (forall n, namespace_from_str s = Ok n <->
     ns_text n = s /\
     (PNAME_NS s \/ exists c mid, PN_CHARS_BASE c /\ Forall PN_CHARS_or_dot mid /\ s = c :: mid ++ [46; 58])) /\
  (namespace_is_valid_str s = true <-> exists n, namespace_from_str s = Ok n).
Proof.
  split.
  - intros n. rewrite namespace_from_str_ok, lax_iff. tauto.
  - unfold namespace_is_valid_str. destruct (namespace_from_str s) as [n|e]; simpl; split; try discriminate; eauto.
    intros [n H]; discriminate.
Qed.

Lemma pname_ns_not_trailing_dot c : ~ PNAME_NS (c ++ [46; 58]).
Proof.
  intros H. inversion H as [E|p Hp E].
  - destruct c as [|? [|? ?]]; discriminate.
  - change [46; 58] with ([46] ++ [58]) in E. rewrite app_assoc in E. apply app_inj_tail in E as [-> _].
    inversion Hp as [d Hd E|d mid e Hd Hm He E].
    + destruct c as [|? [|? ?]]; try discriminate. injection E as ->.
      apply is_pn_chars_base_iff in Hd. vm_compute in Hd. discriminate.
    + change (d :: mid ++ [e]) with ((d :: mid) ++ [e]) in E.
      apply app_inj_tail in E as [_ ->]. exact (dot_not_chars He).
Qed.

Lemma c02_namespace_refuted :
  exists s n, namespace_from_str s = Ok n /\ ~ PNAME_NS s.
Proof.
  exists $"a.:", (MkNamespace $"a.:"). split; [reflexivity|].
  apply (pname_ns_not_trailing_dot $"a").
Qed.

Lemma c02_namespace_complete s : PNAME_NS s -> namespace_from_str s = Ok (MkNamespace s).
Proof. intros H. apply namespace_from_str_ok. split; [apply lax_iff; left; exact H|reflexivity]. Qed.

(** ** Structure of accepted namespaces *)

Lemma lax_sep s : PNAME_NS_lax s -> exists p, s = p ++ [58] /\ ~ In 58 p.
Proof.
  intros H. inversion H as [|c mid Hc Hm]; subst.
  - exists []. split; [reflexivity|intros []].
  - exists (c :: mid). split; [reflexivity|]. intros [->|Hin].
    + exact (sep_not_base Hc).
    + rewrite Forall_forall in Hm. exact (sep_not_rest (Hm _ Hin)).
Qed.

(** ** C03 *)

Lemma local_name_from_display ns n sns sn :
  namespace_from_str sns = Ok ns -> name_from_str sn = Ok n ->
  local_name_from_str (local_name_display (MkLocalName ns n)) = Ok (MkLocalName ns n).
Proof.
  intros Hns Hn. pose proof Hns as Hns'. pose proof Hn as Hn'.
  apply namespace_from_str_ok in Hns' as [Hlax Ens]. apply name_from_str_ok in Hn' as [_ En].
  unfold local_name_display, namespace_display, name_display. cbn [ln_namespace ln_name].
  rewrite Ens, En. destruct (lax_sep _ Hlax) as (p & -> & Hp).
  assert (Hsf : split_first sep ((p ++ [58]) ++ sn) = Some (p, sn)).
  { apply split_first_Some. split; [rewrite <- app_assoc; reflexivity|exact Hp]. }
  assert (Hne : (p ++ [58]) ++ sn <> []) by (destruct p; discriminate).
  revert Hsf Hne. generalize ((p ++ [58]) ++ sn). intros s Hsf Hne.
  unfold local_name_from_str. rewrite Hsf. change (p ++ [sep]) with (p ++ [58]). rewrite Hns, Hn.
  destruct s; [congruence|reflexivity].
Qed.

Lemma local_name_display_from s l :
  local_name_from_str s = Ok l ->
  local_name_display l = s /\
  namespace_from_str (ns_text (ln_namespace l)) = Ok (ln_namespace l) /\
  name_from_str (name_text (ln_name l)) = Ok (ln_name l).
Proof.
  unfold local_name_from_str. destruct s as [|x s'] eqn:Es; [discriminate|]. rewrite <- Es. clear x s' Es.
  destruct (split_first sep s) as [[a b]|] eqn:E; [|discriminate].
  apply split_first_Some in E as [-> _].
  destruct (namespace_from_str (a ++ [sep])) as [ns|] eqn:E1; [|discriminate].
  destruct (name_from_str b) as [n|] eqn:E2; [|discriminate].
  intros H; injection H as <-. unfold local_name_display, namespace_display, name_display. cbn [ln_namespace ln_name].
  assert (H1 : ns_text ns = a ++ [sep]) by (apply namespace_from_str_ok in E1; tauto).
  assert (H2 : name_text n = b) by (apply name_from_str_ok in E2; tauto).
  rewrite H1, H2, E1, E2. rewrite <- app_assoc. auto.
Qed.

Lemma local_name_from_str_iff s l :
  local_name_from_str s = Ok l <->
  local_name_display l = s /\ PNAME_NS_lax (ns_text (ln_namespace l)) /\ PN_LOCAL (name_text (ln_name l)).
Proof.
  split.
  - intros H. apply local_name_display_from in H as (H1 & H2 & H3). split; [exact H1|].
    apply namespace_from_str_ok in H2. apply name_from_str_ok in H3. tauto.
  - intros (<- & H1 & H2). destruct l as [ns n]; cbn [ln_namespace ln_name] in *.
    eapply local_name_from_display.
    + apply namespace_from_str_ok. split; [exact H1|reflexivity].
    + apply name_from_str_ok. split; [exact H2|reflexivity].
Qed.

Lemma local_name_display_inj l1 l2 s1 s2 :
  local_name_from_str s1 = Ok l1 -> local_name_from_str s2 = Ok l2 ->
  local_name_display l1 = local_name_display l2 -> l1 = l2.
Proof.
  intros H1 H2 E. destruct (local_name_display_from _ _ H1) as [E1 _].
  destruct (local_name_display_from _ _ H2) as [E2 _].
  assert (s1 = s2) by congruence. subst. congruence.
Qed.

(** ** C04 *)

Lemma with_sep_ends s : ends_with_chr sep (with_sep s) = true.
Proof. unfold with_sep. destruct (ends_with_chr sep s) eqn:E; [exact E|apply ends_with_chr_app]. Qed.

Lemma obtained_ends n : namespace_obtained n -> ends_with_chr sep (ns_text n) = true.
Proof.
  assert (A : forall s n, namespace_from_str s = Ok n -> ends_with_chr sep (ns_text n) = true).
  { intros s m H. apply namespace_from_str_ok in H as [H ->].
    destruct (lax_sep _ H) as (p & -> & _). apply ends_with_chr_app. }
  intros H. destruct H as [s n H|s n H| |s|s l H].
  - eapply A; eauto.
  - eapply A; eauto.
  - reflexivity.
  - apply with_sep_ends.
  - eapply A. apply local_name_display_from in H as (_ & H & _). exact H.
Qed.

Lemma c04_name_string n :
  namespace_obtained n ->
  exists p, ns_text n = p ++ [sep] /\
    (p = [] -> namespace_is_default n = true /\ namespace_name_string n = Ret None) /\
    (p <> [] -> namespace_is_default n = false /\ namespace_name_string n = Ret (Some p)).
Proof.
  intros H. apply obtained_ends, ends_with_chr_iff in H as [p Hp]. exists p. split; [exact Hp|].
  unfold namespace_is_default, namespace_name_string. rewrite Hp, strip_suffix_chr_app.
  destruct p as [|c p].
  - split; [intros _; split; reflexivity|congruence].
  - split; [discriminate|]. intros _. split; [|reflexivity].
    apply str_eqb_neq. intros E. destruct p; discriminate.
Qed.

Lemma with_sep_idem s : with_sep (with_sep s) = with_sep s.
Proof. unfold with_sep at 1. rewrite with_sep_ends. reflexivity. Qed.

Lemma with_sep_snoc s : ends_with_chr sep s = false -> with_sep (s ++ [sep]) = with_sep s.
Proof. intros E. unfold with_sep. rewrite ends_with_chr_app, E. reflexivity. Qed.

Lemma c04_sep_optional s :
  ends_with_chr sep s = false ->
  namespace_new_named (s ++ [sep]) = namespace_new_named s /\
  namespace_new_unchecked (s ++ [sep]) = namespace_new_unchecked s /\
  ns_text (namespace_new_unchecked s) = s ++ [sep].
Proof.
  intros E. unfold namespace_new_named, namespace_new_unchecked. rewrite with_sep_snoc by exact E.
  repeat split. simpl. unfold with_sep. rewrite E. reflexivity.
Qed.

Lemma c04_unchecked_agrees s n : namespace_new_named s = Ok n -> namespace_new_unchecked s = n.
Proof.
  intros H. apply namespace_from_str_ok in H as [_ H]. unfold namespace_new_unchecked.
  destruct n; simpl in H; subst; reflexivity.
Qed.

(** ** C05 *)

Lemma c05_namespace_errors s e :
  namespace_from_str s = Err e ->
  (s = [] /\ e = EmptyString) \/
  (s <> [] /\ (forall p, s <> p ++ [58]) /\ e = MissingSeparator s) \/
  (exists p, s = p ++ [58] /\ In 58 p /\ e = TooManySeparators s) \/
  (exists p, s = p ++ [58] /\ ~ In 58 p /\ ~ PNAME_NS s /\ e = InvalidCharacter s).
Proof.
  unfold namespace_from_str. destruct s as [|x s'] eqn:Es; [intros H; injection H as <-; auto|].
  rewrite <- Es. assert (Hne : s <> []) by (rewrite Es; discriminate). clear x s' Es.
  destruct (str_eqb s ns_default_string) eqn:Ed; [discriminate|].
  apply str_eqb_neq in Ed.
  destruct (strip_suffix_chr sep s) as [p|] eqn:Ep.
  - apply strip_suffix_chr_Some in Ep. destruct (contains_chr sep p) eqn:Ec.
    + intros H; injection H as <-. right; right; left. exists p. apply contains_chr_In in Ec. auto.
    + apply contains_chr_false in Ec. destruct p as [|c rest]; [discriminate|].
      destruct (is_pn_chars_base c && forallb is_pn_prefix_local_rest rest) eqn:E; [discriminate|].
      intros H; injection H as <-. right; right; right. exists (c :: rest). repeat split; auto.
      intros Hp. apply c02_namespace_complete in Hp. subst s.
      apply namespace_from_str_ok in Hp as [Hp _].
      apply lax_snoc in Hp as [Hc Hm].
      apply is_pn_chars_base_iff in Hc. apply forallb_rest_iff in Hm. rewrite Hc, Hm in E. discriminate.
  - intros H; injection H as <-. right; left. split; [exact Hne|]. split; [|reflexivity].
    intros p ->. apply strip_suffix_chr_None in Ep. rewrite ends_with_chr_app in Ep. discriminate.
Qed.

(** The error alternatives exclude one another, so the classification is exact. *)
Lemma c05_namespace_classify s :
  (namespace_from_str s = Err EmptyString <-> s = []) /\
  (namespace_from_str s = Err (MissingSeparator s) <-> s <> [] /\ forall p, s <> p ++ [58]) /\
  (namespace_from_str s = Err (TooManySeparators s) <-> exists p, s = p ++ [58] /\ In 58 p) /\
  (namespace_from_str s = Err (InvalidCharacter s) <->
     (exists p, s = p ++ [58] /\ ~ In 58 p) /\ ~ PNAME_NS_lax s) /\
  (forall e, namespace_from_str s = Err e ->
     e = EmptyString \/ e = MissingSeparator s \/ e = TooManySeparators s \/ e = InvalidCharacter s).
Proof.
  assert (Hex : forall P : Prop, (forall p, s = p ++ [58] -> In 58 p -> ~ P) -> (exists p, s = p ++ [58] /\ In 58 p) -> ~ P).
  { intros P H (p & Hp & Hin). eauto. }
  destruct (namespace_from_str s) as [n|e] eqn:En.
  - pose proof (proj1 (namespace_from_str_ok _ _) En) as [Hlax _].
    destruct (lax_sep _ Hlax) as (p & Hp & Hn).
    repeat split; try discriminate.
    + intros ->. destruct p; discriminate.
    + intros [_ H]. exfalso. exact (H p Hp).
    + intros (q & Hq & Hin). exfalso. rewrite Hp in Hq. apply app_inj_tail in Hq as [-> _]. exact (Hn Hin).
    + intros [_ H]. contradiction.
  - assert (Hnl : ~ PNAME_NS_lax s).
    { intros H. assert (H2 : namespace_from_str s = Ok (MkNamespace s)) by (apply namespace_from_str_ok; auto). congruence. }
    destruct (c05_namespace_errors _ _ En) as [[Hs ->]|[[Hs [Hp ->]]|[(p & Hp & Hin & ->)|(p & Hp & Hn & _ & ->)]]].
    + subst s. repeat split; try discriminate; try congruence.
      * intros [H _]. congruence.
      * intros (p & H & _). destruct p; discriminate.
      * intros [(p & H & _) _]. destruct p; discriminate.
      * intros e H; injection H as <-. auto.
    + repeat split; try discriminate; try congruence.
      * intros (p & H & _). exfalso. eapply Hp; eauto.
      * intros [(p & H & _) _]. exfalso. eapply Hp; eauto.
      * intros e H; injection H as <-. auto.
    + repeat split; try discriminate; try congruence.
      * intros ->. destruct p; discriminate.
      * intros [_ H]. exfalso. eapply H; eauto.
      * intros _. eauto.
      * intros [(q & Hq & Hn) _]. exfalso. rewrite Hp in Hq. apply app_inj_tail in Hq as [-> _]. exact (Hn Hin).
      * intros e H; injection H as <-. auto.
    + repeat split; try discriminate; try congruence.
      * intros ->. destruct p; discriminate.
      * intros [_ H]. exfalso. eapply H; eauto.
      * intros (q & Hq & Hin). exfalso. rewrite Hp in Hq. apply app_inj_tail in Hq as [-> _]. exact (Hn Hin).
      * eauto.
      * intros e H; injection H as <-. auto.
Qed.

Lemma c05_name_classify s :
  (name_from_str s = Err EmptyString <-> s = []) /\
  (name_from_str s = Err (InvalidCharacter s) <-> s <> [] /\ ~ PN_LOCAL s) /\
  (forall e, name_from_str s = Err e -> e = EmptyString \/ e = InvalidCharacter s).
Proof.
  destruct (name_from_str s) as [n|e] eqn:En.
  - pose proof (proj1 (name_from_str_ok _ _) En) as [Hl _]. repeat split; try discriminate.
    + intros ->. inversion Hl.
    + intros [_ H]. contradiction.
  - assert (Hnl : ~ PN_LOCAL s).
    { intros H. assert (H2 : name_from_str s = Ok (MkName s)) by (apply name_from_str_ok; auto). congruence. }
    destruct s as [|c r].
    + simpl in En. injection En as <-. repeat split; try discriminate; try congruence.
      * intros [H _]. congruence.
      * intros e H; injection H as <-. auto.
    + assert (e = InvalidCharacter (c :: r)) as ->.
      { unfold name_from_str in En. destruct (ends_with_chr 46 (c :: r)); [congruence|].
        destruct (is_pn_local_first c && forallb is_pn_prefix_local_rest r); congruence. }
      repeat split; try discriminate; try congruence.
      intros e H; injection H as <-. auto.
Qed.

Lemma c05_local_classify s :
  (local_name_from_str s = Err EmptyString <->
     s = [] \/ exists p, s = p ++ [58] /\ ~ In 58 p /\ PNAME_NS_lax s) /\
  (local_name_from_str s = Err (MissingSeparator s) <-> s <> [] /\ ~ In 58 s) /\
  (forall e, local_name_from_str s = Err e ->
     e = EmptyString \/ e = MissingSeparator s \/ exists t, e = InvalidCharacter t) /\
  (forall t, local_name_from_str s <> Err (TooManySeparators t)).
Proof.
  assert (Hns : forall a, ~ In 58 a -> namespace_from_str (a ++ [sep]) <> Err EmptyString /\
     (forall e, namespace_from_str (a ++ [sep]) = Err e -> e = InvalidCharacter (a ++ [sep]))).
  { intros a Ha. assert (A : forall e, namespace_from_str (a ++ [sep]) = Err e -> e = InvalidCharacter (a ++ [sep])).
    { intros e He. destruct (c05_namespace_errors _ _ He) as [[H _]|[[_ [H _]]|[(p & H & Hin & _)|(p & _ & _ & _ & ->)]]].
      - destruct a; discriminate.
      - exfalso. apply (H a). reflexivity.
      - apply app_inj_tail in H as [-> _]. contradiction.
      - reflexivity. }
    split; [|exact A]. intros He. apply A in He. discriminate. }
  unfold local_name_from_str. destruct s as [|x s'] eqn:Es.
  - split; [|split; [|split]].
    + tauto.
    + split; [discriminate|]. intros [H _]; congruence.
    + intros e H; injection H as <-. auto.
    + discriminate.
  - rewrite <- Es. assert (Hne : s <> []) by (rewrite Es; discriminate). clear x s' Es.
    destruct (split_first sep s) as [[a b]|] eqn:E.
    + apply split_first_Some in E as [-> Ha]. destruct (Hns a Ha) as [H1 H2].
      assert (Hin : In 58 (a ++ sep :: b)) by (apply in_or_app; right; left; reflexivity).
      assert (Hb : forall p, a ++ sep :: b = p ++ [58] -> ~ In 58 p -> b = []).
      { intros p Hp Hn. destruct b as [|y b _] using rev_ind; [reflexivity|].
        exfalso. apply Hn. change (sep :: b ++ [y]) with ((sep :: b) ++ [y]) in Hp. rewrite app_assoc in Hp.
        apply app_inj_tail in Hp as [<- _]. apply in_or_app. right. left. reflexivity. }
      destruct (namespace_from_str (a ++ [sep])) as [ns|e] eqn:En.
      * destruct (c05_name_classify b) as (C1 & C2 & C3).
        destruct (name_from_str b) as [n|e] eqn:Eb.
        -- split; [|split; [|split]]; try discriminate.
           ++ split; [discriminate|]. intros [H|(p & Hp & Hn & _)]; [destruct a; discriminate|].
              apply Hb in Hp; [|exact Hn]. subst. simpl in Eb. discriminate.
           ++ split; [discriminate|]. intros [_ H]. contradiction.
        -- destruct (C3 e eq_refl) as [-> | ->].
           ++ assert (b = []) as -> by (apply C1; reflexivity).
              split; [|split; [|split]]; try discriminate.
              ** split; [|reflexivity]. intros _. right. exists a. apply namespace_from_str_ok in En.
                 split; [reflexivity|]. split; [exact Ha|]. tauto.
              ** split; [discriminate|]. intros [_ H]. contradiction.
              ** intros e H; injection H as <-. auto.
           ++ split; [|split; [|split]]; try discriminate.
              ** split; [discriminate|]. intros [H|(p & Hp & Hn & _)]; [destruct a; discriminate|].
                 apply Hb in Hp; [|exact Hn]. subst. simpl in Eb. discriminate.
              ** split; [discriminate|]. intros [_ H]. contradiction.
              ** intros e H; injection H as <-. eauto.
      * rewrite (H2 e eq_refl) in *. split; [|split; [|split]]; try discriminate.
        -- split; [discriminate|]. intros [H|(p & Hp & Hn & Hl)]; [destruct a; discriminate|].
           pose proof (Hb _ Hp Hn). subst b.
           assert (H3 : namespace_from_str (a ++ [sep]) = Ok (MkNamespace (a ++ [sep]))) by (apply namespace_from_str_ok; auto).
           congruence.
        -- split; [discriminate|]. intros [_ H]. contradiction.
        -- intros e' H; injection H as <-. eauto.
    + apply split_first_None in E. split; [|split; [|split]]; try discriminate.
      * split; [discriminate|]. intros [H|(p & -> & _)]; [congruence|]. exfalso. apply E. apply in_or_app. right; left; reflexivity.
      * split; auto.
      * intros e H; injection H as <-. auto.
Qed.

Lemma c05_local_invalid s t :
  local_name_from_str s = Err (InvalidCharacter t) <->
  exists p q, s = p ++ $":" ++ q /\ ~ In 58 p /\
    (t = p ++ $":" /\ ~ PNAME_NS_lax (p ++ $":") \/ PNAME_NS_lax (p ++ $":") /\ t = q /\ q <> [] /\ ~ PN_LOCAL q).
Proof.
  assert (Hns : forall p, ~ In 58 p -> (PNAME_NS_lax (p ++ $":") /\ exists n, namespace_from_str (p ++ $":") = Ok n) \/
    (~ PNAME_NS_lax (p ++ $":") /\ namespace_from_str (p ++ $":") = Err (InvalidCharacter (p ++ $":")))).
  { intros p Hp. destruct (namespace_from_str (p ++ $":")) as [n|e] eqn:E.
    - left. split; [|eauto]. apply namespace_from_str_ok in E. tauto.
    - right. assert (L : ~ PNAME_NS_lax (p ++ $":")).
      { intros L. assert (K := proj2 (namespace_from_str_ok (p ++ $":") (MkNamespace (p ++ $":"))) (conj L eq_refl)). congruence. }
      split; [exact L|]. rewrite <- E. apply (proj2 (proj1 (proj2 (proj2 (proj2 (c05_namespace_classify (p ++ $":"))))))).
      split; [exists p; split; [reflexivity|exact Hp]|exact L]. }
  unfold local_name_from_str. destruct s as [|x s'] eqn:Es.
  - split; [discriminate|]. intros (p & q & H & _). destruct p; discriminate.
  - rewrite <- Es. clear x s' Es. destruct (split_first sep s) as [[a b]|] eqn:E.
    + apply split_first_Some in E as [-> Ha].
      assert (U : forall p q, a ++ sep :: b = p ++ $":" ++ q -> ~ In 58 p -> p = a /\ q = b).
      { intros p q H Hp. assert (K : split_first sep (a ++ sep :: b) = Some (a, b)) by (apply split_first_Some; auto).
        assert (K' : split_first sep (a ++ sep :: b) = Some (p, q)) by (apply split_first_Some; auto). split; congruence. }
      destruct (Hns a Ha) as [[L [n N]]|[L N]]; change (a ++ [sep]) with (a ++ $":"); rewrite N.
      * destruct (c05_name_classify b) as (N1 & N2 & N3). destruct (name_from_str b) as [m|e] eqn:B.
        -- split; [discriminate|]. intros (p & q & H & Hp & K). destruct (U _ _ H Hp) as [-> ->].
           destruct K as [[_ K]|(_ & _ & K1 & K2)]; [contradiction|]. discriminate (proj2 N2 (conj K1 K2)).
        -- split.
           ++ intros [=->]. exists a, b. split; [reflexivity|]. split; [exact Ha|]. right.
              destruct (N3 _ eq_refl) as [K|K]; [discriminate|]. injection K as ->. destruct (proj1 N2 eq_refl). auto.
           ++ intros (p & q & H & Hp & K). destruct (U _ _ H Hp) as [-> ->].
              destruct K as [[_ K]|(_ & -> & K1 & K2)]; [contradiction|]. assert (J := proj2 N2 (conj K1 K2)). injection J as ->. reflexivity.
      * split.
        -- intros [=<-]. exists a, b. split; [reflexivity|]. auto.
        -- intros (p & q & H & Hp & K). destruct (U _ _ H Hp) as [-> ->].
           destruct K as [[-> _]|(K & _)]; [reflexivity|contradiction].
    + split; [discriminate|]. intros (p & q & -> & _). apply split_first_None in E. exfalso. apply E.
      apply in_or_app. right. left. reflexivity.
Qed.
