(** Facts about Str.v. *)
From Coq Require Export ZArith Lia ZifyBool ZifyN ZifyNat.
From Verif Require Export Str.
Open Scope N_scope.
Open Scope list_scope.
Ltac Zify.zify_post_hook ::= Z.div_mod_to_equations.

(** ** Total orders given by a comparison function *)

Record total_order {A} (cmp : A -> A -> comparison) : Prop := {
  to_eq : forall a b, cmp a b = Eq <-> a = b;
  to_opp : forall a b, cmp b a = CompOpp (cmp a b);
  to_trans : forall a b c, cmp a b = Lt -> cmp b c = Lt -> cmp a c = Lt
}.

Lemma N_total : total_order N.compare.
Proof.
  constructor; intros.
  - apply N.compare_eq_iff.
  - apply N.compare_antisym.
  - rewrite N.compare_lt_iff in *. lia.
Qed.

Lemma to_refl {A} (cmp : A -> A -> comparison) : total_order cmp -> forall a, cmp a a = Eq.
Proof. intros H a. apply (to_eq _ H). reflexivity. Qed.

Lemma to_lt_irrefl {A} (cmp : A -> A -> comparison) : total_order cmp -> forall a, cmp a a <> Lt.
Proof. intros H a. rewrite (to_refl _ H). discriminate. Qed.

Lemma to_gt_lt {A} (cmp : A -> A -> comparison) : total_order cmp ->
  forall a b, cmp a b = Gt <-> cmp b a = Lt.
Proof.
  intros H a b. rewrite (to_opp _ H a b). destruct (cmp a b); simpl; split; congruence.
Qed.

Lemma list_cmp_total {A} (c : A -> A -> comparison) : total_order c -> total_order (list_cmp c).
Proof.
  intros H. constructor.
  - induction a as [|x a IH]; destruct b as [|y b]; simpl; try (split; congruence).
    destruct (c x y) eqn:E.
    + apply (to_eq _ H) in E. subst. rewrite IH. split; congruence.
    + split; [discriminate|]. intros Heq; injection Heq as -> ->.
      rewrite (to_refl _ H) in E. discriminate.
    + split; [discriminate|]. intros Heq; injection Heq as -> ->.
      rewrite (to_refl _ H) in E. discriminate.
  - induction a as [|x a IH]; destruct b as [|y b]; simpl; try reflexivity.
    rewrite (to_opp _ H x y). destruct (c x y); simpl; auto.
  - induction a as [|x a IH]; destruct b as [|y b]; destruct c0 as [|z d]; simpl; try congruence.
    intros H1 H2.
    destruct (c x y) eqn:E1; try discriminate; destruct (c y z) eqn:E2; try discriminate.
    + apply (to_eq _ H) in E1, E2. subst. rewrite (to_refl _ H). eauto.
    + apply (to_eq _ H) in E1. subst. rewrite E2. reflexivity.
    + apply (to_eq _ H) in E2. subst. rewrite E1. reflexivity.
    + rewrite (to_trans _ H _ _ _ E1 E2). reflexivity.
Qed.

Lemma str_total : total_order str_cmp.
Proof. apply list_cmp_total, N_total. Qed.

Lemma opt_total {A} (c : A -> A -> comparison) : total_order c -> total_order (opt_cmp c).
Proof.
  intros H. constructor.
  - destruct a, b; simpl; try (split; congruence).
    rewrite (to_eq _ H). split; congruence.
  - destruct a, b; simpl; try reflexivity. apply (to_opp _ H).
  - destruct a, b, c0; simpl; try congruence. apply (to_trans _ H).
Qed.

(** A comparison pulled back along an injective function. *)
Lemma inj_total {A B} (f : A -> B) (c : B -> B -> comparison) :
  (forall a b, f a = f b -> a = b) -> total_order c -> total_order (fun a b => c (f a) (f b)).
Proof.
  intros Hf H. constructor; intros.
  - rewrite (to_eq _ H). split; [apply Hf|congruence].
  - apply (to_opp _ H).
  - eapply (to_trans _ H); eauto.
Qed.

Definition pair_cmp {A B} (c : A -> A -> comparison) (d : B -> B -> comparison)
  (x y : A * B) : comparison := then_cmp (c (fst x) (fst y)) (d (snd x) (snd y)).

Lemma pair_total {A B} (c : A -> A -> comparison) (d : B -> B -> comparison) :
  total_order c -> total_order d -> total_order (pair_cmp c d).
Proof.
  intros Hc Hd. unfold pair_cmp. constructor.
  - intros [a1 b1] [a2 b2]; simpl. destruct (c a1 a2) eqn:E; simpl.
    + apply (to_eq _ Hc) in E. subst. rewrite (to_eq _ Hd). split; congruence.
    + split; [discriminate|]. intros Heq; injection Heq as -> ->. rewrite (to_refl _ Hc) in E; discriminate.
    + split; [discriminate|]. intros Heq; injection Heq as -> ->. rewrite (to_refl _ Hc) in E; discriminate.
  - intros [a1 b1] [a2 b2]; simpl. rewrite (to_opp _ Hc a1 a2).
    destruct (c a1 a2); simpl; auto. apply (to_opp _ Hd).
  - intros [a1 b1] [a2 b2] [a3 b3]; simpl. intros H1 H2.
    destruct (c a1 a2) eqn:E1; try discriminate; destruct (c a2 a3) eqn:E2; try discriminate; simpl in *.
    + apply (to_eq _ Hc) in E1, E2. subst. rewrite (to_refl _ Hc). simpl. eapply (to_trans _ Hd); eauto.
    + apply (to_eq _ Hc) in E1. subst. rewrite E2. reflexivity.
    + apply (to_eq _ Hc) in E2. subst. rewrite E1. reflexivity.
    + rewrite (to_trans _ Hc _ _ _ E1 E2). reflexivity.
Qed.

(** ** Equality *)

Lemma str_eqb_eq a b : str_eqb a b = true <-> a = b.
Proof.
  revert b; induction a as [|x a IH]; destruct b as [|y b]; simpl; try (split; congruence).
  rewrite andb_true_iff, N.eqb_eq, IH. split; [intros [-> ->]; reflexivity | intros H; injection H as -> ->; auto].
Qed.

Lemma str_eqb_refl a : str_eqb a a = true.
Proof. apply str_eqb_eq. reflexivity. Qed.

Lemma str_eqb_neq a b : str_eqb a b = false <-> a <> b.
Proof. rewrite <- str_eqb_eq. destruct (str_eqb a b); split; congruence. Qed.

Lemma str_eq_dec (a b : str) : {a = b} + {a <> b}.
Proof. apply list_eq_dec, N.eq_dec. Qed.

(** ** contains / ends_with / strip_suffix *)

Lemma contains_chr_In c s : contains_chr c s = true <-> In c s.
Proof.
  induction s as [|x s IH]; simpl; [split; [discriminate|tauto]|].
  rewrite orb_true_iff, N.eqb_eq, IH. tauto.
Qed.

Lemma contains_chr_false c s : contains_chr c s = false <-> ~ In c s.
Proof. rewrite <- contains_chr_In. destruct (contains_chr c s); split; congruence. Qed.

Lemma ends_with_chr_app c s : ends_with_chr c (s ++ [c]) = true.
Proof.
  induction s as [|x s IH]; simpl; [apply N.eqb_refl|].
  destruct (s ++ [c]) eqn:E; [destruct s; discriminate|exact IH].
Qed.

Lemma ends_with_chr_snoc c d s : ends_with_chr c (s ++ [d]) = N.eqb d c.
Proof.
  induction s as [|x s IH]; simpl; [reflexivity|].
  destruct (s ++ [d]) eqn:E; [destruct s; discriminate|exact IH].
Qed.

Lemma ends_with_chr_iff c s : ends_with_chr c s = true <-> exists p, s = p ++ [c].
Proof.
  split.
  - destruct s as [|x s] using rev_ind; [discriminate|].
    rewrite ends_with_chr_snoc, N.eqb_eq. intros ->. eauto.
  - intros [p ->]. apply ends_with_chr_app.
Qed.

Lemma ends_with_chr_app_r c a b : b <> [] -> ends_with_chr c (a ++ b) = ends_with_chr c b.
Proof.
  destruct b as [|x b _] using rev_ind; [congruence|]. intros _.
  rewrite app_assoc, !ends_with_chr_snoc. reflexivity.
Qed.

Lemma removelast_snoc {A} (s : list A) c : removelast (s ++ [c]) = s.
Proof. rewrite removelast_app by discriminate. simpl. apply app_nil_r. Qed.

Lemma strip_suffix_chr_app c s : strip_suffix_chr c (s ++ [c]) = Some s.
Proof. unfold strip_suffix_chr. rewrite ends_with_chr_app, removelast_snoc. reflexivity. Qed.

Lemma strip_suffix_chr_Some c s p : strip_suffix_chr c s = Some p <-> s = p ++ [c].
Proof.
  unfold strip_suffix_chr. split.
  - destruct (ends_with_chr c s) eqn:E; [|discriminate].
    apply ends_with_chr_iff in E as [q ->]. rewrite removelast_snoc. congruence.
  - intros ->. rewrite ends_with_chr_app, removelast_snoc. reflexivity.
Qed.

Lemma strip_suffix_chr_None c s : strip_suffix_chr c s = None <-> ends_with_chr c s = false.
Proof. unfold strip_suffix_chr. destruct (ends_with_chr c s); split; congruence. Qed.

(** ** split_first *)

Lemma split_first_None c s : split_first c s = None <-> ~ In c s.
Proof.
  induction s as [|x s IH]; simpl; [split; [intros _ []|reflexivity]|].
  destruct (N.eqb_spec x c) as [->|Hne].
  - split; [discriminate|]. intros H. exfalso. apply H. left; reflexivity.
  - destruct (split_first c s) as [[a b]|]; split; try discriminate.
    + intros H. exfalso. assert (H' : Some (a, b) = None) by (apply IH; tauto). discriminate.
    + intros _ [->|Hin]; [congruence|]. apply IH in Hin; [exact Hin|reflexivity].
    + reflexivity.
Qed.

Lemma split_first_Some c s a b : split_first c s = Some (a, b) <-> s = a ++ c :: b /\ ~ In c a.
Proof.
  revert a b; induction s as [|x s IH]; intros a b; simpl.
  - split; [discriminate|]. intros [H _]. destruct a; discriminate.
  - destruct (N.eqb_spec x c) as [->|Hne].
    + split.
      * intros H; injection H as <- <-. split; [reflexivity|intros []].
      * intros [H Hn]. destruct a as [|y a].
        -- injection H as ->. reflexivity.
        -- injection H as -> _. exfalso. apply Hn. left; reflexivity.
    + split.
      * destruct (split_first c s) as [[a' b']|] eqn:E; [|discriminate].
        intros H; injection H as <- <-.
        destruct (proj1 (IH a' b') eq_refl) as [-> Hn]. split; [reflexivity|].
        intros [->|Hin]; [congruence|tauto].
      * intros [H Hn]. destruct a as [|y a].
        -- injection H as -> _. congruence.
        -- injection H as -> H.
           rewrite (proj2 (IH a b)); [reflexivity|]. split; [exact H|]. intros Hin. apply Hn. right; exact Hin.
Qed.

(** ** split_on / join *)

Lemma split_on_nonnil p s : split_on p s <> [].
Proof. destruct s as [|x r]; simpl; [discriminate|]. destruct (p x); [discriminate|]. destruct (split_on p r); discriminate. Qed.

Lemma split_on_nosep p s : forallb (fun c => negb (p c)) s = true -> split_on p s = [s].
Proof.
  induction s as [|x s IH]; simpl; [reflexivity|].
  rewrite andb_true_iff, negb_true_iff. intros [Hx Hs]. rewrite Hx, IH by exact Hs. reflexivity.
Qed.

Lemma split_on_app_sep p a c b : p c = true -> forallb (fun c => negb (p c)) a = true ->
  split_on p (a ++ c :: b) = a :: split_on p b.
Proof.
  intros Hc. induction a as [|x a IH]; simpl.
  - rewrite Hc. reflexivity.
  - rewrite andb_true_iff, negb_true_iff. intros [Hx Ha]. rewrite Hx, IH by exact Ha. reflexivity.
Qed.

Lemma split_on_pieces p s : Forall (fun w => forallb (fun c => negb (p c)) w = true) (split_on p s).
Proof.
  induction s as [|x s IH]; simpl; [repeat constructor|].
  destruct (p x) eqn:E; [constructor; [reflexivity|exact IH]|].
  destruct (split_on p s) as [|w ws]; [repeat constructor; simpl; rewrite E; reflexivity|].
  inversion IH as [|? ? Hw Hws]; subst. constructor; [simpl; rewrite E; exact Hw|exact Hws].
Qed.

Lemma join_cons sep w ws : ws <> [] -> join sep (w :: ws) = w ++ sep ++ join sep ws.
Proof. destruct ws; [congruence|reflexivity]. Qed.

Lemma join_split_on c s : join [c] (split_on (N.eqb c) s) = s.
Proof.
  induction s as [|x s IH]; [reflexivity|].
  cbn [split_on]. destruct (N.eqb_spec c x) as [->|Hne].
  - rewrite join_cons by apply split_on_nonnil. rewrite IH. reflexivity.
  - pose proof (split_on_nonnil (N.eqb c) s) as Hnn.
    destruct (split_on (N.eqb c) s) as [|w ws]; [congruence|].
    destruct ws; cbn [join] in *; rewrite <- IH; reflexivity.
Qed.

Lemma join_app sep l1 l2 : l1 <> [] -> l2 <> [] -> join sep (l1 ++ l2) = join sep l1 ++ sep ++ join sep l2.
Proof.
  intros H1 H2. induction l1 as [|w l1 IH]; [congruence|].
  destruct l1 as [|v l1].
  - simpl. destruct l2; [congruence|reflexivity].
  - change ((w :: v :: l1) ++ l2) with (w :: (v :: l1) ++ l2).
    rewrite !join_cons by (simpl; discriminate).
    rewrite IH by discriminate. rewrite <- !app_assoc. reflexivity.
Qed.

(** ** prefixes *)

Lemma starts_with_iff p s : starts_with p s = true <-> exists r, s = p ++ r.
Proof.
  revert s; induction p as [|x p IH]; intros s; simpl; [split; eauto|].
  destruct s as [|y s]; [split; [discriminate|intros [r H]; discriminate]|].
  rewrite andb_true_iff, N.eqb_eq, IH. split.
  - intros [-> [r ->]]. eauto.
  - intros [r H]; injection H as -> ->. eauto.
Qed.

Lemma strip_prefix_Some p s r : strip_prefix p s = Some r <-> s = p ++ r.
Proof.
  revert s; induction p as [|x p IH]; intros s; simpl; [split; congruence|].
  destruct s as [|y s]; [split; discriminate|].
  destruct (N.eqb_spec x y) as [->|Hne].
  - rewrite IH. split; congruence.
  - split; [discriminate|]. intros H; injection H; congruence.
Qed.

Lemma strip_prefix_app p r : strip_prefix p (p ++ r) = Some r.
Proof. apply strip_prefix_Some. reflexivity. Qed.

(** ** percent-encoding *)

Lemma pct_encode_id enc s :
  forallb (fun c => is_ascii c && negb (enc c)) s = true -> pct_encode enc s = s.
Proof.
  unfold pct_encode, pct_chr. induction s as [|x s IH]; simpl; [reflexivity|].
  rewrite andb_true_iff. intros [Hx Hs]. rewrite Hx, IH by exact Hs. reflexivity.
Qed.

Lemma pct_encode_app enc a b : pct_encode enc (a ++ b) = pct_encode enc a ++ pct_encode enc b.
Proof. apply flat_map_app. Qed.

Lemma forallb_app_iff {A} (f : A -> bool) a b : forallb f (a ++ b) = true <-> forallb f a = true /\ forallb f b = true.
Proof. rewrite forallb_app, andb_true_iff. tauto. Qed.
