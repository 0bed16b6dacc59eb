(** Proofs about durations of chrono. *)
From Coq Require Import ZArith Lia.
From Verif Require Import StrFacts ChronoSpec LiteralProofs FloatsProofs.

Lemma trim_spec k : forall n f m, 0 < n -> n < 10 ^ N.of_nat k -> td_trim k n = (f, m) ->
  (1 <= f <= k)%nat /\ n = m * 10 ^ N.of_nat (k - f) /\ m mod 10 <> 0 /\ 0 < m /\ m < 10 ^ N.of_nat f.
Proof.
  induction k as [|k IH]; intros n f m P L E.
  - change (10 ^ N.of_nat 0) with 1 in L. lia.
  - cbn [td_trim] in E. destruct (N.eqb_spec (n mod 10) 0) as [Z|Z].
    + rewrite Nnat.Nat2N.inj_succ, N.pow_succ_r' in L. pose proof (N.div_mod n 10 ltac:(lia)).
      apply IH in E as (F & En & M & P' & L'); [|lia|lia]. split; [lia|]. split; [|auto].
      replace (S k - f)%nat with (S (k - f)) by lia. rewrite Nnat.Nat2N.inj_succ, N.pow_succ_r'. lia.
    + injection E as <- <-. split; [lia|]. rewrite Nat.sub_diag. change (10 ^ N.of_nat 0) with 1.
      rewrite Nnat.Nat2N.inj_succ in *. split; [lia|]. auto.
Qed.

Lemma place_zeros n s : place_value (repeat 48 n ++ s) = place_value s.
Proof.
  rewrite place_value_app. assert (E : place_value (repeat 48 n) = Some 0).
  { induction n as [|n IH]; [reflexivity|]. cbn [repeat place_value]. rewrite IH. reflexivity. }
  rewrite E. destruct (place_value s); reflexivity.
Qed.
Lemma place_padded w n : place_value (zero_padded w n) = Some n.
Proof. unfold zero_padded. rewrite place_zeros. apply place_value_dec. Qed.
Lemma dec_N_length f n : 0 < n -> n < 10 ^ N.of_nat f -> (length (dec_N n) <= f)%nat.
Proof.
  intros P L. pose proof (radix_N_length 10 n ltac:(lia) P) as [HL _]. fold (dec_N n) in HL.
  destruct (Nat.leb_spec (length (dec_N n)) f) as [|G]; auto. exfalso.
  assert (10 ^ N.of_nat f <= 10 ^ N.of_nat (length (dec_N n) - 1)) by (apply N.pow_le_mono_r; lia). lia.
Qed.
Lemma padded_length f n : 0 < n -> n < 10 ^ N.of_nat f -> length (zero_padded f n) = f.
Proof. intros P L. pose proof (dec_N_length f n P L). unfold zero_padded. rewrite app_length, repeat_length. lia. Qed.
Lemma padded_digits w n : all_digits (zero_padded w n).
Proof.
  apply Forall_app. split; [|apply dec_N_all]. apply Forall_forall. intros c I. apply repeat_spec in I. subst c. lia.
Qed.
Lemma digits_no c s : ~ 48 <= c <= 57 -> all_digits s -> ~ In c s.
Proof. intros N F I. unfold all_digits in F. rewrite Forall_forall in F. auto. Qed.

(** The part after the seconds. *)
Definition fraction (nanos : N) : str :=
  if N.eqb nanos 0 then [] else let (figures, digits) := td_trim 9 nanos in $"." ++ zero_padded figures digits.
Lemma fraction_cases n : n < 1000000000 ->
  (n = 0 /\ fraction n = []) \/
  (n <> 0 /\ exists f m, td_trim 9 n = (f, m) /\ fraction n = 46 :: zero_padded f m /\ (1 <= f <= 9)%nat /\
     length (zero_padded f m) = f /\ n = m * 10 ^ N.of_nat (9 - f) /\ m mod 10 <> 0).
Proof.
  intros L. unfold fraction. destruct (N.eqb_spec n 0) as [->|NZ]; [left; auto|right]. split; [assumption|].
  destruct (td_trim 9 n) as [f m] eqn:E. exists f, m.
  apply trim_spec in E as (F & En & M & P & LM); [|lia|exact L]. repeat split; auto; try lia. apply padded_length; assumption.
Qed.
Lemma fraction_inj a b : a < 1000000000 -> b < 1000000000 -> fraction a = fraction b -> a = b.
Proof.
  intros A B E. destruct (fraction_cases a A) as [(Za & Ea)|(_ & f & m & _ & Ea & _ & La & Na & _)];
    destruct (fraction_cases b B) as [(Zb & Eb)|(_ & f' & m' & _ & Eb & _ & Lb & Nb & _)]; rewrite Ea, Eb in E; try discriminate E; [congruence|].
  injection E as E. assert (F : f = f') by (rewrite <- La, <- Lb, E; reflexivity).
  apply (f_equal place_value) in E. rewrite !place_padded in E. injection E as ->. subst f'. congruence.
Qed.

Lemma td_form d : td_display d =
  (if td_negative d then $"-P" else $"P") ++
  (if N.eqb (fst (td_abs d)) 0 && N.eqb (snd (td_abs d)) 0 then $"0D" else $"T" ++ dec_N (fst (td_abs d)) ++ fraction (snd (td_abs d)) ++ $"S").
Proof. unfold td_display, fraction. destruct (td_abs d) as [s n]. reflexivity. Qed.

Lemma td_abs_value d : td_valid d -> snd (td_abs d) < 1000000000 /\
  td_value d = (if td_negative d then - (Z.of_N (fst (td_abs d)) * 1000000000 + Z.of_N (snd (td_abs d)))
                else Z.of_N (fst (td_abs d)) * 1000000000 + Z.of_N (snd (td_abs d)))%Z.
Proof.
  unfold td_valid, td_value, td_abs, td_negative. destruct d as [s n]; cbn [td_secs td_nanos]. intros V.
  destruct (Z.ltb_spec s 0) as [L|L]; [destruct (N.eqb_spec n 0) as [->|NZ]|]; cbn [fst snd]; split; lia.
Qed.
Lemma td_value_inj a b : td_valid a -> td_valid b -> td_value a = td_value b -> a = b.
Proof. destruct a as [s n], b as [s' n']. unfold td_valid, td_value. cbn [td_secs td_nanos]. intros A B E. f_equal; lia. Qed.

Lemma td_text d : td_valid d -> xsd_duration (td_display d) (td_value d).
Proof.
  intros V. rewrite td_form. destruct (td_abs_value d V) as [L ->].
  destruct (td_abs d) as [s n]; cbn [fst snd] in *.
  assert (Z : forall l u, component l u [] 0) by (intros; constructor).
  assert (S0 : seconds [] 0) by (apply Whole, Z).
  exists (td_negative d). destruct (N.eqb_spec s 0) as [->|NS]; destruct (N.eqb_spec n 0) as [->|NN]; cbn [andb].
  - exists $"0D", [], [], [], 0, 0, 0, 0.
    split; [apply (Present 68 _ [48] 0); [discriminate|reflexivity]|]. repeat (split; [solve [auto]|]). split; [discriminate|].
    split; destruct (td_negative d); reflexivity.
  - destruct (fraction_cases n L) as [(-> & _)|(_ & f & m & _ & -> & F & LF & E & _)]; [congruence|].
    exists [], [], [], (dec_N 0 ++ 46 :: zero_padded f m ++ [83]), 0, 0, 0, n. repeat (split; [solve [auto]|]). split; [|split; [discriminate|]].
    + replace n with (0 * 1000000000 + m * 10 ^ N.of_nat (9 - length (zero_padded f m))) by (rewrite LF; lia).
      apply Fraction; [discriminate|reflexivity| |apply place_padded|rewrite LF; lia]. intros H. rewrite H in LF. cbn in LF. lia.
    + split; [destruct (td_negative d); reflexivity|]. destruct (td_negative d); lia.
  - exists [], [], [], (dec_N s ++ [83]), 0, 0, 0, (s * 1000000000). repeat (split; [solve [auto]|]). split; [|split; [|split]].
    + apply Whole, Present; [apply dec_N_nonnil|apply place_value_dec].
    + cbn [app]. intros H. apply app_eq_nil in H as [_ H]. discriminate H.
    + change (fraction 0) with (@nil N). cbn [app].
      destruct (dec_N s ++ [83]) as [|c r] eqn:Ec; [apply app_eq_nil in Ec as [_ Ec]; discriminate Ec|]. destruct (td_negative d).
      * change ($"-P" ++ $"T" ++ dec_N s ++ $"S" = [45] ++ [80; 84] ++ (c :: r)). rewrite <- Ec. reflexivity.
      * change ($"P" ++ $"T" ++ dec_N s ++ $"S" = [80; 84] ++ (c :: r)). rewrite <- Ec. reflexivity.
    + destruct (td_negative d); lia.
  - destruct (fraction_cases n L) as [(-> & _)|(_ & f & m & _ & -> & F & LF & E & _)]; [congruence|].
    exists [], [], [], (dec_N s ++ 46 :: zero_padded f m ++ [83]), 0, 0, 0, (s * 1000000000 + n). repeat (split; [solve [auto]|]).
    split; [|split; [|split]].
    + replace (s * 1000000000 + n) with (s * 1000000000 + m * 10 ^ N.of_nat (9 - length (zero_padded f m))) by (rewrite LF; lia).
      apply Fraction; [apply dec_N_nonnil|apply place_value_dec| |apply place_padded|rewrite LF; lia].
      intros H. rewrite H in LF. cbn in LF. lia.
    + cbn [app]. intros H. apply app_eq_nil in H as [_ H]. discriminate H.
    + cbn [app]. destruct (dec_N s ++ 46 :: zero_padded f m ++ [83]) as [|c r] eqn:Ec; [apply app_eq_nil in Ec as [_ Ec]; discriminate Ec|].
      destruct (td_negative d).
      * change ($"-P" ++ $"T" ++ dec_N s ++ (46 :: zero_padded f m) ++ $"S" = [45] ++ [80; 84] ++ (c :: r)). rewrite <- Ec. reflexivity.
      * change ($"P" ++ $"T" ++ dec_N s ++ (46 :: zero_padded f m) ++ $"S" = [80; 84] ++ (c :: r)). rewrite <- Ec. reflexivity.
    + destruct (td_negative d); lia.
Qed.

Lemma split_run a b s t : all_digits a -> all_digits b ->
  (forall c r, s = c :: r -> ~ 48 <= c <= 57) -> (forall c r, t = c :: r -> ~ 48 <= c <= 57) -> a ++ s = b ++ t -> a = b /\ s = t.
Proof.
  revert b. induction a as [|x a IH]; intros [|y b] A B S T E.
  - auto.
  - cbn [app] in E. inversion B. exfalso. eapply S; eauto.
  - cbn [app] in E. inversion A. exfalso. eapply T; eauto.
  - cbn [app] in E. injection E as -> E. inversion A; subst. inversion B; subst. destruct (IH b) as [-> ->]; auto.
Qed.
Lemma fraction_head n t c r : n < 1000000000 -> fraction n ++ 83 :: t = c :: r -> ~ 48 <= c <= 57.
Proof.
  intros L E. destruct (fraction_cases n L) as [(_ & H)|(_ & f & m & _ & H & _)]; rewrite H in E; cbn [app] in E; injection E as <- _; lia.
Qed.

Lemma td_display_inj a b : td_valid a -> td_valid b -> td_display a = td_display b -> a = b.
Proof.
  intros A B E. apply td_value_inj; auto. rewrite !td_form in E.
  destruct (td_abs_value a A) as [LA ->], (td_abs_value b B) as [LB ->].
  destruct (td_abs a) as [s n], (td_abs b) as [s' n']; cbn [fst snd] in *.
  assert (N : td_negative a = td_negative b).
  { destruct (td_negative a), (td_negative b); auto; discriminate E. }
  rewrite N in *. apply app_inv_head in E.
  assert (K : s = s' /\ n = n'); [|destruct K as [-> ->]; reflexivity].
  destruct (N.eqb s 0 && N.eqb n 0) eqn:Z; destruct (N.eqb s' 0 && N.eqb n' 0) eqn:Z'; try discriminate E.
  - apply andb_true_iff in Z as [X Y]. apply andb_true_iff in Z' as [X' Y']. apply N.eqb_eq in X, Y, X', Y'. split; congruence.
  - injection E as E. change $"S" with [83] in E.
    apply split_run in E as [E1 E2]; [|apply dec_N_all|apply dec_N_all|intros c r; apply fraction_head; assumption|intros c r; apply fraction_head; assumption].
    split; [apply dec_N_inj, E1|]. apply app_inv_tail in E2. apply fraction_inj; assumption.
Qed.

Section Tables.
Variables gext printable : chr -> bool.
Hypothesis T : ascii_tables gext printable.

Lemma chrono_form d : td_valid d -> lexical_form (lit_from_chrono gext printable d) = td_display d.
Proof.
  intros V. unfold lit_from_chrono, lit_with_data_type. cbn [lexical_form]. apply escape_ascii; auto.
  assert (D : forall s, all_digits s -> Forall (fun c => 32 <= c <= 126 /\ c <> 34 /\ c <> 92) s).
  { intros s. apply Forall_impl. intros c. lia. }
  rewrite td_form. destruct (td_abs_value d V) as [L _]. destruct (td_abs d) as [s n]; cbn [fst snd] in *.
  apply Forall_app. split; [destruct (td_negative d); apply Forall_forall; intros c I; vm_compute in I; lia|].
  destruct (N.eqb s 0 && N.eqb n 0); [apply Forall_forall; intros c I; vm_compute in I; lia|].
  apply Forall_app. split; [apply Forall_forall; intros c I; vm_compute in I; lia|].
  apply Forall_app. split; [apply D, dec_N_all|]. apply Forall_app. split; [|apply Forall_forall; intros c I; vm_compute in I; lia].
  destruct (fraction_cases n L) as [(_ & ->)|(_ & f & m & _ & -> & _)]; [constructor|]. constructor; [lia|]. apply D, padded_digits.
Qed.

Lemma c106_text d : td_valid d -> xsd_duration (lexical_form (lit_from_chrono gext printable d)) (td_value d).
Proof. intros V. rewrite chrono_form by assumption. apply td_text, V. Qed.

Lemma c106_equal a b : td_valid a -> td_valid b -> (lit_eq_chrono (lit_from_chrono gext printable a) b = true <-> a = b).
Proof.
  intros A B. unfold lit_eq_chrono. rewrite chrono_form by assumption. split.
  - intros H. apply andb_true_iff in H as [H _]. apply str_eqb_eq in H. apply td_display_inj; assumption.
  - intros ->. apply andb_true_iff. split; [apply str_eqb_eq; reflexivity|reflexivity].
Qed.

Lemma std_form secs nanos : nanos < 1000000000 ->
  (lexical_form (lit_from_duration gext printable secs nanos) = td_display (TimeDelta (Z.of_N secs) nanos) <->
   (nanos = 0 /\ secs <> 0) \/ (100000000 <= nanos /\ nanos mod 10 <> 0)).
Proof.
  intros L. rewrite duration_escape by exact T. rewrite td_form.
  assert (NG : td_negative (TimeDelta (Z.of_N secs) nanos) = false) by (unfold td_negative; cbn; lia).
  unfold td_abs. rewrite NG. cbn [td_secs td_nanos fst snd]. rewrite N2Z.id.
  destruct (fraction_cases nanos L) as [(-> & ->)|(NZ & f & m & E & -> & F & LF & En & M)].
  - rewrite N.eqb_refl. destruct (N.eqb_spec secs 0) as [->|NS]; cbn [andb].
    + split; [discriminate|lia].
    + split; [intros _; left; auto|reflexivity].
  - replace (N.eqb nanos 0) with false by (symmetry; apply N.eqb_neq; exact NZ). rewrite andb_false_r.
    assert (Q : $"PT" ++ dec_N secs ++ $"." ++ dec_N nanos ++ $"S" = $"P" ++ $"T" ++ dec_N secs ++ (46 :: zero_padded f m) ++ $"S" <->
                dec_N nanos = zero_padded f m).
    { split; [|intros ->; reflexivity]. intros H. change ($"P" ++ $"T" ++ ?x) with ($"PT" ++ x) in H. apply app_inv_head in H.
      apply app_inv_head in H. injection H as H. apply app_inv_tail in H. exact H. }
    rewrite Q. split.
    + intros H. right. pose proof (f_equal place_value H) as V. rewrite place_value_dec, place_padded in V. injection V as V.
      assert (f = 9)%nat.
      { destruct (Nat.eq_dec f 9) as [|NF]; auto. exfalso. replace (9 - f)%nat with (S (8 - f)) in En by lia.
        rewrite Nnat.Nat2N.inj_succ, N.pow_succ_r' in En.
        assert (0 < 10 ^ N.of_nat (8 - f)) by (apply N.neq_0_lt_0, N.pow_nonzero; lia). nia. }
      subst m f. split; [|exact M]. rewrite <- H in LF.
      pose proof (radix_N_length 10 nanos ltac:(lia) ltac:(lia)) as [HL _]. fold (dec_N nanos) in HL. rewrite LF in HL. exact HL.
    + intros [[? _]|[G O]]; [congruence|].
      assert (f = 9%nat /\ m = nanos) as [-> ->].
      { cbn [td_trim] in E. destruct (N.eqb_spec (nanos mod 10) 0); [congruence|]. injection E as <- <-. auto. }
      unfold zero_padded. assert (K : length (dec_N nanos) = 9%nat); [|rewrite K; reflexivity].
      pose proof (dec_N_length 9 nanos ltac:(lia) L).
      pose proof (radix_N_length 10 nanos ltac:(lia) ltac:(lia)) as [_ HL]. fold (dec_N nanos) in HL.
      destruct (Nat.eq_dec (length (dec_N nanos)) 9) as [|NF]; auto. exfalso.
      assert (10 ^ N.of_nat (length (dec_N nanos)) <= 10 ^ 8) by (apply N.pow_le_mono_r; lia).
      change (10 ^ 8) with 100000000 in *. lia.
Qed.

Lemma c106_std secs nanos : nanos < 1000000000 ->
  (lit_eq_chrono (lit_from_duration gext printable secs nanos) (TimeDelta (Z.of_N secs) nanos) = true <->
   (nanos = 0 /\ secs <> 0) \/ (100000000 <= nanos /\ nanos mod 10 <> 0)).
Proof.
  intros L. rewrite <- (std_form secs nanos L). unfold lit_eq_chrono. rewrite andb_true_iff, str_eqb_eq.
  split; [tauto|]. intros H. split; [exact H|reflexivity].
Qed.
End Tables.
