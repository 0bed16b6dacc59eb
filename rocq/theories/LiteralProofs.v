From Coq Require Import Permutation.
From Verif Require Import StrFacts LiteralSpec.

(** ** Positional notation *)

Lemma hex_lower_val d : d < 16 -> hex_val (hex_lower d) = Some d.
Proof.
  intros H. unfold hex_val, hex_lower, is_digit, in_range.
  destruct (N.ltb_spec d 10).
  - replace ((48 <=? 48 + d) && (48 + d <=? 57))%bool with true by (symmetry; lia). f_equal. lia.
  - replace ((48 <=? 87 + d) && (87 + d <=? 57))%bool with false by (symmetry; lia).
    replace ((65 <=? 87 + d) && (87 + d <=? 70))%bool with false by (symmetry; lia).
    replace ((97 <=? 87 + d) && (87 + d <=? 102))%bool with true by (symmetry; lia). f_equal. lia.
Qed.

Lemma hex_upper_val d : d < 16 -> hex_val (hex_upper d) = Some d.
Proof.
  intros H. unfold hex_val, hex_upper, is_digit, in_range.
  destruct (N.ltb_spec d 10).
  - replace ((48 <=? 48 + d) && (48 + d <=? 57))%bool with true by (symmetry; lia). f_equal. lia.
  - replace ((48 <=? 55 + d) && (55 + d <=? 57))%bool with false by (symmetry; lia).
    replace ((65 <=? 55 + d) && (55 + d <=? 70))%bool with true by (symmetry; lia). f_equal. lia.
Qed.

Lemma div_lt_pow b n k : 2 <= b -> n < 2 ^ N.of_nat (S k) -> n / b < 2 ^ N.of_nat k.
Proof.
  intros Hb Hn. rewrite Nat2N.inj_succ, N.pow_succ_r' in Hn.
  apply N.div_lt_upper_bound; [lia|]. nia.
Qed.

Lemma radix_fuel_stable b k1 : 2 <= b -> forall k2 n,
  n < 2 ^ N.of_nat k1 -> n < 2 ^ N.of_nat k2 -> radix_fuel (S k1) b n = radix_fuel (S k2) b n.
Proof.
  intros Hb. induction k1 as [|k1 IH]; intros k2 n H1 H2.
  - change (2 ^ N.of_nat 0) with 1 in H1. simpl. destruct (N.ltb_spec n b); [reflexivity|lia].
  - destruct k2 as [|k2].
    + change (2 ^ N.of_nat 0) with 1 in H2. simpl. destruct (N.ltb_spec n b); [reflexivity|lia].
    + change (radix_fuel (S (S k1)) b n) with
        (if n <? b then [hex_lower n] else radix_fuel (S k1) b (n / b) ++ [hex_lower (n mod b)]).
      change (radix_fuel (S (S k2)) b n) with
        (if n <? b then [hex_lower n] else radix_fuel (S k2) b (n / b) ++ [hex_lower (n mod b)]).
      rewrite (IH k2); auto using div_lt_pow.
Qed.

Lemma size_nat_lt n : n < 2 ^ N.of_nat (N.size_nat n).
Proof.
  destruct n as [|p]; [vm_compute; reflexivity|]. simpl N.size_nat.
  induction p as [p IH|p IH|]; simpl Pos.size_nat; rewrite ?Nat2N.inj_succ, ?N.pow_succ_r'; lia.
Qed.

Lemma radix_N_eq b n : 2 <= b ->
  radix_N b n = if n <? b then [hex_lower n] else radix_N b (n / b) ++ [hex_lower (n mod b)].
Proof.
  intros Hb. unfold radix_N at 1.
  change (radix_fuel (S (N.size_nat n)) b n) with
    (if n <? b then [hex_lower n] else radix_fuel (N.size_nat n) b (n / b) ++ [hex_lower (n mod b)]).
  destruct (N.ltb_spec n b); [reflexivity|]. do 2 f_equal. unfold radix_N.
  destruct (N.size_nat n) as [|k] eqn:E.
  { destruct n as [|p]; [lia|]. destruct p; discriminate. }
  apply radix_fuel_stable; auto using size_nat_lt.
  apply div_lt_pow; auto. rewrite <- E. apply size_nat_lt.
Qed.

Definition radix_val (b : N) (s : str) : N :=
  fold_left (fun a c => b * a + match hex_val c with Some d => d | None => 0 end) s 0.

Lemma radix_ind b (P : N -> Prop) : 2 <= b ->
  (forall n, n < b -> P n) -> (forall n, b <= n -> P (n / b) -> P n) -> forall n, P n.
Proof.
  intros Hb H0 H1 n. induction n as [n IH] using (well_founded_induction N.lt_wf_0).
  destruct (N.lt_ge_cases n b); auto. apply H1; auto. apply IH. apply N.div_lt; lia.
Qed.

Lemma radix_val_N b n : 2 <= b <= 16 -> radix_val b (radix_N b n) = n.
Proof.
  intros [Hb Hb']. revert n. match goal with |- forall n, @?P n => apply (radix_ind b P Hb) end; [intros n Hn|intros n Hn IH].
  - rewrite radix_N_eq by auto. replace (n <? b) with true by (symmetry; lia).
    unfold radix_val. cbn [fold_left]. rewrite hex_lower_val by lia. lia.
  - rewrite radix_N_eq by auto. replace (n <? b) with false by (symmetry; lia).
    unfold radix_val in *. rewrite fold_left_app, IH. cbn [fold_left].
    assert (n mod b < b) by (apply N.mod_lt; lia).
    rewrite hex_lower_val by lia. symmetry. apply N.div_mod. lia.
Qed.

Lemma radix_N_inj b n m : 2 <= b <= 16 -> radix_N b n = radix_N b m -> n = m.
Proof. intros Hb H. rewrite <- (radix_val_N b n), <- (radix_val_N b m), H; auto. Qed.

Lemma radix_N_chars b n : 2 <= b -> Forall (fun c => exists d, d < b /\ c = hex_lower d) (radix_N b n).
Proof.
  intros Hb. revert n. match goal with |- forall n, @?P n => apply (radix_ind b P Hb) end; [intros n Hn|intros n Hn IH]; rewrite radix_N_eq by auto.
  - replace (n <? b) with true by (symmetry; lia). constructor; eauto.
  - replace (n <? b) with false by (symmetry; lia). apply Forall_app. split; auto.
    constructor; auto. exists (n mod b). split; auto. apply N.mod_lt. lia.
Qed.

Lemma radix_N_nonnil b n : 2 <= b -> radix_N b n <> [].
Proof.
  intros Hb. rewrite radix_N_eq by auto. destruct (n <? b); [discriminate|].
  intros H. apply app_eq_nil in H as [_ H]. discriminate.
Qed.

Lemma radix_N_length b n : 2 <= b -> 0 < n ->
  b ^ N.of_nat (length (radix_N b n) - 1) <= n < b ^ N.of_nat (length (radix_N b n)).
Proof.
  intros Hb. revert n. match goal with |- forall n, @?P n => apply (radix_ind b P Hb) end; [intros n Hn|intros n Hn IH]; intros Hpos;
    rewrite radix_N_eq by auto.
  - replace (n <? b) with true by (symmetry; lia). cbn [length].
    change (N.of_nat (1 - 1)) with 0. change (N.of_nat 1) with 1. rewrite N.pow_0_r, N.pow_1_r. lia.
  - replace (n <? b) with false by (symmetry; lia). rewrite app_length. cbn [length].
    assert (Hq : 0 < n / b) by (apply N.div_str_pos; lia). specialize (IH Hq).
    remember (length (radix_N b (n / b))) as k.
    assert (k <> 0%nat).
    { subst k. pose proof (radix_N_nonnil b (n / b) Hb). destruct (radix_N b (n / b)); [congruence|discriminate]. }
    destruct k as [|k]; [congruence|].
    replace (S k + 1 - 1)%nat with (S k) by lia. replace (S k + 1)%nat with (S (S k)) by lia.
    replace (S k - 1)%nat with k in IH by lia.
    rewrite (Nat2N.inj_succ (S k)), N.pow_succ_r'.
    rewrite (Nat2N.inj_succ k), N.pow_succ_r' in *.
    pose proof (N.div_mod n b ltac:(lia)). pose proof (N.mod_lt n b ltac:(lia)). nia.
Qed.

Lemma dec_N_inj n m : dec_N n = dec_N m -> n = m.
Proof. apply radix_N_inj. lia. Qed.

Lemma dec_N_digits n : Forall (fun c => is_digit c = true) (dec_N n).
Proof.
  eapply Forall_impl; [|apply radix_N_chars; lia].
  intros c (d & Hd & ->). unfold hex_lower, is_digit, in_range. replace (d <? 10) with true by (symmetry; lia). lia.
Qed.

Lemma dec_N_nonnil n : dec_N n <> [].
Proof. apply radix_N_nonnil. lia. Qed.

Lemma dec_Z_inj a b : dec_Z a = dec_Z b -> a = b.
Proof.
  assert (Hm : forall n p, dec_N n <> 45 :: dec_N p).
  { intros n p H. pose proof (dec_N_digits n) as D. rewrite H in D. inversion D. discriminate. }
  destruct a as [|p|p], b as [|q|q]; unfold dec_Z; intros H; auto;
    try (apply dec_N_inj in H; simpl in H; try discriminate; try (injection H as ->; reflexivity)).
  - exfalso. eapply Hm, H.
  - exfalso. eapply Hm, H.
  - exfalso. eapply Hm. symmetry. apply H.
  - exfalso. eapply Hm. symmetry. apply H.
  - injection H as H. apply dec_N_inj in H. injection H as ->. reflexivity.
Qed.

Lemma hex_N_inj n m : hex_N n = hex_N m -> n = m.
Proof. apply radix_N_inj. lia. Qed.

Lemma hex_N_chars n : Forall (fun c => is_digit c = true \/ 97 <= c <= 102) (hex_N n).
Proof.
  eapply Forall_impl; [|apply radix_N_chars; lia].
  intros c (d & Hd & ->). unfold hex_lower, is_digit, in_range. destruct (N.ltb_spec d 10); lia.
Qed.

(** ** Data types *)

Lemma dt_index_inj a b : dt_index a = dt_index b ->
  a = b \/ exists x y, a = DtOther x /\ b = DtOther y.
Proof.
  destruct a; destruct b; intros H; try discriminate H; auto. right. eauto.
Qed.

Lemma dt_eqb_eq a b : dt_eqb a b = true <-> a = b.
Proof.
  split.
  - intros H. destruct a; destruct b; try reflexivity; try discriminate H.
    simpl in H. apply str_eqb_eq in H. subst. reflexivity.
  - intros ->. destruct b; try reflexivity. apply str_eqb_refl.
Qed.

Lemma dt_total : total_order dt_cmp.
Proof.
  constructor.
  - intros a b. split.
    + intros H. destruct a; destruct b; try reflexivity; try discriminate H.
      simpl in H. apply (to_eq _ str_total) in H. subst. reflexivity.
    + intros ->. destruct b; try reflexivity. simpl. apply (to_refl _ str_total).
  - intros a b. destruct a; destruct b; try reflexivity. simpl. apply (to_opp _ str_total).
  - intros a b c. destruct b as [| | | | | | | | | | | | | | | | | | | | | | | |b];
      try (destruct a; destruct c; vm_compute; congruence).
    destruct a as [| | | | | | | | | | | | | | | | | | | | | | | |a];
      destruct c as [| | | | | | | | | | | | | | | | | | | | | | | |c];
      try (vm_compute; congruence). simpl. apply (to_trans _ str_total).
Qed.

(** ** Literals *)

Lemma opt_eqb_eq {A} (e : A -> A -> bool) : (forall x y, e x y = true <-> x = y) ->
  forall a b, opt_eqb e a b = true <-> a = b.
Proof. intros H [x|] [y|]; simpl; try (split; congruence). rewrite H. split; congruence. Qed.

Lemma lit_eqb_eq a b : lit_eqb a b = true <-> a = b.
Proof.
  unfold lit_eqb. rewrite !andb_true_iff, str_eqb_eq, (opt_eqb_eq _ dt_eqb_eq), (opt_eqb_eq _ str_eqb_eq).
  destruct a, b; simpl. split; [intros [[-> ->] ->]; reflexivity|intros H; injection H; auto].
Qed.

Lemma lit_cmp_alt a b : lit_cmp a b =
  then_cmp (opt_cmp dt_cmp (lit_data_type a) (lit_data_type b))
    (then_cmp (opt_cmp str_cmp (lit_language a) (lit_language b))
       (str_cmp (lexical_form a) (lexical_form b))).
Proof.
  destruct a as [x [d|] [l|]], b as [y [e|] [m|]]; unfold lit_cmp, then_cmp; simpl; try reflexivity;
    destruct (dt_cmp d e); try reflexivity; try destruct (str_cmp l m); reflexivity.
Qed.

Lemma lit_total : total_order lit_cmp.
Proof.
  pose proof (inj_total (fun l => (lit_data_type l, (lit_language l, lexical_form l))) _
    ltac:(intros [? ? ?] [? ? ?]; simpl; intros H; injection H as -> -> ->; reflexivity)
    (pair_total _ _ (opt_total _ dt_total) (pair_total _ _ (opt_total _ str_total) str_total))) as H.
  unfold pair_cmp in H. cbn [fst snd] in H.
  constructor; intros; rewrite ?lit_cmp_alt in *.
  - apply (to_eq _ H).
  - apply (to_opp _ H).
  - eapply (to_trans _ H); eauto.
Qed.

(** ** C33 *)

Lemma dt_from_as_iri iri : dt_as_iri (dt_from_iri iri) = iri.
Proof.
  unfold dt_from_iri.
  repeat match goal with
  | |- context [if str_eqb iri ?k then _ else _] =>
      destruct (str_eqb iri k) eqn:?E; [apply str_eqb_eq in E; subst; reflexivity|clear E]
  end.
  reflexivity.
Qed.

Lemma dt_as_from_iri d : dt_from_iri (dt_as_iri d) = d <->
  ~ In d unrecognised /\ (forall i, d = DtOther i -> ~ In i (map dt_as_iri
    [DtString; DtQName; DtName; DtIri; DtBoolean; DtFloat; DtDouble; DtLong; DtInt; DtShort; DtByte;
     DtUnsignedLong; DtUnsignedInt; DtUnsignedShort; DtUnsignedByte; DtDuration; DtXmlLiteral])).
Proof.
  destruct d as [| | | | | | | | | | | | | | | | | | | | | | | |iri];
    try (split; [intros _; split; [simpl; intuition discriminate|intros i Hi; discriminate Hi]
                |intros _; vm_compute; reflexivity]);
    try (split; [intros H; vm_compute in H; discriminate H
                |intros [H _]; exfalso; apply H; simpl; tauto]).
  split.
  - intros H. split; [simpl; intuition discriminate|]. intros i Hi. injection Hi as <-.
    intros Hin. cbn [map] in Hin.
    repeat (destruct Hin as [Hin|Hin]; [subst iri; vm_compute in H; discriminate H|]). contradiction.
  - intros [_ H]. specialize (H iri eq_refl). cbn [dt_as_iri]. unfold dt_from_iri.
    cbn [map dt_as_iri] in H.
    repeat match goal with
    | |- context [if str_eqb iri ?k then _ else _] =>
        destruct (str_eqb iri k) eqn:?E;
        [exfalso; apply H; apply str_eqb_eq in E; subst iri; simpl; tauto|clear E]
    end.
    reflexivity.
Qed.

Lemma dt_named d : (exists i, d = DtOther i) \/ In (d, dt_as_iri d) w3c_types.
Proof.
  destruct d; [..|left; eexists; reflexivity]; right; unfold w3c_types; cbn [In];
    repeat first [left; reflexivity | right].
Qed.
Fixpoint all_distinct (l : list str) : bool :=
  match l with [] => true | x :: r => negb (existsb (str_eqb x) r) && all_distinct r end.
Lemma all_distinct_ok l : all_distinct l = true -> NoDup l.
Proof.
  induction l as [|x r IH]; intros H; [constructor|]. cbn [all_distinct] in H.
  apply andb_true_iff in H as [H1 H2]. constructor; [|auto].
  intros I. apply negb_true_iff in H1. rewrite <- not_true_iff_false in H1. apply H1.
  apply existsb_exists. exists x. split; [exact I|apply str_eqb_refl].
Qed.
Lemma w3c_iris_distinct : NoDup (map snd w3c_types).
Proof. apply all_distinct_ok. vm_compute. reflexivity. Qed.
Lemma nodup_snd {A B} (l : list (A * B)) a a' b : NoDup (map snd l) -> In (a, b) l -> In (a', b) l -> a = a'.
Proof.
  induction l as [|[x y] l IH]; intros N H K; [destruct H|]. inversion N as [|? ? NI N']; subst.
  destruct H as [H|H], K as [K|K]; try congruence; auto.
  - exfalso. injection H as -> ->. apply NI. apply in_map_iff. exists (a', b). auto.
  - exfalso. injection K as -> ->. apply NI. apply in_map_iff. exists (a, b). auto.
Qed.
Lemma dt_as_iri_inj a b : (forall i, a <> DtOther i) -> (forall i, b <> DtOther i) -> dt_as_iri a = dt_as_iri b -> a = b.
Proof.
  intros A B E. destruct (dt_named a) as [(i & ->)|Ia]; [destruct (A i eq_refl)|].
  destruct (dt_named b) as [(i & ->)|Ib]; [destruct (B i eq_refl)|]. rewrite E in Ia.
  eapply nodup_snd; [apply w3c_iris_distinct|exact Ia|exact Ib].
Qed.

(** ** Escaping *)

Section Escaping.
Variable gext printable : chr -> bool.
Notation esc := (esc_chr gext printable).
Notation escape := (escape_string gext printable).
Notation itself := (prints_as_itself gext printable).

Definition u_esc (c : chr) : str := $"\u{" ++ hex_N c ++ $"}".

(** The shapes [esc_chr] can have. *)
Lemma esc_cases c :
  (In c [0; 9; 10; 13; 34; 92] /\ exists d, esc c = [92; d] /\
     In (c, d) [(0, 48); (9, 116); (10, 110); (13, 114); (34, 34); (92, 92)])
  \/ (~ In c [0; 9; 10; 13; 34; 92] /\
      ((itself c /\ esc c = [c]) \/ (~ itself c /\ esc c = u_esc c))).
Proof.
  unfold esc_chr.
  destruct (N.eqb_spec c 0); [left; subst; split; [simpl; tauto|eexists; split; [reflexivity|simpl; tauto]]|].
  destruct (N.eqb_spec c 9); [left; subst; split; [simpl; tauto|eexists; split; [reflexivity|simpl; tauto]]|].
  destruct (N.eqb_spec c 13); [left; subst; split; [simpl; tauto|eexists; split; [reflexivity|simpl; tauto]]|].
  destruct (N.eqb_spec c 10); [left; subst; split; [simpl; tauto|eexists; split; [reflexivity|simpl; tauto]]|].
  destruct (N.eqb_spec c 92); [left; subst; split; [simpl; tauto|eexists; split; [reflexivity|simpl; tauto]]|].
  destruct (N.eqb_spec c 34); [left; subst; split; [simpl; tauto|eexists; split; [reflexivity|simpl; tauto]]|].
  right. split; [simpl; intuition congruence|].
  destruct (gext c) eqn:G; [right; split; [intros (_ & H & _); congruence|reflexivity]|].
  destruct (printable c) eqn:P; [left; split; [repeat split; auto; simpl; intuition congruence|reflexivity]|].
  right; split; [intros (_ & _ & H); congruence|reflexivity].
Qed.

Lemma u_esc_app c r : u_esc c ++ r = 92 :: 117 :: 123 :: (hex_N c ++ 125 :: r).
Proof. unfold u_esc. rewrite <- !app_assoc. reflexivity. Qed.

Lemma hex_N_brace c r d r' : hex_N c ++ 125 :: r = hex_N d ++ 125 :: r' -> c = d /\ r = r'.
Proof.
  intros H.
  assert (E : forall n t, split_first 125 (hex_N n ++ 125 :: t) = Some (hex_N n, t)).
  { intros n t. apply split_first_Some. split; auto. intros Hin.
    pose proof (hex_N_chars n) as F. rewrite Forall_forall in F. apply F in Hin.
    unfold is_digit, in_range in Hin. lia. }
  pose proof (E c r) as E1. rewrite H, E in E1. injection E1 as E1 E2.
  apply hex_N_inj in E1. auto.
Qed.

(** Escapes form a prefix code. *)
Lemma esc_prefix c d r r' : esc c ++ r = esc d ++ r' -> c = d /\ r = r'.
Proof.
  destruct (esc_cases c) as [(Hc & x & Ec & Ix)|(Nc & [(Pc & Ec)|(Pc & Ec)])];
  destruct (esc_cases d) as [(Hd & y & Ed & Iy)|(Nd & [(Pd & Ed)|(Pd & Ed)])];
  rewrite Ec, Ed, ?u_esc_app; cbn [app]; intros H.
  - injection H as -> H. split; auto. simpl in Ix, Iy. intuition congruence.
  - injection H as <- H. exfalso. apply Nd. simpl. tauto.
  - injection H as -> H. exfalso. simpl in Ix. intuition congruence.
  - injection H as -> H. exfalso. apply Nc. simpl. tauto.
  - injection H as -> H. auto.
  - injection H as -> H. exfalso. apply Nc. simpl. tauto.
  - injection H as <- H. exfalso. simpl in Iy. intuition congruence.
  - injection H as <- H. exfalso. apply Nd. simpl. tauto.
  - injection H as H. apply hex_N_brace in H. exact H.
Qed.

Lemma esc_nonnil c : esc c <> [].
Proof.
  destruct (esc_cases c) as [(_ & x & -> & _)|(_ & [(_ & ->)|(_ & ->)])]; discriminate.
Qed.

Lemma escape_inj s t : escape s = escape t -> s = t.
Proof.
  revert t. induction s as [|c s IH]; intros [|d t]; unfold escape_string; cbn [flat_map]; intros H; auto.
  - symmetry in H. apply app_eq_nil in H as [H _]. exfalso. eapply esc_nonnil, H.
  - apply app_eq_nil in H as [H _]. exfalso. eapply esc_nonnil, H.
  - apply esc_prefix in H as [-> H]. f_equal. apply IH, H.
Qed.

Lemma quotable_safe p r : Forall (fun c => ~ In c [10; 13; 34; 92]) p -> quotable (p ++ r) = quotable r.
Proof.
  induction 1 as [|c p Hc _ IH]; auto. cbn [app quotable].
  assert (c <> 10 /\ c <> 13 /\ c <> 34 /\ c <> 92) as (? & ? & ? & ?) by (simpl in Hc; intuition congruence).
  apply N.eqb_neq in H, H0, H1, H2. rewrite H, H0, H1, H2. simpl. exact IH.
Qed.

Lemma escape_quotable s : quotable (escape s) = true.
Proof.
  induction s as [|c s IH]; auto. unfold escape_string in *. cbn [flat_map].
  destruct (esc_cases c) as [(Hc & x & Ec & Ix)|(Nc & [(Pc & Ec)|(Pc & Ec)])]; rewrite Ec.
  - simpl in Ix. cbn [app quotable].
    intuition (match goal with H : (_, _) = (_, _) |- _ => injection H as <- <- end; exact IH).
  - rewrite quotable_safe; auto. constructor; auto. simpl in *. intuition congruence.
  - rewrite u_esc_app.
    assert (H : quotable (hex_N c ++ 125 :: flat_map esc s) = true).
    { rewrite quotable_safe.
      - change (125 :: flat_map esc s) with ([125] ++ flat_map esc s). rewrite quotable_safe; auto.
        repeat constructor. simpl. intuition congruence.
      - eapply Forall_impl; [|apply hex_N_chars]. intros a Ha. unfold is_digit, in_range in Ha. simpl. lia. }
    change (quotable (92 :: 117 :: 123 :: hex_N c ++ 125 :: flat_map esc s)) with
      (quotable ([123] ++ hex_N c ++ 125 :: flat_map esc s)).
    rewrite quotable_safe; auto. repeat constructor. simpl. intuition congruence.
Qed.

Lemma esc_length c : (1 <= length (esc c))%nat /\ (length (esc c) = 1%nat -> itself c).
Proof.
  destruct (esc_cases c) as [(_ & x & -> & _)|(_ & [(P & ->)|(_ & ->)])]; simpl; split; auto; try lia.
Qed.

Lemma escape_length s : (length s <= length (escape s))%nat.
Proof.
  induction s as [|c s IH]; auto. unfold escape_string in *. cbn [flat_map]. rewrite app_length.
  pose proof (esc_length c). simpl. lia.
Qed.

Lemma esc_itself c : itself c -> esc c = [c].
Proof.
  intros (Nc & G & P). destruct (esc_cases c) as [(Hc & _)|(_ & [(_ & E)|(H & _)])]; auto; [contradiction|].
  exfalso. apply H. repeat split; auto.
Qed.

Lemma escape_id_iff s : escape s = s <-> Forall itself s.
Proof.
  split.
  - induction s as [|c s IH]; intros H; auto. unfold escape_string in *. cbn [flat_map] in H.
    pose proof (escape_length s) as L. unfold escape_string in L.
    pose proof (f_equal (@length _) H) as HL. rewrite app_length in HL. cbn [length] in HL.
    pose proof (esc_length c) as [L1 L2].
    assert (Hc : itself c) by (apply L2; lia). constructor; auto.
    rewrite (esc_itself c Hc) in H. injection H as H. auto.
  - induction 1 as [|c s Hc _ IH]; auto. unfold escape_string in *. cbn [flat_map].
    rewrite (esc_itself c Hc), IH. reflexivity.
Qed.

Lemma itself_ascii c : ascii_tables gext printable -> 32 <= c <= 126 -> c <> 34 -> c <> 92 -> itself c.
Proof.
  intros T Hc H1 H2. split; [simpl; lia|]. apply T. lia.
Qed.

Lemma escape_ascii s : ascii_tables gext printable ->
  Forall (fun c => 32 <= c <= 126 /\ c <> 34 /\ c <> 92) s -> escape s = s.
Proof.
  intros T H. apply escape_id_iff. eapply Forall_impl; [|exact H].
  intros c (? & ? & ?). apply itself_ascii; auto.
Qed.

(** ** C35 *)

Lemma plain_eq_iff s : lit_eq_str (lit_plain gext printable s) s = true <-> Forall itself s.
Proof.
  unfold lit_eq_str, lit_plain. cbn. rewrite andb_true_r, str_eqb_eq. apply escape_id_iff.
Qed.

Lemma from_str_eq_iff s : lit_eq_str (lit_from_str gext printable s) s = true <-> Forall itself s.
Proof.
  unfold lit_eq_str, lit_from_str, lit_with_data_type. cbn. rewrite andb_true_r, str_eqb_eq. apply escape_id_iff.
Qed.

Lemma lit_eq_str_unique l s t : lit_eq_str l s = true -> lit_eq_str l t = true -> s = t.
Proof.
  unfold lit_eq_str. rewrite !andb_true_iff, !str_eqb_eq. intuition congruence.
Qed.

(** ** C34 *)

Hypothesis T : ascii_tables gext printable.

Lemma dec_N_escape n : escape (dec_N n) = dec_N n.
Proof.
  apply escape_ascii; auto. eapply Forall_impl; [|apply dec_N_digits].
  intros c. unfold is_digit, in_range. lia.
Qed.

Lemma dec_Z_escape z : escape (dec_Z z) = dec_Z z.
Proof.
  apply escape_ascii; auto.
  assert (H : forall n, Forall (fun c => 32 <= c <= 126 /\ c <> 34 /\ c <> 92) (dec_N n)).
  { intros n. eapply Forall_impl; [|apply dec_N_digits]. intros c. unfold is_digit, in_range. lia. }
  destruct z; unfold dec_Z; auto. constructor; auto. lia.
Qed.

Lemma int_data_type_inj t u : int_data_type t = int_data_type u -> t = u.
Proof. destruct t, u; simpl; congruence. Qed.

Lemma int_xsd_range t : exists nm, dt_as_iri (int_data_type t) = $"http://www.w3.org/2001/XMLSchema#" ++ nm /\
  In (nm, (int_min t, int_max t)) xsd_ranges.
Proof.
  destruct t; [exists $"long"|exists $"int"|exists $"short"|exists $"byte"|exists $"unsignedLong"|exists $"unsignedInt"
    |exists $"unsignedShort"|exists $"unsignedByte"]; (split; [reflexivity|]);
  unfold xsd_ranges; repeat (first [left; reflexivity|right]).
Qed.

Lemma int_literal t z : lexical_form (lit_from_int gext printable t z) = dec_Z z.
Proof. apply dec_Z_escape. Qed.

Lemma int_literal_eq t z u y :
  lit_eq_int u (lit_from_int gext printable t z) y = true <-> t = u /\ z = y.
Proof.
  unfold lit_eq_int. rewrite int_literal, andb_true_iff, str_eqb_eq.
  unfold lit_from_int, lit_with_data_type. cbn [lit_data_type opt_eqb]. rewrite dt_eqb_eq.
  split; [intros [H1 H2]|intros [-> ->]; auto].
  apply dec_Z_inj in H1. apply int_data_type_inj in H2. auto.
Qed.

Lemma int_literal_inj t z u y :
  lit_from_int gext printable t z = lit_from_int gext printable u y <-> t = u /\ z = y.
Proof.
  split; [|intros [-> ->]; reflexivity]. intros H. apply int_literal_eq. rewrite H.
  apply int_literal_eq. auto.
Qed.

Lemma bool_literal b : lexical_form (lit_from_bool gext printable b) = bool_str b.
Proof. apply escape_ascii; auto. apply Forall_forall. intros c Hc. destruct b; vm_compute in Hc; lia. Qed.

Lemma bool_literal_eq b c : lit_eq_bool (lit_from_bool gext printable b) c = true <-> b = c.
Proof.
  unfold lit_eq_bool. rewrite bool_literal. unfold lit_from_bool, lit_with_data_type. cbn [lit_data_type opt_eqb].
  destruct b, c; vm_compute; split; congruence.
Qed.

Lemma bool_int_disjoint b t z : lit_eq_int t (lit_from_bool gext printable b) z = false
  /\ lit_eq_bool (lit_from_int gext printable t z) b = false.
Proof.
  unfold lit_eq_int, lit_eq_bool. cbn [lit_from_bool lit_from_int lit_with_data_type lit_data_type opt_eqb].
  split; rewrite andb_false_iff; right; destruct t; reflexivity.
Qed.

(** Any literal equal to an integer is the one made from it, up to the language. *)
Lemma int_eq_only t l z : lit_eq_int t l z = true <->
  lexical_form l = dec_Z z /\ lit_data_type l = Some (int_data_type t).
Proof.
  unfold lit_eq_int. rewrite andb_true_iff, str_eqb_eq, (opt_eqb_eq _ dt_eqb_eq). tauto.
Qed.

(** ** IRIs *)

Lemma iri_literal_eq m iri : lit_eq_iri m (lit_from_iri gext printable iri) iri = true <->
  m = Bare /\ Forall itself iri.
Proof.
  unfold lit_eq_iri, lit_from_iri, lit_with_data_type. cbn [lexical_form lit_data_type opt_eqb dt_eqb dt_index].
  change (dt_eqb DtIri DtIri) with true. rewrite andb_true_r, str_eqb_eq. destruct m; cbn [show_iri].
  - rewrite escape_id_iff. tauto.
  - split; [|intros [H _]; discriminate]. intros H. exfalso.
    destruct iri as [|c r].
    { discriminate H. }
    destruct (esc_cases c) as [(Hc & x & Ec & _)|(Nc & [(P & Ec)|(P & Ec)])];
      unfold escape_string in H; cbn [flat_map] in H; rewrite Ec in H; try discriminate H.
    cbn [app] in H. injection H as -> H.
    assert (IT : forall t k, flat_map esc t = (repeat 60 k) ++ 60 :: t ++ [62] -> False).
    { intros t k H'. revert k H'. induction t as [|d t IH]; intros k H'.
      - destruct k; discriminate H'.
      - cbn [flat_map] in H'. destruct (esc_cases d) as [(Hd & x & Ed & _)|(Nd & [(Q & Ed)|(Q & Ed)])];
          rewrite Ed in H'; try (destruct k; discriminate H').
        cbn [app] in H'.
        assert (d = 60) by (destruct k; injection H' as -> _; reflexivity). subst d.
        apply (IH k). destruct k as [|k]; cbn [repeat app] in *.
        + injection H' as H'. exact H'.
        + injection H' as H'. rewrite H'. clear. induction k as [|k IH]; cbn; [reflexivity|]. f_equal. exact IH. }
    apply (IT r 0%nat). exact H.
Qed.

Lemma iri_literal_back parse iri : lit_to_iri parse (lit_from_iri gext printable iri) = parse (escape iri).
Proof. reflexivity. Qed.

(** ** Durations *)

Lemma duration_escape secs nanos : lexical_form (lit_from_duration gext printable secs nanos) =
  if N.eqb nanos 0 then $"PT" ++ dec_N secs ++ $"S"
  else $"PT" ++ dec_N secs ++ $"." ++ dec_N nanos ++ $"S".
Proof.
  unfold lit_from_duration, lit_with_data_type. cbn [lexical_form]. apply escape_ascii; auto.
  assert (H : forall n, Forall (fun c => 32 <= c <= 126 /\ c <> 34 /\ c <> 92) (dec_N n)).
  { intros n. eapply Forall_impl; [|apply dec_N_digits]. intros c. unfold is_digit, in_range. lia. }
  destruct (nanos =? 0); repeat (apply Forall_app; split); auto;
    apply Forall_forall; intros c Hc; vm_compute in Hc; lia.
Qed.

Lemma dec_N_no c n : is_digit c = false -> ~ In c (dec_N n).
Proof.
  intros H Hin. pose proof (dec_N_digits n) as F. rewrite Forall_forall in F. apply F in Hin. congruence.
Qed.

Lemma duration_never_equal secs nanos s n :
  lit_eq_duration (lit_from_duration gext printable secs nanos) s n = false.
Proof.
  unfold lit_eq_duration. apply andb_false_iff. left. apply str_eqb_neq. rewrite duration_escape.
  intros H. apply (dec_N_no 80 (s * 1000000000 + n)); [reflexivity|]. rewrite <- H.
  destruct (nanos =? 0); left; reflexivity.
Qed.

Lemma fold_digits n : digits_value (dec_N n) = Some n.
Proof.
  assert (2 <= 10) by lia.
  revert n. match goal with |- forall n, @?P n => apply (radix_ind 10 P H) end; [intros n Hn|intros n Hn IH];
    unfold dec_N in *; rewrite radix_N_eq by auto; unfold digits_value in *.
  - replace (n <? 10) with true by (symmetry; lia). cbn [fold_left]. unfold hex_lower, is_digit, in_range.
    replace (n <? 10) with true by (symmetry; lia).
    replace ((48 <=? 48 + n) && (48 + n <=? 57))%bool with true by (symmetry; lia). f_equal. lia.
  - replace (n <? 10) with false by (symmetry; lia). rewrite fold_left_app, IH. cbn [fold_left].
    assert (n mod 10 < 10) by (apply N.mod_lt; lia).
    unfold hex_lower, is_digit, in_range. replace (n mod 10 <? 10) with true by (symmetry; lia).
    replace ((48 <=? 48 + n mod 10) && (48 + n mod 10 <=? 57))%bool with true by (symmetry; lia).
    f_equal. pose proof (N.div_mod n 10). lia.
Qed.

Lemma duration_value_form secs nanos : nanos < 1000000000 ->
  duration_value (lexical_form (lit_from_duration gext printable secs nanos)) =
  Some (secs * 1000000000 + nanos * 10 ^ N.of_nat (9 - length (dec_N nanos))).
Proof.
  intros Hn. rewrite duration_escape. unfold duration_value.
  destruct (N.eqb_spec nanos 0) as [->|Hz].
  - rewrite strip_prefix_app.
    replace (split_first 83 (dec_N secs ++ $"S")) with (Some (dec_N secs, @nil N)).
    2:{ symmetry. apply split_first_Some. split; auto. apply dec_N_no. reflexivity. }
    replace (split_first 46 (dec_N secs)) with (@None (str * str)).
    2:{ symmetry. apply split_first_None. apply dec_N_no. reflexivity. }
    rewrite fold_digits. cbn [option_map]. f_equal. lia.
  - rewrite strip_prefix_app.
    replace (split_first 83 (dec_N secs ++ $"." ++ dec_N nanos ++ $"S"))
      with (Some (dec_N secs ++ $"." ++ dec_N nanos, @nil N)).
    2:{ symmetry. apply split_first_Some. rewrite <- !app_assoc. split; auto.
        rewrite !in_app_iff. intros [H|[H|H]]; [revert H; apply dec_N_no; reflexivity| |revert H; apply dec_N_no; reflexivity].
        simpl in H. intuition discriminate. }
    replace (split_first 46 (dec_N secs ++ $"." ++ dec_N nanos)) with (Some (dec_N secs, dec_N nanos)).
    2:{ symmetry. apply split_first_Some. split; auto. apply dec_N_no. reflexivity. }
    rewrite !fold_digits.
    assert (HL : (length (dec_N nanos) <= 9)%nat).
    { pose proof (radix_N_length 10 nanos ltac:(lia) ltac:(lia)) as [HL _].
      destruct (Nat.leb_spec (length (dec_N nanos)) 9) as [|Hgt]; auto. exfalso.
      unfold dec_N in Hgt. remember (length (radix_N 10 nanos)) as k.
      assert (10 ^ 9 <= 10 ^ N.of_nat (k - 1)) by (apply N.pow_le_mono_r; lia).
      change (10 ^ 9) with 1000000000 in *. lia. }
    apply Nat.leb_le in HL. rewrite HL. reflexivity.
Qed.

Lemma duration_value_iff secs nanos : nanos < 1000000000 ->
  (duration_value (lexical_form (lit_from_duration gext printable secs nanos))
     = Some (secs * 1000000000 + nanos) <-> nanos = 0 \/ 100000000 <= nanos).
Proof.
  intros Hn. rewrite duration_value_form by auto.
  destruct (N.eq_dec nanos 0) as [->|Hz]; [split; auto; intros _; f_equal; lia|].
  pose proof (radix_N_length 10 nanos ltac:(lia) ltac:(lia)) as [HL HU].
  fold (dec_N nanos) in HL, HU. remember (length (dec_N nanos)) as k.
  assert (Hk : (0 < k)%nat).
  { subst k. pose proof (dec_N_nonnil nanos). destruct (dec_N nanos); [congruence|simpl; lia]. }
  split.
  - intros H. right.
    assert (inj : forall a b : N, Some a = Some b -> a = b) by congruence. apply inj in H. clear inj.
    rewrite N.add_cancel_l in H. rename H into E.
    destruct (Nat.leb_spec 9 k) as [Hge|Hlt].
    + assert (10 ^ 8 <= 10 ^ N.of_nat (k - 1)) by (apply N.pow_le_mono_r; lia).
      change (10 ^ 8) with 100000000 in *. lia.
    + assert (10 ^ 1 <= 10 ^ N.of_nat (9 - k)) by (apply N.pow_le_mono_r; lia).
      change (10 ^ 1) with 10 in *. nia.
  - intros [H|H]; [contradiction|].
    assert (Hk9 : (9 <= k)%nat).
    { destruct (Nat.leb_spec 9 k) as [|Hlt]; auto. exfalso.
      assert (10 ^ N.of_nat k <= 10 ^ 8) by (apply N.pow_le_mono_r; lia).
      change (10 ^ 8) with 100000000 in *. lia. }
    replace (9 - k)%nat with 0%nat by lia. change (10 ^ N.of_nat 0) with 1. f_equal. lia.
Qed.

Lemma dot_split a b c d : ~ In 46 a -> ~ In 46 c -> a ++ 46 :: b = c ++ 46 :: d -> a = c /\ b = d.
Proof.
  intros Ha Hc H.
  assert (E : split_first 46 (a ++ 46 :: b) = Some (a, b)) by (apply split_first_Some; auto).
  assert (F : split_first 46 (c ++ 46 :: d) = Some (c, d)) by (apply split_first_Some; auto).
  rewrite H, F in E. injection E as -> ->. auto.
Qed.

Lemma duration_inj secs nanos s n :
  lit_from_duration gext printable secs nanos = lit_from_duration gext printable s n ->
  secs = s /\ nanos = n.
Proof.
  intros H. apply (f_equal lexical_form) in H. rewrite !duration_escape in H.
  assert (Nd : forall m, ~ In 46 (dec_N m)) by (intros; apply dec_N_no; reflexivity).
  destruct (N.eqb_spec nanos 0) as [E1|H1], (N.eqb_spec n 0) as [E2|H2];
    apply app_inv_head in H.
  - subst. apply app_inv_tail in H. apply dec_N_inj in H. auto.
  - exfalso. assert (Hin : In 46 (dec_N secs ++ $"S")).
    { rewrite H. apply in_or_app. right. left. reflexivity. }
    apply in_app_or in Hin as [Hin|[Hin|[]]]; [revert Hin; apply Nd|discriminate].
  - exfalso. assert (Hin : In 46 (dec_N s ++ $"S")).
    { rewrite <- H. apply in_or_app. right. left. reflexivity. }
    apply in_app_or in Hin as [Hin|[Hin|[]]]; [revert Hin; apply Nd|discriminate].
  - change ($"." ++ dec_N nanos ++ $"S") with (46 :: (dec_N nanos ++ $"S")) in H.
    change ($"." ++ dec_N n ++ $"S") with (46 :: (dec_N n ++ $"S")) in H.
    apply dot_split in H; auto. destruct H as [Ha Hb]. apply app_inv_tail in Hb.
    apply dec_N_inj in Ha, Hb. auto.
Qed.

End Escaping.

(** ** Binary literals *)

Section Binary.
Variable gext printable : chr -> bool.
Hypothesis T : ascii_tables gext printable.

Lemma hex_upper_ascii d : d < 16 -> 48 <= hex_upper d <= 70.
Proof. unfold hex_upper. destruct (N.ltb_spec d 10); lia. Qed.

Lemma byte_digits b : b < 256 -> b / 16 < 16 /\ b mod 16 < 16 /\ 16 * (b / 16) + b mod 16 = b.
Proof. lia. Qed.

Lemma hex_encode_chars bs : is_bytes bs -> Forall (fun c => 48 <= c <= 70) (hex_encode bs).
Proof.
  induction 1 as [|b bs Hb _ IH]; [constructor|]. unfold hex_encode in *. cbn [flat_map app].
  pose proof (byte_digits b Hb) as (H1 & H2 & _). repeat constructor; auto; apply hex_upper_ascii; auto.
Qed.

Lemma hex_encode_escape bs : is_bytes bs -> escape_string gext printable (hex_encode bs) = hex_encode bs.
Proof.
  intros H. apply escape_ascii; auto. eapply Forall_impl; [|apply hex_encode_chars, H]. intros c. cbn beta. lia.
Qed.

Lemma hex_piece_byte b : b < 256 -> hex_piece [hex_upper (b / 16); hex_upper (b mod 16)] = Some b.
Proof.
  intros Hb. pose proof (byte_digits b Hb) as (H1 & H2 & E).
  pose proof (hex_upper_ascii _ H1). pose proof (hex_upper_ascii _ H2).
  unfold hex_piece, u8_from_hex2, is_ascii.
  replace ((hex_upper (b / 16) <? 128) && (hex_upper (b mod 16) <? 128))%bool with true by (symmetry; lia).
  replace (hex_upper (b / 16) =? 43) with false by (symmetry; lia).
  rewrite !hex_upper_val by auto. f_equal. exact E.
Qed.

Lemma hex_encode_length bs : length (hex_encode bs) = (2 * length bs)%nat.
Proof. induction bs as [|b bs IH]; auto. unfold hex_encode in *. cbn [flat_map app length]. lia. Qed.

Lemma hex_piece_length p b : hex_piece p = Some b -> length p = 2%nat.
Proof. destruct p as [|? [|? [|? ?]]]; simpl; congruence. Qed.

Lemma no_space_pieces s : Forall (fun c => 48 <= c) s -> split_on (N.eqb 32) s = [s].
Proof.
  intros H. apply split_on_nosep. apply forallb_forall. rewrite Forall_forall in H.
  intros c Hc. apply H in Hc. apply negb_true_iff. apply N.eqb_neq. lia.
Qed.

Lemma hex_roundtrip bs : is_bytes bs ->
  lit_to_bytes (lit_hex_encoded gext printable bs) = if Nat.eqb (length bs) 1 then Some bs else None.
Proof.
  intros H. unfold lit_to_bytes, lit_hex_encoded, lit_with_data_type. cbn [lit_data_type lexical_form dt_eqb dt_index].
  change (9 =? 1) with false. change (9 =? 9) with true. cbn iota.
  rewrite hex_encode_escape by auto. unfold hex_decode.
  rewrite no_space_pieces by (eapply Forall_impl; [|apply hex_encode_chars, H]; cbn beta; lia).
  destruct bs as [|b [|c r]].
  - reflexivity.
  - inversion H; subst. unfold hex_encode. cbn [flat_map app hex_pieces]. rewrite hex_piece_byte by auto. reflexivity.
  - cbn [hex_pieces]. destruct (hex_piece (hex_encode (b :: c :: r))) eqn:E; [|reflexivity].
    apply hex_piece_length in E. rewrite hex_encode_length in E. cbn [length] in E. lia.
Qed.

(** Pairs separated by single spaces are read back. *)
Lemma hex_spaced_roundtrip bs : is_bytes bs -> bs <> [] ->
  lit_to_bytes (lit_with_data_type gext printable
    (join [32] (map (fun b => hex_encode [b]) bs)) DtHexBinary) = Some bs.
Proof.
  intros H Hne. unfold lit_to_bytes, lit_with_data_type. cbn [lit_data_type lexical_form dt_eqb dt_index].
  change (9 =? 1) with false. change (9 =? 9) with true. cbn iota.
  rewrite escape_ascii; auto.
  - unfold hex_decode. induction H as [|b bs Hb Hbs IH]; [congruence|].
    assert (Hs : split_on (N.eqb 32) (hex_encode [b]) = [hex_encode [b]]).
    { apply no_space_pieces. eapply Forall_impl; [|apply hex_encode_chars; constructor; auto]. cbn beta. lia. }
    destruct bs as [|c r].
    + cbn [map join]. rewrite Hs. cbn [hex_pieces]. unfold hex_encode. cbn [flat_map app].
      rewrite hex_piece_byte by auto. reflexivity.
    + cbn [map]. rewrite join_cons by discriminate. cbn [app].
      rewrite split_on_app_sep; [|reflexivity|].
      * cbn [hex_pieces]. change (hex_piece (hex_encode [b])) with (hex_piece [hex_upper (b / 16); hex_upper (b mod 16)]).
        rewrite hex_piece_byte by auto. cbn [map] in IH. rewrite IH by discriminate. reflexivity.
      * apply forallb_forall. intros x Hx.
        assert (48 <= x) by (assert (F : is_bytes [b]) by (constructor; auto); apply hex_encode_chars in F;
          rewrite Forall_forall in F; apply F in Hx; lia).
        apply negb_true_iff, N.eqb_neq. lia.
  - clear Hne. induction H as [|b bs Hb Hbs IH]; [constructor|].
    assert (F : Forall (fun c => 32 <= c <= 126 /\ c <> 34 /\ c <> 92) (hex_encode [b])).
    { eapply Forall_impl; [|apply hex_encode_chars; constructor; auto]. cbn beta. lia. }
    destruct bs as [|c r]; [exact F|]. cbn [map] in *. rewrite join_cons by discriminate.
    apply Forall_app. split; auto. constructor; [lia|]. exact IH.
Qed.

Lemma b64_digit_chars n : n < 64 -> 43 <= b64_digit n <= 122.
Proof.
  intros H. unfold b64_digit.
  destruct (N.ltb_spec n 26); [lia|]. destruct (N.ltb_spec n 52); [lia|].
  destruct (N.ltb_spec n 62); [lia|]. destruct (N.eqb_spec n 62); lia.
Qed.

Lemma b64_digit_not n c : n < 64 -> In c [92; 61] -> b64_digit n <> c.
Proof.
  intros H Hc. unfold b64_digit.
  destruct (N.ltb_spec n 26); [simpl in Hc; lia|]. destruct (N.ltb_spec n 52); [simpl in Hc; lia|].
  destruct (N.ltb_spec n 62); [simpl in Hc; lia|]. destruct (N.eqb_spec n 62); simpl in Hc; lia.
Qed.

Lemma b64_val_digit n : n < 64 -> b64_val (b64_digit n) = Some n.
Proof.
  intros H. unfold b64_digit, b64_val, is_upper, is_lower, is_digit, in_range.
  destruct (N.ltb_spec n 26).
  { replace ((65 <=? 65 + n) && (65 + n <=? 90))%bool with true by (symmetry; lia). f_equal. lia. }
  destruct (N.ltb_spec n 52).
  { replace ((65 <=? 71 + n) && (71 + n <=? 90))%bool with false by (symmetry; lia).
    replace ((97 <=? 71 + n) && (71 + n <=? 122))%bool with true by (symmetry; lia). f_equal. lia. }
  destruct (N.ltb_spec n 62).
  { replace ((65 <=? n - 4) && (n - 4 <=? 90))%bool with false by (symmetry; lia).
    replace ((97 <=? n - 4) && (n - 4 <=? 122))%bool with false by (symmetry; lia).
    replace ((48 <=? n - 4) && (n - 4 <=? 57))%bool with true by (symmetry; lia). f_equal. lia. }
  destruct (N.eqb_spec n 62); [subst; reflexivity|].
  replace n with 63 by lia. reflexivity.
Qed.

Lemma list3_ind {A} (P : list A -> Prop) :
  P [] -> (forall a, P [a]) -> (forall a b, P [a; b]) ->
  (forall a b c l, P l -> P (a :: b :: c :: l)) -> forall l, P l.
Proof.
  intros H0 H1 H2 H3. fix IH 1. intros [|a [|b [|c l]]]; [exact H0|apply H1|apply H2|apply H3, IH].
Qed.

Lemma b64_encode_chars bs : is_bytes bs ->
  Forall (fun c => 43 <= c <= 122 /\ c <> 92) (b64_encode bs).
Proof.
  assert (D : forall n, n < 64 -> 43 <= b64_digit n <= 122 /\ b64_digit n <> 92).
  { intros n Hn. split; [apply b64_digit_chars; auto|apply b64_digit_not; simpl; auto]. }
  induction bs as [|a|a b|a b c l IH] using list3_ind; intros H; cbn [b64_encode].
  - constructor.
  - inversion H; subst. repeat (constructor; [first [apply D; lia|split; lia]|]). constructor.
  - inversion H as [|? ? Ha H']; inversion H'; subst.
    repeat (constructor; [first [apply D; lia|split; lia]|]). constructor.
  - inversion H as [|? ? Ha H']; inversion H' as [|? ? Hb H'']; inversion H''; subst.
    repeat (constructor; [apply D; lia|]). apply IH; auto.
Qed.

Lemma b64_encode_length bs : exists k, length (b64_encode bs) = (4 * k)%nat.
Proof.
  induction bs as [|a|a b|a b c l IH] using list3_ind.
  - exists 0%nat; reflexivity.
  - exists 1%nat; reflexivity.
  - exists 1%nat; reflexivity.
  - destruct IH as [k IH]. exists (S k). cbn [b64_encode length]. lia.
Qed.

Lemma b64_decode_encode bs : is_bytes bs -> b64_decode (b64_encode bs) = Some bs.
Proof.
  induction bs as [|a|a b|a b c l IH] using list3_ind; intros H; cbn [b64_encode].
  - reflexivity.
  - inversion H; subst. cbn [b64_decode]. rewrite !b64_val_digit by lia.
    change (b64_val 61) with (@None N). cbn iota.
    change (61 =? 61) with true. replace (16 * (a mod 4) mod 16 =? 0) with true by (symmetry; lia).
    cbn [andb]. do 2 f_equal. lia.
  - inversion H as [|? ? Ha H']; inversion H'; subst. cbn [b64_decode]. rewrite !b64_val_digit by lia.
    change (b64_val 61) with (@None N). cbn iota.
    change (61 =? 61) with true. replace (4 * (b mod 16) mod 4 =? 0) with true by (symmetry; lia).
    cbn [andb]. f_equal. f_equal; [lia|]. f_equal. lia.
  - inversion H as [|? ? Ha H']; inversion H' as [|? ? Hb H'']; inversion H''; subst.
    cbn [b64_decode]. rewrite !b64_val_digit by lia. rewrite IH by auto.
    f_equal. f_equal; [lia|]. f_equal; [lia|]. f_equal. lia.
Qed.

Lemma b64_escape bs : is_bytes bs -> escape_string gext printable (b64_encode bs) = b64_encode bs.
Proof.
  intros H. apply escape_ascii; auto. eapply Forall_impl; [|apply b64_encode_chars, H]. intros c. cbn beta. lia.
Qed.

Lemma base64_roundtrip bs : is_bytes bs ->
  lit_data_type (lit_base64_encoded gext printable bs) = Some DtHexBinary
  /\ lit_to_bytes (lit_base64_encoded gext printable bs) = None
  /\ lit_to_bytes (lit_with_data_type gext printable (b64_encode bs) DtBase64Binary) = Some bs.
Proof.
  intros H. split; [reflexivity|]. unfold lit_to_bytes, lit_base64_encoded, lit_with_data_type.
  cbn [lit_data_type lexical_form dt_eqb dt_index]. rewrite b64_escape by auto. split.
  - change (9 =? 1) with false. change (9 =? 9) with true. cbn iota. unfold hex_decode.
    replace (split_on (N.eqb 32) (b64_encode bs)) with [b64_encode bs].
    + cbn [hex_pieces]. destruct (hex_piece (b64_encode bs)) eqn:E; [|reflexivity].
      apply hex_piece_length in E. destruct (b64_encode_length bs). lia.
    + symmetry. apply split_on_nosep. apply forallb_forall. intros c Hc.
      pose proof (b64_encode_chars bs H) as F. rewrite Forall_forall in F. apply F in Hc.
      apply negb_true_iff, N.eqb_neq. lia.
  - change (1 =? 1) with true. cbn iota. apply b64_decode_encode, H.
Qed.

End Binary.

(** Conversion to bytes fails on every literal that is not tagged binary. *)
Lemma to_bytes_type l bs : lit_to_bytes l = Some bs ->
  lit_data_type l = Some DtBase64Binary \/ lit_data_type l = Some DtHexBinary.
Proof.
  unfold lit_to_bytes. destruct (lit_data_type l) as [d|]; [|discriminate].
  destruct (dt_eqb d DtBase64Binary) eqn:E1; [apply dt_eqb_eq in E1; subst; auto|].
  destruct (dt_eqb d DtHexBinary) eqn:E2; [apply dt_eqb_eq in E2; subst; auto|discriminate].
Qed.

(** ** Statements used in PropsLiteral.v *)

Lemma string_refuted gext printable :
  lit_eq_str (lit_plain gext printable $"say ""hi""") $"say ""hi""" = false /\
  lit_eq_str (lit_from_str gext printable $"say ""hi""") $"say ""hi""" = false.
Proof.
  assert (N : ~ Forall (prints_as_itself gext printable) $"say ""hi""").
  { intros H. rewrite Forall_forall in H. destruct (H 34) as [H1 _]; [vm_compute; tauto|]. apply H1. vm_compute. tauto. }
  split; apply not_true_is_false; intros H; apply N.
  - apply plain_eq_iff, H.
  - apply from_str_eq_iff, H.
Qed.

Lemma string_ascii gext printable s : ascii_tables gext printable ->
  Forall (fun c => 32 <= c <= 126 /\ c <> 34 /\ c <> 92) s ->
  lit_eq_str (lit_plain gext printable s) s = true /\ lexical_form (lit_plain gext printable s) = s.
Proof.
  intros T H. pose proof (escape_ascii gext printable s T H) as E. split; [|exact E].
  apply plain_eq_iff. apply escape_id_iff, E.
Qed.

Lemma binary_refuted gext printable : ascii_tables gext printable ->
  (exists bs, is_bytes bs /\ lit_to_bytes (lit_hex_encoded gext printable bs) = None) /\
  (forall bs, is_bytes bs -> lit_data_type (lit_base64_encoded gext printable bs) <> Some DtBase64Binary).
Proof.
  intros T. split.
  - exists [1; 2]. assert (is_bytes [1; 2]) by (repeat constructor). split; auto. rewrite hex_roundtrip by auto. reflexivity.
  - intros bs H. destruct (base64_roundtrip gext printable T bs H) as (-> & _). discriminate.
Qed.

Lemma constructors_quotable gext printable s d lang iri bs t z b secs nanos :
  let ok l := quotable (lexical_form l) = true in
  ok (lit_plain gext printable s) /\ ok (lit_with_language gext printable s lang) /\
  ok (lit_with_data_type gext printable s d) /\ ok (lit_with_data_type_iri gext printable s iri) /\
  ok (lit_hex_encoded gext printable bs) /\ ok (lit_base64_encoded gext printable bs) /\
  ok (lit_from_bool gext printable b) /\ ok (lit_from_int gext printable t z) /\
  ok (lit_from_duration gext printable secs nanos) /\ ok (lit_from_str gext printable s) /\
  ok (lit_from_lang gext printable s) /\ ok (lit_from_name gext printable s) /\
  ok (lit_from_qname gext printable s) /\ ok (lit_from_iri gext printable s).
Proof. cbv zeta. repeat split; apply escape_quotable. Qed.

Lemma constructors_kinds gext printable s d lang iri bs t z b secs nanos :
  let ok l := lit_data_type l = None \/ lit_language l = None in
  (ok (lit_plain gext printable s) /\ ok (lit_with_language gext printable s lang) /\
   ok (lit_with_data_type gext printable s d) /\ ok (lit_with_data_type_iri gext printable s iri) /\
   ok (lit_hex_encoded gext printable bs) /\ ok (lit_base64_encoded gext printable bs) /\
   ok (lit_from_bool gext printable b) /\ ok (lit_from_int gext printable t z) /\
   ok (lit_from_duration gext printable secs nanos) /\ ok (lit_from_str gext printable s) /\
   ok (lit_from_lang gext printable s) /\ ok (lit_from_name gext printable s) /\
   ok (lit_from_qname gext printable s) /\ ok (lit_from_iri gext printable s)) /\
  forall s', lit_plain gext printable s <> lit_with_language gext printable s' lang /\
    lit_plain gext printable s <> lit_with_data_type gext printable s' d /\
    lit_with_language gext printable s lang <> lit_with_data_type gext printable s' d.
Proof.
  intros ok. split.
  - unfold ok. split; [left; reflexivity|]. split; [left; reflexivity|]. repeat match goal with |- _ /\ _ => split end; right; reflexivity.
  - intros s'. split; [|split]; intros E.
    + apply (f_equal lit_language) in E. discriminate.
    + apply (f_equal lit_data_type) in E. discriminate.
    + apply (f_equal lit_language) in E. discriminate.
Qed.
Lemma constructors_injective gext printable s t :
  (lit_plain gext printable s = lit_plain gext printable t -> s = t) /\
  (forall a b, lit_with_language gext printable s a = lit_with_language gext printable t b -> s = t /\ a = b) /\
  (forall a b, lit_with_data_type gext printable s a = lit_with_data_type gext printable t b -> s = t /\ a = b) /\
  (forall a b, lit_with_data_type_iri gext printable s a = lit_with_data_type_iri gext printable t b -> s = t /\ a = b).
Proof.
  assert (L : forall l l', l = l' -> lexical_form l = lexical_form l' /\ lit_data_type l = lit_data_type l' /\ lit_language l = lit_language l').
  { intros l l' ->. auto. }
  split; [|split; [|split]].
  - intros H. apply L in H as (H & _). exact (escape_inj _ _ _ _ H).
  - intros a b H. apply L in H as (H & _ & H2). cbn in H2. split; [exact (escape_inj _ _ _ _ H)|congruence].
  - intros a b H. apply L in H as (H & H2 & _). cbn in H2. split; [exact (escape_inj _ _ _ _ H)|congruence].
  - intros a b H. apply L in H as (H & H2 & _). cbn in H2. split; [exact (escape_inj _ _ _ _ H)|congruence].
Qed.

Lemma duration_refuted gext printable : ascii_tables gext printable ->
  exists secs nanos, nanos < 1000000000 /\
    duration_value (lexical_form (lit_from_duration gext printable secs nanos)) <>
    Some (secs * 1000000000 + nanos).
Proof.
  intros T. exists 1, 50000000. split; [lia|]. intros H. apply duration_value_iff in H; auto; lia.
Qed.

Lemma iri_literal_angled gext printable iri : lit_eq_iri Angled (lit_from_iri gext printable iri) iri = false.
Proof. apply not_true_is_false. intros H. apply iri_literal_eq in H as [H _]. discriminate. Qed.

Lemma iri_literal_try gext printable (parse : str -> option str) :
  (forall iri, Forall (prints_as_itself gext printable) iri ->
     lit_to_iri parse (lit_from_iri gext printable iri) = parse iri) /\
  (forall l, lit_data_type l <> Some DtIri -> lit_to_iri parse l = None).
Proof.
  split.
  - intros iri H. rewrite iri_literal_back. apply escape_id_iff in H. rewrite H. reflexivity.
  - intros l H. unfold lit_to_iri. destruct (lit_data_type l) as [d|]; auto.
    destruct (dt_eqb d DtIri) eqn:E; auto. apply dt_eqb_eq in E. congruence.
Qed.

(** ** What an escaped text stands for *)
Lemma brace_lower d : d < 16 -> brace_digit (hex_lower d) d.
Proof. intros H. unfold brace_digit, hex_lower. destruct (N.ltb_spec d 10); [left|right]; lia. Qed.
Lemma brace_radix n : brace_number (hex_N n) n.
Proof.
  unfold hex_N. assert (Hb : 2 <= 16) by lia. revert n.
  match goal with |- forall n, @?P n => apply (radix_ind 16 P Hb) end; [intros n Hn|intros n Hn IH]; rewrite radix_N_eq by auto.
  - replace (n <? 16) with true by (symmetry; lia). constructor. apply brace_lower, Hn.
  - replace (n <? 16) with false by (symmetry; lia). rewrite (N.div_mod n 16) at 3 by lia. constructor; [exact IH|].
    apply brace_lower. apply N.mod_lt. lia.
Qed.
Lemma brace_fun ds n : brace_number ds n -> forall m, brace_number ds m -> n = m.
Proof.
  assert (D : forall d v w, brace_digit d v -> brace_digit d w -> v = w) by (unfold brace_digit; intros; lia).
  assert (Z : forall ds n, brace_number ds n -> ds <> []) by (intros ? ? [|]; intros E; [discriminate|]; apply app_eq_nil in E as [_ E]; discriminate).
  induction 1 as [d v H|ds n d v B IH H]; intros m K.
  - remember [d] as z eqn:E. destruct K as [d' v' H'|ds' n' d' v' B' H'].
    + injection E as ->. eapply D; eauto.
    + exfalso. destruct ds' as [|x ds']; [eapply Z; eauto|]. destruct ds'; discriminate.
  - remember (ds ++ [d]) as z eqn:E. destruct K as [d' v' H'|ds' n' d' v' B' H'].
    + exfalso. destruct ds as [|x ds]; [eapply Z; eauto|]. destruct ds; discriminate.
    + apply app_inj_tail in E as [-> ->]. rewrite (IH _ B'), (D _ _ _ H H'). reflexivity.
Qed.
Lemma brace_chars ds n : brace_number ds n -> ~ In 125 ds.
Proof.
  assert (D : forall d v, brace_digit d v -> d <> 125) by (unfold brace_digit; intros; lia).
  induction 1 as [d v H|ds n d v B IH H].
  - intros [E|[]]. eapply D; eauto.
  - intros I. apply in_app_or in I as [I|[E|[]]]; [auto|]. eapply D; eauto.
Qed.
Lemma rust_unicode ds s : $"\u{" ++ ds ++ $"}" ++ s = 92 :: 117 :: 123 :: ds ++ 125 :: s.
Proof. reflexivity. Qed.
Lemma rust_fun w s : rust_text w s -> forall t, rust_text w t -> s = t.
Proof.
  induction 1 as [|c w s N R IH|e c w s I R IH|ds c w s B R IH]; intros t K.
  - remember [] as z eqn:Z. destruct K as [|a x y N' R'|a b x y I' R'|a b x y B' R']; [reflexivity|discriminate|discriminate|].
    rewrite rust_unicode in Z. discriminate.
  - remember (c :: w) as z eqn:Z. destruct K as [|a x y N' R'|a b x y I' R'|a b x y B' R']; [discriminate| | |].
    + injection Z as -> ->. f_equal. apply IH. assumption.
    + injection Z as E _. exfalso. apply N. right. left. exact E.
    + rewrite rust_unicode in Z. injection Z as E _. exfalso. apply N. right. left. exact E.
  - remember (92 :: e :: w) as z eqn:Z. destruct K as [|a x y N' R'|a b x y I' R'|a b x y B' R']; [discriminate| | |].
    + injection Z as -> _. exfalso. apply N'. right. left. reflexivity.
    + injection Z as -> ->. f_equal; [|apply IH; assumption]. cbn [In] in I, I'. intuition congruence.
    + rewrite rust_unicode in Z. injection Z as E _. subst e. cbn [In] in I. intuition congruence.
  - remember ($"\u{" ++ ds ++ $"}" ++ w) as z eqn:Z. rewrite rust_unicode in Z.
    destruct K as [|a x y N' R'|a b x y I' R'|a b x y B' R'].
    + discriminate.
    + injection Z as -> _. exfalso. apply N'. right. left. reflexivity.
    + injection Z as -> _. cbn [In] in I'. intuition congruence.
    + rewrite rust_unicode in Z. injection Z as Z.
      assert (E1 : split_first 125 (a ++ 125 :: x) = Some (a, x)) by (apply split_first_Some; split; [reflexivity|eapply brace_chars; eauto]).
      assert (E2 : split_first 125 (ds ++ 125 :: w) = Some (ds, w)) by (apply split_first_Some; split; [reflexivity|eapply brace_chars; eauto]).
      rewrite Z, E2 in E1. injection E1 as -> ->. rewrite (brace_fun _ _ B _ B'). f_equal. apply IH. assumption.
Qed.
Lemma escape_stands gext printable s : rust_text (escape_string gext printable s) s.
Proof.
  induction s as [|c s IH]; [constructor|]. change (escape_string gext printable (c :: s)) with (esc_chr gext printable c ++ escape_string gext printable s).
  destruct (esc_cases gext printable c) as [(Hc & x & -> & Ix)|(Nc & [(_ & ->)|(_ & ->)])].
  - cbn [app]. apply Rt_simple; [|exact IH]. clear Hc. cbn [In] in *. intuition congruence.
  - cbn [app]. apply Rt_self; [|exact IH]. intros I. apply Nc. cbn [In] in *. tauto.
  - unfold u_esc. rewrite <- !app_assoc. apply Rt_unicode; [apply brace_radix|exact IH].
Qed.
Lemma constructors_stand gext printable s d lang iri t :
  let says l := rust_text (lexical_form l) t <-> t = s in
  says (lit_plain gext printable s) /\ says (lit_with_language gext printable s lang) /\
  says (lit_with_data_type gext printable s d) /\ says (lit_with_data_type_iri gext printable s iri).
Proof.
  assert (H : rust_text (escape_string gext printable s) t <-> t = s).
  { split; [intros R; eapply rust_fun; [exact R|apply escape_stands]|intros ->; apply escape_stands]. }
  cbn. repeat split; apply H.
Qed.
