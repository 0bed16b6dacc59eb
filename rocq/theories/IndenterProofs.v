From Coq Require Import Lia ZArith.
From Verif Require Import IndenterSpec.

Section P.
Variable m : N.

Lemma on_current_keeps i x j : on_current i x = Ret j -> offset j = offset i /\ width j = width i.
Proof. destruct x; [|discriminate]. intros E. injection E as <-. auto. Qed.

Lemma step_keeps a i op j : ind_step m a i op = Ret j -> offset j = offset i /\ width j = width i.
Proof.
  destruct op; cbn; unfold indent, indent_for, indent_by, outdent, outdent_for, outdent_by;
    try (destruct (N.eqb (current i) 0); [discriminate|]); try apply on_current_keeps.
  intros E. injection E as <-. auto.
Qed.

(** With overflow checks a call succeeds exactly if it stays on the page. *)
Lemma step_checked i op : current i < m -> offset i < m ->
  match ind_step m Checked i op with
  | Ret j => (leftwards op = true -> current i <> 0) /\
      (0 <= column (offset i) (width i) (Z.of_N (current i)) op < Z.of_N m)%Z /\
      Z.of_N (current j) = column (offset i) (width i) (Z.of_N (current i)) op
  | Panic => (leftwards op = true /\ current i = 0) \/
      ~ (0 <= column (offset i) (width i) (Z.of_N (current i)) op < Z.of_N m)%Z
  end.
Proof.
  intros C O.
  assert (R : forall k, match indent_by m Checked i k with
    | Ret j => (0 <= Z.of_N (current i) + Z.of_N k < Z.of_N m)%Z /\ Z.of_N (current j) = (Z.of_N (current i) + Z.of_N k)%Z
    | Panic => ~ (0 <= Z.of_N (current i) + Z.of_N k < Z.of_N m)%Z end).
  { intros k. unfold indent_by, usize_add. destruct (N.ltb_spec (current i + k) m); cbn; lia. }
  assert (L : forall k, match outdent_by m Checked i k with
    | Ret j => current i <> 0 /\ (0 <= Z.of_N (current i) - Z.of_N k < Z.of_N m)%Z /\ Z.of_N (current j) = (Z.of_N (current i) - Z.of_N k)%Z
    | Panic => current i = 0 \/ ~ (0 <= Z.of_N (current i) - Z.of_N k < Z.of_N m)%Z end).
  { intros k. unfold outdent_by. destruct (N.eqb_spec (current i) 0); [auto|].
    unfold usize_sub. destruct (N.leb_spec k (current i)); cbn; lia. }
  destruct op; cbn [ind_step leftwards column move]; unfold column; cbn [move].
  - unfold indent. specialize (R (width i)). destruct (indent_by m Checked i (width i)); [|auto]. intuition discriminate.
  - specialize (R k). destruct (indent_by m Checked i k); [|auto]. intuition discriminate.
  - unfold indent_for. specialize (R k). destruct (indent_by m Checked i k); [|auto]. intuition discriminate.
  - unfold outdent. destruct (N.eqb_spec (current i) 0); [auto|]. specialize (L (width i)). destruct (outdent_by m Checked i (width i)); intuition.
  - specialize (L k). destruct (outdent_by m Checked i k); intuition.
  - unfold outdent_for. destruct (N.eqb_spec (current i) 0); [auto|]. specialize (L k). destruct (outdent_by m Checked i k); intuition.
  - split; [discriminate|]. split; [lia|reflexivity].
Qed.

Lemma run_checked ops : forall i, current i < m -> offset i < m ->
  (on_page m (offset i) (width i) (Z.of_N (current i)) ops ->
   exists j, ind_run m Checked i ops = Ret j /\ offset j = offset i /\ width j = width i /\
     Z.of_N (current j) = column_run (offset i) (width i) (Z.of_N (current i)) ops) /\
  (~ on_page m (offset i) (width i) (Z.of_N (current i)) ops -> ind_run m Checked i ops = Panic).
Proof.
  induction ops as [|op r IH]; intros i C O.
  - cbn. split; [|tauto]. intros _. exists i. auto.
  - pose proof (step_checked i op C O) as S. cbn [ind_run on_page column_run].
    pose proof (step_keeps Checked i op) as K.
    destruct (ind_step m Checked i op) as [j|].
    + destruct S as (S1 & S2 & S3). destruct (K j eq_refl) as [KO KW]. rewrite <- S3 in *.
      assert (CJ : current j < m) by lia. assert (OJ : offset j < m) by (rewrite KO; exact O).
      destruct (IH j CJ OJ) as [A B]. rewrite KO, KW in A, B. split.
      * intros (_ & _ & P). apply A in P as (j' & E & F & G & H). exists j'. auto.
      * intros N. apply B. intros P. apply N. split; [intros L E; apply (S1 L); lia|]. split; [lia|exact P].
    + split; [|reflexivity]. intros (P1 & P2 & _). exfalso. destruct S as [[S1 S2]|S]; [apply P1 in S1; lia|tauto].
Qed.

(** Both modes agree as long as nothing leaves the page. *)
Lemma step_modes i op j : ind_step m Checked i op = Ret j -> ind_step m Wrapping i op = Ret j.
Proof.
  assert (A : forall k, indent_by m Checked i k = Ret j -> indent_by m Wrapping i k = Ret j).
  { intros k. unfold indent_by, usize_add. destruct (current i + k <? m); [auto|discriminate]. }
  assert (B : forall k, outdent_by m Checked i k = Ret j -> outdent_by m Wrapping i k = Ret j).
  { intros k. unfold outdent_by, usize_sub. destruct (N.eqb (current i) 0); [auto|]. destruct (k <=? current i); [auto|discriminate]. }
  destruct op; cbn; unfold indent, indent_for, outdent, outdent_for; try apply A; try apply B; auto;
    destruct (N.eqb (current i) 0); auto.
Qed.
Lemma run_modes ops : forall i j, ind_run m Checked i ops = Ret j -> ind_run m Wrapping i ops = Ret j.
Proof.
  induction ops as [|op r IH]; intros i j; cbn; [auto|]. destruct (ind_step m Checked i op) as [k|] eqn:E; [|discriminate].
  rewrite (step_modes _ _ _ E). apply IH.
Qed.

Lemma run_app a ops1 : forall i ops2, ind_run m a i (ops1 ++ ops2) =
  match ind_run m a i ops1 with Ret j => ind_run m a j ops2 | Panic => Panic end.
Proof. induction ops1 as [|op r IH]; intros i ops2; cbn; [reflexivity|]. destruct (ind_step m a i op); auto. Qed.

Lemma indenter_eq i j : offset j = offset i -> width j = width i -> current j = current i -> j = i.
Proof. destruct i, j; cbn; intros; congruence. Qed.

Lemma balanced_checked w ops d : balanced w ops d -> forall i, width i = w -> offset i < m -> current i + d < m ->
  ind_run m Checked i ops = Ret i.
Proof.
  induction 1 as [|a b x y A IHA B IHB|l x op1 op2 k L IH K L1 L2 M1 M2]; intros i W O D; [reflexivity| |].
  - rewrite run_app, IHA by (auto; lia). apply IHB; auto; lia.
  - rewrite run_app. cbn [ind_run]. assert (C : current i < m) by lia.
    pose proof (step_checked i op1 C O) as S1. pose proof (step_keeps Checked i op1) as K1.
    assert (E1 : column (offset i) (width i) (Z.of_N (current i)) op1 = (Z.of_N (current i) + Z.of_N k)%Z)
      by (unfold column; rewrite W, M1; reflexivity). rewrite E1 in S1.
    destruct (ind_step m Checked i op1) as [j|].
    2:{ exfalso. destruct S1 as [[S1 _]|S1]; [congruence|lia]. }
    destruct S1 as (_ & _ & S1). destruct (K1 j eq_refl) as [KO KW].
    rewrite run_app, IH by (try congruence; lia). cbn [ind_run].
    assert (CJ : current j < m) by lia. assert (OJ : offset j < m) by congruence.
    pose proof (step_checked j op2 CJ OJ) as S2. pose proof (step_keeps Checked j op2) as K2.
    assert (E2 : column (offset j) (width j) (Z.of_N (current j)) op2 = Z.of_N (current i))
      by (unfold column; rewrite KW, W, M2; lia). rewrite E2 in S2.
    destruct (ind_step m Checked j op2) as [j'|].
    + f_equal. destruct S2 as (_ & _ & S2). destruct (K2 j' eq_refl) as [KO2 KW2].
      apply indenter_eq; [congruence|congruence|lia].
    + exfalso. destruct S2 as [[_ S2]|S2]; lia.
Qed.
Lemma c45_balanced a ops d i : balanced (width i) ops d -> offset i < m -> current i + d < m ->
  ind_run m a i ops = Ret i.
Proof.
  intros B O D. pose proof (balanced_checked _ _ _ B i eq_refl O D) as E. destruct a; [exact E|]. apply run_modes. exact E.
Qed.

(** Without checks the column is counted modulo the size of [usize]. *)
Lemma step_wrapping i op : sized m op -> width i < m -> offset i < m -> current i < m ->
  match ind_step m Wrapping i op with
  | Ret j => current j < m /\ Z.of_N (current j) = (column (offset i) (width i) (Z.of_N (current i)) op mod Z.of_N m)%Z /\
      ~ (leftwards op = true /\ current i = 0)
  | Panic => leftwards op = true /\ current i = 0
  end.
Proof.
  intros S W O C.
  assert (R : forall k, k < m -> exists j, indent_by m Wrapping i k = Ret j /\ current j < m /\
    Z.of_N (current j) = ((Z.of_N (current i) + Z.of_N k) mod Z.of_N m)%Z).
  { intros k K. unfold indent_by, usize_add. destruct (N.ltb_spec (current i + k) m); cbn [on_current]; eexists; (split; [reflexivity|]); cbn [set_current current].
    - split; [assumption|]. rewrite Z.mod_small by lia. lia.
    - split; [apply N.mod_lt; lia|]. rewrite N2Z.inj_mod, N2Z.inj_add. reflexivity. }
  assert (L : forall k, k < m -> current i <> 0 -> exists j, outdent_by m Wrapping i k = Ret j /\ current j < m /\
    Z.of_N (current j) = ((Z.of_N (current i) - Z.of_N k) mod Z.of_N m)%Z).
  { intros k K Z. unfold outdent_by. destruct (N.eqb_spec (current i) 0); [lia|]. unfold usize_sub.
    destruct (N.leb_spec k (current i)); cbn [on_current]; eexists; (split; [reflexivity|]); cbn [set_current current].
    - split; [lia|]. rewrite Z.mod_small by lia. lia.
    - split; [lia|]. rewrite <- (Z_mod_plus_full _ 1), Z.mod_small by lia. lia. }
  destruct op; cbn [ind_step leftwards sized] in *; unfold column; cbn [move];
    unfold indent, indent_for, outdent, outdent_for; cbv beta in *.
  - destruct (R _ W) as (j & -> & A & B). rewrite B. intuition discriminate.
  - destruct (R _ S) as (j & -> & A & B). rewrite B. intuition discriminate.
  - destruct (R _ S) as (j & -> & A & B). rewrite B. intuition discriminate.
  - destruct (N.eqb_spec (current i) 0) as [E|E]; [auto|]. destruct (L _ W E) as (j & -> & A & B). rewrite B. intuition.
  - destruct (N.eqb_spec (current i) 0) as [E|E]; [unfold outdent_by; rewrite E; cbn; auto|]. destruct (L _ S E) as (j & -> & A & B). rewrite B. intuition.
  - destruct (N.eqb_spec (current i) 0) as [E|E]; [auto|]. destruct (L _ S E) as (j & -> & A & B). rewrite B. intuition.
  - cbn [reset_depth current]. split; [exact O|]. split; [rewrite Z.mod_small by lia; reflexivity|]. intuition discriminate.
Qed.
Lemma column_mod o w c d op : (c mod Z.of_N m = d mod Z.of_N m)%Z ->
  (column o w c op mod Z.of_N m = column o w d op mod Z.of_N m)%Z.
Proof.
  intros E. unfold column. destruct (move w op); [|reflexivity]. rewrite (Zplus_mod c), (Zplus_mod d), E. reflexivity.
Qed.
Lemma column_run_mod o w ops : forall c d, (c mod Z.of_N m = d mod Z.of_N m)%Z ->
  (column_run o w c ops mod Z.of_N m = column_run o w d ops mod Z.of_N m)%Z.
Proof. induction ops as [|op ops IH]; intros c d E; [exact E|]. cbn [column_run]. apply IH, column_mod, E. Qed.
Lemma c45_wrapping ops : forall i, Forall (sized m) ops -> width i < m -> offset i < m -> current i < m ->
  (forall j, ind_run m Wrapping i ops = Ret j ->
     offset j = offset i /\ width j = width i /\
     Z.of_N (current j) = (column_run (offset i) (width i) (Z.of_N (current i)) ops mod Z.of_N m)%Z) /\
  (ind_run m Wrapping i ops = Panic <->
   exists before op after, ops = before ++ op :: after /\ leftwards op = true /\
     (column_run (offset i) (width i) (Z.of_N (current i)) before mod Z.of_N m = 0)%Z).
Proof.
  induction ops as [|op ops IH]; intros i S W O C.
  - split.
    + intros j E. injection E as <-. cbn [column_run]. rewrite Z.mod_small by lia. auto.
    + split; [discriminate|]. intros ([|? ?] & ? & ? & E & _); discriminate E.
  - inversion S as [|? ? S1 S2]; subst. pose proof (step_wrapping i op S1 W O C) as T. cbn [ind_run].
    pose proof (step_keeps Wrapping i op) as K.
    destruct (ind_step m Wrapping i op) as [j|].
    + destruct T as (T1 & T2 & T3). destruct (K j eq_refl) as [KO KW].
      destruct (IH j S2) as [A B]; [congruence|congruence|exact T1|]. rewrite KO, KW in A, B.
      assert (M : (Z.of_N (current j) mod Z.of_N m = column (offset i) (width i) (Z.of_N (current i)) op mod Z.of_N m)%Z)
        by (rewrite T2, Zmod_mod; reflexivity).
      split.
      * intros k E. destruct (A k E) as (A1 & A2 & A3). split; [exact A1|]. split; [exact A2|]. rewrite A3. cbn [column_run].
        apply column_run_mod, M.
      * rewrite B. split.
        -- intros (b & o & a & -> & L & Z). exists (op :: b), o, a. split; [reflexivity|]. split; [exact L|].
           cbn [column_run]. rewrite <- Z. symmetry. apply column_run_mod, M.
        -- intros ([|b0 b] & o & a & E & L & Z); cbn [app] in E; injection E as -> ->.
           ++ exfalso. apply T3. split; [exact L|]. cbn [column_run] in Z. rewrite Z.mod_small in Z by lia. lia.
           ++ exists b, o, a. split; [reflexivity|]. split; [exact L|]. cbn [column_run] in Z. rewrite <- Z. apply column_run_mod, M.
    + split; [discriminate|]. split; [|reflexivity]. intros _. exists [], op, ops. split; [reflexivity|]. split; [apply T|].
      cbn [column_run]. destruct T as [_ ->]. reflexivity.
Qed.

Lemma c45_column ops i : current i < m -> offset i < m ->
  (on_page m (offset i) (width i) (Z.of_N (current i)) ops ->
   exists j, (forall a, ind_run m a i ops = Ret j) /\ offset j = offset i /\ width j = width i /\
     Z.of_N (N.of_nat (length (ind_show j))) = column_run (offset i) (width i) (Z.of_N (current i)) ops /\
     Forall (eq 32) (ind_show j)) /\
  (~ on_page m (offset i) (width i) (Z.of_N (current i)) ops -> ind_run m Checked i ops = Panic).
Proof.
  intros C O. destruct (run_checked ops i C O) as [A B]. split; [|exact B]. intros P. destruct (A P) as (j & E & KO & KW & K).
  exists j. split; [intros []; [exact E|apply run_modes; exact E]|]. split; [exact KO|]. split; [exact KW|]. unfold ind_show. split.
  - rewrite repeat_length. lia.
  - apply Forall_forall. intros x I. apply repeat_spec in I. auto.
Qed.
End P.

Lemma c45_offset i o w :
  is_not_indented (with_initial_offset i o) = true /\ current (with_initial_offset i o) = o /\
  offset (with_initial_offset i o) = o /\ width (with_initial_offset i o) = width i /\
  width (with_default_indent_width i w) = w /\ current (with_default_indent_width i w) = current i /\
  offset (with_default_indent_width i w) = offset i /\
  (is_not_indented i = true <-> length (ind_show i) = N.to_nat (offset i)) /\
  offset ind_default = 0 /\ width ind_default = 2 /\ ind_show ind_default = [].
Proof.
  do 7 (split; [unfold is_not_indented; cbn; auto using N.eqb_refl|]). split; [|repeat split; reflexivity]. unfold is_not_indented, ind_show.
  rewrite repeat_length, N.eqb_eq. split; [congruence|apply N2Nat.inj].
Qed.
Lemma c45_refuted :
  (forall modulus mode, 0 < modulus ->
     ind_run modulus mode (with_default_indent_width ind_default 0) [Indent; Outdent] = Panic) /\
  (forall modulus, 3 < modulus ->
     exists j, ind_run modulus Wrapping ind_default [IndentBy 1; OutdentBy 2] = Ret j /\ current j = modulus - 1).
Proof.
  split.
  - intros m a H. cbn -[N.ltb]. unfold indent, indent_by, usize_add. cbn -[N.ltb]. destruct (N.ltb_spec 0 m); [reflexivity|lia].
  - intros m H. cbn -[N.ltb N.add]. unfold indent_by, usize_add. cbn -[N.ltb N.add]. destruct (N.ltb_spec (0 + 1) m); [|lia].
    cbn -[N.ltb N.add N.sub]. eexists. split; [reflexivity|]. cbn -[N.add N.sub]. lia.
Qed.
