(** Facts about the parser combinators. *)
From Coq Require Import Lia.
From Verif Require Import StrFacts Pest.

(** Every parser returns a split of its input. *)
Definition splits (a : parser) : Prop := forall s t p r, a s = Some (t, p, r) -> s = t ++ r.
(** ... and consumes at least one character. *)
Definition moves (a : parser) : Prop := forall s t p r, a s = Some (t, p, r) -> s = t ++ r /\ t <> [].

Lemma moves_splits a : moves a -> splits a.
Proof. intros H s t p r E. apply (H _ _ _ _ E). Qed.

Lemma p_lit_app t r : p_lit t (t ++ r) = Some (t, [], r).
Proof. unfold p_lit. rewrite strip_prefix_app. reflexivity. Qed.
Lemma p_lit_Some t s t' p r : p_lit t s = Some (t', p, r) <-> t' = t /\ p = [] /\ s = t ++ r.
Proof.
  unfold p_lit. destruct (strip_prefix t s) eqn:E.
  - apply strip_prefix_Some in E. subst. split.
    + intros H. inversion H. auto.
    + intros (-> & -> & H). apply app_inv_head in H. subst. reflexivity.
  - split; [discriminate|]. intros (-> & -> & ->). rewrite strip_prefix_app in E. discriminate.
Qed.
Lemma p_lit1_None c s : p_lit [c] s = None <-> (forall r, s <> c :: r).
Proof.
  unfold p_lit. cbn [strip_prefix]. destruct s as [|d s].
  - split; [discriminate|reflexivity].
  - destruct (N.eqb_spec c d).
    + subst. split; [discriminate|]. intros H. destruct (H s). reflexivity.
    + split; [|reflexivity]. intros _ r E. inversion E. congruence.
Qed.

Lemma p_chr_Some f s t p r : p_chr f s = Some (t, p, r) <->
  exists c, f c = true /\ t = [c] /\ p = [] /\ s = c :: r.
Proof.
  unfold p_chr. destruct s as [|c s].
  - split; [discriminate|]. intros (c & _ & _ & _ & E). discriminate.
  - destruct (f c) eqn:F.
    + split.
      * intros H. inversion H; subst. exists c. auto.
      * intros (d & _ & -> & -> & E). inversion E; subst. reflexivity.
    + split; [discriminate|]. intros (d & Fd & _ & _ & E). inversion E; subst. congruence.
Qed.
Lemma p_chr_cons f c r : f c = true -> p_chr f (c :: r) = Some ([c], [], r).
Proof. intros H. unfold p_chr. rewrite H. reflexivity. Qed.
Lemma p_chr_None f s : p_chr f s = None <-> match s with [] => True | c :: _ => f c = false end.
Proof. unfold p_chr. destruct s as [|c s]; [tauto|]. destruct (f c); intuition discriminate. Qed.

Lemma p_alt_Some a b s x : p_alt a b s = Some x <-> a s = Some x \/ a s = None /\ b s = Some x.
Proof. unfold p_alt. destruct (a s); intuition congruence. Qed.
Lemma p_alt_None a b s : p_alt a b s = None <-> a s = None /\ b s = None.
Proof. unfold p_alt. destruct (a s); intuition congruence. Qed.

Lemma p_seq_Some a b s t p r : p_seq a b s = Some (t, p, r) <->
  exists t1 p1 r1 t2 p2, a s = Some (t1, p1, r1) /\ b r1 = Some (t2, p2, r) /\ t = t1 ++ t2 /\ p = p1 ++ p2.
Proof.
  unfold p_seq. destruct (a s) as [[[t1 p1] r1]|].
  - destruct (b r1) as [[[t2 p2] r2]|] eqn:B.
    + split.
      * intros H. inversion H; subst. exists t1, p1, r1, t2, p2. auto.
      * intros (t1' & p1' & r1' & t2' & p2' & E1 & E2 & -> & ->).
        inversion E1; subst. rewrite B in E2. inversion E2; subst. reflexivity.
    + split; [discriminate|]. intros (t1' & p1' & r1' & t2' & p2' & E1 & E2 & _).
      inversion E1; subst. congruence.
  - split; [discriminate|]. intros (t1' & p1' & r1' & t2' & p2' & E1 & _). discriminate.
Qed.
Lemma p_seq_eq a b s t1 p1 r1 t2 p2 r :
  a s = Some (t1, p1, r1) -> b r1 = Some (t2, p2, r) -> p_seq a b s = Some (t1 ++ t2, p1 ++ p2, r).
Proof. intros A B. unfold p_seq. rewrite A, B. reflexivity. Qed.
Lemma p_seq_to a b s t1 p1 r1 t2 p2 r t p :
  a s = Some (t1, p1, r1) -> b r1 = Some (t2, p2, r) -> t = t1 ++ t2 -> p = p1 ++ p2 ->
  p_seq a b s = Some (t, p, r).
Proof. intros A B -> ->. exact (p_seq_eq _ _ _ _ _ _ _ _ _ A B). Qed.
Lemma p_seq_None1 a b s : a s = None -> p_seq a b s = None.
Proof. intros A. unfold p_seq. rewrite A. reflexivity. Qed.
Lemma p_seq_None2 a b s t p r : a s = Some (t, p, r) -> b r = None -> p_seq a b s = None.
Proof. intros A B. unfold p_seq. rewrite A, B. reflexivity. Qed.

(** Iterating: the rounds of [a*]. *)
Inductive iter (a : parser) : str -> str -> list pair -> str -> Prop :=
| iter_stop : forall s, a s = None -> iter a s [] [] s
| iter_go : forall s t p r t' p' r', a s = Some (t, p, r) -> t <> [] -> s = t ++ r ->
    iter a r t' p' r' -> iter a s (t ++ t') (p ++ p') r'.

Lemma iter_star_n a s t p r : iter a s t p r -> forall n, (length s <= n)%nat -> star_n n a s = (t, p, r).
Proof.
  induction 1 as [s E|s t p r t' p' r' E T S I IH]; intros n L.
  - destruct n; cbn [star_n]; [reflexivity|]. rewrite E. reflexivity.
  - destruct n.
    + subst s. rewrite app_length in L. destruct t; [congruence|cbn in L; lia].
    + cbn [star_n]. rewrite E, IH; [reflexivity|]. subst s. rewrite app_length in L.
      destruct t; [congruence|cbn in L; lia].
Qed.
Lemma iter_star a s t p r : iter a s t p r -> p_star a s = Some (t, p, r).
Proof. intros I. unfold p_star. rewrite (iter_star_n _ _ _ _ _ I); [reflexivity|lia]. Qed.

Lemma star_n_iter a : moves a -> forall n s t p r, (length s <= n)%nat -> star_n n a s = (t, p, r) -> iter a s t p r.
Proof.
  intros M. induction n; intros s t p r L E.
  - destruct s; [|cbn in L; lia]. cbn in E. inversion E; subst. apply iter_stop.
    destruct (a []) as [[[t p] r]|] eqn:A; [|reflexivity].
    destruct (M _ _ _ _ A) as [S T]. destruct t; [congruence|discriminate].
  - cbn [star_n] in E. destruct (a s) as [[[t1 p1] r1]|] eqn:A.
    + destruct (star_n n a r1) as [[t2 p2] r2] eqn:B. inversion E; subst.
      destruct (M _ _ _ _ A) as [S T]. eapply iter_go; eauto. apply IHn; [|exact B].
      subst s. rewrite app_length in L. destruct t1; [congruence|cbn in L; lia].
    + inversion E; subst. apply iter_stop. exact A.
Qed.
Lemma star_iter a s t p r : moves a -> p_star a s = Some (t, p, r) <-> iter a s t p r.
Proof.
  intros M. split; [|apply iter_star]. unfold p_star. intros E. inversion E as [E'].
  apply (star_n_iter a M (length s)); [lia|exact E'].
Qed.
Lemma star_total a s : exists t p r, p_star a s = Some (t, p, r).
Proof. unfold p_star. destruct (star_n (length s) a s) as [[t p] r]. eauto. Qed.

Lemma iter_split a s t p r : iter a s t p r -> s = t ++ r /\ a r = None.
Proof.
  induction 1 as [|s t p r t' p' r' E T S I [IH IN]]; [auto|].
  split; [|exact IN]. subst s. rewrite <- app_assoc. congruence.
Qed.

(** [a*] over a character class. *)
Lemma moves_chr f : moves (p_chr f).
Proof. intros s t p r E. apply p_chr_Some in E as (c & _ & -> & _ & ->). split; [reflexivity|discriminate]. Qed.
Definition stops (f : chr -> bool) (r : str) : Prop := match r with [] => True | c :: _ => f c = false end.
Lemma star_chr f w r : forallb f w = true -> stops f r -> p_star (p_chr f) (w ++ r) = Some (w, [], r).
Proof.
  intros W S. apply iter_star. induction w as [|c w IH].
  - apply iter_stop. apply p_chr_None. exact S.
  - cbn in W. apply andb_true_iff in W as [C W]. cbn [app].
    change (c :: w) with ([c] ++ w). change (@nil pair) with (@nil pair ++ []).
    eapply iter_go with (r := w ++ r); [apply p_chr_cons; exact C|discriminate|reflexivity|apply IH; exact W].
Qed.
Lemma star_chr_inv f s t p r : p_star (p_chr f) s = Some (t, p, r) ->
  s = t ++ r /\ forallb f t = true /\ p = [] /\ stops f r.
Proof.
  intros E. apply (star_iter _ _ _ _ _ (moves_chr f)) in E.
  induction E as [s E|s t p r t' p' r' E T S I (IH & F & P & ST)].
  - repeat split. apply p_chr_None in E. exact E.
  - apply p_chr_Some in E as (c & Fc & -> & -> & _). subst. cbn. rewrite Fc, F. repeat split; auto.
Qed.

(** Character-by-character complement, as in [!x ~ ANY]. *)
Lemma not_any_Some f s t p r : p_seq (p_neg (p_chr f)) p_any s = Some (t, p, r) <->
  exists c, f c = false /\ t = [c] /\ p = [] /\ s = c :: r.
Proof.
  unfold p_seq, p_neg, p_any, p_chr. destruct s as [|c s].
  - split; [discriminate|]. intros (c & _ & _ & _ & E). discriminate.
  - destruct (f c) eqn:F.
    + split; [discriminate|]. intros (d & Fd & _ & _ & E). inversion E; subst. congruence.
    + cbn. split.
      * intros H. inversion H; subst. exists c. auto.
      * intros (d & _ & -> & -> & E). inversion E; subst. reflexivity.
Qed.
Lemma not_any_eq f s : p_seq (p_neg (p_chr f)) p_any s = p_chr (fun c => negb (f c)) s.
Proof. unfold p_seq, p_neg, p_any, p_chr. destruct s as [|c s]; [reflexivity|]. destruct (f c); reflexivity. Qed.
Lemma star_n_ext a b : (forall s, a s = b s) -> forall n s, star_n n a s = star_n n b s.
Proof.
  intros H. induction n; intros s; cbn [star_n]; [reflexivity|]. rewrite H.
  destruct (b s) as [[[t p] r]|]; [rewrite IHn|]; reflexivity.
Qed.
Lemma star_ext a b s : (forall s, a s = b s) -> p_star a s = p_star b s.
Proof. intros H. unfold p_star. rewrite (star_n_ext a b H). reflexivity. Qed.

Lemma p_rule_Some r a s t p rest : p_rule r a s = Some (t, p, rest) <->
  exists q, a s = Some (t, q, rest) /\ p = [Pair r t q].
Proof.
  unfold p_rule. destruct (a s) as [[[t1 p1] r1]|].
  - split.
    + intros H. inversion H; subst. eauto.
    + intros (q & E & ->). inversion E; subst. reflexivity.
  - split; [discriminate|]. intros (q & E & _). discriminate.
Qed.
Lemma p_rule_None r a s : p_rule r a s = None <-> a s = None.
Proof. unfold p_rule. destruct (a s) as [[[t1 p1] r1]|]; intuition discriminate. Qed.
Lemma p_atomic_Some r a s t p rest : p_atomic r a s = Some (t, p, rest) <->
  exists q, a s = Some (t, q, rest) /\ p = [Pair r t []].
Proof.
  unfold p_atomic. destruct (a s) as [[[t1 p1] r1]|].
  - split.
    + intros H. inversion H; subst. eauto.
    + intros (q & E & ->). inversion E; subst. reflexivity.
  - split; [discriminate|]. intros (q & E & _). discriminate.
Qed.
Lemma p_atomic_None r a s : p_atomic r a s = None <-> a s = None.
Proof. unfold p_atomic. destruct (a s) as [[[t1 p1] r1]|]; intuition discriminate. Qed.
Lemma p_opt_Some a s x : p_opt a s = Some x <-> a s = Some x \/ a s = None /\ x = ([], [], s).
Proof. unfold p_opt. destruct (a s); intuition congruence. Qed.
