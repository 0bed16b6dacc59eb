From Verif Require Import StrFacts LiteralProofs Term.

(** ** Induction over nested terms *)

Section Ind.
Variables (PS : subject -> Prop) (PO : object -> Prop) (PT : statement -> Prop).
Hypothesis HSB : forall b, PS (SBlank b).
Hypothesis HSR : forall i, PS (SRes i).
Hypothesis HSS : forall st, PT st -> PS (SStmt st).
Hypothesis HOB : forall b, PO (OBlank b).
Hypothesis HOR : forall i, PO (ORes i).
Hypothesis HOL : forall l, PO (OLit l).
Hypothesis HOC : forall l, Forall PO l -> PO (OColl l).
Hypothesis HOS : forall st, PT st -> PO (OStmt st).
Hypothesis HT : forall s p o, PS s -> PO o -> PT (MkStmt s p o).

Fixpoint subj_ind' (s : subject) : PS s :=
  match s with
  | SBlank b => HSB b
  | SRes i => HSR i
  | SStmt st => HSS st (st_ind' st)
  end
with obj_ind' (o : object) : PO o :=
  match o with
  | OBlank b => HOB b
  | ORes i => HOR i
  | OLit l => HOL l
  | OColl l =>
      HOC l ((fix go (l : list object) : Forall PO l :=
                match l with
                | [] => Forall_nil _
                | x :: r => Forall_cons x (obj_ind' x) (go r)
                end) l)
  | OStmt st => HOS st (st_ind' st)
  end
with st_ind' (st : statement) : PT st :=
  match st with
  | MkStmt s p o => HT s p o (subj_ind' s) (obj_ind' o)
  end.

Lemma term_ind : (forall s, PS s) /\ (forall o, PO o) /\ (forall st, PT st).
Proof. split; [|split]; [apply subj_ind'|apply obj_ind'|apply st_ind']. Qed.
End Ind.

Lemma obj_cmp_coll x y : obj_cmp (OColl x) (OColl y) = list_cmp obj_cmp x y.
Proof.
  cbn [obj_cmp]. revert y. induction x as [|u x IH]; intros [|v y]; auto.
  cbn [list_cmp]. rewrite <- IH. reflexivity.
Qed.

(** ** Equality *)

Lemma eqb_eq_all :
  (forall s t, subj_eqb s t = true <-> s = t) /\
  (forall o q, obj_eqb o q = true <-> o = q) /\
  (forall a b, st_eqb a b = true <-> a = b).
Proof.
  apply term_ind.
  - intros b [c|i|st]; cbn; try (split; congruence). rewrite str_eqb_eq. split; congruence.
  - intros j [c|i|st]; cbn; try (split; congruence). rewrite str_eqb_eq. split; congruence.
  - intros a IH [c|i|st]; cbn; try (split; congruence). rewrite IH. split; congruence.
  - intros b [c|i|l|l|st]; cbn; try (split; congruence). rewrite str_eqb_eq. split; congruence.
  - intros b [c|i|l|l|st]; cbn; try (split; congruence). rewrite str_eqb_eq. split; congruence.
  - intros b [c|i|l|l|st]; cbn; try (split; congruence). rewrite lit_eqb_eq. split; congruence.
  - intros x IH [c|i|l|y|st]; try (cbn; split; congruence). cbn [obj_eqb].
    transitivity (x = y); [|split; congruence]. revert y.
    induction IH as [|u x Hu _ IH]; intros [|v y]; try (split; congruence).
    rewrite andb_true_iff, Hu, IH. split; [intros [-> ->]; reflexivity|intros H; injection H; auto].
  - intros a IH [c|i|l|l|st]; cbn; try (split; congruence). rewrite IH. split; congruence.
  - intros s p o Hs Ho [s' p' o']. cbn. rewrite !andb_true_iff, Hs, str_eqb_eq, Ho.
    split; [intros [[-> ->] ->]; reflexivity|intros H; injection H; auto].
Qed.

Definition subj_eqb_eq := proj1 eqb_eq_all.
Definition obj_eqb_eq := proj1 (proj2 eqb_eq_all).
Definition st_eqb_eq := proj2 (proj2 eqb_eq_all).

Lemma subj_eqb_refl s : subj_eqb s s = true.
Proof. apply subj_eqb_eq. reflexivity. Qed.
Lemma obj_eqb_refl s : obj_eqb s s = true.
Proof. apply obj_eqb_eq. reflexivity. Qed.
Lemma st_eqb_refl s : st_eqb s s = true.
Proof. apply st_eqb_eq. reflexivity. Qed.

Lemma st_eq_dec (a b : statement) : {a = b} + {a <> b}.
Proof.
  destruct (st_eqb a b) eqn:E; [left; apply st_eqb_eq, E|right].
  intros H. apply st_eqb_eq in H. congruence.
Defined.
Lemma obj_eq_dec (a b : object) : {a = b} + {a <> b}.
Proof.
  destruct (obj_eqb a b) eqn:E; [left; apply obj_eqb_eq, E|right].
  intros H. apply obj_eqb_eq in H. congruence.
Qed.
Lemma subj_eq_dec (a b : subject) : {a = b} + {a <> b}.
Proof.
  destruct (subj_eqb a b) eqn:E; [left; apply subj_eqb_eq, E|right].
  intros H. apply subj_eqb_eq in H. congruence.
Qed.

(** ** Orders *)

Lemma list_cmp_eq_on {A} (c : A -> A -> comparison) (x : list A) :
  Forall (fun u => forall v, c u v = Eq <-> u = v) x -> forall y, list_cmp c x y = Eq <-> x = y.
Proof.
  induction 1 as [|u x Hu _ IH]; intros [|v y]; cbn [list_cmp]; try (split; congruence).
  destruct (c u v) eqn:E.
  - apply Hu in E. subst. rewrite IH. split; congruence.
  - split; [discriminate|]. intros H. injection H as -> ->. rewrite (proj2 (Hu v)) in E; congruence.
  - split; [discriminate|]. intros H. injection H as -> ->. rewrite (proj2 (Hu v)) in E; congruence.
Qed.

Lemma cmp_eq_all :
  (forall s t, subj_cmp s t = Eq <-> s = t) /\
  (forall o q, obj_cmp o q = Eq <-> o = q) /\
  (forall a b, st_cmp a b = Eq <-> a = b).
Proof.
  apply term_ind.
  - intros b [c|i|st]; cbn; try (split; congruence). rewrite (to_eq _ str_total). split; congruence.
  - intros j [c|i|st]; cbn; try (split; congruence). rewrite (to_eq _ str_total). split; congruence.
  - intros a IH [c|i|st]; cbn; try (split; congruence). rewrite IH. split; congruence.
  - intros b [c|i|l|l|st]; cbn; try (split; congruence). rewrite (to_eq _ str_total). split; congruence.
  - intros b [c|i|l|l|st]; cbn; try (split; congruence). rewrite (to_eq _ str_total). split; congruence.
  - intros b [c|i|l|l|st]; cbn; try (split; congruence). rewrite (to_eq _ lit_total). split; congruence.
  - intros x IH [c|i|l|y|st]; try (cbn; split; congruence). rewrite obj_cmp_coll.
    rewrite (list_cmp_eq_on _ _ IH). split; congruence.
  - intros a IH [c|i|l|l|st]; cbn; try (split; congruence). rewrite IH. split; congruence.
  - intros s p o Hs Ho [s' p' o']. cbn.
    destruct (subj_cmp s s') eqn:E1.
    + apply Hs in E1. subst s'. destruct (str_cmp p p') eqn:E2.
      * apply (to_eq _ str_total) in E2. subst p'. rewrite Ho. split; congruence.
      * split; [discriminate|]. intros H. injection H as -> ->. rewrite (to_refl _ str_total) in E2. discriminate.
      * split; [discriminate|]. intros H. injection H as -> ->. rewrite (to_refl _ str_total) in E2. discriminate.
    + split; [discriminate|]. intros H. injection H as <- -> ->. rewrite (proj2 (Hs s)) in E1; congruence.
    + split; [discriminate|]. intros H. injection H as <- -> ->. rewrite (proj2 (Hs s)) in E1; congruence.
Qed.

Lemma list_cmp_opp_on {A} (c : A -> A -> comparison) (x : list A) :
  Forall (fun u => forall v, c v u = CompOpp (c u v)) x -> forall y, list_cmp c y x = CompOpp (list_cmp c x y).
Proof.
  induction 1 as [|u x Hu _ IH]; intros [|v y]; cbn [list_cmp]; auto.
  rewrite Hu. destruct (c u v); cbn; auto.
Qed.

Lemma cmp_opp_all :
  (forall s t, subj_cmp t s = CompOpp (subj_cmp s t)) /\
  (forall o q, obj_cmp q o = CompOpp (obj_cmp o q)) /\
  (forall a b, st_cmp b a = CompOpp (st_cmp a b)).
Proof.
  apply term_ind.
  - intros b [c|i|st]; cbn; auto. apply (to_opp _ str_total).
  - intros j [c|i|st]; cbn; auto. apply (to_opp _ str_total).
  - intros a IH [c|i|st]; cbn; auto.
  - intros b [c|i|l|l|st]; cbn; auto. apply (to_opp _ str_total).
  - intros b [c|i|l|l|st]; cbn; auto. apply (to_opp _ str_total).
  - intros b [c|i|l|l|st]; cbn; auto. apply (to_opp _ lit_total).
  - intros x IH [c|i|l|y|st]; try (cbn; auto; fail). rewrite !obj_cmp_coll. apply list_cmp_opp_on, IH.
  - intros a IH [c|i|l|l|st]; cbn; auto.
  - intros s p o Hs Ho [s' p' o']. cbn. rewrite Hs, Ho, (to_opp _ str_total p p').
    destruct (subj_cmp s s'); cbn; auto. destruct (str_cmp p p'); cbn; auto.
Qed.

Lemma list_cmp_trans_on {A} (c : A -> A -> comparison) (x : list A) :
  (forall u v, c u v = Eq <-> u = v) ->
  Forall (fun u => forall v w, c u v = Lt -> c v w = Lt -> c u w = Lt) x ->
  forall y z, list_cmp c x y = Lt -> list_cmp c y z = Lt -> list_cmp c x z = Lt.
Proof.
  intros He. induction 1 as [|u x Hu _ IH]; intros [|v y] [|w z]; cbn [list_cmp]; try congruence.
  intros H1 H2.
  destruct (c u v) eqn:E1; try discriminate; destruct (c v w) eqn:E2; try discriminate.
  - apply He in E1, E2. subst. rewrite (proj2 (He w w)) by reflexivity. eauto.
  - apply He in E1. subst. rewrite E2. reflexivity.
  - apply He in E2. subst. rewrite E1. reflexivity.
  - rewrite (Hu _ _ E1 E2). reflexivity.
Qed.

Lemma cmp_trans_all :
  (forall s t u, subj_cmp s t = Lt -> subj_cmp t u = Lt -> subj_cmp s u = Lt) /\
  (forall o q r, obj_cmp o q = Lt -> obj_cmp q r = Lt -> obj_cmp o r = Lt) /\
  (forall a b c, st_cmp a b = Lt -> st_cmp b c = Lt -> st_cmp a c = Lt).
Proof.
  destruct cmp_eq_all as (SE & OE & TE).
  apply term_ind.
  - intros b [c|i|st] [c'|i'|st']; cbn; try congruence. apply (to_trans _ str_total).
  - intros b [c|i|st] [c'|i'|st']; cbn; try congruence. apply (to_trans _ str_total).
  - intros b IH [c|i|st] [c'|i'|st']; cbn; try congruence. apply IH.
  - intros b [c|i|l|l|st] [c'|i'|l'|l'|st']; cbn; try congruence. apply (to_trans _ str_total).
  - intros b [c|i|l|l|st] [c'|i'|l'|l'|st']; cbn; try congruence. apply (to_trans _ str_total).
  - intros b [c|i|l|l|st] [c'|i'|l'|l'|st']; cbn; try congruence. apply (to_trans _ lit_total).
  - intros x IH [c|i|l|y|st] [c'|i'|l'|z|st']; try (cbn; congruence). rewrite !obj_cmp_coll.
    apply list_cmp_trans_on; auto.
  - intros b IH [c|i|l|l|st] [c'|i'|l'|l'|st']; cbn; try congruence. apply IH.
  - intros s p o Hs Ho [s1 p1 o1] [s2 p2 o2]. cbn. intros H1 H2.
    destruct (subj_cmp s s1) eqn:E1; try discriminate; destruct (subj_cmp s1 s2) eqn:E2; try discriminate.
    + apply SE in E1, E2. subst. rewrite (proj2 (SE s2 s2)) by reflexivity.
      destruct (str_cmp p p1) eqn:F1; try discriminate; destruct (str_cmp p1 p2) eqn:F2; try discriminate.
      * apply (to_eq _ str_total) in F1, F2. subst. rewrite (to_refl _ str_total). eauto.
      * apply (to_eq _ str_total) in F1. subst. rewrite F2. reflexivity.
      * apply (to_eq _ str_total) in F2. subst. rewrite F1. reflexivity.
      * rewrite (to_trans _ str_total _ _ _ F1 F2). reflexivity.
    + apply SE in E1. subst. rewrite E2. reflexivity.
    + apply SE in E2. subst. rewrite E1. reflexivity.
    + rewrite (Hs _ _ E1 E2). reflexivity.
Qed.

Lemma subj_total : total_order subj_cmp.
Proof. constructor; [apply cmp_eq_all|apply cmp_opp_all|apply cmp_trans_all]. Qed.
Lemma obj_total : total_order obj_cmp.
Proof. constructor; [apply cmp_eq_all|apply cmp_opp_all|apply cmp_trans_all]. Qed.
Lemma st_total : total_order st_cmp.
Proof. constructor; [apply cmp_eq_all|apply cmp_opp_all|apply cmp_trans_all]. Qed.

(** [Eq] exactly when [==]. *)
Lemma cmp_agrees_eqb {A} (c : A -> A -> comparison) (e : A -> A -> bool) :
  total_order c -> (forall a b, e a b = true <-> a = b) ->
  forall a b, c a b = Eq <-> e a b = true.
Proof. intros H He a b. rewrite He. apply (to_eq _ H). Qed.

(** ** Conversions *)

Lemma to_subject_to_object s : to_subject (to_object s) = Some s.
Proof. destruct s; reflexivity. Qed.
Lemma to_object_to_subject o s : to_subject o = Some s -> to_object s = o.
Proof. destruct o; cbn; intros H; inversion H; reflexivity. Qed.
Lemma to_subject_None o : to_subject o = None <-> (exists l, o = OLit l) \/ (exists l, o = OColl l).
Proof.
  destruct o; cbn; split; intros H; try discriminate; eauto; destruct H as [[? ?]|[? ?]]; congruence.
Qed.
Lemma to_object_cmp s t : obj_cmp (to_object s) (to_object t) = subj_cmp s t.
Proof. destruct s, t; reflexivity. Qed.

(** ** Labels *)

Lemma gen_label_inj n m : gen_label n = gen_label m -> n = m.
Proof. intros H. injection H as H. apply dec_N_inj, H. Qed.

Lemma bn_from_str_spec ok s b : bn_from_str ok s = Some b <->
  b = s /\ ((exists r, s = $"_:" ++ r /\ ok r = true) \/ ((forall r, s <> $"_:" ++ r) /\ ok s = true)).
Proof.
  unfold bn_from_str, bn_is_valid_str. destruct (strip_prefix $"_:" s) as [r|] eqn:E.
  - apply strip_prefix_Some in E. destruct (ok r) eqn:K.
    + split; [intros H; injection H as <-; split; eauto|intros [-> _]; reflexivity].
    + split; [discriminate|]. intros [_ [(r' & Hr & K')|[H _]]]; [|destruct (H r E)].
      rewrite E in Hr. apply app_inv_head in Hr. congruence.
  - assert (N : forall r, s <> $"_:" ++ r) by (intros r ->; rewrite strip_prefix_app in E; discriminate).
    destruct (ok s) eqn:K.
    + split; [intros H; injection H as <-; split; auto|intros [-> _]; reflexivity].
    + split; [discriminate|]. intros [_ [(r' & Hr & _)|[_ H]]]; [destruct (N r' Hr)|congruence].
Qed.

Lemma bn_prefix_refuted (label_ok : str -> bool) : label_ok $"x" = true ->
  exists a b, bn_from_str label_ok $"_:x" = Some a /\ bn_from_str label_ok $"x" = Some b /\
    subj_eqb (SBlank a) (SBlank b) = false /\ subj_show Bare (SBlank a) = $"_:_:x".
Proof.
  intros H. exists $"_:x", $"x". unfold bn_from_str, bn_is_valid_str.
  change (strip_prefix $"_:" $"_:x") with (Some $"x"). change (strip_prefix $"_:" $"x") with (@None str).
  cbn iota. rewrite H. repeat split.
Qed.

Lemma gen_label_form n : exists ds, gen_label n = $"B" ++ ds /\ ds <> [] /\ Forall (fun c => is_digit c = true) ds.
Proof. exists (dec_N n). split; [reflexivity|]. split; [apply dec_N_nonnil|apply dec_N_digits]. Qed.

Lemma variants s o :
  (forall b, s_as_blank s = Some b <-> s = SBlank b) /\ (s_is_blank s = true <-> exists b, s = SBlank b) /\
  (forall st, s_as_statement s = Some st <-> s = SStmt st) /\ (s_is_statement s = true <-> exists st, s = SStmt st) /\
  (forall b, o_as_blank o = Some b <-> o = OBlank b) /\
  (forall st, o_as_statement o = Some st <-> o = OStmt st) /\ (o_is_statement o = true <-> exists st, o = OStmt st) /\
  (forall l, o_as_collection o = Some l <-> o = OColl l) /\ (o_is_collection o = true <-> exists l, o = OColl l).
Proof.
  split; [|split; [|split; [|split]]].
  - intros b. destruct s; cbn; split; congruence.
  - destruct s; cbn; split; try discriminate; try reflexivity; eauto; intros [? ?]; discriminate.
  - intros b. destruct s; cbn; split; congruence.
  - destruct s; cbn; split; try discriminate; try reflexivity; eauto; intros [? ?]; discriminate.
  - split; [|split; [|split; [|split]]].
    + intros b. destruct o; cbn; split; congruence.
    + intros b. destruct o; cbn; split; congruence.
    + destruct o; cbn; split; try discriminate; try reflexivity; eauto; intros [? ?]; discriminate.
    + intros b. destruct o; cbn; split; congruence.
    + destruct o; cbn; split; try discriminate; try reflexivity; eauto; intros [? ?]; discriminate.
Qed.
