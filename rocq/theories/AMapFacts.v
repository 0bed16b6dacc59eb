(** Facts about AMap.v.  Orders are only required to be total on the keys satisfying [P]. *)
From Coq Require Import Sorting.Sorted.
From Verif Require Import StrFacts AMap.

Record total_on {K} (P : K -> Prop) (cmp : K -> K -> comparison) : Prop := {
  ton_eq : forall a b, P a -> P b -> (cmp a b = Eq <-> a = b);
  ton_opp : forall a b, P a -> P b -> cmp b a = CompOpp (cmp a b);
  ton_trans : forall a b c, P a -> P b -> P c -> cmp a b = Lt -> cmp b c = Lt -> cmp a c = Lt
}.

Lemma total_order_on {K} (P : K -> Prop) cmp : total_order cmp -> total_on P cmp.
Proof. intros [A B C]. split; intros; eauto. Qed.

Section Facts.
  Context {K V : Type} (P : K -> Prop) (cmp : K -> K -> comparison).
  Hypothesis T : total_on P cmp.


  Definition klt (a b : K * V) : Prop := cmp (fst a) (fst b) = Lt.
  Definition sorted (m : list (K * V)) : Prop := StronglySorted klt m /\ Forall (fun p => P (fst p)) m.

  Lemma sorted_nil : sorted [].
  Proof. split; constructor. Qed.

  Lemma sorted_cons k v m : sorted ((k, v) :: m) <->
    P k /\ sorted m /\ (forall k' v', In (k', v') m -> cmp k k' = Lt).
  Proof.
    unfold sorted. split.
    - intros [H1 H2]. inversion H1; inversion H2; subst. split; [assumption|]. split; [auto|].
      intros k' v' Hin. match goal with H : Forall (klt _) _ |- _ => rewrite Forall_forall in H; exact (H _ Hin) end.
    - intros (Hk & [H1 H2] & H3). split; constructor; auto.
      rewrite Forall_forall. intros [k' v'] Hin. exact (H3 _ _ Hin).
  Qed.

  Lemma sorted_P m k v : sorted m -> In (k, v) m -> P k.
  Proof. intros [_ H] Hin. rewrite Forall_forall in H. exact (H _ Hin). Qed.

  Lemma ton_lt_neq a b : P a -> P b -> cmp a b = Lt -> a <> b.
  Proof. intros Ha Hb H ->. assert (cmp b b = Eq) by (apply (ton_eq _ _ T); auto). congruence. Qed.

  Lemma am_get_In m k v : sorted m -> P k -> (am_get cmp k m = Some v <-> In (k, v) m).
  Proof.
    intros Hs Hk. induction m as [|[k' v'] m IH]; [cbn; split; [discriminate|tauto]|].
    apply sorted_cons in Hs as (Hk' & Hs & Hlt). cbn [am_get].
    destruct (cmp k k') eqn:E.
    - apply (ton_eq _ _ T) in E; auto. subst k'. split.
      + intros H. injection H as ->. left. reflexivity.
      + intros [H|H]; [congruence|]. exfalso. specialize (Hlt _ _ H).
        exact (ton_lt_neq k k Hk Hk Hlt eq_refl).
    - split; [discriminate|]. intros [H|H].
      + exfalso. injection H as -> ->. exact (ton_lt_neq k k Hk Hk E eq_refl).
      + exfalso. specialize (Hlt _ _ H).
        exact (ton_lt_neq k k Hk Hk (ton_trans _ _ T _ _ _ Hk Hk' Hk E Hlt) eq_refl).
    - rewrite IH by exact Hs. split; [right; assumption|]. intros [H|H]; [|exact H].
      exfalso. injection H as -> ->. assert (cmp k k = Eq) by (apply (ton_eq _ _ T); auto). congruence.
  Qed.

  Lemma am_get_None m k : sorted m -> P k -> (am_get cmp k m = None <-> forall v, ~ In (k, v) m).
  Proof.
    intros Hs Hk. split.
    - intros H v Hin. apply (am_get_In m k v Hs Hk) in Hin. congruence.
    - intros H. destruct (am_get cmp k m) as [v|] eqn:E; [|reflexivity].
      exfalso. apply (H v). apply am_get_In; auto.
  Qed.

  Lemma am_insert_In m k v : sorted m -> P k -> forall k' v',
    In (k', v') (am_insert cmp k v m) <-> (k' = k /\ v' = v) \/ (In (k', v') m /\ k' <> k).
  Proof.
    intros Hs Hk k' v'. induction m as [|[a b] m IH]; cbn [am_insert].
    - cbn. split; [intros [H|[]]; left; split; congruence|]. intros [[-> ->]|[[] _]]. auto.
    - apply sorted_cons in Hs as (Ha & Hs & Hlt). destruct (cmp k a) eqn:E.
      + apply (ton_eq _ _ T) in E; auto. subst a. cbn. split.
        * intros [H|H]; [left; split; congruence|]. right. split; [auto|].
          specialize (Hlt _ _ H). intros ->. exact (ton_lt_neq k k Hk Hk Hlt eq_refl).
        * intros [[-> ->]|[[H|H] Hne]]; [auto|congruence|auto].
      + cbn. split.
        * intros [H|[H|H]]; [left; split; congruence| |].
          -- right. split; [auto|]. injection H as -> ->. intros ->. exact (ton_lt_neq k k Hk Hk E eq_refl).
          -- right. split; [auto|]. specialize (Hlt _ _ H). intros ->.
             exact (ton_lt_neq k k Hk Hk (ton_trans _ _ T _ _ _ Hk Ha Hk E Hlt) eq_refl).
        * intros [[-> ->]|[H Hne]]; [auto|]. right. exact H.
      + cbn [In]. rewrite (IH Hs). split.
        * intros [H|[H|[H Hne]]]; [|left; exact H|right; auto].
          right. split; [auto|]. injection H as -> ->. intros ->.
          assert (cmp k k = Eq) by (apply (ton_eq _ _ T); auto). congruence.
        * intros [H|[[H|H] Hne]]; auto.
  Qed.

  Lemma am_insert_sorted m k v : sorted m -> P k -> sorted (am_insert cmp k v m).
  Proof.
    intros Hs Hk. induction m as [|[a b] m IH]; cbn [am_insert].
    - apply sorted_cons. split; [exact Hk|]. split; [apply sorted_nil|]. intros ? ? [].
    - pose proof Hs as Hs0. apply sorted_cons in Hs as (Ha & Hs & Hlt). destruct (cmp k a) eqn:E.
      + apply sorted_cons. auto.
      + apply sorted_cons. split; [exact Hk|]. split; [exact Hs0|].
        intros k' v' [H|H]; [congruence|]. specialize (Hlt _ _ H).
        exact (ton_trans _ _ T _ _ _ Hk Ha (sorted_P _ _ _ Hs H) E Hlt).
      + apply sorted_cons. split; [exact Ha|]. split; [auto|].
        intros k' v' H. apply am_insert_In in H; auto. destruct H as [[-> ->]|[H _]].
        * rewrite (ton_opp _ _ T k a), E by assumption. reflexivity.
        * exact (Hlt _ _ H).
  Qed.

  Lemma am_remove_In m k : sorted m -> P k -> forall k' v',
    In (k', v') (am_remove cmp k m) <-> In (k', v') m /\ k' <> k.
  Proof.
    intros Hs Hk k' v'. induction m as [|[a b] m IH]; cbn [am_remove]; [cbn; tauto|].
    apply sorted_cons in Hs as (Ha & Hs & Hlt). destruct (cmp k a) eqn:E.
    - apply (ton_eq _ _ T) in E; auto. subst a. cbn. split.
      + intros H. split; [auto|]. specialize (Hlt _ _ H). intros ->. exact (ton_lt_neq k k Hk Hk Hlt eq_refl).
      + intros [[H|H] Hne]; [congruence|exact H].
    - split; [|tauto]. intros H. split; [exact H|]. destruct H as [H|H].
      + injection H as -> ->. intros ->. exact (ton_lt_neq k k Hk Hk E eq_refl).
      + specialize (Hlt _ _ H). intros ->.
        exact (ton_lt_neq k k Hk Hk (ton_trans _ _ T _ _ _ Hk Ha Hk E Hlt) eq_refl).
    - cbn [In]. rewrite (IH Hs). split.
      + intros [H|[H Hne]]; [|auto]. split; [auto|]. injection H as -> ->. intros ->.
        assert (cmp k k = Eq) by (apply (ton_eq _ _ T); auto). congruence.
      + intros [[H|H] Hne]; auto.
  Qed.

  Lemma am_remove_sorted m k : sorted m -> P k -> sorted (am_remove cmp k m).
  Proof.
    intros Hs Hk. induction m as [|[a b] m IH]; cbn [am_remove]; [exact Hs|].
    pose proof Hs as Hs0. apply sorted_cons in Hs as (Ha & Hs & Hlt). destruct (cmp k a); auto.
    apply sorted_cons. split; [exact Ha|]. split; [auto|]. intros k' v' H.
    apply am_remove_In in H; auto. destruct H as [H _]. exact (Hlt _ _ H).
  Qed.

  Lemma sorted_functional m k v v' : sorted m -> In (k, v) m -> In (k, v') m -> v = v'.
  Proof.
    intros Hs H1 H2. pose proof (sorted_P _ _ _ Hs H1) as Hk.
    apply am_get_In in H1; auto. apply am_get_In in H2; auto. congruence.
  Qed.

  Lemma sorted_NoDup_keys m : sorted m -> NoDup (map fst m).
  Proof.
    induction m as [|[k v] m IH]; intros Hs; [constructor|].
    apply sorted_cons in Hs as (Hk & Hs & Hlt). cbn. constructor; [|auto].
    intros H. apply in_map_iff in H as ([k' v'] & E & H). cbn in E. subst k'.
    exact (ton_lt_neq k k Hk Hk (Hlt _ _ H) eq_refl).
  Qed.

  (** A sorted map is determined by its content. *)
  Lemma sorted_ext m1 m2 : sorted m1 -> sorted m2 -> (forall k v, In (k, v) m1 <-> In (k, v) m2) -> m1 = m2.
  Proof.
    revert m2. induction m1 as [|[k v] m1 IH]; intros m2 H1 H2 He.
    - destruct m2 as [|[k v] m2]; [reflexivity|]. exfalso. apply (He k v). left. reflexivity.
    - destruct m2 as [|[k' v'] m2]; [exfalso; apply (proj1 (He k v)); left; reflexivity|].
      apply sorted_cons in H1 as (Hk & H1 & L1). apply sorted_cons in H2 as (Hk' & H2 & L2).
      assert (E : (k, v) = (k', v')).
      { destruct (proj1 (He k v) (or_introl eq_refl)) as [E|E]; [congruence|].
        destruct (proj2 (He k' v') (or_introl eq_refl)) as [E'|E']; [congruence|].
        exfalso. exact (ton_lt_neq k k Hk Hk (ton_trans _ _ T _ _ _ Hk Hk' Hk (L1 _ _ E') (L2 _ _ E)) eq_refl). }
      injection E as -> ->. f_equal. apply IH; auto. intros a b. split; intros H.
      + destruct (proj1 (He a b) (or_intror H)) as [E|E]; [|exact E].
        exfalso. injection E as -> ->. exact (ton_lt_neq a a Hk Hk (L1 _ _ H) eq_refl).
      + destruct (proj2 (He a b) (or_intror H)) as [E|E]; [|exact E].
        exfalso. injection E as -> ->. exact (ton_lt_neq a a Hk Hk (L2 _ _ H) eq_refl).
  Qed.
End Facts.

Section BimapFacts.
  Context {L R : Type} (PL : L -> Prop) (PR : R -> Prop).
  Variable cmpL : L -> L -> comparison.
  Variable cmpR : R -> R -> comparison.
  Hypothesis TL : total_on PL cmpL.
  Hypothesis TR : total_on PR cmpR.

  (** The two maps are sorted and are each other's inverse. *)
  Definition bi_inv (m : bimap L R) : Prop :=
    sorted PL cmpL (left2right m) /\ sorted PR cmpR (right2left m) /\
    (forall l r, In (l, r) (left2right m) <-> In (r, l) (right2left m)).

  Definition bi_in (m : bimap L R) (l : L) (r : R) : Prop := In (l, r) (left2right m).

  Lemma bi_empty_inv : bi_inv bi_empty.
  Proof. repeat split; try constructor; intros []. Qed.

  Lemma bi_in_P m l r : bi_inv m -> bi_in m l r -> PL l /\ PR r.
  Proof.
    intros (S1 & S2 & I) H. split; [eapply sorted_P; eauto|]. apply I in H. eapply sorted_P; eauto.
  Qed.

  Lemma bi_get_left m l r : bi_inv m -> PL l -> (bi_get_by_left cmpL l m = Some r <-> bi_in m l r).
  Proof. intros (S1 & _) Hl. unfold bi_get_by_left, bi_in. apply (am_get_In PL cmpL TL); auto. Qed.

  Lemma bi_get_right m l r : bi_inv m -> PR r -> (bi_get_by_right cmpR r m = Some l <-> bi_in m l r).
  Proof.
    intros (_ & S2 & I) Hr. unfold bi_get_by_right, bi_in. rewrite I. apply (am_get_In PR cmpR TR); auto.
  Qed.

  Lemma bi_in_fun_l m l r r' : bi_inv m -> bi_in m l r -> bi_in m l r' -> r = r'.
  Proof. intros (S1 & _) H H'. eapply (sorted_functional PL cmpL TL); eauto. Qed.

  Lemma bi_in_fun_r m l l' r : bi_inv m -> bi_in m l r -> bi_in m l' r -> l = l'.
  Proof. intros (_ & S2 & I) H H'. apply I in H. apply I in H'. eapply (sorted_functional PR cmpR TR); eauto. Qed.

  Lemma bi_delete_ok m l r : bi_inv m -> bi_in m l r ->
    bi_inv (MkBimap (am_remove cmpL l (left2right m)) (am_remove cmpR r (right2left m))) /\
    forall l' r', bi_in (MkBimap (am_remove cmpL l (left2right m)) (am_remove cmpR r (right2left m))) l' r'
                  <-> bi_in m l' r' /\ l' <> l /\ r' <> r.
  Proof.
    intros Hi H. destruct (bi_in_P _ _ _ Hi H) as [Hl Hr].
    pose proof Hi as (S1 & S2 & I).
    assert (A : forall l' r', In (l', r') (am_remove cmpL l (left2right m)) <-> bi_in m l' r' /\ l' <> l /\ r' <> r).
    { intros l' r'. rewrite (am_remove_In PL cmpL TL) by auto. unfold bi_in. split; [|tauto].
      intros [Hin Hne]. split; [exact Hin|]. split; [exact Hne|]. intros ->. apply Hne. eapply bi_in_fun_r; eauto. }
    split; [|exact A]. split; [|split]; cbn.
    - apply (am_remove_sorted PL cmpL TL); auto.
    - apply (am_remove_sorted PR cmpR TR); auto.
    - intros l' r'. rewrite A, (am_remove_In PR cmpR TR), <- I by auto. unfold bi_in. split; [tauto|].
      intros [Hin Hne]. split; [exact Hin|]. split; [|exact Hne]. intros ->. apply Hne. eapply bi_in_fun_l; eauto.
  Qed.

  Lemma bi_remove_by_left_ok m l : bi_inv m -> PL l ->
    exists m', bi_remove_by_left cmpL cmpR l m = Ret m' /\ bi_inv m' /\
      forall l' r', bi_in m' l' r' <-> bi_in m l' r' /\ l' <> l.
  Proof.
    intros Hi Hl. unfold bi_remove_by_left. destruct (am_get cmpL l (left2right m)) as [r|] eqn:E.
    - apply (bi_get_left m l r Hi Hl) in E. destruct (bi_in_P _ _ _ Hi E) as [_ Hr].
      pose proof (proj2 (bi_get_right m l r Hi Hr) E) as G. unfold bi_get_by_right in G. rewrite G.
      destruct (bi_delete_ok m l r Hi E) as [Hi' Hin]. eexists. split; [reflexivity|]. split; [exact Hi'|].
      intros l' r'. rewrite Hin. split; [tauto|]. intros [H Hne]. split; [exact H|]. split; [exact Hne|].
      intros ->. apply Hne. exact (bi_in_fun_r m l' l r Hi H E).
    - exists m. split; [reflexivity|]. split; [exact Hi|]. intros l' r'. split; [|tauto].
      intros H. split; [exact H|]. intros ->. apply (bi_get_left m l r' Hi Hl) in H. unfold bi_get_by_left in H. congruence.
  Qed.

  Lemma bi_remove_by_right_ok m r : bi_inv m -> PR r ->
    exists m', bi_remove_by_right cmpL cmpR r m = Ret m' /\ bi_inv m' /\
      forall l' r', bi_in m' l' r' <-> bi_in m l' r' /\ r' <> r.
  Proof.
    intros Hi Hr. unfold bi_remove_by_right. destruct (am_get cmpR r (right2left m)) as [l|] eqn:E.
    - apply (bi_get_right m l r Hi Hr) in E. destruct (bi_in_P _ _ _ Hi E) as [Hl _].
      pose proof (proj2 (bi_get_left m l r Hi Hl) E) as G. unfold bi_get_by_left in G. rewrite G.
      destruct (bi_delete_ok m l r Hi E) as [Hi' Hin]. eexists. split; [reflexivity|]. split; [exact Hi'|].
      intros l' r'. rewrite Hin. split; [tauto|]. intros [H Hne]. split; [exact H|]. split; [|exact Hne].
      intros ->. apply Hne. exact (bi_in_fun_l m l r' r Hi H E).
    - exists m. split; [reflexivity|]. split; [exact Hi|]. intros l' r'. split; [|tauto].
      intros H. split; [exact H|]. intros ->. apply (bi_get_right m l' r Hi Hr) in H. unfold bi_get_by_right in H. congruence.
  Qed.

  Lemma bi_insert_ok m l r : bi_inv m -> PL l -> PR r ->
    exists m', bi_insert cmpL cmpR l r m = Ret m' /\ bi_inv m' /\
      forall l' r', bi_in m' l' r' <-> (l' = l /\ r' = r) \/ (bi_in m l' r' /\ l' <> l /\ r' <> r).
  Proof.
    intros Hi Hl Hr. unfold bi_insert.
    destruct (bi_remove_by_left_ok m l Hi Hl) as (m1 & -> & Hi1 & In1).
    destruct (bi_remove_by_right_ok m1 r Hi1 Hr) as (m2 & -> & Hi2 & In2).
    eexists. split; [reflexivity|].
    pose proof Hi2 as (S1 & S2 & I).
    assert (A : forall l' r', In (l', r') (am_insert cmpL l r (left2right m2)) <->
              (l' = l /\ r' = r) \/ (bi_in m l' r' /\ l' <> l /\ r' <> r)).
    { intros l' r'. rewrite (am_insert_In PL cmpL TL) by auto.
      change (In (l', r') (left2right m2)) with (bi_in m2 l' r'). rewrite In2, In1. tauto. }
    split; [|exact A]. split; [|split]; cbn.
    - apply (am_insert_sorted PL cmpL TL); auto.
    - apply (am_insert_sorted PR cmpR TR); auto.
    - intros l' r'. rewrite A, (am_insert_In PR cmpR TR) by auto. rewrite <- I.
      change (In (l', r') (left2right m2)) with (bi_in m2 l' r'). rewrite In2, In1. tauto.
  Qed.

  Lemma bi_ext m1 m2 : bi_inv m1 -> bi_inv m2 -> (forall l r, bi_in m1 l r <-> bi_in m2 l r) -> m1 = m2.
  Proof.
    intros (S1 & S2 & I) (S1' & S2' & I') H. destruct m1 as [a b], m2 as [a' b']. cbn in *.
    f_equal.
    - apply (sorted_ext PL cmpL TL); auto.
    - apply (sorted_ext PR cmpR TR); auto. intros r l. rewrite <- I, <- I'. apply H.
  Qed.
End BimapFacts.
