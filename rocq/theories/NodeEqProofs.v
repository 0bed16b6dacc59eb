(** Proofs about NodeEq.v. *)
From Verif Require Import Str StrFacts Literal LiteralProofs Term TermProofs NodeEq.

Lemma coll_eqb_eq x y : coll_eqb x y = true <-> x = y.
Proof.
  revert y; induction x as [|u x IH]; intros [|v y]; cbn; split; try easy.
  - intros H. apply andb_prop in H as [H1 H2]. apply obj_eqb_eq in H1 as ->. apply IH in H2 as ->. reflexivity.
  - injection 1 as -> ->. rewrite obj_eqb_refl. cbn. now apply IH.
Qed.

Lemma o_eq_from o t : o_eq o t = true <-> o = o_from t.
Proof.
  destruct t as [b|i|l|l|st], o as [b'|i'|l'|l'|st']; cbn; try easy;
    rewrite ?str_eqb_eq, ?lit_eqb_eq, ?coll_eqb_eq, ?st_eqb_eq; split; congruence.
Qed.

Lemma o_from_inj t u : o_from t = o_from u -> t = u.
Proof. destruct t, u; cbn; congruence. Qed.

Lemma o_from_onto o : exists t, o = o_from t.
Proof.
  destruct o as [b|i|l|l|st]; [exists (TBlank b)|exists (TIri i)|exists (TLit l)|exists (TColl l)|exists (TStmt st)];
    reflexivity.
Qed.

Lemma o_eq_one o : exists! t, o_eq o t = true.
Proof.
  destruct (o_from_onto o) as [t ->]. exists t. split.
  - now apply o_eq_from.
  - intros u H. apply o_eq_from in H. now apply o_from_inj.
Qed.

Lemma o_eq_kinds o :
  (forall b, o_eq o (TBlank b) = true <-> o_as_blank o = Some b) /\
  (forall st, o_eq o (TStmt st) = true <-> o_as_statement o = Some st) /\
  (forall l, o_eq o (TColl l) = true <-> o_as_collection o = Some l) /\
  (forall i, o_eq o (TIri i) = true <-> o = ORes i) /\
  (forall l, o_eq o (TLit l) = true <-> o = OLit l).
Proof.
  repeat split; intros H; (apply o_eq_from in H || apply o_eq_from); destruct o; cbn in *; congruence.
Qed.

Lemma s_eq_to_object s t b : s_eq s t = Some b -> o_eq (to_object s) t = b.
Proof. destruct s, t; cbn; congruence. Qed.

Lemma s_eq_defined t : (forall s, s_eq s t = None) <-> to_subject (o_from t) = None.
Proof.
  destruct t; cbn; split; try easy; intros H; specialize (H (SBlank [])); discriminate.
Qed.

Lemma s_from_to_subject t : s_from t = to_subject (o_from t).
Proof. destruct t; reflexivity. Qed.

Lemma s_eq_from s t : s_eq s t = Some true <-> s_from t = Some s.
Proof.
  split; intros H.
  - rewrite s_from_to_subject. apply s_eq_to_object in H. apply o_eq_from in H as <-.
    apply to_subject_to_object.
  - destruct (s_eq s t) as [b|] eqn:E.
    + pose proof E as E'. apply s_eq_to_object in E'. rewrite s_from_to_subject in H.
      apply to_object_to_subject in H. rewrite H in E'.
      assert (o_eq (o_from t) t = true) as F by now apply o_eq_from. congruence.
    + destruct t; cbn in *; discriminate.
Qed.

Lemma coll_from_items t :
  (forall l, t <> TColl l) -> exists o, coll_from t = [o] /\ o_eq o t = true.
Proof.
  intros H. exists (o_from t). split; [|now apply o_eq_from].
  destruct t as [b|i|l|l|st]; try reflexivity. now destruct (H l).
Qed.
