(** Proofs of C82. *)
From Coq Require Import ZArith Lia.
From Verif Require Import StrFacts LiteralProofs.
From Verif Require Export NativeSpec.

Section Native.
Variable gext printable : chr -> bool.
Variable m : iri_mode.
Notation made := (made_from gext printable).
Notation equal := (equals m).
Notation plain := (plain_value gext printable).

Lemma opt_dt l d : opt_eqb dt_eqb (lit_data_type l) (Some d) = true <-> lit_data_type l = Some d.
Proof.
  destruct (lit_data_type l) as [x|]; cbn; [rewrite dt_eqb_eq; split; congruence|split; discriminate].
Qed.
(** What is compared. *)
Definition kind (v : native) : data_type :=
  match v with
  | NBool _ => DtBoolean | NInt t _ => int_data_type t | NString _ => DtString | NLanguage _ => DtLanguage
  | NName _ => DtName | NQName _ => DtQName | NIri _ => DtIri | NDuration _ _ => DtDuration
  end.
Definition text (v : native) : str :=
  match v with
  | NBool b => bool_str b | NInt _ z => dec_Z z | NString s | NLanguage s | NName s | NQName s => s
  | NIri s => show_iri m s | NDuration s n => dec_N (s * 1000000000 + n)
  end.
Lemma equal_spec l v : equal l v = true <->
  lexical_form l = text v /\ (lit_data_type l = Some (kind v) \/ lit_data_type l = None /\ exists s, v = NString s).
Proof.
  assert (X : forall t d, str_eqb (lexical_form l) t && opt_eqb dt_eqb (lit_data_type l) (Some d) = true <->
    lexical_form l = t /\ lit_data_type l = Some d) by (intros t d; rewrite andb_true_iff, str_eqb_eq, opt_dt; reflexivity).
  destruct v; cbn [equals text kind]; unfold lit_eq_bool, lit_eq_int, lit_eq_lang, lit_eq_name, lit_eq_qname, lit_eq_iri, lit_eq_duration;
    try (rewrite X; split; [intros [A B]; auto|intros [A [B|[_ (y & B)]]]; [auto|discriminate B]]).
  unfold lit_eq_str. rewrite andb_true_iff, str_eqb_eq. destruct (lit_data_type l) as [d|].
  - rewrite dt_eqb_eq. split; [intros [A ->]; auto|intros [A [B|[B _]]]; [injection B as ->; auto|discriminate]].
  - split; [intros [A _]; eauto|intros [A _]; auto].
Qed.
Lemma show_iri_inj a b : show_iri m a = show_iri m b -> a = b.
Proof. destruct m; cbn; [auto|]. intros H. injection H as H. apply app_inv_tail in H. exact H. Qed.
Lemma int_kind_inj t u : int_data_type t = int_data_type u -> t = u.
Proof. destruct t, u; cbn; congruence. Qed.
Lemma bool_str_inj a b : bool_str a = bool_str b -> a = b.
Proof. destruct a, b; cbn; congruence. Qed.
Lemma same_kind v w : native_ok v -> native_ok w -> kind v = kind w -> text v = text w -> v = w.
Proof.
  intros OV OW K T. destruct v, w; cbn [kind text] in *; try discriminate; try (destruct t; discriminate); try (f_equal; exact T).
  - f_equal. apply bool_str_inj, T.
  - apply int_kind_inj in K. subst. f_equal. apply dec_Z_inj, T.
  - f_equal. apply show_iri_inj, T.
  - cbn in OV, OW. apply dec_N_inj in T. assert (secs = secs0) by nia. subst. f_equal. lia.
Qed.
Lemma c82_one l v w : native_ok v -> native_ok w -> equal l v = true -> equal l w = true -> v = w.
Proof.
  intros OV OW V W. apply equal_spec in V as [TV V], W as [TW W]. destruct V as [V|[V (s & ->)]], W as [W|[W (t & ->)]]; try congruence.
  - apply same_kind; congruence.
  - cbn in TV, TW. congruence.
Qed.

Hypothesis T : ascii_tables gext printable.
Lemma made_spec v : plain v -> (forall s n, v <> NDuration s n) -> (forall i, v = NIri i -> m = Bare) ->
  made v = Lit (text v) (Some (kind v)) None.
Proof.
  intros P ND NI. destruct v; cbn [made_from text kind plain_value] in *;
    unfold lit_from_bool, lit_from_int, lit_from_str, lit_from_lang, lit_from_name, lit_from_qname, lit_from_iri, lit_with_data_type;
    try (rewrite (proj2 (escape_id_iff gext printable _) P); reflexivity).
  - assert (E : lit_eq_bool (lit_from_bool gext printable b) b = true) by (apply bool_literal_eq; [exact T|reflexivity]).
    unfold lit_eq_bool, lit_from_bool, lit_with_data_type in E. cbn in E. rewrite andb_true_r in E. apply str_eqb_eq in E. rewrite E. reflexivity.
  - assert (E : lit_eq_int t (lit_from_int gext printable t z) z = true) by (apply int_literal_eq; [exact T|auto]).
    unfold lit_eq_int, lit_from_int, lit_with_data_type in E. cbn [lexical_form lit_data_type] in E. apply andb_prop in E as [E _]. apply str_eqb_eq in E. rewrite E. reflexivity.
  - rewrite (NI _ eq_refl), (proj2 (escape_id_iff gext printable _) P). reflexivity.
  - destruct (ND secs nanos eq_refl).
Qed.
Lemma c82_agree l v : sound l -> plain v -> (forall s, v <> NString s) -> (forall s n, v <> NDuration s n) -> (forall i, v = NIri i -> m = Bare) ->
  (equal l v = true <-> lit_eqb l (made v) = true).
Proof.
  intros S P NS ND NI. rewrite equal_spec, lit_eqb_eq, (made_spec v P ND NI). destruct l as [x d g]. cbn [lexical_form lit_data_type]. split.
  - intros [-> [-> |[_ (s & E)]]]; [|destruct (NS _ E)]. destruct S as [S|S]; cbn in S; [discriminate|congruence].
  - intros E. injection E as -> -> _. auto.
Qed.
Lemma c82_string l s : Forall (prints_as_itself gext printable) s -> sound l ->
  (equal l (NString s) = true <-> lit_eqb l (made (NString s)) = true \/ lexical_form l = s /\ lit_data_type l = None).
Proof.
  intros P S. rewrite equal_spec, lit_eqb_eq, (made_spec (NString s) P) by (intros; discriminate). destruct l as [x d g]. cbn [lexical_form lit_data_type text kind]. split.
  - intros [-> [-> |[-> _]]]; [left|right; auto]. destruct S as [S|S]; cbn in S; [discriminate|congruence].
  - intros [E|[-> ->]]; [injection E as -> -> _; auto|eauto].
Qed.
Lemma c82_escaped v : ~ plain v -> (forall i, v = NIri i -> m = Bare) -> equal (made v) v = false.
Proof.
  intros P NI. apply not_true_iff_false. intros E. apply equal_spec in E as [E _]. apply P.
  destruct v; cbn [plain_value made_from text] in *; try exact I; try (apply escape_id_iff; exact E).
  rewrite (NI _ eq_refl) in E. apply escape_id_iff. exact E.
Qed.
End Native.
