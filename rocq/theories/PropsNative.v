(** Property theorem C82 (literals and the values they are compared with).  Statements only;
    proofs in NativeProofs.v. *)
From Coq Require Import ZArith Lia.
From Verif Require Import NativeSpec NativeProofs.

(** Tables for the examples: ASCII, and an accent to be combined with the letter before it. *)
Definition nx_gext (c : chr) : bool := N.eqb c 769.
Definition nx_printable (c : chr) : bool := N.leb 32 c && N.leb c 126.
Lemma nx_ascii : ascii_tables nx_gext nx_printable.
Proof.
  intros c [A B]. unfold nx_gext, nx_printable. split; [apply N.eqb_neq; lia|].
  apply andb_true_intro. split; apply N.leb_le; assumption.
Qed.

(** C82: a literal equals at most one value, of whatever type. *)
Theorem C82_one_value : forall m l v w, native_ok v -> native_ok w -> equals m l v = true -> equals m l w = true -> v = w.
Proof. exact (c82_one (fun _ => false) (fun _ => true)). Qed.
Print Assumptions C82_one_value.

(** C82: which is the value it could have been made from; for booleans, integers, and
    language tags, names and IRIs without characters that are escaped. *)
Theorem C82_agree : forall gext printable m, ascii_tables gext printable ->
  forall l v, sound l -> plain_value gext printable v -> (forall s, v <> NString s) -> (forall s n, v <> NDuration s n) ->
  (forall i, v = NIri i -> m = Bare) -> (equals m l v = true <-> lit_eqb l (made_from gext printable v) = true).
Proof. exact c82_agree. Qed.
Print Assumptions C82_agree.

(** C82 for strings: also literals without data type equal them, in whatever language. *)
Theorem C82_string : forall gext printable m, ascii_tables gext printable ->
  forall l s, Forall (prints_as_itself gext printable) s -> sound l ->
  (equals m l (NString s) = true <->
   lit_eqb l (made_from gext printable (NString s)) = true \/ lexical_form l = s /\ lit_data_type l = None).
Proof. exact c82_string. Qed.
Print Assumptions C82_string.

(** C82 fails for strings: two literals that equal the same string are not equal. *)
Theorem C82_string_refuted : forall gext printable m s t, Forall (prints_as_itself gext printable) s ->
  let l := lit_with_language gext printable s t in
  equals m l (NString s) = true /\ equals m (made_from gext printable (NString s)) (NString s) = true /\
  lit_eqb l (made_from gext printable (NString s)) = false.
Proof.
  intros gext printable m s t P l. assert (E := proj2 (LiteralProofs.escape_id_iff gext printable s) P).
  split; [|split]; [apply equal_spec; cbn; eauto|apply equal_spec; cbn; auto|].
  apply Bool.not_true_iff_false. intros H. apply LiteralProofs.lit_eqb_eq in H. discriminate H.
Qed.
Print Assumptions C82_string_refuted.

(** C82 fails for escaped characters: a literal does not equal the value it was made from. *)
Theorem C82_escaped_refuted : forall gext printable m v, ~ plain_value gext printable v -> (forall i, v = NIri i -> m = Bare) ->
  equals m (made_from gext printable v) v = false.
Proof. exact c82_escaped. Qed.
Print Assumptions C82_escaped_refuted.

Example C82_example :
  let made := made_from nx_gext nx_printable in
  equals Bare (made (NName $"a")) (NName $"a") = true /\ equals Bare (made (NName $"a")) (NQName $"a") = false /\
  equals Bare (made (NInt I8 5)) (NInt I8 5) = true /\ equals Bare (made (NInt I8 5)) (NInt I16 5) = false /\
  native_ok (NInt I8 5) /\ native_ok (NDuration 1 5) /\
  equals Bare (Lit $"1000000005" (Some DtDuration) None) (NDuration 1 5) = true /\
  plain_value nx_gext nx_printable (NName $"a") /\ sound (made (NName $"a")) /\
  ~ plain_value nx_gext nx_printable (NName [101; 769]) /\
  equals Bare (made (NName [101; 769])) (NName [101; 769]) = false /\
  equals Bare (lit_with_language nx_gext nx_printable $"chat" $"fr") (NString $"chat") = true.
Proof.
  cbv zeta. repeat (split; [vm_compute; reflexivity|]). split; [cbv; split; discriminate|].
  split; [vm_compute; reflexivity|]. split; [vm_compute; reflexivity|].
  split; [constructor; [split; [cbn; intuition discriminate|split; reflexivity]|constructor]|].
  split; [right; reflexivity|]. split.
  - intros F. inversion F as [|? ? _ F']; subst. inversion F' as [|? ? (_ & G & _) _]; subst. discriminate G.
  - split; vm_compute; reflexivity.
Qed.
