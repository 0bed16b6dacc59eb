(** Property theorem C98 (literals made from floating point numbers and decimals).
    Statements only; proofs in FloatsProofs.v. *)
From Coq Require Import ZArith Lia.
From Verif Require Import FloatsSpec FloatsProofs PropsLiteral.

(** Digits for the examples: the bits as a whole number. *)
Definition ex_digits (t : float_type) (m : N) : str := dec_N m.
Lemma ex_shortest : shortest_digits ex_digits.
Proof.
  intros t m. split; [|intros n; apply LiteralProofs.dec_N_inj].
  exists (dec_N m). split; [apply dec_N_all|]. split; [apply LiteralProofs.dec_N_nonnil|left; reflexivity].
Qed.

(** C98: a literal made from a floating point number equals the number it was made from, of
    that type, and no other; bits and all. *)
Theorem C98_float : forall gext printable digits, ascii_tables gext printable -> shortest_digits digits ->
  forall t a u b, lit_eq_float digits u (lit_from_float gext printable digits t a) b = true <-> t = u /\ a = b.
Proof. exact (fun g p d T D t a u b => c98_float g p T d D t a u b). Qed.
Print Assumptions C98_float.

(** C98: an [f64] is an xsd:double and an [f32] an xsd:float, and no other literal equals one. *)
Theorem C98_type : forall gext printable digits t l v,
  let named l := option_map dt_as_iri (lit_data_type l) = Some ($"http://www.w3.org/2001/XMLSchema#" ++ match t with F64 => $"double" | F32 => $"float" end) in
  named (lit_from_float gext printable digits t v) /\ lit_language (lit_from_float gext printable digits t v) = None /\
  (lit_eq_float digits t l v = true -> named l).
Proof. exact c98_type. Qed.
Print Assumptions C98_type.

(** C98: this is the equality of floating point numbers except for NaN and for zero. *)
Theorem C98_agree : forall gext printable digits, ascii_tables gext printable -> shortest_digits digits ->
  forall t a b, lit_eq_float digits t (lit_from_float gext printable digits t a) b = float_eqb a b <->
    ~ (a = NaN /\ b = NaN) /\ ~ (exists s, a = Finite s 0 /\ b = Finite (negb s) 0).
Proof. exact (fun g p d T D t a b => c98_agree g p T d D t a b). Qed.
Print Assumptions C98_agree.

(** C98 is false for these: the literal of NaN equals NaN, which does not equal itself, and
    the literal of zero does not equal negative zero, which equals zero. *)
Theorem C98_equality_refuted : forall gext printable digits, ascii_tables gext printable -> shortest_digits digits ->
  forall t, (exists a, lit_eq_float digits t (lit_from_float gext printable digits t a) a = true /\ float_eqb a a = false) /\
    (exists a b, lit_eq_float digits t (lit_from_float gext printable digits t a) b = false /\ float_eqb a b = true).
Proof.
  intros g p d T D t. split.
  - exists NaN. split; [apply (c98_float g p T d D); auto|reflexivity].
  - exists (Finite false 0), (Finite true 0). split; [|reflexivity]. apply not_true_is_false. intros H.
    apply (c98_float g p T d D) in H as [_ H]. discriminate H.
Qed.
Print Assumptions C98_equality_refuted.

(** C98: the text is a lexical form of xsd:double and xsd:float exactly if the number is not
    infinite. *)
Theorem C98_text : forall gext printable digits, ascii_tables gext printable -> shortest_digits digits ->
  forall t v, xsd_double (lexical_form (lit_from_float gext printable digits t v)) <-> forall s, v <> Infinite s.
Proof. exact (fun g p d T D t v => c98_text g p T d D t v). Qed.
Print Assumptions C98_text.

(** C98 is false for the infinite ones: they are written [inf] and not [INF]. *)
Theorem C98_infinite_refuted : forall gext printable digits, ascii_tables gext printable -> shortest_digits digits ->
  forall t s, lexical_form (lit_from_float gext printable digits t (Infinite s)) = (if s then $"-inf" else $"inf") /\
    ~ xsd_double (lexical_form (lit_from_float gext printable digits t (Infinite s))).
Proof. exact (fun g p d T D t s => conj (infinite_text g p T d t s) (fun X => proj1 (c98_text g p T d D t (Infinite s)) X s eq_refl)). Qed.
Print Assumptions C98_infinite_refuted.

(** C98: a literal made from a decimal denotes it, and equals it only. *)
Theorem C98_decimal : forall gext printable, ascii_tables gext printable ->
  (forall d, xsd_decimal (lexical_form (lit_from_decimal gext printable d)) /\
     decimal_value (lexical_form (lit_from_decimal gext printable d)) = Some (decimal_num d, d_scale d)) /\
  (forall a b, lit_eq_decimal (lit_from_decimal gext printable a) b = true <-> a = b) /\
  (forall l b, lit_eq_decimal l b = true -> lit_data_type l = Some DtDecimal /\ lexical_form l = lexical_form (lit_from_decimal gext printable b)).
Proof. exact (fun g p T => conj (c98_decimal_text g p T) (conj (c98_decimal g p T) (c98_decimal_type g p T))). Qed.
Print Assumptions C98_decimal.

(** C98 is false of decimals as numbers: 1.0 equals 1.00, but not the literal made from it. *)
Theorem C98_decimal_refuted : forall gext printable, ascii_tables gext printable ->
  exists a b, decimal_eqb a b = true /\ lit_eq_decimal (lit_from_decimal gext printable a) b = false.
Proof.
  intros g p T. exists (Dec false 10 1), (Dec false 100 2). split; [reflexivity|]. apply not_true_is_false. intros H.
  apply (c98_decimal g p T) in H. discriminate H.
Qed.
Print Assumptions C98_decimal_refuted.

(** C34: integers are written in the canonical form of XML Schema, which denotes them;
    booleans as [true] and [false]. *)
Theorem C34_text : forall gext printable, ascii_tables gext printable ->
  (forall t z, int_value (lexical_form (lit_from_int gext printable t z)) = Some z /\
               canonical_int (lexical_form (lit_from_int gext printable t z))) /\
  lexical_form (lit_from_bool gext printable true) = $"true" /\
  lexical_form (lit_from_bool gext printable false) = $"false".
Proof. exact c34_text. Qed.
Print Assumptions C34_text.

Example C98_example :
  ascii_tables ex_gext ex_printable /\ shortest_digits ex_digits /\
  let make := lit_from_float ex_gext ex_printable ex_digits in
  lexical_form (make F64 (Infinite true)) = $"-inf" /\ lexical_form (make F32 NaN) = $"NaN" /\
  lexical_form (make F64 (Finite true 0)) = $"-0" /\
  lit_eq_float ex_digits F64 (make F64 (Finite false 7)) (Finite false 7) = true /\
  lit_eq_float ex_digits F32 (make F64 (Finite false 7)) (Finite false 7) = false /\
  lexical_form (lit_from_decimal ex_gext ex_printable (Dec true 5 3)) = $"-0.005" /\
  decimal_value $"-0.005" = Some ((-5)%Z, 3%nat) /\
  lexical_form (lit_from_decimal ex_gext ex_printable (Dec false 1250 2)) = $"12.50" /\
  int_value $"-128" = Some (-128)%Z /\ int_value $"12a" = None.
Proof. split; [exact ascii_tables_example|]. split; [exact ex_shortest|]. vm_compute. repeat split. Qed.
