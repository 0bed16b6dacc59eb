(** Property theorem C106 (durations of chrono).  Statements only; proofs in ChronoProofs.v. *)
From Coq Require Import ZArith.
From Verif Require Import ChronoSpec ChronoProofs PropsLiteral.

(** C106: the literal made from a duration is an xsd:duration that denotes it. *)
Theorem C106_text : forall gext printable, ascii_tables gext printable ->
  forall d, td_valid d -> lit_data_type (lit_from_chrono gext printable d) = Some DtDuration /\
    xsd_duration (lexical_form (lit_from_chrono gext printable d)) (td_value d).
Proof. exact (fun g p T d V => conj eq_refl (c106_text g p T d V)). Qed.
Print Assumptions C106_text.

(** C106: it equals this duration only. *)
Theorem C106_equal : forall gext printable, ascii_tables gext printable ->
  forall a b, td_valid a -> td_valid b -> (lit_eq_chrono (lit_from_chrono gext printable a) b = true <-> a = b).
Proof. exact c106_equal. Qed.
Print Assumptions C106_equal.

(** C106: when the literal of a standard duration equals the same duration of chrono. *)
Theorem C106_standard : forall gext printable, ascii_tables gext printable ->
  forall secs nanos, nanos < 1000000000 ->
  (lit_eq_chrono (lit_from_duration gext printable secs nanos) (TimeDelta (Z.of_N secs) nanos) = true <->
   (nanos = 0 /\ secs <> 0) \/ (100000000 <= nanos /\ nanos mod 10 <> 0)).
Proof. exact c106_std. Qed.
Print Assumptions C106_standard.

(** C106: so standard durations are not converted to those of chrono, as literal.rs:5-9 says
    they are. *)
Theorem C106_standard_refuted : forall gext printable, ascii_tables gext printable ->
  lit_eq_chrono (lit_from_duration gext printable 0 0) (TimeDelta 0 0) = false /\
  lit_eq_chrono (lit_from_duration gext printable 1 50) (TimeDelta 1 50) = false /\
  lit_eq_chrono (lit_from_duration gext printable 1 500000000) (TimeDelta 1 500000000) = false.
Proof.
  intros g p T. repeat split; apply Bool.not_true_is_false; intros H.
  - apply (c106_std g p T 0 0) in H as [[_ N]|[L _]]; [congruence|apply L; reflexivity|reflexivity].
  - apply (c106_std g p T 1 50) in H as [[Z _]|[L _]]; [discriminate Z|apply L; reflexivity|reflexivity].
  - apply (c106_std g p T 1 500000000) in H as [[Z _]|[_ N]]; [discriminate Z|apply N; reflexivity|reflexivity].
Qed.
Print Assumptions C106_standard_refuted.

Example C106_example :
  let f d := lexical_form (lit_from_chrono ex_gext ex_printable d) in
  ascii_tables ex_gext ex_printable /\ td_valid (TimeDelta (-2) 500000000) /\
  f (TimeDelta (-2) 500000000) = $"-PT1.5S" /\ f (TimeDelta 1 50) = $"PT1.00000005S" /\ f (TimeDelta 90 0) = $"PT90S" /\
  f (TimeDelta 0 0) = $"P0D" /\ f (TimeDelta (-1) 999999999) = $"-PT0.000000001S" /\
  td_value (TimeDelta (-2) 500000000) = (-1500000000)%Z /\
  lexical_form (lit_from_duration ex_gext ex_printable 1 500000000) = $"PT1.500000000S" /\
  lit_eq_chrono (lit_from_chrono ex_gext ex_printable (TimeDelta 1 50)) (TimeDelta 1 51) = false /\
  xsd_duration $"P1DT2M" (86520000000000)%Z.
Proof.
  cbv zeta. split; [exact ascii_tables_example|]. repeat (split; [reflexivity|]).
  exists false, $"1D", [], $"2M", [], 86400000000000, 0, 120000000000, 0.
  split; [apply (Present 68 86400000000000 [49] 1); [discriminate|reflexivity]|]. split; [constructor|].
  split; [apply (Present 77 60000000000 [50] 2); [discriminate|reflexivity]|]. split; [apply Whole; constructor|].
  split; [discriminate|]. split; reflexivity.
Qed.
