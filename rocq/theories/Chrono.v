(** Literals made from the durations of the crate chrono (feature chrono_types, on by
    default), after rdftk_core/src/model/literal.rs:533-559. *)
From Coq Require Import ZArith.
From Verif Require Export Literal.

(** chrono 0.4: [Duration], also called [TimeDelta]: whole seconds and the nanoseconds that
    are to be added to them, from 0 up to 999 999 999.  The bounds of the seconds play no
    part below. *)
Record time_delta : Type := TimeDelta { td_secs : Z; td_nanos : N }.

(** chrono 0.4: [Neg for TimeDelta], and the sign and the magnitude that [Display] begins with. *)
Definition td_negative (d : time_delta) : bool := Z.ltb (td_secs d) 0.
Definition td_abs (d : time_delta) : N * N :=
  if td_negative d
  then if N.eqb (td_nanos d) 0 then (Z.to_N (- td_secs d), 0)
       else (Z.to_N (- td_secs d - 1), 1000000000 - td_nanos d)
  else (Z.to_N (td_secs d), td_nanos d).

(** chrono 0.4: the loop in [Display for TimeDelta] that takes the zeros from the end of the
    nanoseconds and counts the figures left. *)
Fixpoint td_trim (figures : nat) (n : N) : nat * N :=
  match figures with
  | O => (O, n)
  | S k => if N.eqb (n mod 10) 0 then td_trim k (n / 10) else (figures, n)
  end.

(** Rust: [format!("{:01$}", n, width)]. *)
Definition zero_padded (width : nat) (n : N) : str := repeat 48 (width - length (dec_N n)) ++ dec_N n.

(** chrono 0.4: [Display for TimeDelta]. *)
Definition td_display (d : time_delta) : str :=
  let (secs, nanos) := td_abs d in
  (if td_negative d then $"-P" else $"P") ++
  (if N.eqb secs 0 && N.eqb nanos 0 then $"0D"
   else $"T" ++ dec_N secs ++
        (if N.eqb nanos 0 then [] else let (figures, digits) := td_trim 9 nanos in $"." ++ zero_padded figures digits) ++ $"S").

Section Literals.
Variables gext printable : chr -> bool.
(** literal.rs:533-545 [From<chrono::Duration>], [From<&chrono::Duration>]. *)
Definition lit_from_chrono (d : time_delta) : literal := lit_with_data_type gext printable (td_display d) DtDuration.
End Literals.

(** literal.rs:554-559 [PartialEq<chrono::Duration>]. *)
Definition lit_eq_chrono (l : literal) (d : time_delta) : bool :=
  str_eqb (lexical_form l) (td_display d) && opt_eqb dt_eqb (lit_data_type l) (Some DtDuration).
