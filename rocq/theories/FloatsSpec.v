(** Vocabulary for the statements about numbers written in literals.  No proofs here. *)
From Coq Require Import ZArith.
From Verif Require Export Floats LiteralSpec.

(** Digits. *)
Definition all_digits (s : str) : Prop := Forall (fun c => 48 <= c <= 57) s.

(** XML Schema Part 2, 3.2.3: the lexical forms of xsd:decimal without sign. *)
Definition unsigned_decimal (s : str) : Prop :=
  exists w, all_digits w /\ w <> [] /\ (s = w \/ exists f, all_digits f /\ f <> [] /\ s = w ++ 46 :: f).
(** With a sign. *)
Definition xsd_decimal (s : str) : Prop := unsigned_decimal s \/ exists u, s = 45 :: u /\ unsigned_decimal u.
(** XML Schema Part 2, 3.2.4 and 3.2.5: the lexical forms of xsd:float and xsd:double
    (the ones with an exponent, which nothing here writes, left out). *)
Definition xsd_double (s : str) : Prop := xsd_decimal s \/ In s [$"INF"; $"-INF"; $"NaN"].

(** What is relied on of [Display] for floating point numbers: a finite magnitude is
    written as a decimal numeral without sign, different ones differently. *)
Definition shortest_digits (digits : float_type -> N -> str) : Prop :=
  forall t m, unsigned_decimal (digits t m) /\ forall n, digits t m = digits t n -> m = n.

(** The integer that a numeral denotes: the last digit counts one, a minus sign negates. *)
Fixpoint place_value (s : str) : option N :=
  match s with
  | [] => Some 0
  | c :: r => match place_value r with
              | Some v => if N.leb 48 c && N.leb c 57 then Some ((c - 48) * 10 ^ N.of_nat (length r) + v) else None
              | None => None
              end
  end.
Definition unsigned_value (s : str) : option Z :=
  match s with [] => None | _ => option_map Z.of_N (place_value s) end.
Definition int_value (s : str) : option Z :=
  match s with
  | 45 :: r => option_map Z.opp (unsigned_value r)
  | _ => unsigned_value s
  end.
(** XML Schema Part 2: the canonical form of an integer has no sign but a minus sign, no
    leading zeros, and no sign before zero. *)
Definition canonical_int (s : str) : Prop :=
  s = [48] \/ (exists c r, (s = c :: r \/ s = 45 :: c :: r) /\ 49 <= c <= 57 /\ all_digits r).

(** The number a decimal numeral denotes: an integer and the number of places after the point. *)
Definition decimal_value (s : str) : option (Z * nat) :=
  match split_first 46 s with
  | None => option_map (fun z => (z, O)) (int_value s)
  | Some (w, f) => option_map (fun z => (z, length f)) (int_value (w ++ f))
  end.
