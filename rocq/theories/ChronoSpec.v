(** Vocabulary for the statements about durations of chrono.  No proofs here. *)
From Coq Require Import ZArith.
From Verif Require Export Chrono FloatsSpec.

(** The number of nanoseconds. *)
Definition td_value (d : time_delta) : Z := (td_secs d * 1000000000 + Z.of_N (td_nanos d))%Z.
(** The invariant of chrono. *)
Definition td_valid (d : time_delta) : Prop := td_nanos d < 1000000000.

(** XML Schema Part 2, 3.3.6: xsd:duration (without years and months) and what its forms denote,
    in nanoseconds: a sign, P, days, and after a T hours, minutes and seconds; each part may be
    absent, but not all of them, and the T is absent if nothing would follow. *)
Inductive component (letter : chr) (unit : N) : str -> N -> Prop :=
| Absent : component letter unit [] 0
| Present ds v : ds <> [] -> place_value ds = Some v -> component letter unit (ds ++ [letter]) (v * unit).
Inductive seconds : str -> N -> Prop :=
| Whole t v : component 83 1000000000 t v -> seconds t v
| Fraction w f v u : w <> [] -> place_value w = Some v -> f <> [] -> place_value f = Some u -> (length f <= 9)%nat ->
    seconds (w ++ 46 :: f ++ [83]) (v * 1000000000 + u * 10 ^ N.of_nat (9 - length f)).
Definition xsd_duration (s : str) (v : Z) : Prop :=
  exists (neg : bool) d h m t vd vh vm vt,
    component 68 86400000000000 d vd /\ component 72 3600000000000 h vh /\ component 77 60000000000 m vm /\ seconds t vt /\
    d ++ h ++ m ++ t <> [] /\
    s = (if neg then [45] else []) ++ 80 :: d ++ match h ++ m ++ t with [] => [] | x => 84 :: x end /\
    v = (if neg then - Z.of_N (vd + vh + vm + vt) else Z.of_N (vd + vh + vm + vt))%Z.
