(** Literals made from floating point numbers and from decimals
    (rdftk_core/src/model/literal.rs:470-507, 560-575).  No proofs here. *)
From Coq Require Import ZArith.
From Verif Require Export Literal.

(** A Rust [f64] or [f32]: the magnitude of a finite number is given by the number its bits
    denote when the sign bit is cleared (IEEE 754: one number of bits for each magnitude,
    0 for the two zeros).  The bits inside a NaN are not kept: neither [==] nor [{}] sees them. *)
Inductive float : Type :=
| NaN
| Infinite (neg : bool)
| Finite (neg : bool) (bits : N).

(** The two types. *)
Inductive float_type : Type := F64 | F32.
Definition float_data_type (t : float_type) : data_type := match t with F64 => DtDouble | F32 => DtFloat end.

(** [==] of [f64] and [f32] (IEEE 754). *)
Definition float_eqb (a b : float) : bool :=
  match a, b with
  | Infinite s, Infinite t => Bool.eqb s t
  | Finite s m, Finite t n => N.eqb m n && (Bool.eqb s t || N.eqb m 0)
  | _, _ => false
  end.

Section Float.
Variable gext printable : chr -> bool.
(** The decimal digits of the magnitude with the bits given, as [Display] prints them:
    the shortest ones that read back as that magnitude, without exponent. *)
Variable digits : float_type -> N -> str.

Definition sign (neg : bool) : str := if neg then $"-" else [].

(** [Display for f64] and [Display for f32] (std): [NaN] without sign, [inf], and a sign for
    every negative number, negative zero included. *)
Definition float_display (t : float_type) (v : float) : str :=
  match v with
  | NaN => $"NaN"
  | Infinite neg => sign neg ++ $"inf"
  | Finite neg m => sign neg ++ digits t m
  end.

(** literal.rs:496-506 [From<f64>], [PartialEq<f64>]; 564-575 the same for [f32]. *)
Definition lit_from_float (t : float_type) (v : float) : literal :=
  lit_with_data_type gext printable (float_display t v) (float_data_type t).
Definition lit_eq_float (t : float_type) (l : literal) (v : float) : bool :=
  str_eqb (lexical_form l) (float_display t v) && opt_eqb dt_eqb (lit_data_type l) (Some (float_data_type t)).
End Float.

(** A [rust_decimal::Decimal]: (-1)^neg * mantissa / 10^scale. *)
Record decimal : Type := Dec { d_neg : bool; d_mantissa : N; d_scale : nat }.

(** [==] of [Decimal]: the numbers are compared, not the scales. *)
Definition decimal_num (d : decimal) : Z :=
  if d_neg d then Z.opp (Z.of_N (d_mantissa d)) else Z.of_N (d_mantissa d).
Definition decimal_eqb (a b : decimal) : bool :=
  Z.eqb (decimal_num a * 10 ^ Z.of_nat (d_scale b)) (decimal_num b * 10 ^ Z.of_nat (d_scale a)).

(** [Display for Decimal] (rust_decimal, [to_str_internal]): the digits of the mantissa,
    zeros put before them until there are more digits than the scale says, and the point
    before the last [scale] ones. *)
Definition decimal_display (d : decimal) : str :=
  let ds := dec_N (d_mantissa d) in
  let ps := repeat 48 (S (d_scale d) - length ds) ++ ds in
  let n := (length ps - d_scale d)%nat in
  sign (d_neg d) ++ firstn n ps ++ match d_scale d with O => [] | _ => 46 :: skipn n ps end.

(** literal.rs:470-490 [From<Decimal>], [PartialEq<Decimal>] (feature decimal_types). *)
Definition lit_from_decimal (gext printable : chr -> bool) (d : decimal) : literal :=
  lit_with_data_type gext printable (decimal_display d) DtDecimal.
Definition lit_eq_decimal (l : literal) (d : decimal) : bool :=
  str_eqb (lexical_form l) (decimal_display d) && opt_eqb dt_eqb (lit_data_type l) (Some DtDecimal).
