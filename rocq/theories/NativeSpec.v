(** Native values that literals can be made from and compared with.  No proofs here. *)
From Coq Require Import ZArith.
From Verif Require Export LiteralSpec.

Inductive native : Type :=
| NBool (b : bool)
| NInt (t : int_type) (z : Z)
| NString (s : str)
| NLanguage (s : str)
| NName (s : str)
| NQName (s : str)
| NIri (s : str)
| NDuration (secs nanos : N).

(** The values there are. *)
Definition native_ok (v : native) : Prop :=
  match v with
  | NInt t z => in_int_range t z
  | NDuration _ nanos => nanos < 1000000000
  | _ => True
  end.

Section Native.
Variable gext printable : chr -> bool.
Variable m : iri_mode.
(** [Literal::from(v)]. *)
Definition made_from (v : native) : literal :=
  match v with
  | NBool b => lit_from_bool gext printable b
  | NInt t z => lit_from_int gext printable t z
  | NString s => lit_from_str gext printable s
  | NLanguage s => lit_from_lang gext printable s
  | NName s => lit_from_name gext printable s
  | NQName s => lit_from_qname gext printable s
  | NIri s => lit_from_iri gext printable s
  | NDuration s n => lit_from_duration gext printable s n
  end.
(** [literal == v]. *)
Definition equals (l : literal) (v : native) : bool :=
  match v with
  | NBool b => lit_eq_bool l b
  | NInt t z => lit_eq_int t l z
  | NString s => lit_eq_str l s
  | NLanguage s => lit_eq_lang l s
  | NName s => lit_eq_name l s
  | NQName s => lit_eq_qname l s
  | NIri s => lit_eq_iri m l s
  | NDuration s n => lit_eq_duration l s n
  end.
(** No constructor gives a literal both a data type and a language. *)
Definition sound (l : literal) : Prop := lit_data_type l = None \/ lit_language l = None.
(** Text of a value that is stored as it is. *)
Definition plain_value (v : native) : Prop :=
  match v with
  | NString s | NLanguage s | NName s | NQName s | NIri s => Forall (prints_as_itself gext printable) s
  | _ => True
  end.
End Native.
