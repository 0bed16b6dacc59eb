(** Specification of names, independent of PName.v: the productions of the
    SPARQL/Turtle grammar quoted in the doc comments of pname.rs:95-96 and :143. *)
From Verif Require Import Str.

Definition within (c : chr) (t : list (N * N)) : Prop :=
  exists lo hi, In (lo, hi) t /\ lo <= c /\ c <= hi.

(** [164] PN_CHARS_BASE ::= [A-Z] | [a-z] | [#x00C0-#x00D6] | [#x00D8-#x00F6] | [#x00F8-#x02FF]
          | [#x0370-#x037D] | [#x037F-#x1FFF] | [#x200C-#x200D] | [#x2070-#x218F]
          | [#x2C00-#x2FEF] | [#x3001-#xD7FF] | [#xF900-#xFDCF] | [#xFDF0-#xFFFD]
          | [#x10000-#xEFFFF] *)
Definition PN_CHARS_BASE (c : chr) : Prop :=
  within c [(65, 90); (97, 122); (192, 214); (216, 246); (248, 767); (880, 893); (895, 8191);
            (8204, 8205); (8304, 8591); (11264, 12271); (12289, 55295); (63744, 64975);
            (65008, 65533); (65536, 983039)].

(** [165] PN_CHARS_U ::= PN_CHARS_BASE | '_' *)
Definition PN_CHARS_U (c : chr) : Prop := PN_CHARS_BASE c \/ c = 95.

(** [167] PN_CHARS ::= PN_CHARS_U | '-' | [0-9] | #x00B7 | [#x0300-#x036F] | [#x203F-#x2040] *)
Definition PN_CHARS (c : chr) : Prop :=
  PN_CHARS_U c \/ c = 45 \/ within c [(48, 57); (183, 183); (768, 879); (8255, 8256)].

Definition DIGIT (c : chr) : Prop := within c [(48, 57)].
Definition PN_CHARS_or_dot (c : chr) : Prop := PN_CHARS c \/ c = 46.

(** [first ((PN_CHARS | '.')* PN_CHARS)?] *)
Inductive dotted (first : chr -> Prop) : str -> Prop :=
| dotted_one c : first c -> dotted first [c]
| dotted_more c mid d :
    first c -> Forall PN_CHARS_or_dot mid -> PN_CHARS d -> dotted first (c :: mid ++ [d]).

(** [168] PN_PREFIX ::= PN_CHARS_BASE ((PN_CHARS|'.')* PN_CHARS)? *)
Definition PN_PREFIX : str -> Prop := dotted PN_CHARS_BASE.

(** PNAME_NS ::= PN_PREFIX? ':' *)
Inductive PNAME_NS : str -> Prop :=
| pname_ns_default : PNAME_NS [58]
| pname_ns_prefix p : PN_PREFIX p -> PNAME_NS (p ++ [58]).

(** PN_LOCAL as documented (pname.rs:143): (PN_CHARS_U | [0-9]) ((PN_CHARS|'.')* PN_CHARS)? *)
Definition PN_LOCAL : str -> Prop := dotted (fun c => PN_CHARS_U c \/ DIGIT c).

(** What the code accepts as a namespace: like PNAME_NS, but the prefix may end in '.'. *)
Inductive PNAME_NS_lax : str -> Prop :=
| lax_default : PNAME_NS_lax [58]
| lax_prefix c mid : PN_CHARS_BASE c -> Forall PN_CHARS_or_dot mid -> PNAME_NS_lax (c :: mid ++ [58]).
