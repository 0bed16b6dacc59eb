(** Vocabulary for the statements about literals, independent of the model's
    helper functions. *)
From Coq Require Import ZArith.
From Verif Require Export Literal.

(** What the Unicode tables say about printable ASCII: none of 0x20..0x7E is a
    grapheme extender, all of them are printable. *)
Definition ascii_tables (gext printable : chr -> bool) : Prop :=
  forall c, 32 <= c <= 126 -> gext c = false /\ printable c = true.

(** A character that [Debug for str] prints as itself. *)
Definition prints_as_itself (gext printable : chr -> bool) (c : chr) : Prop :=
  ~ In c [0; 9; 10; 13; 34; 92] /\ gext c = false /\ printable c = true.

(** Text that may be placed between double quotes: reading left to right, where a
    backslash hides the character after it, no double quote and no line break is
    met and no backslash is left over. *)
Fixpoint quotable (s : str) : bool :=
  match s with
  | [] => true
  | c :: r =>
      if N.eqb c 92
      then match r with
           | [] => false
           | d :: r' => negb (N.eqb d 10) && negb (N.eqb d 13) && quotable r'
           end
      else negb (N.eqb c 34) && negb (N.eqb c 10) && negb (N.eqb c 13) && quotable r
  end.

Definition is_bytes (l : list N) : Prop := Forall (fun b => b < 256) l.

Definition in_int_range (t : int_type) (z : Z) : Prop := (int_min t <= z <= int_max t)%Z.

(** The data types [From<Iri>] does not know. *)
Definition unrecognised : list data_type :=
  [DtBase64Binary; DtDate; DtDateTime; DtDecimal; DtHexBinary; DtTime; DtLanguage].

(** The names of the data types in XML Schema Part 2 and in RDF. *)
Definition w3c_types : list (data_type * str) :=
  let xs := $"http://www.w3.org/2001/XMLSchema#" in
  [(DtIri, xs ++ $"anyURI"); (DtBase64Binary, xs ++ $"base64Binary"); (DtBoolean, xs ++ $"boolean");
   (DtDate, xs ++ $"date"); (DtDateTime, xs ++ $"dateTime"); (DtDecimal, xs ++ $"decimal");
   (DtDouble, xs ++ $"double"); (DtDuration, xs ++ $"duration"); (DtFloat, xs ++ $"float");
   (DtHexBinary, xs ++ $"hexBinary"); (DtQName, xs ++ $"QName"); (DtString, xs ++ $"string");
   (DtTime, xs ++ $"time"); (DtLong, xs ++ $"long"); (DtInt, xs ++ $"int"); (DtShort, xs ++ $"short");
   (DtByte, xs ++ $"byte"); (DtUnsignedLong, xs ++ $"unsignedLong"); (DtUnsignedInt, xs ++ $"unsignedInt");
   (DtUnsignedShort, xs ++ $"unsignedShort"); (DtUnsignedByte, xs ++ $"unsignedByte");
   (DtLanguage, xs ++ $"language"); (DtName, xs ++ $"Name");
   (DtXmlLiteral, $"http://www.w3.org/1999/02/22-rdf-syntax-ns#XMLLiteral")].

(** The bounded integer types of XML Schema and their least and greatest values
    (XML Schema Part 2, 3.4.16-3.4.24). *)
Definition xsd_ranges : list (str * (Z * Z)) :=
  [($"byte", (- 2 ^ 7, 2 ^ 7 - 1)); ($"short", (- 2 ^ 15, 2 ^ 15 - 1)); ($"int", (- 2 ^ 31, 2 ^ 31 - 1));
   ($"long", (- 2 ^ 63, 2 ^ 63 - 1)); ($"unsignedByte", (0, 2 ^ 8 - 1)); ($"unsignedShort", (0, 2 ^ 16 - 1));
   ($"unsignedInt", (0, 2 ^ 32 - 1)); ($"unsignedLong", (0, 2 ^ 64 - 1))]%Z.

(** Value of an xsd:duration of the form [PTnS] or [PTn.mS], in nanoseconds (at most
    nine digits after the point). *)
Definition digits_value (s : str) : option N :=
  fold_left (fun a c => match a with
                        | None => None
                        | Some v => if is_digit c then Some (10 * v + (c - 48)) else None
                        end) s (Some 0).
Definition duration_value (s : str) : option N :=
  match strip_prefix $"PT" s with
  | None => None
  | Some r =>
      match split_first 83 r with
      | Some (body, []) =>
          match split_first 46 body with
          | None => option_map (fun v => v * 1000000000) (digits_value body)
          | Some (whole, frac) =>
              match digits_value whole, digits_value frac with
              | Some w, Some f =>
                  if Nat.leb (length frac) 9
                  then Some (w * 1000000000 + f * 10 ^ N.of_nat (9 - length frac)) else None
              | _, _ => None
              end
          end
      | _ => None
      end
  end.

(** ** Texts of binary literals *)

(** A hexadecimal digit and its value. *)
Definition hex_digit_of (c : chr) (x : N) : Prop :=
  nth_error $"0123456789ABCDEF" (N.to_nat x) = Some c \/ nth_error $"0123456789abcdef" (N.to_nat x) = Some c.
(** A piece that stands for a byte: two digits, or a plus sign and a digit. *)
Inductive hex_byte : str -> N -> Prop :=
| hb_two c d x y : hex_digit_of c x -> hex_digit_of d y -> hex_byte [c; d] (16 * x + y)
| hb_plus d y : hex_digit_of d y -> hex_byte [43; d] y.

(** RFC 4648, section 4: the digits of the alphabet, and the groups of 24 bits, of which the
    last may be cut after one or two bytes, the bits left over being zero. *)
Definition base64_digit (c : chr) (x : N) : Prop :=
  nth_error $"ABCDEFGHIJKLMNOPQRSTUVWXYZabcdefghijklmnopqrstuvwxyz0123456789+/" (N.to_nat x) = Some c.
Inductive base64 : str -> list N -> Prop :=
| b64_nothing : base64 [] []
| b64_three c1 c2 c3 c4 x1 x2 x3 x4 a b c s bs :
    base64_digit c1 x1 -> base64_digit c2 x2 -> base64_digit c3 x3 -> base64_digit c4 x4 -> is_bytes [a; b; c] ->
    65536 * a + 256 * b + c = 262144 * x1 + 4096 * x2 + 64 * x3 + x4 ->
    base64 s bs -> base64 ([c1; c2; c3; c4] ++ s) ([a; b; c] ++ bs)
| b64_two c1 c2 c3 x1 x2 x3 a b :
    base64_digit c1 x1 -> base64_digit c2 x2 -> base64_digit c3 x3 -> is_bytes [a; b] ->
    1024 * a + 4 * b = 4096 * x1 + 64 * x2 + x3 -> base64 ([c1; c2; c3] ++ $"=") [a; b]
| b64_one c1 c2 x1 x2 a :
    base64_digit c1 x1 -> base64_digit c2 x2 -> is_bytes [a] ->
    16 * a = 64 * x1 + x2 -> base64 ([c1; c2] ++ $"==") [a].

(** What a text between double quotes stands for in Rust (The Rust Reference, "Character
    escapes"); numbers in braces are hexadecimal. *)
Definition brace_digit (d : chr) (v : N) : Prop := 48 <= d <= 57 /\ v = d - 48 \/ 97 <= d <= 102 /\ v = d - 87.
Inductive brace_number : str -> N -> Prop :=
| Bn_one d v : brace_digit d v -> brace_number [d] v
| Bn_more ds n d v : brace_number ds n -> brace_digit d v -> brace_number (ds ++ [d]) (16 * n + v).
Inductive rust_text : str -> str -> Prop :=
| Rt_none : rust_text [] []
| Rt_self c s t : ~ In c [34; 92] -> rust_text s t -> rust_text (c :: s) (c :: t)
| Rt_simple e c s t : In (e, c) [(110, 10); (114, 13); (116, 9); (92, 92); (48, 0); (39, 39); (34, 34)] ->
    rust_text s t -> rust_text (92 :: e :: s) (c :: t)
| Rt_unicode ds c s t : brace_number ds c -> rust_text s t -> rust_text ($"\u{" ++ ds ++ $"}" ++ s) (c :: t).
