(** Model of rdftk_core/src/model/literal.rs (data types and literals).
    No proofs here.

    In this layer an [Iri] is its text: the code in rdftk_core only stores,
    compares, hashes and prints IRIs.  [Ord for Iri] compares that text. *)
From Coq Require Import String.
From Coq Require Import ZArith.
From Verif Require Export Str.

(** A [LanguageTag] (crate [language_tags]) is its normalised text: the derived
    [PartialEq]/[Hash] compare the text and indices computed from it. *)

(** rdftk_core/src/model/literal.rs:76-239 [enum DataType]. *)
Inductive data_type : Type :=
| DtIri | DtBase64Binary | DtBoolean | DtDate | DtDateTime | DtDecimal | DtDouble
| DtDuration | DtFloat | DtHexBinary | DtQName | DtString | DtTime | DtLong | DtInt
| DtShort | DtByte | DtUnsignedLong | DtUnsignedInt | DtUnsignedShort | DtUnsignedByte
| DtLanguage | DtName | DtXmlLiteral
| DtOther (iri : str).

(** The derived [Ord] (line 76): position of the variant in the declaration, then the
    contained [Iri]. *)
Definition dt_index (d : data_type) : N :=
  match d with
  | DtIri => 0 | DtBase64Binary => 1 | DtBoolean => 2 | DtDate => 3 | DtDateTime => 4
  | DtDecimal => 5 | DtDouble => 6 | DtDuration => 7 | DtFloat => 8 | DtHexBinary => 9
  | DtQName => 10 | DtString => 11 | DtTime => 12 | DtLong => 13 | DtInt => 14
  | DtShort => 15 | DtByte => 16 | DtUnsignedLong => 17 | DtUnsignedInt => 18
  | DtUnsignedShort => 19 | DtUnsignedByte => 20 | DtLanguage => 21 | DtName => 22
  | DtXmlLiteral => 23 | DtOther _ => 24
  end.

Definition dt_cmp (a b : data_type) : comparison :=
  match a, b with
  | DtOther x, DtOther y => str_cmp x y
  | _, _ => N.compare (dt_index a) (dt_index b)
  end.

(** The derived [PartialEq] (line 76). *)
Definition dt_eqb (a b : data_type) : bool :=
  match a, b with
  | DtOther x, DtOther y => str_eqb x y
  | _, _ => N.eqb (dt_index a) (dt_index b)
  end.

(** rdftk_names/src/xsd.rs:5-56, rdf.rs:8-36: IRIs of the vocabularies. *)
Definition xsd (local : str) : str := $"http://www.w3.org/2001/XMLSchema#" ++ local.
Definition rdf (local : str) : str := $"http://www.w3.org/1999/02/22-rdf-syntax-ns#" ++ local.

(** rdftk_core/src/model/literal.rs:334-362 [DataType::as_iri]. *)
Definition dt_as_iri (d : data_type) : str :=
  match d with
  | DtIri => xsd $"anyURI"
  | DtBase64Binary => xsd $"base64Binary"
  | DtBoolean => xsd $"boolean"
  | DtDate => xsd $"date"
  | DtDateTime => xsd $"dateTime"
  | DtDecimal => xsd $"decimal"
  | DtDouble => xsd $"double"
  | DtDuration => xsd $"duration"
  | DtFloat => xsd $"float"
  | DtHexBinary => xsd $"hexBinary"
  | DtQName => xsd $"QName"
  | DtString => xsd $"string"
  | DtTime => xsd $"time"
  | DtLong => xsd $"long"
  | DtInt => xsd $"int"
  | DtShort => xsd $"short"
  | DtByte => xsd $"byte"
  | DtUnsignedLong => xsd $"unsignedLong"
  | DtUnsignedInt => xsd $"unsignedInt"
  | DtUnsignedShort => xsd $"unsignedShort"
  | DtUnsignedByte => xsd $"unsignedByte"
  | DtLanguage => xsd $"language"
  | DtName => xsd $"Name"
  | DtXmlLiteral => rdf $"XMLLiteral"
  | DtOther iri => iri
  end.

(** rdftk_core/src/model/literal.rs:287-327 [From<Iri> for DataType]. *)
Definition dt_from_iri (iri : str) : data_type :=
  if str_eqb iri (xsd $"string") then DtString
  else if str_eqb iri (xsd $"QName") then DtQName
  else if str_eqb iri (xsd $"Name") then DtName
  else if str_eqb iri (xsd $"anyURI") then DtIri
  else if str_eqb iri (xsd $"boolean") then DtBoolean
  else if str_eqb iri (xsd $"float") then DtFloat
  else if str_eqb iri (xsd $"double") then DtDouble
  else if str_eqb iri (xsd $"long") then DtLong
  else if str_eqb iri (xsd $"int") then DtInt
  else if str_eqb iri (xsd $"short") then DtShort
  else if str_eqb iri (xsd $"byte") then DtByte
  else if str_eqb iri (xsd $"unsignedLong") then DtUnsignedLong
  else if str_eqb iri (xsd $"unsignedInt") then DtUnsignedInt
  else if str_eqb iri (xsd $"unsignedShort") then DtUnsignedShort
  else if str_eqb iri (xsd $"unsignedByte") then DtUnsignedByte
  else if str_eqb iri (xsd $"duration") then DtDuration
  else if str_eqb iri (rdf $"XMLLiteral") then DtXmlLiteral
  else DtOther iri.

(** rdftk_core/src/model/literal.rs:241-246 [struct Literal]. *)
Record literal : Type := Lit {
  lexical_form : str;
  lit_data_type : option data_type;
  lit_language : option str
}.

Definition opt_eqb {A} (e : A -> A -> bool) (a b : option A) : bool :=
  match a, b with
  | None, None => true
  | Some x, Some y => e x y
  | _, _ => false
  end.

(** rdftk_core/src/model/literal.rs:813-819 [PartialEq for Literal]. *)
Definition lit_eqb (a b : literal) : bool :=
  str_eqb (lexical_form a) (lexical_form b)
  && opt_eqb dt_eqb (lit_data_type a) (lit_data_type b)
  && opt_eqb str_eqb (lit_language a) (lit_language b).

(** rdftk_core/src/model/literal.rs:878-902 [Ord for Literal]. *)
Definition lit_cmp (a b : literal) : comparison :=
  match lit_data_type a, lit_data_type b with
  | Some _, None => Gt
  | None, Some _ => Lt
  | da, db =>
      let c := match da, db with Some x, Some y => dt_cmp x y | _, _ => Eq end in
      match c with
      | Eq =>
          match lit_language a, lit_language b with
          | Some _, None => Gt
          | None, Some _ => Lt
          | la, lb =>
              let c := match la, lb with Some x, Some y => str_cmp x y | _, _ => Eq end in
              match c with
              | Eq => str_cmp (lexical_form a) (lexical_form b)
              | o => o
              end
          end
      | o => o
      end
  end.

(** Positional notation, most significant digit first, no leading zeros. *)
Fixpoint radix_fuel (k : nat) (b n : N) : str :=
  match k with
  | O => []
  | S k' => if N.ltb n b then [hex_lower n]
            else radix_fuel k' b (n / b) ++ [hex_lower (n mod b)]
  end.
(** [N.size_nat n] binary digits are enough fuel for any base. *)
Definition radix_N (b n : N) : str := radix_fuel (S (N.size_nat n)) b n.

(** [u8::to_string] and friends (std): decimal digits, no leading zero, [-] for
    negative numbers. *)
Definition dec_N (n : N) : str := radix_N 10 n.
Definition dec_Z (z : Z) : str :=
  match z with
  | Zneg p => 45 :: dec_N (Npos p)
  | _ => dec_N (Z.to_N z)
  end.

(** [{:x}] (std): lower-case hexadecimal digits without leading zeros. *)
Definition hex_N (n : N) : str := radix_N 16 n.

(** rdftk_core/src/model/literal.rs:1029-1039 [hex_encode]: two upper-case digits per
    byte, no separator. *)
Definition hex_encode (bytes : list N) : str :=
  flat_map (fun b => [hex_upper (b / 16); hex_upper (b mod 16)]) bytes.

(** [u8::from_str_radix(_, 16)] (std) on a two-byte string: one leading [+] is
    accepted ([-] is not, for an unsigned type). *)
Definition u8_from_hex2 (a b : chr) : option N :=
  if N.eqb a 43 then hex_val b
  else match hex_val a, hex_val b with
       | Some x, Some y => Some (16 * x + y)
       | _, _ => None
       end.

(** rdftk_core/src/model/literal.rs:1041-1063 [hex_decode]: the pieces between
    spaces, each of which has to be two bytes long (a single two-byte character is
    never a hexadecimal number). *)
Definition hex_piece (p : str) : option N :=
  match p with
  | [a; b] => if is_ascii a && is_ascii b then u8_from_hex2 a b else None
  | _ => None
  end.
Fixpoint hex_pieces (ps : list str) : option (list N) :=
  match ps with
  | [] => Some []
  | p :: r =>
      match hex_piece p with
      | None => None
      | Some b => option_map (cons b) (hex_pieces r)
      end
  end.
Definition hex_decode (s : str) : option (list N) := hex_pieces (split_on (N.eqb 32) s).

(** Crate [base64], engine [STANDARD] (RFC 4648 with padding), encoding. *)
Definition b64_digit (n : N) : chr :=
  if N.ltb n 26 then 65 + n
  else if N.ltb n 52 then 71 + n
  else if N.ltb n 62 then n - 4
  else if N.eqb n 62 then 43 else 47.
Fixpoint b64_encode (bs : list N) : str :=
  match bs with
  | a :: b :: c :: r =>
      b64_digit (a / 4) :: b64_digit (16 * (a mod 4) + b / 16)
        :: b64_digit (4 * (b mod 16) + c / 64) :: b64_digit (c mod 64) :: b64_encode r
  | [a; b] =>
      [b64_digit (a / 4); b64_digit (16 * (a mod 4) + b / 16); b64_digit (4 * (b mod 16)); 61]
  | [a] => [b64_digit (a / 4); b64_digit (16 * (a mod 4)); 61; 61]
  | [] => []
  end.

(** Decoding with the same engine: groups of four, padding required and canonical
    (trailing bits must be zero). *)
Definition b64_val (c : chr) : option N :=
  if is_upper c then Some (c - 65)
  else if is_lower c then Some (c - 71)
  else if is_digit c then Some (c + 4)
  else if N.eqb c 43 then Some 62
  else if N.eqb c 47 then Some 63
  else None.
Fixpoint b64_decode (s : str) : option (list N) :=
  match s with
  | [] => Some []
  | c1 :: c2 :: c3 :: c4 :: r =>
      match b64_val c1, b64_val c2, b64_val c3, b64_val c4 with
      | Some v1, Some v2, Some v3, Some v4 =>
          match b64_decode r with
          | Some t => Some (4 * v1 + v2 / 16 :: 16 * (v2 mod 16) + v3 / 4
                              :: 64 * (v3 mod 4) + v4 :: t)
          | None => None
          end
      | Some v1, Some v2, Some v3, None =>
          if N.eqb c4 61 && N.eqb (v3 mod 4) 0 && match r with [] => true | _ => false end
          then Some [4 * v1 + v2 / 16; 16 * (v2 mod 16) + v3 / 4] else None
      | Some v1, Some v2, None, None =>
          if N.eqb c3 61 && N.eqb c4 61 && N.eqb (v2 mod 16) 0
             && match r with [] => true | _ => false end
          then Some [4 * v1 + v2 / 16] else None
      | _, _, _, _ => None
      end
  | _ => None
  end.

(** The integer types with a [From] and a [PartialEq] (lines 637-763). *)
Inductive int_type : Type := I64 | I32 | I16 | I8 | U64 | U32 | U16 | U8.
Definition int_min (t : int_type) : Z :=
  match t with
  | I64 => -9223372036854775808 | I32 => -2147483648 | I16 => -32768 | I8 => -128
  | _ => 0
  end%Z.
Definition int_max (t : int_type) : Z :=
  match t with
  | I64 => 9223372036854775807 | I32 => 2147483647 | I16 => 32767 | I8 => 127
  | U64 => 18446744073709551615 | U32 => 4294967295 | U16 => 65535 | U8 => 255
  end%Z.
Definition int_data_type (t : int_type) : data_type :=
  match t with
  | I64 => DtLong | I32 => DtInt | I16 => DtShort | I8 => DtByte
  | U64 => DtUnsignedLong | U32 => DtUnsignedInt | U16 => DtUnsignedShort
  | U8 => DtUnsignedByte
  end.

Section Escaping.
(** [core::unicode::grapheme_extend] and [core::unicode::printable] (std): properties
    of characters taken from the Unicode tables of the compiler. *)
Variable gext printable : chr -> bool.

(** [char::escape_debug_ext] (std) with the arguments used by [Debug for str]:
    grapheme extenders and double quotes are escaped, single quotes are not. *)
Definition esc_chr (c : chr) : str :=
  if N.eqb c 0 then $"\0"
  else if N.eqb c 9 then $"\t"
  else if N.eqb c 13 then $"\r"
  else if N.eqb c 10 then $"\n"
  else if N.eqb c 92 then $"\\"
  else if N.eqb c 34 then [92; 34]
  else if gext c then $"\u{" ++ hex_N c ++ $"}"
  else if printable c then [c]
  else $"\u{" ++ hex_N c ++ $"}".

(** rdftk_core/src/model/literal.rs:1021-1027 [escape_string]: [{:?}] with the first
    and the last character cut off. *)
Definition escape_string (s : str) : str := flat_map esc_chr s.

(** rdftk_core/src/model/literal.rs:915-962: the constructors. *)
Definition lit_plain (s : str) : literal := Lit (escape_string s) None None.
Definition lit_with_language (s lang : str) : literal := Lit (escape_string s) None (Some lang).
Definition lit_with_data_type (s : str) (d : data_type) : literal :=
  Lit (escape_string s) (Some d) None.
Definition lit_with_data_type_iri (s iri : str) : literal :=
  Lit (escape_string s) (Some (DtOther iri)) None.

(** rdftk_core/src/model/literal.rs:964-971 [hex_encoded], [base64_encoded]. *)
Definition lit_hex_encoded (bytes : list N) : literal :=
  lit_with_data_type (hex_encode bytes) DtHexBinary.
Definition lit_base64_encoded (bytes : list N) : literal :=
  lit_with_data_type (b64_encode bytes) DtHexBinary.

(** rdftk_core/src/model/literal.rs:418-441 [TryFrom<Literal> for Vec<u8>]; [None]
    stands for every [Err]. *)
Definition lit_to_bytes (l : literal) : option (list N) :=
  match lit_data_type l with
  | Some d =>
      if dt_eqb d DtBase64Binary then b64_decode (lexical_form l)
      else if dt_eqb d DtHexBinary then hex_decode (lexical_form l)
      else None
  | None => None
  end.

(** rdftk_core/src/model/literal.rs:447-457 [From<bool>], [PartialEq<bool>]. *)
Definition bool_str (b : bool) : str := if b then $"true" else $"false".
Definition lit_from_bool (b : bool) : literal := lit_with_data_type (bool_str b) DtBoolean.
Definition lit_eq_bool (l : literal) (b : bool) : bool :=
  str_eqb (lexical_form l) (bool_str b) && opt_eqb dt_eqb (lit_data_type l) (Some DtBoolean).

(** rdftk_core/src/model/literal.rs:637-763 [From<i64>] ... [PartialEq<u8>]. *)
Definition lit_from_int (t : int_type) (z : Z) : literal :=
  lit_with_data_type (dec_Z z) (int_data_type t).
Definition lit_eq_int (t : int_type) (l : literal) (z : Z) : bool :=
  str_eqb (lexical_form l) (dec_Z z)
  && opt_eqb dt_eqb (lit_data_type l) (Some (int_data_type t)).

(** rdftk_core/src/model/literal.rs:512-525 [From<Duration>]; a [Duration] is its whole
    seconds and nanoseconds. *)
Definition lit_from_duration (secs nanos : N) : literal :=
  lit_with_data_type
    (if N.eqb nanos 0 then $"PT" ++ dec_N secs ++ $"S"
     else $"PT" ++ dec_N secs ++ $"." ++ dec_N nanos ++ $"S") DtDuration.
(** rdftk_core/src/model/literal.rs:547-552 [PartialEq<Duration>]: compares with
    [as_nanos]. *)
Definition lit_eq_duration (l : literal) (secs nanos : N) : bool :=
  str_eqb (lexical_form l) (dec_N (secs * 1000000000 + nanos))
  && opt_eqb dt_eqb (lit_data_type l) (Some DtDuration).

(** rdftk_core/src/model/literal.rs:603-627 [From<String>], [From<&str>],
    [PartialEq<String>], [PartialEq<str>]. *)
Definition lit_from_str (s : str) : literal := lit_with_data_type s DtString.
Definition lit_eq_str (l : literal) (s : str) : bool :=
  str_eqb (lexical_form l) s
  && (match lit_data_type l with None => true | Some d => dt_eqb d DtString end).

(** rdftk_core/src/model/literal.rs:769-779 [From<LanguageTag>], [PartialEq]. *)
Definition lit_from_lang (t : str) : literal := lit_with_data_type t DtLanguage.
Definition lit_eq_lang (l : literal) (t : str) : bool :=
  str_eqb (lexical_form l) t && opt_eqb dt_eqb (lit_data_type l) (Some DtLanguage).

(** rdftk_core/src/model/literal.rs:785-803 [From<Name>], [PartialEq<Name>];
    581-597 [From<QName>], [PartialEq<QName>]. *)
Definition lit_from_name (t : str) : literal := lit_with_data_type t DtName.
Definition lit_eq_name (l : literal) (t : str) : bool :=
  str_eqb (lexical_form l) t && opt_eqb dt_eqb (lit_data_type l) (Some DtName).
Definition lit_from_qname (t : str) : literal := lit_with_data_type t DtQName.
Definition lit_eq_qname (l : literal) (t : str) : bool :=
  str_eqb (lexical_form l) t && opt_eqb dt_eqb (lit_data_type l) (Some DtQName).

(** rdftk_core/src/model/literal.rs:373-377 [From<Iri>]: the text of the IRI. *)
Definition lit_from_iri (iri : str) : literal := lit_with_data_type iri DtIri.

End Escaping.

(** How an [Iri] prints with [{}].  rdftk_core was written for an [Iri] that prints its
    text; [Display for Iri] of rdftk_iri at this commit prints [<text>]
    (rdftk_iri/src/iri.rs).  Both are covered. *)
Inductive iri_mode : Type := Bare | Angled.
Definition show_iri (m : iri_mode) (iri : str) : str :=
  match m with Bare => iri | Angled => 60 :: iri ++ [62] end.


(** rdftk_core/src/model/literal.rs:385-389 [PartialEq<Iri>]: compares with [to_string]. *)
Definition lit_eq_iri (m : iri_mode) (l : literal) (iri : str) : bool :=
  str_eqb (lexical_form l) (show_iri m iri) && opt_eqb dt_eqb (lit_data_type l) (Some DtIri).

(** rdftk_core/src/model/literal.rs:391-413 [TryFrom<Literal> for Iri]; [parse] is
    [Iri::parse], [None] stands for every [Err]. *)
Definition lit_to_iri (parse : str -> option str) (l : literal) : option str :=
  match lit_data_type l with
  | Some d => if dt_eqb d DtIri then parse (lexical_form l) else None
  | None => None
  end.
