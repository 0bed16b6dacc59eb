(** Model of rdftk_iri/src/pname.rs (names, namespaces, local names).
    Model only; specification in PNameSpec.v, proofs in PNameProofs.v. *)
From Verif Require Import Str.

(** rdftk_iri/src/error.rs: [NameParseError]. *)
Inductive name_error :=
| EmptyString
| InvalidCharacter (s : str)
| TooManySeparators (s : str)
| MissingSeparator (s : str).

(** pname.rs:101 [struct Namespace(String)]; pname.rs:148 [struct Name(String)];
    pname.rs:186-189 [struct LocalName]; pname.rs:52 [enum PrefixedName]. *)
Record namespace := MkNamespace { ns_text : str }.
Record name := MkName { name_text : str }.
Record local_name := MkLocalName { ln_namespace : namespace; ln_name : name }.
Inductive prefixed_name :=
| PNamespace (n : namespace)
| PLocal (l : local_name).

(** NAMESPACE_SEPARATOR_CHAR and NAMESPACE_DEFAULT_STRING. *)
Definition sep : chr := 58.
Definition ns_default_string : str := [sep].

(** pname.rs:571-589 [is_pn_chars_base] *)
Definition is_pn_chars_base (c : chr) : bool :=
  in_range 0x41 0x5A c || in_range 0x61 0x7A c
  || in_range 0xC0 0xD6 c || in_range 0xD8 0xF6 c || in_range 0xF8 0x2FF c
  || in_range 0x370 0x37D c || in_range 0x37F 0x1FFF c || in_range 0x200C 0x200D c
  || in_range 0x2070 0x218F c || in_range 0x2C00 0x2FEF c || in_range 0x3001 0xD7FF c
  || in_range 0xF900 0xFDCF c || in_range 0xFDF0 0xFFFD c || in_range 0x10000 0xEFFFF c.

(** pname.rs:591-593 [is_pn_chars_u] *)
Definition is_pn_chars_u (c : chr) : bool := is_pn_chars_base c || N.eqb c 0x5F.

(** pname.rs:595-602 [is_pn_chars] *)
Definition is_pn_chars (c : chr) : bool :=
  is_pn_chars_u c || N.eqb c 0x2D || is_digit c || N.eqb c 0xB7
  || in_range 0x300 0x36F c || in_range 0x203F 0x2040 c.

(** pname.rs:604-606 [is_pn_local_first] *)
Definition is_pn_local_first (c : chr) : bool := is_pn_chars_u c || is_digit c.

(** pname.rs:608-610 [is_pn_prefix_local_rest] *)
Definition is_pn_prefix_local_rest (c : chr) : bool := is_pn_chars c || N.eqb c 0x2E.

(** pname.rs:238-265 [FromStr for Namespace].  [chars.next().unwrap()] is on a
    string just tested to be non-empty, so its panic branch is dead. *)
Definition namespace_from_str (s : str) : result namespace name_error :=
  match s with
  | [] => Err EmptyString
  | _ =>
      if str_eqb s ns_default_string then Ok (MkNamespace s)
      else match strip_suffix_chr sep s with
           | Some pn_prefix =>
               if contains_chr sep pn_prefix then Err (TooManySeparators s)
               else match pn_prefix with
                    | [] => Ok (MkNamespace s)
                    | c :: rest =>
                        if is_pn_chars_base c && forallb is_pn_prefix_local_rest rest
                        then Ok (MkNamespace s)
                        else Err (InvalidCharacter s)
                    end
           | None => Err (MissingSeparator s)
           end
  end.

(** The argument both [new_named] and [new_unchecked] build: append [':'] if missing. *)
Definition with_sep (s : str) : str :=
  if ends_with_chr sep s then s else s ++ [sep].

(** pname.rs:296-307 [Namespace::new_named] *)
Definition namespace_new_named (s : str) : result namespace name_error :=
  namespace_from_str (with_sep s).

(** pname.rs:314-316 [Namespace::new_default] *)
Definition namespace_new_default : namespace := MkNamespace ns_default_string.

(** pname.rs:324-334 [Namespace::new_unchecked] *)
Definition namespace_new_unchecked (s : str) : namespace := MkNamespace (with_sep s).

(** pname.rs:339-341 [Namespace::is_default] *)
Definition namespace_is_default (n : namespace) : bool := str_eqb (ns_text n) ns_default_string.

(** pname.rs:354-357 [Namespace::name_string]; [strip_suffix(..).unwrap()] panics
    when the text lacks the separator. *)
Definition namespace_name_string (n : namespace) : outcome (option str) :=
  match strip_suffix_chr sep (ns_text n) with
  | None => Panic
  | Some [] => Ret None
  | Some (c :: r) => Ret (Some (c :: r))
  end.

(** pname.rs:369-374 [Namespace::is_valid_str] *)
Definition namespace_is_valid_str (s : str) : bool := is_ok (namespace_from_str s).

(** pname.rs:231-235 [Display for Namespace] *)
Definition namespace_display (n : namespace) : str := ns_text n.

(** pname.rs:387-405 [FromStr for Name] *)
Definition name_from_str (s : str) : result name name_error :=
  match s with
  | [] => Err EmptyString
  | c :: rest =>
      if ends_with_chr 0x2E s then Err (InvalidCharacter s)
      else if is_pn_local_first c && forallb is_pn_prefix_local_rest rest
           then Ok (MkName s)
           else Err (InvalidCharacter s)
  end.

(** pname.rs:430-435 [Name::new_unchecked] *)
Definition name_new_unchecked (s : str) : name := MkName s.

(** pname.rs:440-445 [Name::is_valid_str] *)
Definition name_is_valid_str (s : str) : bool := is_ok (name_from_str s).

(** pname.rs:380-384 [Display for Name] *)
Definition name_display (n : name) : str := name_text n.

(** pname.rs:459-463 [Display for LocalName] *)
Definition local_name_display (l : local_name) : str :=
  namespace_display (ln_namespace l) ++ name_display (ln_name l).

(** pname.rs:465-480 [FromStr for LocalName]: [s.find(':')], then the prefix
    including the separator and the remainder are parsed, in that order. *)
Definition local_name_from_str (s : str) : result local_name name_error :=
  match s with
  | [] => Err EmptyString
  | _ =>
      match split_first sep s with
      | Some (before, after) =>
          match namespace_from_str (before ++ [sep]) with
          | Err e => Err e
          | Ok ns =>
              match name_from_str after with
              | Err e => Err e
              | Ok n => Ok (MkLocalName ns n)
              end
          end
      | None => Err (MissingSeparator s)
      end
  end.

(** pname.rs:508-513 [LocalName::new_in_default] *)
Definition local_name_new_in_default (n : name) : local_name :=
  MkLocalName namespace_new_default n.

(** pname.rs:518-527 [LocalName::new_unchecked] *)
Definition local_name_new_unchecked (ns n : str) : local_name :=
  MkLocalName (namespace_new_unchecked ns) (name_new_unchecked n).

(** pname.rs:362-364 [Namespace::qualify], pname.rs:450-452 [Name::qualify] *)
Definition namespace_qualify (ns : namespace) (n : name) : local_name := MkLocalName ns n.
Definition name_qualify (n : name) (ns : namespace) : local_name := MkLocalName ns n.

(** pname.rs:540-542 [LocalName::is_namespace_default] *)
Definition local_name_is_namespace_default (l : local_name) : bool :=
  namespace_is_default (ln_namespace l).

(** pname.rs:562-564 [LocalName::as_curie] *)
Definition local_name_as_curie (l : local_name) : str :=
  [0x5B] ++ namespace_display (ln_namespace l) ++ name_display (ln_name l) ++ [0x5D].

(** pname.rs:195-202 [Display for PrefixedName] *)
Definition prefixed_name_display (p : prefixed_name) : str :=
  match p with
  | PNamespace n => namespace_display n
  | PLocal l => local_name_display l
  end.

(** Every way the public API offers to obtain a [Namespace]
    but for serde's derived [Deserialize] (Serde.v). *)
Inductive namespace_obtained : namespace -> Prop :=
| obt_from_str s n : namespace_from_str s = Ok n -> namespace_obtained n
| obt_new_named s n : namespace_new_named s = Ok n -> namespace_obtained n
| obt_default : namespace_obtained namespace_new_default
| obt_unchecked s : namespace_obtained (namespace_new_unchecked s)
| obt_local s l : local_name_from_str s = Ok l -> namespace_obtained (ln_namespace l).
