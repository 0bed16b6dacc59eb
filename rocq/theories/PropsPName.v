(** Property theorems C01-C05 (names).  Statements only; proofs in PNameProofs.v. *)
From Verif Require Import Str PName PNameSpec PNameProofs.

(** C01: [Name::from_str] accepts exactly PN_LOCAL and keeps the text;
    [is_valid_str] agrees. *)
Theorem C01_name_accepts_exactly_PN_LOCAL : forall s,
  (forall n, name_from_str s = Ok n <-> PN_LOCAL s /\ name_text n = s) /\
  (name_is_valid_str s = true <-> PN_LOCAL s).
Proof. exact c01_name_grammar. Qed.
Print Assumptions C01_name_accepts_exactly_PN_LOCAL.

Example C01_example :
  name_from_str $"v1.2-x" = Ok (MkName $"v1.2-x") /\ name_from_str $"a." = Err (InvalidCharacter $"a.")
  /\ name_from_str [0x2FF; 0x36F] = Ok (MkName [0x2FF; 0x36F]) /\ name_is_valid_str [0x300] = false.
Proof. vm_compute. repeat split. Qed.

(** C02 is false as documented: the prefix ["a.:"] is accepted although PN_PREFIX
    may not end in ['.']. *)
Theorem C02_namespace_grammar_refuted :
  exists s n, namespace_from_str s = Ok n /\ ~ PNAME_NS s.
Proof. exact c02_namespace_refuted. Qed.
Print Assumptions C02_namespace_grammar_refuted.

(** C02, what does hold: everything in the grammar is accepted with its text, and the
    only extra strings accepted are prefixes that end in ['.']. *)
Theorem C02_namespace_accepts_exactly : forall s,
  (forall n, namespace_from_str s = Ok n <->
     ns_text n = s /\
     (PNAME_NS s \/ exists c mid, PN_CHARS_BASE c /\ Forall PN_CHARS_or_dot mid /\ s = c :: mid ++ $".:")) /\
  (namespace_is_valid_str s = true <-> exists n, namespace_from_str s = Ok n).
Proof. exact c02_namespace_exact. Qed.
Print Assumptions C02_namespace_accepts_exactly.

Example C02_example :
  namespace_from_str $"rdf:" = Ok (MkNamespace $"rdf:") /\ namespace_from_str $":" = Ok (MkNamespace $":")
  /\ namespace_is_valid_str $"_x:" = false /\ namespace_is_valid_str $"a.b:" = true.
Proof. vm_compute. repeat split. Qed.

(** C03: parse after display. *)
Theorem C03_local_name_parse_display : forall sns ns sn n,
  namespace_from_str sns = Ok ns -> name_from_str sn = Ok n ->
  local_name_from_str (local_name_display (MkLocalName ns n)) = Ok (MkLocalName ns n).
Proof. intros sns ns sn n H1 H2. exact (local_name_from_display ns n sns sn H1 H2). Qed.
Print Assumptions C03_local_name_parse_display.

(** C03: display after parse, and the parts are themselves valid. *)
Theorem C03_local_name_display_parse : forall s l,
  local_name_from_str s = Ok l ->
  local_name_display l = s /\
  namespace_from_str (ns_text (ln_namespace l)) = Ok (ln_namespace l) /\
  name_from_str (name_text (ln_name l)) = Ok (ln_name l).
Proof. exact local_name_display_from. Qed.
Print Assumptions C03_local_name_display_parse.

(** C03: distinct parsed local names display differently. *)
Theorem C03_local_name_display_injective : forall l1 l2 s1 s2,
  local_name_from_str s1 = Ok l1 -> local_name_from_str s2 = Ok l2 ->
  local_name_display l1 = local_name_display l2 -> l1 = l2.
Proof. exact local_name_display_inj. Qed.
Print Assumptions C03_local_name_display_injective.

Example C03_example :
  local_name_from_str $"rdf:type.1" = Ok (MkLocalName (MkNamespace $"rdf:") (MkName $"type.1")) /\
  local_name_from_str $":x" = Ok (MkLocalName (MkNamespace $":") (MkName $"x")) /\
  local_name_display (MkLocalName (MkNamespace $"rdf:") (MkName $"type.1")) = $"rdf:type.1".
Proof. vm_compute. repeat split. Qed.

(** C04: whatever public function a namespace came from, [name_string] does not panic,
    is [None] exactly for the default namespace, and otherwise is the text without [':']. *)
Theorem C04_name_string_total : forall n,
  namespace_obtained n ->
  exists p, ns_text n = p ++ $":" /\
    (p = [] -> namespace_is_default n = true /\ namespace_name_string n = Ret None) /\
    (p <> [] -> namespace_is_default n = false /\ namespace_name_string n = Ret (Some p)).
Proof. exact c04_name_string. Qed.
Print Assumptions C04_name_string_total.

(** C04: the trailing [':'] is optional for [new_named] and [new_unchecked]. *)
Theorem C04_separator_optional : forall s,
  ends_with_chr 58 s = false ->
  namespace_new_named (s ++ $":") = namespace_new_named s /\
  namespace_new_unchecked (s ++ $":") = namespace_new_unchecked s /\
  ns_text (namespace_new_unchecked s) = s ++ $":".
Proof. exact c04_sep_optional. Qed.
Print Assumptions C04_separator_optional.

Example C04_example :
  namespace_obtained (namespace_new_unchecked $"no colon!") /\
  namespace_name_string (namespace_new_unchecked $"no colon!") = Ret (Some $"no colon!") /\
  namespace_new_named $"rdf" = Ok (MkNamespace $"rdf:") /\
  namespace_name_string (MkNamespace $"rdf") = Panic.
Proof. split; [apply obt_unchecked|]. vm_compute. repeat split. Qed.

(** C05: which error a namespace text produces. *)
Theorem C05_namespace_errors : forall s,
  (namespace_from_str s = Err EmptyString <-> s = []) /\
  (namespace_from_str s = Err (MissingSeparator s) <-> s <> [] /\ forall p, s <> p ++ $":") /\
  (namespace_from_str s = Err (TooManySeparators s) <-> exists p, s = p ++ $":" /\ In 58 p) /\
  (namespace_from_str s = Err (InvalidCharacter s) <->
     (exists p, s = p ++ $":" /\ ~ In 58 p) /\ ~ PNAME_NS_lax s) /\
  (forall e, namespace_from_str s = Err e ->
     e = EmptyString \/ e = MissingSeparator s \/ e = TooManySeparators s \/ e = InvalidCharacter s).
Proof. exact c05_namespace_classify. Qed.
Print Assumptions C05_namespace_errors.

(** C05: which error a name text produces. *)
Theorem C05_name_errors : forall s,
  (name_from_str s = Err EmptyString <-> s = []) /\
  (name_from_str s = Err (InvalidCharacter s) <-> s <> [] /\ ~ PN_LOCAL s) /\
  (forall e, name_from_str s = Err e -> e = EmptyString \/ e = InvalidCharacter s).
Proof. exact c05_name_classify. Qed.
Print Assumptions C05_name_errors.

(** C05: which error a local name text produces.  A valid namespace with nothing after it
    also reports [EmptyString] (from the empty name part), which the English text of C05
    does not mention; [TooManySeparators] never occurs. *)
Theorem C05_local_name_errors : forall s,
  (local_name_from_str s = Err EmptyString <->
     s = [] \/ exists p, s = p ++ $":" /\ ~ In 58 p /\ PNAME_NS_lax s) /\
  (local_name_from_str s = Err (MissingSeparator s) <-> s <> [] /\ ~ In 58 s) /\
  (forall e, local_name_from_str s = Err e ->
     e = EmptyString \/ e = MissingSeparator s \/ exists t, e = InvalidCharacter t) /\
  (forall t, local_name_from_str s <> Err (TooManySeparators t)).
Proof. exact c05_local_classify. Qed.
Print Assumptions C05_local_name_errors.

(** C05: the text of [InvalidCharacter] is the part at fault: the prefix with its separator,
    or, if that is all right, what follows the first separator. *)
Theorem C05_local_name_invalid : forall s t,
  local_name_from_str s = Err (InvalidCharacter t) <->
  exists p q, s = p ++ $":" ++ q /\ ~ In 58 p /\
    (t = p ++ $":" /\ ~ PNAME_NS_lax (p ++ $":") \/ PNAME_NS_lax (p ++ $":") /\ t = q /\ q <> [] /\ ~ PN_LOCAL q).
Proof. exact c05_local_invalid. Qed.
Print Assumptions C05_local_name_invalid.

Example C05_example :
  namespace_from_str $"a:b:" = Err (TooManySeparators $"a:b:") /\
  namespace_from_str $"ab" = Err (MissingSeparator $"ab") /\
  namespace_from_str $"1:" = Err (InvalidCharacter $"1:") /\
  local_name_from_str $"rdf:" = Err EmptyString /\
  local_name_from_str $"a:b:c" = Err (InvalidCharacter $"b:c").
Proof. vm_compute. repeat split. Qed.
