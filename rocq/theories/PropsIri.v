(** Property theorems C06-C10 and C53 (IRIs).  Statements only; proofs in IriProofs.v.
    [wf_url] (Url.v) describes the values a parsed [url::Url] can have. *)
From Verif Require Import Str PName Url Iri IriSpec IriProofs.

(** C06: both display forms parse back, for every parser that inverts serialisation. *)
Theorem C06_display_parse : forall parse : str -> option url,
  (forall u, wf_url u = true -> parse (url_ser u) = Some u) ->
  forall i, wf_url i = true -> forall alternate,
  iri_from_str parse (iri_display alternate i) = Some i.
Proof. exact c06_iri_roundtrip. Qed.
Print Assumptions C06_display_parse.

(** C06: the brackets are removed exactly when both are present. *)
Theorem C06_brackets : forall (parse : str -> option url) s,
  (forall r, s = $"<" ++ r ++ $">" -> iri_from_str parse s = parse r) /\
  ((forall r, s <> $"<" ++ r ++ $">") -> iri_from_str parse s = parse s).
Proof. exact c06_angle. Qed.
Print Assumptions C06_brackets.

(** C06: such a parser exists, so the hypothesis of [C06_display_parse] can be met. *)
Theorem C06_parser_exists : forall u, wf_url u = true -> url_reparse (url_ser u) = Some u.
Proof. exact url_reparse_ser. Qed.
Print Assumptions C06_parser_exists.

(** C06: equality of IRIs (which the crate takes on the text) is equality of components. *)
Theorem C06_equality : forall a b, wf_url a = true -> wf_url b = true -> (iri_eqb a b = true <-> a = b).
Proof. exact iri_eqb_eq. Qed.
Print Assumptions C06_equality.

Definition ex_owl : url := MkUrl $"http" (Some $"www.w3.org") $"/2002/07/owl" None (Some []).
Definition ex_dir : url := MkUrl $"https" (Some $"example.org:8080") $"/a/b/" None None.
Definition ex_urn : url := MkUrl $"urn" None $"isbn:42" None None.

Example C06_example :
  wf_url ex_owl = true /\ url_ser ex_owl = $"http://www.w3.org/2002/07/owl#" /\
  iri_display false ex_owl = $"<http://www.w3.org/2002/07/owl#>" /\
  iri_from_str url_reparse $"<http://www.w3.org/2002/07/owl#>" = Some ex_owl /\
  wf_url ex_dir = true /\ wf_url ex_urn = true /\ url_ser ex_urn = $"urn:isbn:42".
Proof. vm_compute. repeat split. Qed.

(** C07 is false for an IRI ending in a bare '#': the name moves into the fragment. *)
Theorem C07_split_make_name_refuted :
  exists i ns n, wf_url i = true /\ split i = Ret (Some (ns, n)) /\ make_name ns n <> Some i.
Proof.
  exists (MkUrl $"https" (Some $"e") $"/ns/Name" None (Some [])),
         (MkUrl $"https" (Some $"e") $"/ns/" None (Some [])), (MkName $"Name").
  vm_compute. repeat split. discriminate.
Qed.
Print Assumptions C07_split_make_name_refuted.

(** C07, exactly when it holds. *)
Theorem C07_split_make_name : forall i ns n,
  wf_url i = true -> split i = Ret (Some (ns, n)) ->
  (make_name ns n = Some i <-> u_frag i <> Some []).
Proof. exact c07_split_make. Qed.
Print Assumptions C07_split_make_name.

(** C07, what is returned in the failing case: a different IRI with the name as fragment. *)
Theorem C07_empty_fragment : forall i ns n,
  wf_url i = true -> u_frag i = Some [] -> split i = Ret (Some (ns, n)) ->
  exists j, make_name ns n = Some j /\ url_ser j <> url_ser i /\ u_frag j = Some (name_text n).
Proof. exact c07_empty_fragment. Qed.
Print Assumptions C07_empty_fragment.

Example C07_example :
  split (MkUrl $"https" (Some $"e") $"/ns/Name" None None) =
    Ret (Some (MkUrl $"https" (Some $"e") $"/ns/" None None, MkName $"Name")) /\
  make_name (MkUrl $"https" (Some $"e") $"/ns/" None None) (MkName $"Name") =
    Some (MkUrl $"https" (Some $"e") $"/ns/Name" None None) /\
  split (MkUrl $"http" (Some $"www.w3.org") $"/2002/07/owl" None (Some $"Class")) =
    Ret (Some (ex_owl, MkName $"Class")) /\
  make_name ex_owl (MkName $"Class") = Some (MkUrl $"http" (Some $"www.w3.org") $"/2002/07/owl" None (Some $"Class")).
Proof. vm_compute. repeat split. Qed.

(** C08 is false for names with non-ASCII characters: the URL holds them percent-encoded
    and '%' is not a name character. *)
Theorem C08_make_name_split_refuted :
  exists i s n v, wf_url i = true /\ namespace_like i /\ name_from_str s = Ok n /\
    make_name i n = Some v /\ split v = Ret None.
Proof.
  exists ex_owl, [0xE9], (MkName [0xE9]), (MkUrl $"http" (Some $"www.w3.org") $"/2002/07/owl" None (Some $"%C3%A9")).
  split; [vm_compute; reflexivity|]. split; [left; reflexivity|]. vm_compute. repeat split.
Qed.
Print Assumptions C08_make_name_split_refuted.

(** C08, exactly when it holds: [make_name] always succeeds, and splitting gives the parts
    back if and only if the name is ASCII; otherwise the result does not split. *)
Theorem C08_make_name_split : forall i n s,
  wf_url i = true -> namespace_like i -> name_from_str s = Ok n ->
  exists v, make_name i n = Some v /\ wf_url v = true /\
            (split v = Ret (Some (i, n)) <-> forallb is_ascii s = true) /\
            (forallb is_ascii s = false -> split v = Ret None).
Proof. exact c08_ascii. Qed.
Print Assumptions C08_make_name_split.

Example C08_example :
  wf_url ex_dir = true /\ namespace_like ex_dir /\ name_from_str $"x-1" = Ok (MkName $"x-1") /\
  make_name ex_dir (MkName $"x-1") = Some (MkUrl $"https" (Some $"example.org:8080") $"/a/b/x-1" None None) /\
  split (MkUrl $"https" (Some $"example.org:8080") $"/a/b/x-1" None None) = Ret (Some (ex_dir, MkName $"x-1")).
Proof. split; [vm_compute; reflexivity|]. split; [right; vm_compute; repeat split|]. vm_compute. repeat split. Qed.

(** C09 is false: [urn:isbn:42] makes [split] panic. *)
Theorem C09_split_never_panics_refuted : exists i, wf_url i = true /\ split i = Panic.
Proof. exists ex_urn. vm_compute. repeat split. Qed.
Print Assumptions C09_split_never_panics_refuted.

(** C09, exactly the IRIs for which [split], [namespace] and [name] panic. *)
Theorem C09_split_panics_exactly : forall i, wf_url i = true ->
  (split i = Panic <-> opaque_with_last_segment i) /\
  (iri_namespace i = Panic <-> opaque_with_last_segment i) /\
  (iri_name i = Panic <-> opaque_with_last_segment i).
Proof. exact c09_exact. Qed.
Print Assumptions C09_split_panics_exactly.

Example C09_example : opaque_with_last_segment ex_urn /\ ~ opaque_with_last_segment ex_dir.
Proof.
  split.
  - repeat split; try discriminate. left. reflexivity.
  - intros (_ & _ & _ & H & _). discriminate.
Qed.

(** Values of parsed IRIs, and values no parsed IRI has. *)
Example C06_values :
  forallb wf_url
    [MkUrl $"https" (Some $"user@example.org:8080") $"/a.b/~c/%C3%A9;v=1/" (Some $"x=1&y=[2]/?'") (Some $"a=b?c/d");
     MkUrl $"urn" None $"isbn:0-19 852663 6" (Some $"q") None; MkUrl $"file2" None $"/a//b" None (Some []);
     MkUrl $"x-y.z+1" (Some []) [] None None] = true /\
  existsb wf_url
    [MkUrl $"http" (Some $"e") $"/a" (Some $"<") None; MkUrl $"http" (Some $"e") $"/a" None (Some $"<");
     MkUrl $"http" (Some $"e") $"a" None None; MkUrl $"http" (Some $"e") $"/a/../b" None None; MkUrl $"http" (Some $"e/") $"/a" None None;
     MkUrl $"http" (Some $"e") $"/a b" None None; MkUrl $"http" None $"/a" None None; MkUrl $"HTTP" (Some $"e") $"/" None None;
     MkUrl $"urn" None $"a#b" None None; MkUrl $"urn" None $"//a" None None; MkUrl [] (Some $"e") $"/" None None] = false.
Proof. vm_compute. repeat split. Qed.

(** C10: [namespace] and [name] give the two halves of [split], and nothing when it does. *)
Theorem C10_halves : forall i,
  (forall ns n, split i = Ret (Some (ns, n)) <-> iri_namespace i = Ret (Some ns) /\ iri_name i = Ret (Some n)) /\
  (split i = Ret None <-> iri_namespace i = Ret None) /\ (split i = Ret None <-> iri_name i = Ret None).
Proof. exact c10_halves. Qed.
Print Assumptions C10_halves.

(** C10: the namespace half of a split looks like a namespace. *)
Theorem C10_split_gives_namespace : forall i ns n,
  wf_url i = true -> split i = Ret (Some (ns, n)) -> looks_like_namespace ns = true /\ wf_url ns = true.
Proof. exact c10_split_namespace. Qed.
Print Assumptions C10_split_gives_namespace.

(** C10: an IRI that looks like a namespace accepts every name. *)
Theorem C10_namespace_accepts_names : forall i n,
  looks_like_namespace i = true -> exists v, make_name i n = Some v.
Proof. exact c10_make_name. Qed.
Print Assumptions C10_namespace_accepts_names.

(** C10: [with_empty_fragment] gives a namespace, and one without fragment does not split. *)
Theorem C10_namespace_forms : forall i,
  looks_like_namespace (with_empty_fragment i) = true /\
  (looks_like_namespace i = true -> u_frag i = None -> split i = Ret None).
Proof. intros i. exact (conj (c10_empty_fragment i) (c10_namespace_does_not_split i)). Qed.
Print Assumptions C10_namespace_forms.

Example C10_example :
  looks_like_namespace ex_dir = true /\ looks_like_namespace ex_owl = true /\ split ex_dir = Ret None /\
  looks_like_namespace (MkUrl $"https" (Some $"e") $"/a/" (Some $"q") None) = false /\
  split (MkUrl $"https" (Some $"e") $"/a/b" None None) = Ret (Some (MkUrl $"https" (Some $"e") $"/a/" None None, MkName $"b")).
Proof. vm_compute. repeat split. Qed.

(** C53: [genid] fails exactly for opaque IRIs; otherwise it keeps scheme and authority and
    has the well-known path and nothing else. *)
Theorem C53_genid_form : forall i uuid, wf_url i = true -> hex_text uuid ->
  (genid i uuid = None <-> cannot_be_a_base i = true) /\
  (forall v, genid i uuid = Some v ->
     wf_url v = true /\ u_scheme v = u_scheme i /\ u_auth v = u_auth i /\
     u_path v = $"/.well-known/genid/" ++ uuid /\ u_query v = None /\ u_frag v = None).
Proof. exact c53_genid. Qed.
Print Assumptions C53_genid_form.

(** C53: different UUIDs give different IRIs. *)
Theorem C53_genid_distinct : forall i a b v, wf_url i = true -> hex_text a -> hex_text b ->
  genid i a = Some v -> genid i b = Some v -> a = b.
Proof. exact c53_genid_inj. Qed.
Print Assumptions C53_genid_distinct.

Example C53_example :
  hex_text $"0af9" /\
  genid ex_owl $"0af9" = Some (MkUrl $"http" (Some $"www.w3.org") $"/.well-known/genid/0af9" None None) /\
  genid ex_urn $"0af9" = None.
Proof. split; [split; [discriminate|vm_compute; reflexivity]|]. vm_compute. repeat split. Qed.
