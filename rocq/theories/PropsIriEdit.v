(** Property theorems C80 and C81 (changing IRIs; references and names).  Statements only;
    proofs in IriEditProofs.v. *)
From Verif Require Import Str PName Url Iri IriEditProofs PropsIri.

(** ** C80 *)

(** C80: a new fragment replaces what follows the first ['#'], or is added; a fragment that
    needs no escape is kept as it is; the result is a valid IRI. *)
Theorem C80_new_fragment : forall i f, wf_url i = true -> forallb is_scalar f = true ->
  wf_url (with_new_fragment i f) = true /\
  exists f', url_ser (with_new_fragment i f) = before_hash (url_ser i) ++ $"#" ++ f' /\
    forallb frag_char f' = true /\ (forallb frag_char f = true -> f' = f).
Proof. exact c80_fragment. Qed.
Print Assumptions C80_new_fragment.

(** C80: without a fragment the IRI is the text up to the first ['#'], exactly unless there
    is a space before it; then the space is lost too. *)
Theorem C80_no_fragment : forall i, wf_url i = true ->
  wf_url (with_no_fragment i) = true /\ u_frag (with_no_fragment i) = None /\
  with_no_fragment (with_no_fragment i) = with_no_fragment i /\
  (forall f, with_no_fragment (with_new_fragment i f) = with_no_fragment i) /\
  (url_ser (with_no_fragment i) = before_hash (url_ser i) <-> ~ space_before_fragment i).
Proof. exact c80_no_fragment. Qed.
Print Assumptions C80_no_fragment.
Theorem C80_space_refuted : exists i, wf_url i = true /\
  url_ser i = $"data:x #f" /\ url_ser (with_no_fragment i) = $"data:x".
Proof. exists (MkUrl $"data" None $"x " None (Some $"f")). vm_compute. repeat split. Qed.
Print Assumptions C80_space_refuted.

(** C80: a new path, where there is an authority, replaces the path and nothing else; a
    normalised path is kept as it is; the result is a valid IRI. *)
Theorem C80_new_path : forall i p, wf_url i = true -> u_auth i <> None -> forallb is_scalar p = true -> ~ In 94 p ->
  wf_url (with_new_path i p) = true /\
  exists before after p', url_ser i = before ++ u_path i ++ after /\ url_ser (with_new_path i p) = before ++ p' ++ after /\
    u_path (with_new_path i p) = p' /\ (wf_hpath (is_special (u_scheme i)) p = true -> p' = p).
Proof. exact c80_path. Qed.
Print Assumptions C80_new_path.

(** C80: a fragment stands for the same bytes as the text given, read without tabs and line
    ends, however it is escaped. *)
Theorem C80_fragment_bytes : forall i f, forallb is_scalar f = true ->
  exists f', u_frag (with_new_fragment i f) = Some f' /\
    unescape f' = unescape (flat_map utf8 (filter not_blank f)).
Proof. exact c80_fragment_bytes. Qed.
Print Assumptions C80_fragment_bytes.

(** C80: no segment of a new path is ["."] or [".."], however it is written. *)
Theorem C80_no_dots : forall i p w, wf_url i = true -> u_auth i <> None -> forallb is_scalar p = true -> ~ In 94 p ->
  In w (split_on (N.eqb 47) (u_path (with_new_path i p))) -> ~ dots w.
Proof. exact c80_dots. Qed.
Print Assumptions C80_no_dots.

(** C80: an opaque IRI stays opaque, and the new path stands for the bytes of the text given. *)
Theorem C80_opaque : forall i p, wf_url i = true -> cannot_be_a_base i = true ->
  forallb is_scalar p = true -> forallb not_blank p = true ->
  u_auth (with_new_path i p) = None /\ starts_with $"/" (u_path (with_new_path i p)) = false /\
  unescape (u_path (with_new_path i p)) = unescape (flat_map utf8 p).
Proof. exact c80_opaque. Qed.
Print Assumptions C80_opaque.

Example C80_escapes :
  (exists f, u_frag (with_new_fragment ex_owl ($"%41 " ++ [233; 9])) = Some f /\ f = $"%41%20%C3%A9" /\ unescape f = [65; 32; 195; 169]) /\
  unescape (flat_map utf8 (filter not_blank ($"%41 " ++ [233; 9]))) = [65; 32; 195; 169] /\
  dots $"%2E." /\ ~ dots $"..." /\ u_path (with_new_path ex_owl $"/a/%2E./b/.") = $"/b/" /\
  cannot_be_a_base ex_urn = true /\ u_path (with_new_path ex_urn $"/a b") = $"%2Fa b" /\ unescape $"%2Fa b" = $"/a b".
Proof.
  split; [eexists; vm_compute; repeat split|]. split; [reflexivity|]. split; [right; reflexivity|]. split; [intros [E|E]; discriminate E|].
  vm_compute. repeat split.
Qed.

(** C80 fails for opaque IRIs: part of the new path can become a fragment. *)
Theorem C80_path_refuted : exists i p, wf_url i = true /\
  url_ser i = $"urn:a" /\ p = $"b#c" /\ url_ser (with_new_path i p) = $"urn:b#c" /\
  url_reparse (url_ser (with_new_path i p)) = Some (MkUrl $"urn" None $"b" None (Some $"c")).
Proof. exists (MkUrl $"urn" None $"a" None None), $"b#c". vm_compute. repeat split. Qed.
Print Assumptions C80_path_refuted.

Example C80_example :
  url_ser (with_new_fragment ex_owl $"a b") = $"http://www.w3.org/2002/07/owl#a%20b" /\
  url_ser (with_no_fragment ex_owl) = $"http://www.w3.org/2002/07/owl" /\
  before_hash (url_ser ex_owl) = $"http://www.w3.org/2002/07/owl" /\ ~ space_before_fragment ex_owl /\
  url_ser (with_new_path ex_owl $"/a/../b c") = $"http://www.w3.org/b%20c#" /\
  wf_hpath true $"/b/c" = true /\ url_ser (with_new_path ex_owl $"/b/c") = $"http://www.w3.org/b/c#".
Proof. split; [vm_compute; reflexivity|]. split; [vm_compute; reflexivity|]. split; [vm_compute; reflexivity|]. split; [intros (E & _); discriminate|]. vm_compute. repeat split. Qed.

(** ** C81 *)

(** C81: two references that are displayed alike are the same. *)
Theorem C81_display_injective : forall r r', ref_ok r -> ref_ok r' -> iri_ref_display false r = iri_ref_display false r' -> r = r'.
Proof. exact c81_display. Qed.
Print Assumptions C81_display_injective.

(** C81 fails for the alternate form, exactly for an IRI with a scheme and a name and the
    prefixed name with that prefix. *)
Theorem C81_alternate : forall r r', ref_ok r -> ref_ok r' -> iri_ref_display true r = iri_ref_display true r' ->
  r = r' \/
  exists i p, (r = RIri i /\ r' = RPrefixed p \/ r = RPrefixed p /\ r' = RIri i) /\
    u_auth i = None /\ u_query i = None /\ u_frag i = None /\
    match p with
    | PNamespace n => ns_text n = u_scheme i ++ $":" /\ u_path i = []
    | PLocal l => ns_text (ln_namespace l) = u_scheme i ++ $":" /\ u_path i = name_text (ln_name l)
    end.
Proof. exact c81_alternate. Qed.
Print Assumptions C81_alternate.
Theorem C81_alternate_refuted : exists r r', ref_ok r /\ ref_ok r' /\ r <> r' /\ iri_ref_display true r = iri_ref_display true r'.
Proof.
  exists (RIri (MkUrl $"urn" None $"x" None None)), (RPrefixed (PLocal (MkLocalName (MkNamespace $"urn:") (MkName $"x")))).
  split; [reflexivity|]. split; [exists $"urn:x"; reflexivity|]. split; [discriminate|reflexivity].
Qed.
Print Assumptions C81_alternate_refuted.

(** C81: a compact URI is the text of the local name in brackets, and tells names apart. *)
Theorem C81_curie : forall l l' s s', local_name_from_str s = Ok l -> local_name_from_str s' = Ok l' ->
  local_name_as_curie l = $"[" ++ s ++ $"]" /\ (local_name_as_curie l = local_name_as_curie l' -> l = l').
Proof. exact c81_curie. Qed.
Print Assumptions C81_curie.

(** C81: a name in the default namespace, or in another, is what is read from the text of
    the namespace and the name. *)
Theorem C81_qualify : forall n s, name_from_str s = Ok n ->
  local_name_from_str ($":" ++ s) = Ok (local_name_new_in_default n) /\ local_name_is_namespace_default (local_name_new_in_default n) = true /\
  (forall t ns, namespace_from_str t = Ok ns ->
    local_name_from_str (t ++ s) = Ok (namespace_qualify ns n) /\ name_qualify n ns = namespace_qualify ns n /\
    (local_name_is_namespace_default (namespace_qualify ns n) = true <-> t = $":")).
Proof. exact c81_constructors. Qed.
Print Assumptions C81_qualify.

(** C81: a local name made without checks can be read back exactly if the checks would have
    passed. *)
Theorem C81_unchecked : forall ns n,
  local_name_from_str (local_name_display (local_name_new_unchecked ns n)) = Ok (local_name_new_unchecked ns n) <->
  (exists x, namespace_new_named ns = Ok x) /\ (exists x, name_from_str n = Ok x).
Proof. exact c81_unchecked. Qed.
Print Assumptions C81_unchecked.

Example C81_example :
  iri_ref_display false (RIri ex_urn) = $"<urn:isbn:42>" /\ ref_ok (RIri ex_urn) /\
  ref_ok (RPrefixed (PNamespace (MkNamespace $"rdf:"))) /\
  iri_ref_display false (RPrefixed (PLocal (local_name_new_unchecked $"rdf" $"type"))) = $"rdf:type" /\
  local_name_as_curie (local_name_new_in_default (MkName $"x")) = $"[:x]" /\
  local_name_from_str (local_name_display (local_name_new_unchecked $"rdf" $"a b")) = Err (InvalidCharacter $"a b").
Proof. split; [reflexivity|]. split; [reflexivity|]. split; [exists $"rdf:"; reflexivity|]. vm_compute. repeat split. Qed.
