(** Vocabulary used in the statements about IRIs (C06-C10, C53); independent of the
    functions in Iri.v. *)
From Verif Require Import Str Url.

(** An IRI a name can be appended to: empty fragment, or hierarchical with a path ending in
    '/' and neither query nor fragment. *)
Definition namespace_like (u : url) : Prop :=
  u_frag u = Some [] \/
  (u_frag u = None /\ u_query u = None /\ ends_with_chr 47 (u_path u) = true /\ cannot_be_a_base u = false).

Definition no_fragment_text (u : url) : Prop := u_frag u = None \/ u_frag u = Some [].

(** Opaque IRI (urn:, mailto:, ...) with a non-empty path that does not end in '/', no query
    and no fragment text. *)
Definition opaque_with_last_segment (u : url) : Prop :=
  no_fragment_text u /\ u_query u = None /\ u_path u <> [] /\
  ends_with_chr 47 (u_path u) = false /\ cannot_be_a_base u = true.

(** Lower-case hexadecimal text, the form of [Uuid::simple]. *)
Definition hex_text (s : str) : Prop := s <> [] /\ forallb (fun c => is_digit c || in_range 97 102 c) s = true.
