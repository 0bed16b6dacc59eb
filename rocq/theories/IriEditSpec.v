(** Vocabulary used in the statements about changing and referring to IRIs (C80, C81);
    independent of the functions in Iri.v and PName.v. *)
From Verif Require Import Str Url Iri PName.

(** The text up to the first ['#']. *)
Fixpoint before_hash (t : str) : str :=
  match t with
  | [] => []
  | c :: r => if N.eqb c 35 then [] else c :: before_hash r
  end.
(** An IRI such as ["data:x #f"], where a space comes before the fragment. *)
Definition space_before_fragment (i : iri) : Prop :=
  cannot_be_a_base i = true /\ u_query i = None /\ exists p, u_path i = p ++ $" ".
(** A reference to an IRI or to something that was parsed. *)
Definition ref_ok (r : iri_ref) : Prop :=
  match r with
  | RIri i => wf_url i = true
  | RPrefixed (PNamespace n) => exists s, namespace_from_str s = Ok n
  | RPrefixed (PLocal l) => exists s, local_name_from_str s = Ok l
  end.
(** The bytes a text with percent escapes stands for. *)
Fixpoint unescape (t : list N) : list N :=
  match t with
  | [] => []
  | c :: r =>
      if N.eqb c 37 then
        match r with
        | a :: b :: r' =>
            match hex_val a, hex_val b with
            | Some x, Some y => (16 * x + y) :: unescape r'
            | _, _ => c :: unescape r
            end
        | _ => c :: unescape r
        end
      else c :: unescape r
  end.
Definition not_blank (c : chr) : bool := negb (N.eqb c 9 || N.eqb c 10 || N.eqb c 13).
(** A path segment that means "here" or "one up", however the dots are written. *)
Definition dots (w : str) : Prop := unescape w = $"." \/ unescape w = $"..".
