(** Files, independent of how they are read and written. *)
From Verif Require Export Files NTriplesWriteSpec.

(** The bytes of a text. *)
Definition bytes (s : str) : list N := flat_map utf8 s.
(** Every character of a Rust string is a Unicode scalar value. *)
Definition chars (s : str) : Prop := Forall (fun c => c < 55296 \/ 57344 <= c < 1114112) s.

(** A division of texts into parts. *)
Definition divides (parts : str -> list (list N)) : Prop := forall s, concat (parts s) = bytes s.

(** The objects of a statement, and the names of graphs, that do not end in a label with a
    full stop. *)
Definition object_dotless (o : object) : Prop := match o with OBlank b => ~ In 46 b | _ => True end.
Definition name_dotless (k : option graph_name) : Prop := match k with Some (GnBlank b) => ~ In 46 b | _ => True end.

(** [bs] consists of the given lines; only the last line feed may be missing. *)
Definition whole_lines (ls : list str) (bs : list N) : Prop :=
  bs = bytes (concat ls) \/ bs ++ [10] = bytes (concat ls).
