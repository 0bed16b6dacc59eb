(** Turtle as a file: the bytes the writer puts out, up to the first call of the output that
    fails. *)
From Verif Require Export Turtle.
From Verif Require Import Files.

(** turtle/writer.rs:343-1000: everything is written with [write!] or [writeln!] and handed
    on with [?] (396-410, 515-565, 584-599, 625-628, 699-720, 781-836, 862-920, 978-982), whose
    error becomes [Error::Io] (error.rs:133).  [parts] is any division of the document into
    calls of the output; after the last of them nothing can fail.  Only for documents that
    can be written: what the output has been given when the writer fails for another reason,
    or panics, is not modelled. *)
Definition ttl_write_to (out : output) (parts : str -> list (list N)) (doc : wres (list piece))
    : option (list N * result unit file_error) :=
  match doc with
  | Done ps => Some (written (put_parts out (parts (pieces_text ps)) nothing))
  | _ => None
  end.
