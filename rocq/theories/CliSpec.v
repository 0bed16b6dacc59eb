(** What a user of the command line tool expects.  No proofs here. *)
From Verif Require Export Cli NTriplesWriteSpec.

(** A text input. *)
Definition text_input (s : str) : input := Input (Some s) None [].

(** The readers and writers run in some iteration order. *)
Definition env_ok (e : env) : Prop := orders_ok (e_orders e) /\ hash_order (e_order e).

(** Parsed IRIs and language tags are in normal form: their text can be written between
    brackets (after '@') and parses to itself. *)
Definition normalises (e : env) : Prop :=
  (forall t i, e_iri e t = Some i -> iri_writable (e_iri e) i) /\
  (forall t u, e_lang e t = Some u -> tag_writable (e_lang e) u).

(** A statement without [[]]. *)
Definition labelled (n : node_src) : Prop := match n with NAnon _ => False | _ => True end.
Definition labelled_triple (t : triple_src) : Prop :=
  labelled (src_s t) /\ match src_o t with ONode n => labelled n | _ => True end.

(** The texts between the quotes. *)
Definition quoted_texts (l : list triple_src) : list str :=
  flat_map (fun t => match src_o t with OString p _ => [pieces_text p] | _ => [] end) l.

Definition e_nt_read (e : env) : str -> io graph := nt_read (e_iri e) (e_lang e) (e_label e) (e_gext e) (e_printable e).

(** A text of which every statement means something. *)
Definition text_understood (e : env) (s : str) : Prop :=
  exists l, doc_at triple_at l s /\
    Forall (fun t => exists st, triple_meaning (e_iri e) (e_lang e) (e_label e) (e_gext e) (e_printable e) t = io_ok st) l.

(** The formats written a statement at a time, and JSON. *)
Definition line_formats : list representation := [FJson; FNQuads; FNTriples; FTrig].
