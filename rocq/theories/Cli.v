(** Model of the command line tool rdftk_cli: the commands, and how they put the readers and
    writers together.  Left out: argument parsing (clap), opening the files (clio), logging.
    No proofs here. *)
From Verif Require Export Json Xml Dot.

(** commands/mod.rs:30-39 [Representation]. *)
Inductive representation : Type :=
| FJson | FJsonLd | FN3 | FNQuads | FNTriples | FTrig | FTurtle | FXml.

(** commands/mod.rs:68-70 [is_dataset_representation]. *)
Definition is_dataset_representation (r : representation) : bool :=
  match r with FNQuads | FTrig => true | _ => false end.

(** The input as the library below each reader delivers it: [read_to_string] (nothing if the
    bytes are no UTF-8 text), [serde_json::from_reader] and the events of [xml-rs]. *)
Record input : Type := Input {
  in_text : option str;
  in_json : option json;
  in_events : list xml_item
}.
(** What is written. *)
Inductive output : Type :=
| OutText (s : str)
| OutJson (v : json)
| OutTurtle (l : list piece)
| OutXml (l : list xml_event)
| OutDot (d : dot_doc).

(** Everything the readers and writers depend on besides their input: see NTriples.v, Json.v,
    Turtle.v, Xml.v and Dot.v for each of them. *)
Record env : Type := Env {
  e_iri : str -> option str;
  e_lang : str -> option str;
  e_label : str -> bool;
  e_gext : chr -> bool;
  e_printable : chr -> bool;
  e_mode : iri_mode;
  e_orders : orders;
  e_order : list statement -> list statement;
  e_counter : N;
  e_modulus : N;
  e_overflow : overflow;
  e_compress : graph -> str -> outcome (option str);
  e_mappings : graph -> list (str * str);
  e_ord_p : nat -> list str -> list str;
  e_ord_o : nat -> list object -> list object;
  e_ord_s : nat -> list subject -> list subject;
  e_ord_v : list dot_node -> list dot_node;
  e_emitted : list xml_item -> str;
  e_fuel : nat
}.

Definition of_io {A} (x : io A) : wres A :=
  match x with Ret (Ok a) => Done a | Ret (Err e) => Failed e | Panic => Crashed end.

Section Cli.
Variable e : env.

(** commands/mod.rs:77-103 [read_graph]: [todo!()] and [unreachable!()] panic, and so does
    [parse_turtle_doc] (common/parser/mod.rs:99-106).  The second component is the counter of
    blank node labels.  (That an error is an I/O or a JSON error is not kept.) *)
Definition read_graph (from : representation) (i : input) : wres (graph * N) :=
  match from with
  | FJson =>
      match in_json i with
      | Some v =>
          wbind (of_io (js_read (e_iri e) (e_lang e) (e_label e) (e_gext e) (e_printable e) v))
            (fun g => Done (g, e_counter e))
      | None => Failed Tokenizer
      end
  | FJsonLd | FN3 => Crashed
  | FNTriples =>
      match in_text i with
      | Some s =>
          wbind (of_io (nt_read (e_iri e) (e_lang e) (e_label e) (e_gext e) (e_printable e) s))
            (fun g => Done (g, e_counter e))
      | None => Failed Tokenizer
      end
  | FTurtle => match in_text i with Some _ => Crashed | None => Failed Tokenizer end
  | FXml =>
      xml_read (e_mode e) (e_iri e) (e_lang e) (e_label e) (e_gext e) (e_printable e) (e_emitted e)
        (e_fuel e) (e_counter e) (in_events i)
  | FNQuads | FTrig => Crashed
  end.

(** commands/mod.rs:128-162 [write_graph], with the default options of every writer. *)
Definition write_graph (n : N) (g : graph) (to : representation) : wres output :=
  match to with
  | FJson => wbind (of_io (js_write (e_mode e) (e_orders e) (e_order e) n g)) (fun v => Done (OutJson v))
  | FJsonLd | FN3 => Crashed
  | FNQuads => Done (OutText (nq_write (e_mode e) (e_orders e) (e_order e) n g))
  | FNTriples => Done (OutText (nt_write (e_mode e) false (e_orders e) (e_order e) n g))
  | FTrig => Done (OutText (trig_write_graph (e_mode e) false g))
  | FTurtle =>
      wbind (ttl_write (e_modulus e) (e_overflow e) (e_mode e) (e_iri e) (e_gext e) (e_printable e) (e_compress e g)
               ttl_default_options (e_ord_p e) (e_ord_o e) (e_ord_s e) (e_order e) n (e_mappings e g) (e_fuel e) g)
        (fun l => Done (OutTurtle l))
  | FXml =>
      wbind (xml_write (e_mode e) XFlat (e_ord_s e 0%nat) (e_ord_p e) (e_ord_o e) (e_order e) n (e_fuel e) g)
        (fun l => Done (OutXml l))
  end.

(** How a command ends: with an exit code and what has been written by then, with a panic, or
    (for lack of fuel) not yet.  What an unsuccessful writer has already written is left out. *)
Inductive ending : Type :=
| Exits (success : bool) (written : option output)
| Panics
| Unfinished.
Definition and_then {A} (x : wres A) (f : A -> ending) : ending :=
  match x with Done a => f a | Failed _ => Exits false None | Crashed => Panics | OutOfFuel => Unfinished end.

(** commands/representations.rs:15-34, 53-57 [ConvertCmd] with its default for [to]; main.rs:78-85 turns
    errors into [ExitCode::FAILURE]. *)
Definition convert (from : representation) (to : option representation) (i : input) : ending :=
  and_then (read_graph from i) (fun '(g, n) =>
  and_then (write_graph n g (match to with Some r => r | None => FTurtle end)) (fun o => Exits true (Some o))).

(** commands/draw.rs:50-60 [DrawCmd]. *)
Definition draw (from : representation) (i : input) : ending :=
  if is_dataset_representation from then Exits false None
  else
    and_then (read_graph from i) (fun '(g, n) =>
      match dot_write (e_mode e) (e_compress e g) dot_default_options (e_order e) (e_ord_v e) [] g with
      | Ret (d, _) => Exits true (Some (OutDot d))
      | Panic => Panics
      end).
End Cli.
