(** N-Triples and N-Quads as files: the bytes the readers are given and the bytes the writers
    put out, one call of the output at a time, up to the first call that fails. *)
From Verif Require Export NTriples.

(** ** Reading *)

(** [core::str::from_utf8], as [Read::read_to_string] uses it: the byte sequences of RFC 3629.
    (The standard library is not part of /repo; its documentation refers to the same table of
    the Unicode standard.) *)
Definition continues (b : N) : bool := in_range 128 191 b.
Definition utf8_2 (a b : N) : chr := (a - 192) * 64 + (b - 128).
Definition utf8_3 (a b c : N) : chr := (a - 224) * 4096 + (b - 128) * 64 + (c - 128).
Definition utf8_4 (a b c d : N) : chr := (a - 240) * 262144 + (b - 128) * 4096 + (c - 128) * 64 + (d - 128).
Definition utf8_then (c : chr) (s : option str) : option str := option_map (cons c) s.
Fixpoint utf8_decode (bs : list N) : option str :=
  match bs with
  | [] => Some []
  | a :: r =>
      if N.ltb a 128 then utf8_then a (utf8_decode r)
      else match r with
      | b :: r2 =>
          if in_range 194 223 a then
            if continues b then utf8_then (utf8_2 a b) (utf8_decode r2) else None
          else match r2 with
          | c :: r3 =>
              if in_range 224 239 a then
                if in_range (if N.eqb a 224 then 160 else 128) (if N.eqb a 237 then 159 else 191) b && continues c
                then utf8_then (utf8_3 a b c) (utf8_decode r3) else None
              else match r3 with
              | d :: r4 =>
                  if in_range 240 244 a
                     && in_range (if N.eqb a 240 then 144 else 128) (if N.eqb a 244 then 143 else 191) b
                     && continues c && continues d
                  then utf8_then (utf8_4 a b c d) (utf8_decode r4) else None
              | [] => None
              end
          | [] => None
          end
      | [] => None
      end
  end.

(** rdftk_core/src/error.rs:133 [Io], and the errors of the parsers. *)
Inductive file_error : Type :=
| FileIo
| FileContent (e : io_error).

(** What a reader finds in its input: bytes up to the end, or an error of the input. *)
Definition input : Type := option (list N).

(** nt/reader.rs:20-28 and nq/reader.rs:20-27 [read]: [read_to_string] fails on errors of
    the input and on bytes that are not UTF-8; then the text is parsed. *)
Definition read_from {A} (parse : str -> io A) (i : input) : outcome (result A file_error) :=
  match i with
  | Some bs =>
      match utf8_decode bs with
      | Some s =>
          match parse s with
          | Ret (Ok a) => Ret (Ok a)
          | Ret (Err e) => Ret (Err (FileContent e))
          | Panic => Panic
          end
      | None => Ret (Err FileIo)
      end
  | None => Ret (Err FileIo)
  end.
Definition nt_read_from iri_parse lang_parse label_ok gext printable : input -> outcome (result graph file_error) :=
  read_from (nt_read iri_parse lang_parse label_ok gext printable).
Definition nq_read_from iri_parse lang_parse label_ok gext printable : input -> outcome (result data_set file_error) :=
  read_from (nq_read iri_parse lang_parse label_ok gext printable).

(** ** Writing *)

(** An output: what the [k]-th call of [write_all] with some bytes does.  [None]: all of them
    are accepted; [Some j]: the call fails, the first [j] of them having been accepted. *)
Definition output : Type := nat -> list N -> option nat.

(** What an output has accepted and how often it was called. *)
Record progress : Type := Progress { accepted : list N; calls : nat }.
Definition nothing : progress := Progress [] 0.

(** [Write::write_all]; true if the call was successful. *)
Definition put (out : output) (bs : list N) (w : progress) : progress * bool :=
  match out (calls w) bs with
  | None => (Progress (accepted w ++ bs) (S (calls w)), true)
  | Some j => (Progress (accepted w ++ firstn j bs) (S (calls w)), false)
  end.
(** [writeln!(w, ...)]: the text is handed over in parts, one call each; the first failure
    ends it.  How the text is divided depends on the formatting code of the standard library:
    [parts] is any division. *)
Fixpoint put_parts (out : output) (ps : list (list N)) (w : progress) : progress * bool :=
  match ps with
  | [] => (w, true)
  | p :: r => let (w', ok) := put out p w in if ok then put_parts out r w' else (w', false)
  end.
(** A loop of [writeln!(...)?]. *)
Fixpoint put_lines (out : output) (parts : str -> list (list N)) (ls : list str) (w : progress)
    : progress * bool :=
  match ls with
  | [] => (w, true)
  | l :: r => let (w', ok) := put_parts out (parts l) w in if ok then put_lines out parts r w' else (w', false)
  end.
Definition written (x : progress * bool) : list N * result unit file_error :=
  (accepted (fst x), if snd x then Ok tt else Err FileIo).

(** nt/writer.rs:32-50 [write].  The error of [writeln!] becomes [Error::Io] (error.rs:411-415). *)
Definition nt_write_to (out : output) (parts : str -> list (list N)) (m : iri_mode) (force : bool) (h : orders)
    (ho : list statement -> list statement) (n : N) (g : graph) : list N * result unit file_error :=
  written (put_lines out parts (map (nt_line m force) (write_order h (fst (g_simplify ho n g)))) nothing).

(** nq/writer.rs:37-59 [write] of a graph and 23-35 [write] of a data set. *)
Definition nq_put_graph (out : output) (parts : str -> list (list N)) (m : iri_mode) (h : orders)
    (ho : list statement -> list statement) (n : N) (g : graph) (w : progress) : progress * bool :=
  let simple := fst (g_simplify ho n g) in
  put_lines out parts (map (nq_line m (g_name simple)) (write_order h simple)) w.
Fixpoint nq_put_all (out : output) (parts : str -> list (list N)) (m : iri_mode) (h : graph -> orders)
    (ho : graph -> list statement -> list statement) (n : N) (l : list graph) (w : progress) : progress * bool :=
  match l with
  | [] => (w, true)
  | g :: r =>
      let (w', ok) := nq_put_graph out parts m (h g) (ho g) n g w in
      if ok then nq_put_all out parts m h ho (snd (g_simplify (ho g) n g)) r w' else (w', false)
  end.
Definition nq_write_to (out : output) (parts : str -> list (list N)) (m : iri_mode) (h : graph -> orders)
    (ho : graph -> list statement -> list statement) (hd : list graph -> list graph) (n : N) (d : data_set)
    : list N * result unit file_error :=
  written (nq_put_all out parts m h ho n (ds_graphs hd d) nothing).
