(** Property theorems C112, C113 (N-Triples and N-Quads files).  Statements only; proofs in
    FilesMain.v and the files it uses.

    The oracles are those of PropsNTriples.v; [out] is an output, [parts] how the formatting
    code divides a line into calls of the output. *)
From Verif Require Import Str Literal Term Graph DataSet NTriples NTriplesSpec NTriplesWriteSpec Files FilesSpec FilesMain
  PropsNTriples.

(** ** C112 *)

(** C112: a file that is the UTF-8 encoding of a text is read as that text. *)
Theorem C112_text : forall iri_parse lang_parse label_ok gext printable s, chars s ->
  nt_read_from iri_parse lang_parse label_ok gext printable (Some (bytes s)) =
    match nt_read iri_parse lang_parse label_ok gext printable s with
    | Ret (Ok g) => Ret (Ok g) | Ret (Err e) => Ret (Err (FileContent e)) | Panic => Panic end /\
  nq_read_from iri_parse lang_parse label_ok gext printable (Some (bytes s)) =
    match nq_read iri_parse lang_parse label_ok gext printable s with
    | Ret (Ok d) => Ret (Ok d) | Ret (Err e) => Ret (Err (FileContent e)) | Panic => Panic end.
Proof. exact file_reads. Qed.
Print Assumptions C112_text.

(** C112: all other files, and inputs that fail, are I/O errors, and nothing else is. *)
Theorem C112_other : forall iri_parse lang_parse label_ok gext printable i,
  (forall s, chars s -> i <> Some (bytes s)) <->
  nt_read_from iri_parse lang_parse label_ok gext printable i = Ret (Err FileIo) /\
  nq_read_from iri_parse lang_parse label_ok gext printable i = Ret (Err FileIo).
Proof. exact file_rejects. Qed.
Print Assumptions C112_other.

(** C112: no file is the encoding of two texts. *)
Theorem C112_one_text : forall s t, chars s -> chars t -> bytes s = bytes t -> s = t.
Proof. exact bytes_inj. Qed.
Print Assumptions C112_one_text.

(** C112: what an output that never fails was given is read as the graph, or data set, that was
    written (see C40 and C41). *)
Theorem C112_graph : forall iri_parse lang_parse label_ok gext printable out parts force h ho n g,
  divides parts -> (forall k bs, out k bs = None) ->
  orders_ok h -> hash_order ho -> Forall (statement_writable iri_parse lang_parse label_ok force) (g_list g) ->
  Forall (stable gext printable) (g_list g) -> chars (nt_write Bare force h ho n g) ->
  exists file g', nt_write_to out parts Bare force h ho n g = (file, Ok tt) /\
    nt_read_from iri_parse lang_parse label_ok gext printable (Some file) = Ret (Ok g') /\
    g_name g' = None /\ NoDup (g_list g') /\ forall st, In st (g_list g') <-> In st (g_list g).
Proof. exact nt_file_trip. Qed.
Print Assumptions C112_graph.

Theorem C112_data_set : forall iri_parse lang_parse label_ok gext printable out parts h ho hd n d,
  divides parts -> (forall k bs, out k bs = None) ->
  (forall g, orders_ok (h g)) -> (forall g, hash_order (ho g)) -> (forall l, Permutation (hd l) l) ->
  ds_writable iri_parse lang_parse label_ok d -> ds_statements d None = [] ->
  (forall k, Forall (stable gext printable) (ds_statements d k)) -> chars (nq_write_dataset Bare h ho hd n d) ->
  exists file d', nq_write_to out parts Bare h ho hd n d = (file, Ok tt) /\
    nq_read_from iri_parse lang_parse label_ok gext printable (Some file) = Ret (Ok d') /\
    forall k, (forall g', ds_graph d' k = Some g' -> g_name g' = k) /\ NoDup (ds_statements d' k) /\
      (forall st, In st (ds_statements d' k) <-> In st (ds_statements d k)) /\
      (ds_graph d' k = None <-> ds_statements d k = []).
Proof. exact nq_file_trip. Qed.
Print Assumptions C112_data_set.

Definition ex_from := nt_read_from ex_id ex_id ex_ok ex_ext (fun c => ex_print c || N.leb 160 c).
(** The euro sign, and U+10348. *)
Definition ex_euro : statement := MkStmt (SRes $"a:") $"b:" (OLit (Lit [8364; 66376] None None)).
Definition ex_chars s : forallb is_scalar s = true -> chars s.
Proof.
  unfold chars. rewrite forallb_forall, Forall_forall. intros H c I. apply H in I. unfold is_scalar, in_range in I.
  apply Bool.orb_true_iff in I as [I|I]; [left; apply N.ltb_lt; exact I|]. apply Bool.andb_true_iff in I as [A B].
  right. split; [apply N.leb_le; exact A|]. apply N.leb_le in B. apply (N.le_lt_trans _ 1114111); [exact B|reflexivity].
Qed.
Example C112_example :
  (let doc := $"<a:> <b:> """ ++ [8364; 66376] ++ $""" ." ++ [10] in
   chars doc /\ bytes [8364; 66376] = [226; 130; 172; 240; 144; 141; 136] /\
   ex_from (Some (bytes doc)) = Ret (Ok (g_from_iter [ex_euro]))) /\
  (forall bs, In bs [[226; 130]; [237; 160; 128]; [192; 128]; [240; 143; 191; 191]; [244; 144; 128; 128]; [128]; [255]] ->
     ex_from (Some ($"# " ++ bs)) = Ret (Err FileIo) /\ forall s, chars s -> Some ($"# " ++ bs) <> Some (bytes s)) /\
  ex_from None = Ret (Err FileIo) /\
  nt_write_to (fun _ _ => None) (fun s => [bytes s]) Bare false ex_orders (@rev _) 0 (g_from_iter [ex_euro])
  = (bytes ($"<a:> <b:> """ ++ [8364; 66376] ++ $""" ." ++ [10]), Ok tt).
Proof.
  split; [split; [apply ex_chars; vm_compute; reflexivity|split; vm_compute; reflexivity]|]. split; [|split; vm_compute; reflexivity].
  intros bs I.
  assert (E : nt_read_from ex_id ex_id ex_ok ex_ext (fun c => ex_print c || N.leb 160 c) (Some ($"# " ++ bs)) = Ret (Err FileIo) /\
              nq_read_from ex_id ex_id ex_ok ex_ext (fun c => ex_print c || N.leb 160 c) (Some ($"# " ++ bs)) = Ret (Err FileIo)).
  { cbn [In] in I. repeat destruct I as [<-|I]; try destruct I; split; vm_compute; reflexivity. }
  split; [exact (proj1 E)|]. exact (proj2 (C112_other _ _ _ _ _ _) E).
Qed.

(** ** C113 *)

(** C113: what an output has accepted is the beginning of the document, whichever call fails;
    success is reported only if it is all of the document, and always if no call fails. *)
Theorem C113_output : forall out parts, divides parts ->
  (forall m force h ho n g kept res, nt_write_to out parts m force h ho n g = (kept, res) ->
     (exists lost, bytes (nt_write m force h ho n g) = kept ++ lost /\ (res = Ok tt -> lost = [])) /\
     (res = Ok tt \/ res = Err FileIo) /\ ((forall k bs, out k bs = None) -> res = Ok tt)) /\
  (forall m h ho hd n d kept res, nq_write_to out parts m h ho hd n d = (kept, res) ->
     (exists lost, bytes (nq_write_dataset m h ho hd n d) = kept ++ lost /\ (res = Ok tt -> lost = [])) /\
     (res = Ok tt \/ res = Err FileIo) /\ ((forall k bs, out k bs = None) -> res = Ok tt)).
Proof. intros out parts D. split; intros; [eapply nt_written|eapply nq_written]; eassumption. Qed.
Print Assumptions C113_output.

(** C113: a file of N-Triples that was cut anywhere is rejected, or it is read as the
    statements of its lines and consists of nothing but whole lines. *)
Theorem C113_triples : forall iri_parse lang_parse label_ok gext printable force h ho n g kept lost, orders_ok h ->
  Forall (statement_writable iri_parse lang_parse label_ok force) (g_list (fst (g_simplify ho n g))) ->
  Forall (fun st => object_dotless (st_object st)) (g_list (fst (g_simplify ho n g))) ->
  chars (nt_write Bare force h ho n g) -> bytes (nt_write Bare force h ho n g) = kept ++ lost ->
  let read := nt_read_from iri_parse lang_parse label_ok gext printable (Some kept) in
  read = Ret (Err FileIo) \/ read = Ret (Err (FileContent Tokenizer)) \/
  exists l1 l2, NoDup (l1 ++ l2) /\ (forall st, In st (l1 ++ l2) <-> In st (g_list (fst (g_simplify ho n g)))) /\
    whole_lines (map (nt_line Bare force) l1) kept /\
    read = Ret (Ok (g_from_iter (map (reread gext printable) l1))).
Proof. exact nt_file_cut. Qed.
Print Assumptions C113_triples.

(** C113 for N-Quads. *)
Theorem C113_quads : forall iri_parse lang_parse label_ok gext printable h ho hd n d kept lost d',
  (forall g, orders_ok (h g)) -> (forall g, hash_order (ho g)) -> (forall l, Permutation (hd l) l) ->
  ds_writable iri_parse lang_parse label_ok d -> (forall k, ds_statements d k <> [] -> name_dotless k) ->
  chars (nq_write_dataset Bare h ho hd n d) -> bytes (nq_write_dataset Bare h ho hd n d) = kept ++ lost ->
  nq_read_from iri_parse lang_parse label_ok gext printable (Some kept) = Ret (Ok d') ->
  exists l1 l2, NoDup (l1 ++ l2) /\ (forall k st, In (k, st) (l1 ++ l2) <-> In st (ds_statements d k)) /\
    whole_lines (map (fun q => nq_line Bare (fst q) (snd q)) l1) kept /\
    forall k st, In st (ds_statements d' k) <-> exists st0, In (k, st0) l1 /\ st = reread gext printable st0.
Proof. exact nq_file_cut. Qed.
Print Assumptions C113_quads.

(** C113 is false of blank nodes with a full stop in their labels: every file of one such
    statement can be cut so that it is read as a statement about another node. *)
Theorem C113_dotted_refuted : forall iri_parse lang_parse label_ok gext printable force s p b1 c b2,
  subject_writable iri_parse label_ok s -> iri_writable iri_parse p -> label_writable label_ok b1 ->
  chars (nt_line Bare force (MkStmt s p (OBlank (b1 ++ $"." ++ c :: b2)))) ->
  exists kept lost, bytes (nt_line Bare force (MkStmt s p (OBlank (b1 ++ $"." ++ c :: b2)))) = kept ++ lost /\
    nt_read_from iri_parse lang_parse label_ok gext printable (Some kept) = Ret (Ok (g_from_iter [MkStmt s p (OBlank b1)])).
Proof. exact nt_file_dotted. Qed.
Print Assumptions C113_dotted_refuted.

(** An output with room for so many bytes, the calls handing over one byte each. *)
Definition ex_room (n : nat) : output := fun k bs => if Nat.ltb k n then None else Some O.
Definition ex_parts (s : str) : list (list N) := map (fun b => [b]) (bytes s).
Definition ex_kept (n : nat) := nt_write_to (ex_room n) ex_parts Bare false ex_orders (@rev _) 0 (g_from_iter [ex_euro; ex_c]).
Example C113_example :
  divides ex_parts /\
  Forall (statement_writable ex_id ex_id ex_ok false) [ex_euro; ex_c] /\
  Forall (fun st => object_dotless (st_object st)) [ex_euro; ex_c] /\
  chars (nt_write Bare false ex_orders (@rev _) 0 (g_from_iter [ex_euro; ex_c])) /\
  (map (fun n => let (kept, res) := ex_kept n in (res, ex_from (Some kept))) [0; 20; 32; 33; 34; 40; 47; 54; 55; 56; 100]%nat =
    [(Err FileIo, Ret (Ok (g_from_iter []))); (Err FileIo, Ret (Err (FileContent Tokenizer)));
     (Err FileIo, Ret (Err (FileContent Tokenizer)));
     (Err FileIo, Ret (Ok (g_from_iter [ex_c]))); (Err FileIo, Ret (Ok (g_from_iter [ex_c])));
     (Err FileIo, Ret (Err (FileContent Tokenizer))); (Err FileIo, Ret (Err FileIo));
     (Err FileIo, Ret (Err (FileContent Tokenizer))); (Err FileIo, Ret (Ok (g_from_iter [ex_c; ex_euro])));
     (Ok tt, Ret (Ok (g_from_iter [ex_c; ex_euro]))); (Ok tt, Ret (Ok (g_from_iter [ex_c; ex_euro])))]) /\
  ex_from (Some $"<a:> <b:> _:b.1 .") = Ret (Ok (g_from_iter [MkStmt (SRes $"a:") $"b:" (OBlank $"b.1")])) /\
  ex_from (Some $"<a:> <b:> _:b.") = Ret (Ok (g_from_iter [MkStmt (SRes $"a:") $"b:" (OBlank $"b")])) /\
  (let kept := $"_:b.1 <b:> <c:> <g:> ." in exists d,
     nq_write_to (ex_room 22) ex_parts Bare (fun _ => ex_orders) (fun _ => @rev _) (fun l => l) 0
       (ds_from_iter [g_with_statements (g_named (GnIri $"g:")) [MkStmt (SBlank $"b.1") $"b:" (ORes $"c:")];
                      g_with_statements (g_named (GnIri $"f:")) [ex_c]]) = (kept, Err FileIo) /\
     nq_read_from ex_id ex_id ex_ok ex_ext ex_print (Some kept) = Ret (Ok d) /\
     ds_statements d (Some (GnIri $"g:")) = [MkStmt (SBlank $"b.1") $"b:" (ORes $"c:")] /\
     ds_statements d (Some (GnIri $"f:")) = []).
Proof.
  assert (U : Forall (statement_writable ex_id ex_id ex_ok false) [ex_euro; ex_c]).
  { destruct ex_ab_writable as (_ & _ & C). apply Forall_cons; [|apply Forall_cons; [exact C|apply Forall_nil]].
    assert (I : forall i, Forall (fun c => iri_piece (Plain c)) i -> iri_writable ex_id i) by (intros i F; split; [exact F|reflexivity]).
    split; [apply I; chars|]. split; [apply I; chars|]. cbn. unfold literal_writable. cbn. split; [|exact Logic.I].
    exists [Plain 8364; Plain 66376]. split; [|reflexivity]. repeat (apply Forall_cons; [cbn; intuition discriminate|]). apply Forall_nil. }
  split; [intros s; unfold ex_parts; induction (bytes s) as [|b l IH]; [reflexivity|cbn; rewrite IH; reflexivity]|].
  split; [exact U|]. split; [repeat constructor|]. split; [apply ex_chars; vm_compute; reflexivity|].
  split; [vm_compute; reflexivity|]. split; [vm_compute; reflexivity|]. split; [vm_compute; reflexivity|].
  eexists. split; [vm_compute; reflexivity|]. split; [vm_compute; reflexivity|]. split; vm_compute; reflexivity.
Qed.
