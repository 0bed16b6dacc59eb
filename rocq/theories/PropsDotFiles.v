(** Property theorems C114 (drawings and TriG documents on outputs that fail).  Statements
    only; proofs in DotFilesProofs.v.

    [out] is an output, [parts] how the formatting code divides a line into calls of it. *)
From Coq Require Import Permutation.
From Verif Require Import DotFiles DotSpec DotReadSpec FilesSpec DotFilesProofs.

(** C114: what an output has accepted is the beginning of the drawing, whichever call fails;
    success is reported only if it is all of it, and always if no call fails. *)
Theorem C114_output : forall out parts m compress opts ho hv nodes g doc final kept nodes' res, divides parts ->
  dot_write m compress opts ho hv nodes g = Ret (doc, final) ->
  dot_write_to out parts m compress opts ho hv nodes g = (kept, nodes', res) ->
  (exists lost, bytes (dot_text doc) = kept ++ lost /\ (res = Ret (Ok tt) -> lost = [] /\ nodes' = final)) /\
  (res = Ret (Ok tt) \/ res = Ret (Err FileIo)) /\ ((forall k bs, out k bs = None) -> res = Ret (Ok tt)).
Proof. intros out parts m compress opts ho hv nodes g doc final kept nodes' res D. eapply dot_written. exact D. Qed.
Print Assumptions C114_output.

(** C114: failing outputs make no panics of their own. *)
Theorem C114_panic : forall out parts m compress opts ho hv nodes g kept nodes', hash_order ho ->
  dot_write_to out parts m compress opts ho hv nodes g = (kept, nodes', Panic) ->
  exists st, In st (g_list g) /\ compress (st_predicate st) = Panic.
Proof. exact dot_panics. Qed.
Print Assumptions C114_panic.

(** C114: the writer remembers nodes of a drawing that failed, but if the same graph is drawn
    again (in the same order) the drawing is the one that should have been made at first.  So it
    is after a drawing that did not fail. *)
Theorem C114_again : forall out parts m compress opts ho hv nodes g doc final kept nodes' res, hash_order ho -> all_drawn g ->
  dot_write m compress opts ho hv nodes g = Ret (doc, final) ->
  dot_write_to out parts m compress opts ho hv nodes g = (kept, nodes', res) ->
  dot_write m compress opts ho hv nodes' g = Ret (doc, final).
Proof. intros out parts m compress opts ho hv nodes g doc final kept nodes' res. eapply dot_write_again. Qed.
Print Assumptions C114_again.

(** C114: a drawing that was cut is no DOT document, unless nothing but the last line feed is
    missing. *)
Theorem C114_cut : forall d kept lost s, Forall edge_quotable (doc_edges d) -> Forall decl_quotable (doc_decls d) ->
  chars (dot_text d) -> chars s ->
  bytes (dot_text d) = kept ++ lost -> kept = bytes s -> dot_read s <> None -> lost = [] \/ lost = [10].
Proof. exact dot_file_cut. Qed.
Print Assumptions C114_cut.

(** C114 for TriG. *)
Theorem C114_trig : forall out m omit hd d kept res, trig_write_to out m omit hd d = (kept, res) ->
  (exists lost, bytes (trig_write m omit hd d) = kept ++ lost /\ (res = Ok tt -> lost = [])) /\
  (res = Ok tt \/ res = Err FileIo) /\ ((forall k bs, out k bs = None) -> res = Ok tt).
Proof. exact trig_written. Qed.
Print Assumptions C114_trig.

(** C114 is false of graphs with collections: they are given the number of the next node, which
    is another one when the graph is drawn again. *)
Definition fv (s : str) : str := $"http://e/v#" ++ s.
Definition f1 : statement := MkStmt (SRes (fv $"a")) (fv $"p") (OColl [ORes (fv $"b")]).
Definition f2 : statement := MkStmt (SBlank $"b") (fv $"p") (ORes (fv $"a")).
Definition f3 : statement := MkStmt (SRes (fv $"a")) (fv $"q") (OLit (Lit $"l" None None)).
Definition fwrite := dot_write Bare (fun _ => Ret None) dot_default_options (fun l => l) (fun l => l).
(** An output with room for so many bytes, the calls handing over one byte each. *)
Definition froom (n : nat) : output := fun k bs => if Nat.ltb k n then None else Some O.
Definition fparts (s : str) : list (list N) := map (fun b => [b]) (bytes s).
Definition fwrite_to (n : nat) := dot_write_to (froom n) fparts Bare (fun _ => Ret None) dot_default_options (fun l => l) (fun l => l).
Theorem C114_collection_refuted : exists g doc doc' nodes,
  fwrite [] g = Ret (doc, nodes) /\ fwrite nodes g = Ret (doc', nodes) /\ doc_edges doc <> doc_edges doc' /\
  map e_to (doc_edges doc) = [$"node_2"; $"node_1"] /\ map e_to (doc_edges doc') = [$"node_3"; $"node_1"] /\
  map d_name (doc_decls doc) = [$"node_1"; $"node_2"] /\ map d_name (doc_decls doc') = [$"node_1"; $"node_2"].
Proof.
  exists (g_from_iter [f1; f2]). eexists. eexists. eexists. split; [vm_compute; reflexivity|]. split; [vm_compute; reflexivity|].
  split; [vm_compute; discriminate|]. repeat split; vm_compute; reflexivity.
Qed.
Print Assumptions C114_collection_refuted.

Example C114_example :
  let g := g_from_iter [f3; f2] in
  divides fparts /\ all_drawn g /\
  exists doc nodes, fwrite [] g = Ret (doc, nodes) /\ length nodes = 3%nat /\
    Forall edge_quotable (doc_edges doc) /\ Forall decl_quotable (doc_decls doc) /\ chars (dot_text doc) /\
    (let '(kept, left_, res) := fwrite_to 120 [] g in
     length kept = 120%nat /\ length left_ = 3%nat /\ res = Ret (Err FileIo) /\ dot_read kept = None /\ fwrite left_ g = Ret (doc, nodes)) /\
    (let '(kept, left_, res) := fwrite_to 400 [] g in kept = bytes (dot_text doc) /\ left_ = nodes /\ res = Ret (Ok tt)) /\
    trig_write_to (froom 3) Bare false (fun l => l) (ds_from_vec [g_named (GnIri $"a:")]) = ($"GRAPH <a:> ", Err FileIo).
Proof.
  cbv zeta. split; [intros s; unfold fparts; induction (bytes s) as [|b l IH]; [reflexivity|cbn; rewrite IH; reflexivity]|].
  split; [intros x (st & [<-|[<-|[]]] & [-> | ->]); exact Logic.I|].
  eexists. eexists. split; [vm_compute; reflexivity|]. split; [vm_compute; reflexivity|].
  split; [repeat constructor|]. split; [repeat constructor; try (intros u [= <-]; reflexivity); discriminate|].
  split; [unfold chars; rewrite Forall_forall; intros c I; left; vm_compute in I; repeat destruct I as [<-|I]; try reflexivity; destruct I|].
  split; [vm_compute; repeat split; reflexivity|]. split; [vm_compute; repeat split; reflexivity|]. vm_compute. reflexivity.
Qed.
