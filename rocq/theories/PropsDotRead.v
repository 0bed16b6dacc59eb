(** Property theorems C111 (the text of DOT documents).  Statements only; proofs in
    DotReadProofs.v. *)
From Coq Require Import Permutation.
From Verif Require Import DotReadSpec DotReadProofs Url.

(** ** Examples used below *)
Definition rv (s : str) : str := $"http://e/v#" ++ s.
Definition r1 : statement := MkStmt (SRes (rv $"a")) (rv $"p") (OLit (Lit $"say \""hi\"", \\ \n" None None)).
Definition r2 : statement := MkStmt (SBlank $"b") (rv $"p") (ORes (rv $"a")).
Definition rgraph : graph := g_from_iter [r1; r2].
Definition rcompress (p : str) : outcome (option str) := Ret (if str_eqb p (rv $"p") then Some $"v:p" else None).
Definition rtext (opts : dot_options) (l : list statement) : str :=
  match dot_write Bare rcompress opts (fun l => l) (fun l => l) [] (g_from_iter l) with
  | Ret (d, _) => dot_text d
  | Panic => []
  end.

(** C111: a document is read as the edges and nodes it was made from, if the quoted texts can
    be quoted and the shapes and colours are words. *)
Theorem C111_reads : forall d, Forall edge_quotable (doc_edges d) -> Forall decl_quotable (doc_decls d) ->
  dot_read (dot_text d) =
    Some ([Sets $"rankdir" $"BT"; Sets $"charset" $"utf-8"] ++ map edge_said (doc_edges d) ++ map decl_said (doc_decls d)).
Proof. exact c111_reads. Qed.
Print Assumptions C111_reads.

(** C111: what is read is a picture of the graph: a node for each term, with its text as label,
    and an edge for each statement. *)
Theorem C111_picture : forall m compress opts ho hv g doc nodes,
  hash_order ho -> (forall l, Permutation (hv l) l) -> all_drawn g -> told_apart m g ->
  options_ok opts -> node_prefix opts = $"node_" -> graph_ok m compress g ->
  dot_write m compress opts ho hv [] g = Ret (doc, nodes) ->
  exists terms node edges decls,
    dot_read (dot_text doc) = Some ([Sets $"rankdir" $"BT"; Sets $"charset" $"utf-8"] ++ edges ++ decls) /\
    NoDup terms /\ (forall x, In x terms <-> end_of g x) /\
    (forall x y, In x terms -> In y terms -> node x = node y -> x = y) /\
    Permutation decls (map (fun x => Node (node x) (attributes_of m opts (node x) x)) terms) /\
    Forall2 (fun st e => exists label, predicate_shown m compress (st_predicate st) label /\
      e = Edge (node (to_object (st_subject st))) (node (st_object st)) [($"label", between_quotes label)]) (g_iter ho g) edges.
Proof. exact c111_picture. Qed.
Print Assumptions C111_picture.

(** C111: labels are read as they are unless there is a backslash in them, and different
    labels are read differently. *)
Theorem C111_labels : forall s t, (~ In 92 s -> between_quotes s = s) /\
  (quotable s = true -> quotable t = true -> between_quotes s = between_quotes t -> s = t).
Proof. exact c111_labels. Qed.
Print Assumptions C111_labels.

(** C111: IRIs without quotation marks and backslashes can be quoted. *)
Theorem C111_iris : forall u m, wf_url u = true -> ~ In 34 (url_ser u) -> ~ In 92 (url_ser u) ->
  quotable (show_iri m (url_ser u)) = true.
Proof. exact c111_iris. Qed.
Print Assumptions C111_iris.

(** C111 is false: an IRI with a quotation mark or with a backslash at its end, or an option
    that is not a word, and the document is none; and a bar in a literal makes two fields of
    it, as literals are drawn as records. *)
Theorem C111_iri_refuted : forall i, In i [$"urn:a""b"; $"http://e/?a\"] ->
  (exists u, wf_url u = true /\ url_ser u = i) /\
  all_drawn (g_from_iter [MkStmt (SRes i) (rv $"p") (ORes i)]) /\ told_apart Bare (g_from_iter [MkStmt (SRes i) (rv $"p") (ORes i)]) /\
  dot_read (rtext dot_default_options [MkStmt (SRes i) (rv $"p") (ORes i)]) = None.
Proof.
  intros i I. split; [|split; [|split]].
  - destruct I as [<-|[<-|[]]]; [exists (MkUrl $"urn" None $"a""b" None None)|exists (MkUrl $"http" (Some $"e") $"/" (Some $"a\") None)];
      split; vm_compute; reflexivity.
  - intros x (st & [<-|[]] & [-> | ->]); exact Logic.I.
  - intros x y (st & [<-|[]] & X) (st' & [<-|[]] & Y) _. destruct X as [-> | ->], Y as [-> | ->]; reflexivity.
  - destruct I as [<-|[<-|[]]]; vm_compute; reflexivity.
Qed.
Print Assumptions C111_iri_refuted.
Theorem C111_option_refuted :
  dot_read (rtext (DotOptions $"circle" $"green" false $"double circle" $"blue" $"record" $"black" $"node_") [r1]) = None.
Proof. vm_compute. reflexivity. Qed.
Print Assumptions C111_option_refuted.
Theorem C111_record_refuted :
  let l := Lit $"this|that" None None in
  match dot_read (rtext dot_default_options [MkStmt (SRes (rv $"a")) (rv $"p") (OLit l)]) with
  | Some stmts => exists label, In (Node $"node_2" [($"label", label); ($"shape", $"record"); ($"color", $"black")]) stmts /\
      label = lexical_form l /\ record_fields label = 2%nat
  | None => False
  end.
Proof. vm_compute. eexists. split; [do 4 right; left; reflexivity|split; reflexivity]. Qed.
Print Assumptions C111_record_refuted.

Example C111_example :
  all_drawn rgraph /\ told_apart Bare rgraph /\ options_ok dot_default_options /\ graph_ok Bare rcompress rgraph /\
  dot_read (rtext dot_default_options [r1; r2]) = Some
    [Sets $"rankdir" $"BT"; Sets $"charset" $"utf-8";
     Edge $"node_1" $"node_2" [($"label", $"v:p")]; Edge $"node_3" $"node_1" [($"label", $"v:p")];
     Node $"node_1" [($"URL", rv $"a"); ($"label", rv $"a"); ($"shape", $"ellipse"); ($"color", $"blue")];
     Node $"node_2" [($"label", $"say ""hi"", \\ \n"); ($"shape", $"record"); ($"color", $"black")];
     Node $"node_3" [($"label", []); ($"shape", $"circle"); ($"color", $"green")]].
Proof.
  split; [|split; [|split; [|split; [|vm_compute; reflexivity]]]].
  - intros x (st & [<-|[<-|[]]] & [-> | ->]); exact Logic.I.
  - intros x y (st & I & X) (st' & J & Y) E. destruct I as [<-|[<-|[]]], J as [<-|[<-|[]]], X as [-> | ->], Y as [-> | ->];
      first [reflexivity|vm_compute in E; discriminate E].
  - repeat split; try reflexivity; repeat constructor.
  - split.
    + intros x (st & [<-|[<-|[]]] & [-> | ->]); reflexivity || exact Logic.I.
    + intros st label [<-|[<-|[]]] [H|[H _]]; vm_compute in H; try discriminate H; injection H as <-; reflexivity.
Qed.
