(** Property theorems C51 (TriG) and C52 (DOT).  Statements only; proofs in DotMain.v. *)
From Coq Require Import Permutation.
From Verif Require Import DotSpec DotMain.

(** ** Examples used below *)
Definition dv (s : str) : str := $"http://e/v#" ++ s.
Definition da : subject := SRes (dv $"a").
Definition db : subject := SBlank $"b".
Definition dlit (s : str) : object := OLit (Lit s None None).
Definition d1 : statement := MkStmt da (dv $"p") (dlit $"one").
Definition d2 : statement := MkStmt db (dv $"p") (ORes (dv $"a")).
Definition d3 : statement := MkStmt da (dv $"q") (OBlank $"b").
Definition dgraph : graph := g_from_iter [d1; d2; d3].
Definition dot (opts : dot_options) (l : list statement) : outcome (dot_doc * dot_nodes) :=
  dot_write Bare (fun p => Ret (if str_eqb p (dv $"q") then Some $"v:q" else None)) opts (fun l => l) (fun l => l) [] (g_from_iter l).
Definition dot_of (opts : dot_options) (l : list statement) : dot_doc :=
  match dot opts l with Ret (d, _) => d | Panic => DotDoc [] [] end.
Definition dplain : dot_options := dot_default_options.
Definition ddecls (d : dot_doc) : list (str * str) := map (fun x => (d_name x, d_label x)) (doc_decls d).
Definition dedges (d : dot_doc) : list (str * str) := map (fun x => (e_from x, e_to x)) (doc_edges d).

(** ** C51 *)

(** C51 fails for all data sets: the text depends on nothing but the names of the graphs. *)
Theorem C51_statements_refuted : forall m omit hd hd' d d',
  map g_name (ds_graphs hd d) = map g_name (ds_graphs hd' d') -> trig_write m omit hd d = trig_write m omit hd' d'.
Proof. exact c51_names. Qed.
Print Assumptions C51_statements_refuted.

(** C51: these it does tell, if there is no line break in them. *)
Theorem C51_names : forall m omit hd hd' d d',
  (forall l, Permutation (hd l) l) -> (forall l, Permutation (hd' l) l) ->
  (forall k g n, In (k, g) (d ++ d') -> g_name g = Some n -> ~ In 10 (gn_show m n)) ->
  trig_write m omit hd d = trig_write m omit hd' d' ->
  Permutation (map (fun e => g_name (snd e)) d) (map (fun e => g_name (snd e)) d').
Proof. exact c51_text. Qed.
Print Assumptions C51_names.

(** C51: a block for each graph, with its name, and with the keyword unless it is to be omitted. *)
Theorem C51_blocks : forall m omit hd d, exists blocks, trig_write m omit hd d = concat blocks /\
  Forall2 (trig_block m omit) (map g_name (ds_graphs hd d)) blocks.
Proof. exact c51_blocks. Qed.
Print Assumptions C51_blocks.

Example C51_example :
  let n := GnIri (dv $"g") in
  let d := ds_from_vec [dgraph; g_named n] in
  trig_write Bare false (fun l => l) d = $"{" ++ [10] ++ $"}" ++ [10] ++ $"GRAPH <http://e/v#g> {" ++ [10] ++ $"}" ++ [10] /\
  trig_write Bare false (fun l => l) d = trig_write Bare false (fun l => l) (ds_from_vec [g_default; g_named n]) /\
  map g_name (ds_graphs (fun l => l) d) = map g_name (ds_graphs (fun l => l) (ds_from_vec [g_default; g_named n])) /\
  (forall k g n', In (k, g) (d ++ d) -> g_name g = Some n' -> ~ In 10 (gn_show Bare n')).
Proof.
  cbv zeta. split; [vm_compute; reflexivity|]. split; [vm_compute; reflexivity|]. split; [vm_compute; reflexivity|].
  intros k g n' I. repeat (destruct I as [I|I]; [injection I as <- <-; cbn [g_name dgraph g_from_iter g_named];
    (discriminate || (intros [= <-] J; vm_compute in J; intuition discriminate))|]). destruct I.
Qed.

(** ** C52 *)

(** C52: the picture of a graph of IRIs, labels and literals that are shown differently, made
    by a new writer: one node for each term, and one edge for each statement. *)
Theorem C52_picture : forall m compress opts ho hv g doc nodes,
  hash_order ho -> (forall l, Permutation (hv l) l) -> all_drawn g -> told_apart m g ->
  dot_write m compress opts ho hv [] g = Ret (doc, nodes) ->
  exists terms node,
    (forall x, Forall (fun c => is_digit c = true) (node x)) /\
    NoDup terms /\ (forall x, In x terms <-> end_of g x) /\
    (forall x y, In x terms -> In y terms -> node x = node y -> x = y) /\
    Permutation (doc_decls doc) (map (fun x => depicts m opts (node_prefix opts ++ node x) x) terms) /\
    Forall2 (fun st e =>
      e_from e = node_prefix opts ++ node (to_object (st_subject st)) /\ e_to e = $"node_" ++ node (st_object st) /\
      predicate_shown m compress (st_predicate st) (e_label e)) (g_iter ho g) (doc_edges doc).
Proof. exact c52_picture. Qed.
Print Assumptions C52_picture.

(** C52: terms are shown differently if every literal has a look of its own. *)
Theorem C52_told_apart : forall m g, all_drawn g -> (forall l, end_of g (OLit l) -> own_look l) -> told_apart m g.
Proof. exact c52_told_apart. Qed.
Print Assumptions C52_told_apart.

(** C52: for all graphs, and writers that have been used before: the nodes are those of all
    graphs so far, and terms share a node exactly if they are shown alike. *)
Theorem C52_exact : forall m compress opts ho hv gs docs nodes g doc nodes',
  hash_order ho -> (forall l, Permutation (hv l) l) ->
  dot_session m compress opts ho hv [] gs = Ret (docs, nodes) ->
  dot_write m (compress g) opts ho hv nodes g = Ret (doc, nodes') ->
  exists terms node,
    (forall x, Forall (fun c => is_digit c = true) (node x)) /\
    (forall x, In x terms -> drawn x /\ exists g', In g' (gs ++ [g]) /\ end_of g' x) /\
    (forall g' x, In g' (gs ++ [g]) -> end_of g' x -> drawn x -> In (obj_show m false x) (map (obj_show m false) terms)) /\
    NoDup (map (obj_show m false) terms) /\
    (forall g' x y, In g' (gs ++ [g]) -> end_of g' x -> drawn x -> (node x = node y <-> obj_show m false x = obj_show m false y)) /\
    Permutation (doc_decls doc) (map (fun x => depicts m opts (node_prefix opts ++ node x) x) terms) /\
    Forall2 (fun st e =>
      (drawn (to_object (st_subject st)) -> e_from e = node_prefix opts ++ node (to_object (st_subject st))) /\
      (drawn (st_object st) -> e_to e = $"node_" ++ node (st_object st)) /\
      predicate_shown m (compress g) (st_predicate st) (e_label e)) (g_iter ho g) (doc_edges doc).
Proof. exact c52_exact. Qed.
Print Assumptions C52_exact.

(** C52: the text tells the edges and nodes, if what is quoted can be quoted. *)
Theorem C52_text : forall d d', Forall edge_clean (doc_edges d) -> Forall decl_clean (doc_decls d) ->
  Forall edge_clean (doc_edges d') -> Forall decl_clean (doc_decls d') -> dot_text d = dot_text d' -> d = d'.
Proof. exact c52_text. Qed.
Print Assumptions C52_text.

(** C52: the document is written unless shortening a predicate panics (C09, C15). *)
Theorem C52_written : forall m compress opts ho hv nodes g, hash_order ho ->
  (dot_write m compress opts ho hv nodes g = Panic <-> exists st, In st (g_list g) /\ compress (st_predicate st) = Panic).
Proof. exact c52_written. Qed.
Print Assumptions C52_written.

(** C52: without options the nodes have a shape and a colour for each kind of term. *)
Theorem C52_default : forall m compress ho hv g doc nodes,
  hash_order ho -> (forall l, Permutation (hv l) l) ->
  dot_write m compress dot_default_options ho hv [] g = Ret (doc, nodes) ->
  forall d, In d (doc_decls doc) -> exists x n, end_of g x /\ default_look x (d_shape d) (d_color d) /\ d_name d = $"node_" ++ n /\
    d = depicts m dot_default_options (d_name d) x /\ (forall b, x = OBlank b -> d_label d = []).
Proof. exact c52_default. Qed.
Print Assumptions C52_default.

(** C52 fails for other prefixes: no edge leads to a node that is declared. *)
Theorem C52_prefix_refuted : forall m compress opts ho hv g doc nodes,
  hash_order ho -> (forall l, Permutation (hv l) l) ->
  (forall d, Forall (fun c => is_digit c = true) d -> node_prefix opts <> $"node_" ++ d) ->
  dot_write m compress opts ho hv [] g = Ret (doc, nodes) ->
  forall e d, In e (doc_edges doc) -> In d (doc_decls doc) -> e_to e <> d_name d.
Proof. exact c52_prefix. Qed.
Print Assumptions C52_prefix_refuted.

(** C52 fails for terms shown alike, for collections and quoted statements (which take the
    number of the next node), and if a writer is used again. *)
Theorem C52_alike_refuted :
  let i := OLit (Lit $"1" (Some DtInt) None) in let l := OLit (Lit $"1" (Some DtLong) None) in
  i <> l /\ dedges (dot_of dplain [MkStmt da (dv $"p") i; MkStmt da (dv $"p") l]) = [($"node_1", $"node_2"); ($"node_1", $"node_2")].
Proof. split; [discriminate|vm_compute; reflexivity]. Qed.
Print Assumptions C52_alike_refuted.
Theorem C52_collection_refuted :
  let d := dot_of dplain [MkStmt da (dv $"p") (OColl [dlit $"one"; dlit $"two"]); MkStmt da (dv $"q") (OStmt d1); d3] in
  dedges d = [($"node_1", $"node_2"); ($"node_1", $"node_2"); ($"node_1", $"node_2")] /\
  ddecls d = [($"node_1", dv $"a"); ($"node_2", [])].
Proof. split; vm_compute; reflexivity. Qed.
Print Assumptions C52_collection_refuted.
Theorem C52_again_refuted :
  match dot_session Bare (fun _ _ => Ret None) dplain (fun l => l) (fun l => l) [] [g_from_iter [d1]; g_from_iter [d2]] with
  | Ret ([_; d], _) => ddecls d = [($"node_1", dv $"a"); ($"node_2", $"one"); ($"node_3", [])]
  | _ => False
  end.
Proof. vm_compute. reflexivity. Qed.
Print Assumptions C52_again_refuted.

Example C52_example :
  all_drawn dgraph /\ (forall l, end_of dgraph (OLit l) -> own_look l) /\
  dedges (dot_of dplain [d1; d2; d3]) = [($"node_1", $"node_2"); ($"node_3", $"node_1"); ($"node_1", $"node_3")] /\
  ddecls (dot_of dplain [d1; d2; d3]) = [($"node_1", dv $"a"); ($"node_2", $"one"); ($"node_3", [])] /\
  map e_label (doc_edges (dot_of dplain [d1; d2; d3])) = [dv $"p"; dv $"p"; $"v:q"] /\
  Forall edge_clean (doc_edges (dot_of dplain [d1; d2; d3])) /\ Forall decl_clean (doc_decls (dot_of dplain [d1; d2; d3])) /\
  let other := DotOptions [] [] false [] [] [] [] $"n" in
  (forall d, Forall (fun c => is_digit c = true) d -> node_prefix other <> $"node_" ++ d) /\
  dedges (dot_of other [d1]) = [($"n1", $"node_2")] /\ ddecls (dot_of other [d1]) = [($"n1", dv $"a"); ($"n2", $"one")].
Proof.
  split; [|split].
  - intros x (st & I & W). destruct I as [<-|[<-|[<-|[]]]]; destruct W as [-> | ->]; exact Logic.I.
  - intros l (st & I & W). destruct I as [<-|[<-|[<-|[]]]]; destruct W as [W|W]; try discriminate. injection W as ->. split; [reflexivity|exact Logic.I].
  - split; [vm_compute; reflexivity|]. split; [vm_compute; reflexivity|]. split; [vm_compute; reflexivity|]. split; [|split].
    { repeat constructor. }
    { repeat constructor; try (intros u [= <-]; reflexivity); try discriminate; cbv; intuition discriminate. }
    cbv zeta. split; [intros d _; discriminate|]. split; vm_compute; reflexivity.
Qed.
