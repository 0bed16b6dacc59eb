(** Property theorem C117 (Turtle files that were cut off).  Statements only; proofs in
    TurtleCutMain.v.  [turtle_reads text l]: the text is a Turtle document with the statements
    [l]; the reader is that of TurtleReadSpec.v.  [out] is an output, [parts] how the formatting
    code divides the document into calls of the output, see PropsFiles.v. *)
From Verif Require Import Turtle TurtleSpec GraphSpec LiteralSpec TurtleLitSpec TurtleReadSpec TurtleFiles TurtleFilesSpec TurtleCutMain
  PropsTurtleRead.
From Verif Require Files FilesSpec.
From Coq Require Import Lia.

(** C117: what an output has accepted is the beginning of the document, whichever call fails;
    success is reported only if it is all of the document, and always if no call fails. *)
Theorem C117_output : forall out parts doc kept res, FilesSpec.divides parts ->
  ttl_write_to out parts (Done doc) = Some (kept, res) ->
  (exists lost, FilesSpec.bytes (pieces_text doc) = kept ++ lost /\ (res = Ok tt -> lost = [])) /\
  (res = Ok tt \/ res = Err Files.FileIo) /\ ((forall k bs, out k bs = None) -> res = Ok tt).
Proof. exact c117_output. Qed.
Print Assumptions C117_output.

(** C117: a document that was cut anywhere is no text or no Turtle, or it says what the graph
    says about some of its subjects, and nothing else: nothing is changed, and nothing that is
    said about any of these subjects is missing.  For graphs as in C100 whose names, labels and
    numbers are without full stops. *)
Theorem C117_cut : forall c base mappings g f ho n out kept lost text read,
  readable_graph c base mappings g -> dotless_graph c mappings g -> short_collections g ->
  has_room c f -> (graph_size g < f)%nat -> hash_order ho ->
  written c ho n mappings f g = Done out -> FilesSpec.chars (pieces_text out) ->
  FilesSpec.bytes (pieces_text out) = kept ++ lost ->
  Files.utf8_decode kept = Some text -> turtle_reads text read ->
  exists l1 l2, NoDup (l1 ++ l2) /\ (forall st, In st (l1 ++ l2) <-> In st (g_list g)) /\
    (forall a b, In a l1 -> In b l2 -> st_subject a <> st_subject b) /\
    Forall2 (statement_means g (nest_blank_nodes (t_opts c))) l1 read.
Proof. exact c117_cut. Qed.
Print Assumptions C117_cut.

(** ** Examples *)
Definition fx_list : list statement :=
  [MkStmt (SRes $"http://e/v/a.b") $"http://e/ns#p" (OLit (Lit $"x. y" None None));
   MkStmt (SBlank $"b") $"http://f.g/r" (OLit (Lit $"true" (Some DtBoolean) None))].
Definition fx_graph : graph := g_from_iter fx_list.
Definition fx_lines : list str :=
  [$"BASE <http://e/v/>"; []; $"PREFIX e: <http://e/ns#>"; $"PREFIX xsd: <http://www.w3.org/2001/XMLSchema#>"; [];
   $"<a.b>"; $"    e:p " ++ [34] ++ $"x. y" ++ [34] ++ $" ."].
Definition fx_kept : str := flat_map (fun x => x ++ [10]) fx_lines.
Definition fx_lost : str := flat_map (fun x => x ++ [10]) [[]; []; $"_:b"; $"    <http://f.g/r> true ."; []].
Lemma fx_readable : readable_graph rx (Some rx_base) rx_mappings fx_graph.
Proof.
  destruct rx_ok as [S H]. split; [exact S|split; [exact H|split; [left; reflexivity|]]]. intros st I. change (In st fx_list) in I.
  repeat (destruct I as [<-|I]; [split; [|split; [apply rx_readable; reflexivity|split]]; cbn [st_subject st_predicate st_object];
    [try (apply rx_readable; reflexivity); try (apply rx_local; reflexivity)
    |intros T; exfalso; destruct T as [T|[T|[T|[T|[]]]]]; discriminate
    |]|]); [..|destruct I].
  - apply Ro_literal. left. split; [exact Logic.I|]. split; [|exact Logic.I].
    repeat (constructor; [left; split; [cbn; intuition discriminate|split; reflexivity]|]). constructor.
  - apply Ro_literal. right. exists DtBoolean. split; [reflexivity|]. left. split; [reflexivity|left; reflexivity].
Qed.
(** A literal with a full stop in quotes, IRIs with full stops in brackets. *)
Example C117_example :
  readable_graph rx (Some rx_base) rx_mappings fx_graph /\ dotless_graph rx rx_mappings fx_graph /\ short_collections fx_graph /\
  has_room rx 10 /\ (graph_size fx_graph < 10)%nat /\
  match written rx (fun l => l) 0 rx_mappings 10 fx_graph with
  | Done out =>
      pieces_text out = fx_kept ++ fx_lost /\
      ttl_write_to (fun _ _ => Some (length fx_kept)) (fun s => [FilesSpec.bytes s]) (Done out) = Some (FilesSpec.bytes fx_kept, Err Files.FileIo)
  | _ => False
  end /\
  Files.utf8_decode (FilesSpec.bytes fx_kept) = Some fx_kept /\
  turtle_reads fx_kept [(RValue (VIri $"http://e/v/a.b"), $"http://e/ns#p", RValue (VText $"x. y" (xsd_type $"string") None))] /\
  (forall k read, In k [1; 10; 17; 40; 100; 110; 115]%nat -> ~ turtle_reads (firstn k fx_kept) read).
Proof.
  split; [exact fx_readable|]. split; [|split; [|split; [|split; [|split; [|split; [|split]]]]]].
  - split; [intros p ns [E|[E|[]]]; injection E as <- _; cbn; intuition discriminate|]. intros st I. change (In st fx_list) in I.
    destruct I as [<-|[<-|[]]]; (split; [|split]); cbn [st_subject st_predicate st_object];
      try (intros q E; vm_compute in E; injection E as <-; cbn; intuition discriminate);
      try (intros q E; vm_compute in E; discriminate E); try (cbn; intuition discriminate);
      intros x J; inversion J; subst; intros d E; try discriminate E. injection E as <-. split; [cbn; intuition discriminate|].
    intros U. exfalso. apply U. left. reflexivity.
  - intros st items I J. change (In st fx_list) in I. destruct I as [<-|[<-|[]]]; inversion J.
  - split; vm_compute; reflexivity.
  - cbn. lia.
  - vm_compute. split; reflexivity.
  - vm_compute. reflexivity.
  - eexists _, _, (Some rx_base), rx_mappings. split; [vm_compute; reflexivity|]. split.
    + exact (TurtleRead.rd_headings rx fx_graph (Some rx_base) rx_mappings fx_readable).
    + constructor; [|constructor]. split; [|split]; cbn [fst snd].
      * split; [|right; eauto]. constructor; [intros (b & E); discriminate|]. constructor; [left; reflexivity|].
        apply (Wd_segment (Some rx_base) (expand_with rx_mappings) rx_base $"a.b"); [reflexivity|]. split; [discriminate|]. split; [discriminate|]. split; [discriminate|].
        repeat (constructor; [cbn; intuition discriminate|]). constructor.
      * right. split; [intros (b & E); discriminate|]. constructor; [|constructor; [discriminate|vm_compute; reflexivity]]. right. split; [cbn; auto 10|split; [cbn; intuition discriminate|reflexivity]].
      * constructor; [intros (b & E); discriminate|]. apply (Dn_plain _ _ $"x. y"). repeat (apply Sr_plain; [cbn; intuition discriminate|]). constructor.
  - intros k read I (hs & d & b & ps & S & _). cbn [In] in I.
    repeat (destruct I as [<-|I]; [vm_compute in S; discriminate S|]). destruct I.
Qed.

(** C117 fails for names and numbers with full stops: cut after the full stop, they are read
    as other names and other numbers. *)
Definition fx_one (o : object) : graph := g_from_iter [MkStmt (SRes $"http://e/v/a") $"http://e/ns#p" o].
Theorem C117_dotted_refuted : forall o wrong kept lost,
  In (o, wrong, kept, lost)
    [(ORes $"http://e/ns#v1.2", VIri $"http://e/ns#v1", $"e:v1.", $"2 .");
     (OLit (Lit $"1.5" (Some DtDecimal) None), VText $"1" (xsd_type $"integer") None, $"1.", $"5 .")] ->
  exists c base mappings g out before,
  readable_graph c base mappings g /\ short_collections g /\ g_list g = [MkStmt (SRes $"http://e/v/a") $"http://e/ns#p" o] /\
  written c (fun l => l) 0 mappings 10 g = Done out /\ pieces_text out = before ++ kept ++ lost ++ [10; 10] /\
  turtle_reads (before ++ kept) [(RValue (VIri $"http://e/v/a"), $"http://e/ns#p", RValue wrong)] /\
  RValue wrong <> RValue (match o with OLit l => literal_value l | ORes i => VIri i | _ => wrong end).
Proof.
  intros o wrong kept lost J.
  exists rx, (Some rx_base), rx_mappings, (fx_one o), (match written rx (fun l => l) 0 rx_mappings 10 (fx_one o) with Done l => l | _ => [] end),
    (flat_map (fun x => x ++ [10]) [$"BASE <http://e/v/>"; []; $"PREFIX e: <http://e/ns#>"; $"PREFIX xsd: <http://www.w3.org/2001/XMLSchema#>"; []; $"<a>"] ++
     $"    e:p ").
  assert (Rg : readable_graph rx (Some rx_base) rx_mappings (fx_one o)).
  { destruct rx_ok as [S H]. split; [exact S|split; [exact H|split; [left; reflexivity|]]]. intros st I.
    change (In st [MkStmt (SRes $"http://e/v/a") $"http://e/ns#p" o]) in I. destruct I as [<-|[]].
    split; [apply rx_readable; reflexivity|]. split; [apply rx_readable; reflexivity|]. split.
    - intros T. exfalso. destruct T as [T|[T|[T|[T|[]]]]]; discriminate.
    - destruct J as [E|[E|[]]]; injection E as <- _ _ _; cbn [st_object].
      + apply Ro_iri, rx_readable. reflexivity.
      + apply Ro_literal. right. exists DtDecimal. split; [reflexivity|]. right. left. split; [reflexivity|].
        exists [], $"1", $"5". split; [reflexivity|]. split; [left; reflexivity|]. split; [constructor; [reflexivity|constructor]|].
        split; [constructor; [reflexivity|constructor]|discriminate]. }
  assert (Sub : forall k, subject_reads (Some rx_base) (expand_with rx_mappings) $"<a>" k <-> k = RValue (VIri $"http://e/v/a")).
  { assert (X : subject_reads (Some rx_base) (expand_with rx_mappings) $"<a>" (RValue (VIri $"http://e/v/a"))).
    { split; [|right; eauto]. constructor; [intros (b & E); discriminate|]. constructor; [left; reflexivity|].
      apply (Wd_segment (Some rx_base) (expand_with rx_mappings) rx_base $"a"); [reflexivity|]. split; [discriminate|]. split; [discriminate|]. split; [discriminate|].
      constructor; [cbn; intuition discriminate|constructor]. }
    intros k. split; [intros Y; exact (TurtleRead.leaf_fun _ _ _ _ _ (proj1 Y) (proj1 X))|intros ->; exact X]. }
  split; [exact Rg|]. split; [|split; [|split; [|split; [|split]]]].
  - intros st items I K. change (In st [MkStmt (SRes $"http://e/v/a") $"http://e/ns#p" o]) in I. destruct I as [<-|[]].
    destruct J as [E|[E|[]]]; injection E as <- _ _ _; inversion K.
  - reflexivity.
  - destruct J as [E|[E|[]]]; injection E as <- _ _ _; vm_compute; reflexivity.
  - destruct J as [E|[E|[]]]; injection E as <- _ <- <-; vm_compute; reflexivity.
  - pose proof (TurtleRead.rd_headings rx _ (Some rx_base) rx_mappings Rg) as Hr.
    assert (V : verb_reads (Some rx_base) (expand_with rx_mappings) $"e:p" $"http://e/ns#p").
    { right. split; [intros (b & E); discriminate|]. constructor; [|constructor; [discriminate|vm_compute; reflexivity]].
      right. split; [cbn; auto 10|split; [cbn; intuition discriminate|reflexivity]]. }
    destruct J as [E|[E|[]]]; injection E as <- <- <- _; (eexists _, _, (Some rx_base), rx_mappings; split; [vm_compute; reflexivity|];
      split; [exact Hr|]; constructor; [|constructor]; split; [exact (proj2 (Sub _) eq_refl)|split; [exact V|]]);
      (constructor; [intros (b & E); discriminate|]).
    + constructor; [|constructor; [discriminate|vm_compute; reflexivity]]. right. split; [cbn; auto 10|split; [cbn; intuition discriminate|reflexivity]].
    + apply Dn_integer. exists [], $"1". split; [reflexivity|]. split; [left; reflexivity|]. split; [constructor; [reflexivity|constructor]|discriminate].
  - destruct J as [E|[E|[]]]; injection E as <- <- _ _; discriminate.
Qed.
Print Assumptions C117_dotted_refuted.
