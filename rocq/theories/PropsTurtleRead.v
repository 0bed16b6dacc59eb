(** Property theorem C100 (Turtle documents read back).  Statements only; proofs in
    TurtleRead.v.  [turtle_reads text l]: the text is a Turtle document with the statements
    [l]; the reader is that of TurtleReadSpec.v. *)
From Verif Require Import Turtle TurtleSpec GraphSpec PNameSpec LiteralSpec TurtleLitSpec TurtleReadSpec TurtleRead TurtleReadNames.
From Verif Require Url IriSpec IriProofs PName PNameProofs PrefixMap PrefixMapSpec StrFacts.
From Coq Require Import Permutation Lia Relation_Operators.

(** C100: a graph whose words can be read, and without collections of more than one item, is
    written as a Turtle document that has its statements, each once, and no others.  With
    nesting, a blank node that is an object is read as a node without a label of which the
    text says in brackets what the graph says of it. *)
Theorem C100_read_back : forall c base mappings g f ho n, readable_graph c base mappings g -> short_collections g ->
  has_room c f -> (graph_size g < f)%nat -> hash_order ho ->
  exists out l read, written c ho n mappings f g = Done out /\ NoDup l /\ (forall st, In st l <-> In st (g_list g)) /\
    turtle_reads (pieces_text out) read /\ Forall2 (statement_means g (nest_blank_nodes (t_opts c))) l read.
Proof. exact c100_written. Qed.
Print Assumptions C100_read_back.

(** C100: the graph is not the one that is read, if blank nodes are nested and one of them is
    both object and subject: it is read as two nodes, one with its label and one without. *)
Theorem C100_nested_refuted : forall c base mappings g f ho n s p b q o, readable_graph c base mappings g -> short_collections g ->
  has_room c f -> (graph_size g < f)%nat -> hash_order ho -> nest_blank_nodes (t_opts c) = true ->
  In (MkStmt s p (OBlank b)) (g_list g) -> In (MkStmt (SBlank b) q o) (g_list g) ->
  exists out read, written c ho n mappings f g = Done out /\ turtle_reads (pieces_text out) read /\
    (exists r po l, In (r, p, RNode po) read /\ subject_means s r /\ In (q, l) po /\ l <> []) /\
    exists r, In (RBlank b, q, r) read.
Proof. exact c100_twice. Qed.
Print Assumptions C100_nested_refuted.

(** C100: a text is not read in two ways. *)
Theorem C100_one_reading : forall text l l', turtle_reads text l -> turtle_reads text l' -> l = l'.
Proof. exact c100_unique. Qed.
Print Assumptions C100_one_reading.

(** C100: whatever the options, the prefixes and the orders, graphs written as the same text
    say the same. *)
Theorem C100_same_text : forall c c' base base' mappings mappings' g g' f f' ho ho' n n' out,
  readable_graph c base mappings g -> short_collections g -> has_room c f -> (graph_size g < f)%nat -> hash_order ho ->
  readable_graph c' base' mappings' g' -> short_collections g' -> has_room c' f' -> (graph_size g' < f')%nat -> hash_order ho' ->
  written c ho n mappings f g = Done out -> forall out', written c' ho' n' mappings' f' g' = Done out' ->
  pieces_text out = pieces_text out' ->
  forall st, In st (g_list g) -> exists st' y, In st' (g_list g') /\
    statement_means g (nest_blank_nodes (t_opts c)) st y /\ statement_means g' (nest_blank_nodes (t_opts c')) st' y.
Proof. exact c100_same_text. Qed.
Print Assumptions C100_same_text.

(** C100 fails for every graph with a longer collection: commas are written between its
    items, and the text is no Turtle document. *)
Theorem C100_collection_refuted : forall c base mappings g f ho n, readable_graph c base mappings g -> ~ short_collections g ->
  has_room c f -> (graph_size g < f)%nat -> hash_order ho ->
  exists out, written c ho n mappings f g = Done out /\ forall read, ~ turtle_reads (pieces_text out) read.
Proof. exact c100_written_long. Qed.
Print Assumptions C100_collection_refuted.

(** C100: with the names and declarations of a prefix map, IRIs meet what is asked of names,
    if they do not end in a bare '#' (C13) and do not make [split] panic (C09). *)
Theorem C100_prefix_map : forall parse, PrefixMapSpec.parser_ok parse -> forall s h m compress mappings,
  Forall PrefixMapSpec.op_ok h -> PrefixMap.pm_run parse s h = Ret m -> names_from m compress -> declares m mappings ->
  (forall p ns, In (p, ns) (PrefixMap.pm_mappings m) -> PNAME_NS (PName.ns_text p)) ->
  NoDup (map fst mappings) /\ (forall p ns, In (p, ns) mappings -> PNAME_NS (p ++ $":") /\ absolute ns) /\
  forall u, Url.wf_url u = true -> Url.u_frag u <> Some [] -> ~ IriSpec.opaque_with_last_segment u ->
    compress (Url.url_ser u) = Ret None \/
    exists p ns l, compress (Url.url_ser u) = Ret (Some (p ++ $":" ++ l)) /\ In (p, ns) mappings /\ PN_LOCAL l /\
      Url.url_ser u = ns ++ l.
Proof. exact c100_names. Qed.
Print Assumptions C100_prefix_map.

(** ** Examples used below *)
Definition rx_base : Url.url := Url.MkUrl $"http" (Some $"e") $"/v/" None None.
Definition rx_ns : str := $"http://e/ns#".
Definition rx_xsd : str := $"http://www.w3.org/2001/XMLSchema#".
Definition rx_mappings : list (str * str) := [($"e", rx_ns); ($"xsd", rx_xsd)].
Definition rx_compress (i : str) : outcome (option str) :=
  Ret (match strip_prefix rx_ns i with
       | Some r => Some ($"e:" ++ r)
       | None => match strip_prefix rx_xsd i with Some r => Some ($"xsd:" ++ r) | None => None end
       end).
Definition rx : setting :=
  Setting 18446744073709551616 Checked Bare (fun s => Some s) (fun _ => false) (fun c => N.leb 32 c && negb (N.eqb c 127))
    rx_compress (TtlOptions (Some (Url.url_ser rx_base)) false false false true true false false None [] 4 false)
    (fun _ l => l) (fun _ l => l) (fun _ l => l).
Definition rx_list : list statement :=
  [MkStmt (SRes $"http://e/v/a") (rdf $"type") (ORes $"http://e/ns#T");
   MkStmt (SRes $"http://e/v/a") $"http://e/ns#p" (OLit (Lit ($"x" ++ [34] ++ $"y") None None));
   MkStmt (SRes $"http://e/v/a") $"http://e/ns#p" (OLit (Lit $"hi" None (Some $"en-GB")));
   MkStmt (SRes $"http://e/v/a") $"http://e/ns#p" (OLit (Lit $"2020-01-01" (Some DtDate) None));
   MkStmt (SRes $"http://e/v/a") $"http://e/ns#q" (OLit (Lit $"-1.5" (Some DtDecimal) None));
   MkStmt (SRes $"http://e/v/a") $"http://e/ns#q" (OBlank $"b");
   MkStmt (SBlank $"b") $"http://f/r" (OColl [ORes $"http://e/ns#v1.2"])].
Definition rx_graph : graph := g_from_iter rx_list.
Definition rx_check (i : str) : bool :=
  forallb iri_char i && existsb (N.eqb 58) i &&
  match strip_prefix (Url.url_ser rx_base) i with
  | Some r => negb (str_eqb r []) && negb (str_eqb r $".") && negb (str_eqb r $"..") &&
              forallb (fun x => negb (existsb (N.eqb x) [47; 58; 63; 35])) r
  | None => true
  end &&
  match strip_prefix rx_ns i, strip_prefix rx_xsd i with
  | Some r, _ | None, Some r => PName.name_is_valid_str r
  | None, None => true
  end.
Lemma rx_readable i : rx_check i = true -> readable_iri rx (Some rx_base) rx_mappings i.
Proof.
  unfold rx_check. intros H. apply andb_prop in H as [H H4]. apply andb_prop in H as [H H3]. apply andb_prop in H as [H1 H2].
  split; [exact H1|]. split; [split; [reflexivity|split]|].
  - apply existsb_exists in H2 as (x & I & E). apply N.eqb_eq in E. subst x. apply in_split in I as (a & b & ->). exists a, b. reflexivity.
  - split; [split; [exists $"/v"; reflexivity|split; reflexivity]|]. intros r E. rewrite E, StrFacts.strip_prefix_app in H3.
    apply andb_prop in H3 as [H3 C]. apply andb_prop in H3 as [H3 B]. apply andb_prop in H3 as [H3 A].
    assert (K : forall u, negb (str_eqb r u) = true -> r <> u) by (intros u X ->; rewrite StrFacts.str_eqb_refl in X; discriminate).
    split; [apply K, H3|split; [apply K, A|split; [apply K, B|]]]. apply Forall_forall. intros x I J.
    rewrite forallb_forall in C. specialize (C x I). apply Bool.negb_true_iff in C.
    assert (Y : existsb (N.eqb x) [47; 58; 63; 35] = true) by (apply existsb_exists; exists x; split; [exact J|apply N.eqb_refl]). congruence.
  - change (t_compress rx i) with (rx_compress i). unfold rx_compress.
    assert (V : forall r, PName.name_is_valid_str r = true -> r = [] \/ PN_LOCAL r)
      by (intros r V; right; apply (proj2 (PNameProofs.c01_name_grammar r)), V).
    destruct (strip_prefix rx_ns i) as [r|] eqn:E1; [|destruct (strip_prefix rx_xsd i) as [r|] eqn:E2; [|left; reflexivity]]; right.
    + apply StrFacts.strip_prefix_Some in E1. exists $"e", rx_ns, r. split; [reflexivity|]. split; [left; reflexivity|]. auto.
    + apply StrFacts.strip_prefix_Some in E2. exists $"xsd", rx_xsd, r. split; [reflexivity|]. split; [right; left; reflexivity|]. auto.
Qed.
Lemma rx_local l : PName.name_is_valid_str l = true -> PN_LOCAL l.
Proof. apply (proj2 (PNameProofs.c01_name_grammar l)). Qed.
Lemma rx_prefix : forall p, PName.name_is_valid_str p = true -> PName.namespace_from_str (p ++ $":") = Ok (PName.MkNamespace (p ++ $":")) ->
      last p 0 <> 46 -> PNAME_NS (p ++ $":").
Proof.
  intros p V N L. apply (proj1 (PNameProofs.c02_namespace_exact (p ++ $":"))) in N as [_ [N|(c & mid & _ & _ & N)]]; [exact N|].
      exfalso. assert (X : c :: mid ++ $".:" = (c :: mid ++ [46]) ++ $":") by (cbn [app]; rewrite <- app_assoc; reflexivity).
      pose proof (eq_trans N X) as N2. clear N X. apply app_inj_tail in N2 as [-> _]. change (c :: mid ++ [46]) with ((c :: mid) ++ [46]) in L. rewrite last_last in L. congruence.
Qed.
Lemma rx_prefix_a : PNAME_NS $"a:".
Proof. apply (rx_prefix $"a"); [reflexivity|reflexivity|discriminate]. Qed.
Lemma rx_ok : setting_ok rx /\ readable_head rx (Some rx_base) rx_mappings.
Proof.
  split; [split; [|split]; intros t l; apply Permutation_refl|]. split; [split; [|split]; reflexivity|]. split; [reflexivity|].
  split; [split; reflexivity|]. split.
  - constructor; [cbn; intuition discriminate|]. constructor; [intros []|constructor].
  - intros p ns [E|[E|[]]]; injection E as <- <-; (split; [apply rx_prefix; [reflexivity|reflexivity|discriminate]|]); (split; [|reflexivity]).
    + exists $"http", $"//e/ns#". reflexivity.
    + exists $"http", $"//www.w3.org/2001/XMLSchema#". reflexivity.
Qed.
Example C100_example :
  readable_graph rx (Some rx_base) rx_mappings rx_graph /\ short_collections rx_graph /\ has_room rx 10 /\ (graph_size rx_graph < 10)%nat /\
  match written rx (fun l => l) 0 rx_mappings 10 rx_graph with
  | Done out => pieces_text out = flat_map (fun x => x ++ [10])
      [$"BASE <http://e/v/>"; []; $"PREFIX e: <http://e/ns#>"; $"PREFIX xsd: <http://www.w3.org/2001/XMLSchema#>"; [];
       $"<a>";
       $"    a" ++ repeat 32 49 ++ $"e:T ;";
       $"    e:p" ++ repeat 32 47 ++ [34] ++ $"2020-01-01" ++ [34] ++ $"^^xsd:date,";
       repeat 32 58 ++ [34] ++ $"hi" ++ [34] ++ $"@en-GB,";
       repeat 32 58 ++ [34] ++ $"x\" ++ [34] ++ $"y" ++ [34] ++ $" ;";
       $"    e:q" ++ repeat 32 47 ++ $"-1.5,_:b ."; []; [];
       $"_:b"; $"    <http://f/r> ("; $"        e:v1.2"; $"        ) ."; []]
  | _ => False
  end.
Proof.
  split; [|split; [|split; [|split]]].
  - destruct rx_ok as [S H]. split; [exact S|split; [exact H|split; [left; reflexivity|]]]. intros st I. change (In st rx_list) in I.
    repeat (destruct I as [<-|I]; [split; [|split; [apply rx_readable; reflexivity|split]]; cbn [st_subject st_predicate st_object];
      [try (apply rx_readable; reflexivity); try (apply rx_local; reflexivity)
      |intros T; try reflexivity; exfalso; destruct T as [T|[T|[T|[T|[]]]]]; discriminate
      |]|]); [..|destruct I].
    + apply Ro_iri, rx_readable. reflexivity.
    + apply Ro_literal. left. split; [exact Logic.I|]. split; [|exact Logic.I].
      repeat (constructor; [first [left; split; [cbn; intuition discriminate|split; reflexivity]|right; cbn; auto 10]|]). constructor.
    + apply Ro_literal. left. split; [exists $"en", [$"GB"]; split; [reflexivity|split; [discriminate|split; [reflexivity|]]]; constructor; [split; [discriminate|reflexivity]|constructor]|].
      split; [|exact Logic.I]. repeat (constructor; [left; split; [cbn; intuition discriminate|split; reflexivity]|]). constructor.
    + apply Ro_literal. left. split; [split; [discriminate|cbn; intuition discriminate]|]. split; [|apply rx_readable; reflexivity].
      repeat (constructor; [left; split; [cbn; intuition discriminate|split; reflexivity]|]). constructor.
    + apply Ro_literal. right. exists DtDecimal. split; [reflexivity|]. right. left. split; [reflexivity|].
      exists $"-", $"1", $"5". split; [reflexivity|]. split; [right; right; reflexivity|]. split; [constructor; [reflexivity|constructor]|].
      split; [constructor; [reflexivity|constructor]|discriminate].
    + apply Ro_blank. intros _. apply rx_local. reflexivity.
    + apply Ro_collection. intros o [<-|[]]. apply Ro_iri, rx_readable. reflexivity.
  - intros st items I J. change (In st rx_list) in I.
    repeat (destruct I as [<-|I]; [inversion J as [o E|o x its K J' E]; subst; cbn; try lia; destruct K as [<-|[]]; inversion J'|]). destruct I.
  - split; vm_compute; reflexivity.
  - cbn. lia.
  - vm_compute. reflexivity.
Qed.

(** C100 fails for an IRI that ends in a bare '#', with the names of a prefix map: it is
    written with a name that is read as another IRI. *)
Definition rx_map : PrefixMap.prefix_map :=
  match PrefixMap.pm_run Url.url_reparse PrefixMap.StartEmpty
    [PrefixMap.OpInsert (PName.MkNamespace $"a:") (Url.MkUrl $"https" (Some $"e") $"/ns/" None (Some []))] with
  | Ret m => m
  | Panic => PrefixMap.pm_empty
  end.
Definition rx_map_compress (i : str) : outcome (option str) :=
  match Url.url_reparse i with
  | None => Ret None
  | Some u => match PrefixMap.pm_compress rx_map u with Ret l => Ret (option_map PName.local_name_display l) | Panic => Panic end
  end.
Definition rx_map_setting : setting :=
  Setting 18446744073709551616 Checked Bare (fun s => Some s) (fun _ => false) (fun c => N.leb 32 c) rx_map_compress
    ttl_default_options (fun _ l => l) (fun _ l => l) (fun _ l => l).
Theorem C100_fragment_refuted : exists m c mappings i j g out,
  names_from m (t_compress c) /\ declares m mappings /\ setting_ok c /\ no_conversion c /\ absolute i /\ i <> j /\
  g_list g = [MkStmt (SRes i) i (ORes i)] /\ written c (fun l => l) 0 mappings 10 g = Done out /\
  forall read, turtle_reads (pieces_text out) read <-> read = [(RValue (VIri j), j, RValue (VIri j))].
Proof.
  exists rx_map, rx_map_setting, [($"a", $"https://e/ns/#")], $"https://e/ns/Name#", $"https://e/ns/#Name",
    (g_from_iter [MkStmt (SRes $"https://e/ns/Name#") $"https://e/ns/Name#" (ORes $"https://e/ns/Name#")]),
    (match written rx_map_setting (fun l => l) 0 [($"a", $"https://e/ns/#")] 10
       (g_from_iter [MkStmt (SRes $"https://e/ns/Name#") $"https://e/ns/Name#" (ORes $"https://e/ns/Name#")]) with Done l => l | _ => [] end).
  split; [intros u W; change (t_compress rx_map_setting) with rx_map_compress; unfold rx_map_compress; rewrite (IriProofs.url_reparse_ser u W); reflexivity|].
  split; [apply Permutation_refl|]. split; [split; [|split]; intros t l; apply Permutation_refl|]. split; [split; [|split]; reflexivity|].
  split; [exists $"https", $"//e/ns/Name#"; reflexivity|]. split; [discriminate|]. split; [reflexivity|]. split; [vm_compute; reflexivity|].
  assert (R : turtle_reads (flat_map (fun x => x ++ [10]) [$"@prefix a: <https://e/ns/#> ."; []; $"a:Name"; $"    a:Name a:Name ."; []])
    [(RValue (VIri $"https://e/ns/#Name"), $"https://e/ns/#Name", RValue (VIri $"https://e/ns/#Name"))]).
  { exists [HPrefix $"a:" $"<https://e/ns/#>"], [($"a:Name", [($"a:Name", [Leaf $"a:Name"])])], None, [($"a", $"https://e/ns/#")].
    split; [vm_compute; reflexivity|]. split.
    - apply (Hr_prefix [] None [] $"a" $"https://e/ns/#"); [constructor|apply rx_prefix_a|exists $"https", $"//e/ns/#"; reflexivity].
    - assert (D : denotes None (expand_with [($"a", $"https://e/ns/#")]) $"a:Name" (VIri $"https://e/ns/#Name")).
      { apply Dn_iri; [right; split; [cbn; auto|split; [cbn; intuition discriminate|reflexivity]]|].
        apply Wd_name; [discriminate|reflexivity]. }
      assert (L : ~ labels_start $"a:Name") by (intros (b & E); discriminate).
      constructor; [|constructor]. split; [split; [constructor; auto|right; eexists; reflexivity]|]. split; [right; auto|constructor; auto]. }
  assert (E : pieces_text (match written rx_map_setting (fun l => l) 0 [($"a", $"https://e/ns/#")] 10
       (g_from_iter [MkStmt (SRes $"https://e/ns/Name#") $"https://e/ns/Name#" (ORes $"https://e/ns/Name#")]) with Done l => l | _ => [] end) =
    flat_map (fun x => x ++ [10]) [$"@prefix a: <https://e/ns/#> ."; []; $"a:Name"; $"    a:Name a:Name ."; []]) by (vm_compute; reflexivity).
  rewrite E. intros read. split; [intros H; exact (c100_unique _ _ _ H R)|intros ->; exact R].
Qed.
Print Assumptions C100_fragment_refuted.

(** C100 fails for rdfs:subClassOf even as rdf:type (C49), if the word for rdf:type is longer
    than those for the predicates of the subject: there is nothing between the predicate and the
    object. *)
Definition rx_long_mappings : list (str * str) := [($"e", $"http://e/"); ($"rdfnamespace", rdf []); ($"s", rdfs [])].
Definition rx_long_compress (i : str) : outcome (option str) :=
  Ret (match strip_prefix $"http://e/" i, strip_prefix (rdf []) i, strip_prefix (rdfs []) i with
       | Some r, _, _ => Some ($"e:" ++ r)
       | None, Some r, _ => Some ($"rdfnamespace:" ++ r)
       | None, None, Some r => Some ($"s:" ++ r)
       | None, None, None => None
       end).
Definition rx_long : setting :=
  Setting 18446744073709551616 Checked Bare (fun s => Some s) (fun _ => false) (fun c => N.leb 32 c) rx_long_compress
    ttl_default_options (fun _ l => l) (fun _ l => l) (fun _ l => l).
Theorem C100_type_refuted : exists c mappings s p o g out,
  setting_ok c /\ no_conversion c /\ type_like p /\ g_list g = [MkStmt (SRes s) p (ORes o)] /\
  (forall i, In i [s; p; rdf $"type"; o] -> exists q ns l, t_compress c i = Ret (Some (q ++ $":" ++ l)) /\ In (q, ns) mappings /\ PN_LOCAL l /\ i = ns ++ l) /\
  written c (fun l => l) 0 mappings 10 g = Done out /\
  pieces_text out = flat_map (fun x => x ++ [10]) [$"@prefix e: <http://e/> ."; $"@prefix rdfnamespace: <" ++ rdf [] ++ $"> ."; $"@prefix s: <" ++ rdfs [] ++ $"> ."; [];
    $"e:A"; $"    rdfnamespace:typee:B ."; []] /\
  forall read, ~ turtle_reads (pieces_text out) read.
Proof.
  exists rx_long, rx_long_mappings, $"http://e/A", (rdfs $"subClassOf"), $"http://e/B",
    (g_from_iter [MkStmt (SRes $"http://e/A") (rdfs $"subClassOf") (ORes $"http://e/B")]),
    (match written rx_long (fun l => l) 0 rx_long_mappings 10
       (g_from_iter [MkStmt (SRes $"http://e/A") (rdfs $"subClassOf") (ORes $"http://e/B")]) with Done l => l | _ => [] end).
  split; [split; [|split]; intros t l; apply Permutation_refl|]. split; [split; [|split]; reflexivity|]. split; [right; left; reflexivity|].
  split; [reflexivity|]. split.
  - intros i [<-|[<-|[<-|[<-|[]]]]].
    + exists $"e", $"http://e/", $"A". split; [reflexivity|]. split; [left; reflexivity|]. split; [apply rx_local; reflexivity|reflexivity].
    + exists $"s", (rdfs []), $"subClassOf". split; [vm_compute; reflexivity|]. split; [right; right; left; reflexivity|]. split; [apply rx_local; reflexivity|reflexivity].
    + exists $"rdfnamespace", (rdf []), $"type". split; [vm_compute; reflexivity|]. split; [right; left; reflexivity|]. split; [apply rx_local; reflexivity|reflexivity].
    + exists $"e", $"http://e/", $"B". split; [reflexivity|]. split; [left; reflexivity|]. split; [apply rx_local; reflexivity|reflexivity].
  - split; [vm_compute; reflexivity|]. split; [vm_compute; reflexivity|]. intros read (hs & d & b & ps & S & _).
    vm_compute in S. discriminate S.
Qed.
Print Assumptions C100_type_refuted.

(** Nested: the node b is described in brackets, with the node c in its list, and again on its
    own. *)
Definition rn : setting :=
  Setting 18446744073709551616 Checked Bare (fun s => Some s) (fun _ => false) (fun c => N.leb 32 c && negb (N.eqb c 127))
    rx_compress (TtlOptions (Some (Url.url_ser rx_base)) true false false true true false false None [] 4 true)
    (fun _ l => l) (fun _ l => l) (fun _ l => l).
Definition rn_list : list statement :=
  [MkStmt (SRes $"http://e/v/a") $"http://e/ns#p" (OBlank $"b");
   MkStmt (SBlank $"b") $"http://e/ns#q" (OColl [OBlank $"c"]);
   MkStmt (SBlank $"b") $"http://e/ns#r" (ORes $"http://e/ns#x")].
Definition rn_graph : graph := g_from_iter rn_list.
Lemma rn_acyclic : ~ cyclic rn_graph.
Proof.
  assert (S : forall x y, leads_to rn_graph x y -> x = $"b" /\ y = $"c").
  { intros x y (p & o & I & J). change (In (MkStmt (SBlank x) p o) rn_list) in I. destruct I as [I|[I|[I|[]]]]; [discriminate| |]; injection I as <- <- <-.
    - split; [reflexivity|]. inversion J as [|o' z items K J']; subst. destruct K as [<-|[]]. inversion J'; reflexivity.
    - inversion J. }
  assert (T : forall x y, clos_trans str (leads_to rn_graph) x y -> x = $"b" /\ y = $"c").
  { intros x y H. induction H as [x y H|x y z _ [-> ->] _ [E _]]; [apply S, H|discriminate]. }
  intros (x & H). destruct (T _ _ H) as [-> E]. discriminate.
Qed.
Example C100_nested_example :
  readable_graph rn (Some rx_base) rx_mappings rn_graph /\ short_collections rn_graph /\ has_room rn 10 /\ (graph_size rn_graph < 10)%nat /\
  nest_blank_nodes (t_opts rn) = true /\
  (match written rn (fun l => l) 0 rx_mappings 10 rn_graph with
   | Done out => pieces_text out = flat_map (fun x => x ++ [10])
      [$"BASE <http://e/v/>"; []; $"PREFIX e: <http://e/ns#>"; $"PREFIX xsd: <http://www.w3.org/2001/XMLSchema#>"; [];
       $"<a>"; $"    e:p ["; $"        e:q ("; $"            []"; $"            ) ;"; $"        e:r e:x"; $"    ] ."; []; [];
       $"_:b"; $"    e:q ("; $"        []"; $"        ) ;"; $"    e:r e:x ."; []]
   | _ => False
   end).
Proof.
  split; [|split; [|split; [|split; [|split]]]].
  - destruct rx_ok as [_ H]. split; [split; [|split]; intros t l; apply Permutation_refl|split; [exact H|split; [right; apply rn_acyclic|]]].
    intros st I. change (In st rn_list) in I.
    repeat (destruct I as [<-|I]; [split; [|split; [apply rx_readable; reflexivity|split]]; cbn [st_subject st_predicate st_object];
      [try (apply rx_readable; reflexivity); try (apply rx_local; reflexivity)
      |intros T; exfalso; destruct T as [T|[T|[T|[T|[]]]]]; discriminate
      |]|]); [..|destruct I].
    + apply Ro_blank. discriminate.
    + apply Ro_collection. intros o [<-|[]]. apply Ro_blank. discriminate.
    + apply Ro_iri, rx_readable. reflexivity.
  - intros st items I J. change (In st rn_list) in I.
    repeat (destruct I as [<-|I]; [inversion J as [o E|o x its K J' E]; subst; cbn; try lia; destruct K as [<-|[]]; inversion J'|]). destruct I.
  - split; vm_compute; reflexivity.
  - cbn. lia.
  - reflexivity.
  - vm_compute. reflexivity.
Qed.

Example C100_collection_example :
  let o := OColl [ORes $"http://e/ns#a"; ORes $"http://e/ns#b"] in
  let g := g_from_iter [MkStmt (SBlank $"x") $"http://e/ns#p" o] in
  readable_graph rx (Some rx_base) rx_mappings g /\ ~ short_collections g /\ (graph_size g < 10)%nat /\
  match written rx (fun l => l) 0 [] 10 g with
  | Done out => pieces_text out = flat_map (fun x => x ++ [10])
      [$"BASE <http://e/v/>"; []; []; $"_:x"; $"    e:p ("; $"        e:a, e:b"; $"        ) ."; []] | _ => False end.
Proof.
  cbv zeta. split; [|split; [|split]].
  - destruct rx_ok as [S H]. split; [exact S|split; [exact H|split; [left; reflexivity|]]]. intros st [<-|[]]. split; [apply rx_local; reflexivity|].
    split; [apply rx_readable; reflexivity|]. split.
    + intros T. exfalso. destruct T as [T|[T|[T|[T|[]]]]]; discriminate.
    + apply Ro_collection. intros o [<-|[<-|[]]]; apply Ro_iri, rx_readable; reflexivity.
  - intros H. specialize (H _ _ (or_introl eq_refl) (In_self _)). cbn in H. lia.
  - cbn. lia.
  - vm_compute. reflexivity.
Qed.
