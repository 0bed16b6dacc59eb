(** More of RDF/XML that is read as what it says (C69): [xml:base] with [rdf:ID], and an IRI
    as the last property of the last node. *)
From Coq Require Import Lia Arith.
From Verif Require Import StrFacts GraphProofs SimplifyProofs TermProofs XmlProofs XmlRead.
From Verif Require Export XmlMoreSpec.

Section More.
Variable iri_parse : str -> option str.
Variable lang_parse : str -> option str.
Variable label_ok : str -> bool.
Variable gext printable : chr -> bool.
Variable emitted : list xml_item -> str.
Notation attributes := (parse_attributes_from iri_parse lang_parse).
Notation subjects := (parse_subjects Bare iri_parse lang_parse label_ok gext printable emitted).
Notation predicates := (parse_predicates Bare iri_parse lang_parse label_ok gext printable emitted).
Notation document := (parse_document Bare iri_parse lang_parse label_ok gext printable emitted).
Notation insert_all := (fold_left g_insert).
Let Inside : forall i, is_chars i -> is_chars i \/ ignorable i := fun i H => or_introl H.
Let Meant := language_meant iri_parse lang_parse.

Lemma more_attributes base n about s n' attrs props : more_about iri_parse label_ok base n about s n' ->
  Forall2 (attribute_says iri_parse gext printable s) attrs props ->
  exists a, parse_attributes iri_parse lang_parse (about ++ attrs) = io_ok a /\ a_inner a = attrs /\
    subject_of Bare iri_parse label_ok base a n = io_ok (s, n').
Proof.
  intros A F. destruct A as [n a s n' AS|n a s n' v b AS E|n v b' i E].
  - destruct (node_attributes Bare iri_parse lang_parse label_ok gext printable n a s n' attrs props AS F) as (x & P & I & S).
    exists x. auto.
  - destruct (node_attributes Bare iri_parse lang_parse label_ok gext printable n a s n' attrs props AS F) as (x & P & I & S).
    unfold parse_attributes, base_attribute in *. change xml_ns with XML_NAMESPACE. clear x P I S. rewrite <- app_assoc. destruct AS as [n|n u j E'|n u E'].
    + cbn [app parse_attributes_from xn_space xn_local]. change (opt_str_eqb (Some XML_NAMESPACE) (Some XML_NAMESPACE)) with true.
      change (str_eqb $"base" $"base") with true. cbv iota. unfold value_to_iri. rewrite E. unfold io_ok at 1 2. cbn [io_bind].
      rewrite (inner_attributes iri_parse lang_parse gext printable _ _ _ F). eexists. split; [reflexivity|]. split; reflexivity.
    + cbn [app parse_attributes_from rdf_name xn_space xn_local].
      change (opt_str_eqb (Some (rdf [])) (Some XML_NAMESPACE)) with false. change (opt_str_eqb (Some (rdf [])) (Some (rdf []))) with true.
      change (str_eqb $"about" $"about") with true. cbv iota. unfold value_to_iri. rewrite E', E. unfold io_ok. cbn [io_bind].
      change (opt_str_eqb (Some XML_NAMESPACE) (Some XML_NAMESPACE)) with true. change (str_eqb $"base" $"base") with true. cbv iota. cbn [io_bind].
      rewrite (inner_attributes iri_parse lang_parse gext printable _ _ _ F). eexists. split; [reflexivity|]. split; reflexivity.
    + cbn [app parse_attributes_from rdf_name xn_space xn_local].
      change (opt_str_eqb (Some (rdf [])) (Some XML_NAMESPACE)) with false. change (opt_str_eqb (Some (rdf [])) (Some (rdf []))) with true.
      change (str_eqb $"nodeID" $"about") with false. change (str_eqb $"nodeID" $"nodeID") with true. cbv iota. unfold io_ok. cbn [io_bind].
      change (opt_str_eqb (Some XML_NAMESPACE) (Some XML_NAMESPACE)) with true. change (str_eqb $"base" $"base") with true. cbv iota.
      unfold value_to_iri. rewrite E. unfold io_ok. cbn [io_bind].
      rewrite (inner_attributes iri_parse lang_parse gext printable _ _ _ F). eexists. split; [reflexivity|]. split; [reflexivity|].
      unfold subject_of. cbn [a_subject]. rewrite E'. reflexivity.
  - unfold parse_attributes. cbn [app parse_attributes_from rdf_name xn_space xn_local].
    change (opt_str_eqb (Some (rdf [])) (Some XML_NAMESPACE)) with false. change (opt_str_eqb (Some (rdf [])) (Some (rdf []))) with true.
    change (str_eqb $"ID" $"about") with false. change (str_eqb $"ID" $"nodeID") with false. change (str_eqb $"ID" $"ID") with true. cbv iota.
    unfold io_ok at 1. cbn [io_bind]. rewrite (inner_attributes iri_parse lang_parse gext printable _ _ _ F).
    eexists. split; [reflexivity|]. split; [reflexivity|]. unfold subject_of. cbn [a_subject show_iri]. unfold value_to_iri.
    rewrite E, <- app_assoc, H. reflexivity.
Qed.

(** The start tag of a node. *)
Lemma node_start_read base n name about attrs s n' type props fuel r g :
  more_about iri_parse label_ok base n about s n' -> type_says iri_parse s name type ->
  Forall2 (attribute_says iri_parse gext printable s) attrs props ->
  exists inner, subjects (S fuel) base (RState (IStart name (about ++ attrs) :: r) n g) =
    wbind (predicates fuel inner s false (RState r n' (insert_all (type ++ props) g))) (fun st => subjects fuel base st).
Proof.
  intros A T F. destruct (more_attributes base n about s n' attrs props A F) as (at' & P & IN & SB). exists (or_base at' base).
  cbn [parse_subjects r_items r_next r_graph]. rewrite P. unfold io_ok at 1. cbn [lift].
  rewrite SB. unfold io_ok at 1. cbn [lift].
  assert (TT : (if name_matches $"Description" (rdf []) name then io_ok g
      else let? t := name_to_iri iri_parse name in io_ok (g_insert g (MkStmt s (rdf $"type") (ORes t)))) = io_ok (insert_all type g)).
  { destruct T as [|nm t ND NM]; [reflexivity|]. destruct (name_matches _ _ nm) eqn:E; [apply name_matches_iff in E; contradiction|].
    rewrite (names_iri iri_parse _ _ NM). reflexivity. }
  rewrite TT. unfold io_ok at 1. cbn [lift]. rewrite IN, (attributes_read iri_parse gext printable _ _ _ F). unfold io_ok at 1. cbn [lift].
  rewrite fold_left_app. reflexivity.
Qed.

(** The last node and what follows it. *)
Lemma properties_then s body sts : properties_say iri_parse gext printable is_chars (language_says lang_parse) s body sts ->
  forall fuel base r n g, (length body < fuel)%nat ->
  exists k, (fuel - length body <= k)%nat /\
  predicates fuel base s false (RState (body ++ r) n g) = predicates k base s false (RState r n (insert_all sts g)).
Proof.
  induction 1 as [l G|l a st b sts G P _ IH]; intros fuel base r n g L.
  - exists (fuel - length l)%nat. split; [lia|]. rewrite (gap_predicates Bare iri_parse lang_parse label_ok gext printable emitted is_chars Inside _ Meant) by assumption. reflexivity.
  - rewrite !app_length in *. rewrite <- !app_assoc. rewrite (gap_predicates Bare iri_parse lang_parse label_ok gext printable emitted is_chars Inside _ Meant) by (assumption || lia).
    destruct P as [nm nm' p attrs lang content NM LA F]. rewrite !app_length in *. cbn [length] in *.
    destruct (fuel - length l)%nat as [|k] eqn:K; [lia|]. rewrite <- !app_assoc. cbn [parse_predicates r_items app r_next r_graph].
    destruct (Meant _ _ LA) as (at' & -> & A1 & A2 & A3 & A4). unfold io_ok at 1. cbn [lift]. rewrite A1, A2, A3, A4.
    rewrite (object_text Bare iri_parse lang_parse label_ok gext printable emitted is_chars Inside _ Meant) by (assumption || lia). cbn [wbind app r_items r_next r_graph].
    rewrite (names_iri iri_parse _ _ NM). unfold io_ok. cbn [lift].
    destruct (IH k base r n (g_insert g (MkStmt s p (OLit (Lit (escape_string gext printable (flat_map chars content)) None lang))))) as (k' & LE & E); [lia|].
    exists k'. split; [lia|]. cbn [fold_left]. rewrite <- E. destruct lang; reflexivity.
Qed.
Lemma text_read t : Forall wordy t -> forall opened seen r,
  parse_xml_literal emitted (t ++ r) opened seen = parse_xml_literal emitted r opened (seen ++ t).
Proof.
  induction 1 as [|i t H F IH]; intros opened seen r; [rewrite app_nil_r; reflexivity|].
  replace (seen ++ i :: t) with ((seen ++ [i]) ++ t) by (rewrite <- app_assoc; reflexivity).
  rewrite <- IH. destruct i; destruct H as [H|H]; try destruct H; reflexivity.
Qed.
Lemma contents_read b : contents b -> forall opened seen r,
  parse_xml_literal emitted (b ++ r) (S opened) seen = parse_xml_literal emitted r (S opened) (seen ++ b).
Proof.
  induction 1 as [|i t H F IH|n a b n' t Hb IHb Ht IHt]; intros opened seen r; [rewrite app_nil_r; reflexivity| |].
  - replace (seen ++ i :: t) with ((seen ++ [i]) ++ t) by (rewrite <- app_assoc; reflexivity).
    rewrite <- IH. destruct i; destruct H as [H|H]; try destruct H; reflexivity.
  - replace (seen ++ IStart n a :: b ++ IEnd n' :: t) with ((((seen ++ [IStart n a]) ++ b) ++ [IEnd n']) ++ t)
      by (rewrite <- !app_assoc; reflexivity).
    rewrite <- IHt. cbn [app parse_xml_literal]. rewrite <- app_assoc, IHb. reflexivity.
Qed.
Lemma angles_twice s : replace_chr 62 $"&gt;" (replace_chr 60 $"&lt;" s) = angles_escaped s.
Proof.
  unfold replace_chr, angles_escaped. induction s as [|c s IH]; [reflexivity|]. cbn [flat_map].
  rewrite flat_map_app, IH. f_equal. destruct (N.eqb_spec c 60) as [->|N]; [reflexivity|]. cbn [flat_map]. apply app_nil_r.
Qed.
Lemma reference_read s a st : reference_says iri_parse gext printable emitted s a st -> forall fuel base r n g, (length a < fuel)%nat ->
  predicates fuel base s false (RState (a ++ r) n g) = Done (RState r n (g_insert g st)).
Proof.
  intros [name name' p v i l NM E G|name name' p t m a0 b m' l NM T B G] fuel base r n g L; repeat (rewrite !app_length in L; cbn [length] in L); (destruct fuel as [|fuel]; [lia|]).
  - rewrite <- !app_assoc. cbn [parse_predicates r_items app r_next r_graph].
    unfold parse_attributes. cbn [app parse_attributes_from rdf_name xn_space xn_local].
    change (opt_str_eqb (Some (rdf [])) (Some XML_NAMESPACE)) with false. change (opt_str_eqb (Some (rdf [])) (Some (rdf []))) with true.
    change (str_eqb $"resource" $"about") with false. change (str_eqb $"resource" $"nodeID") with false. change (str_eqb $"resource" $"ID") with false.
    change (str_eqb $"resource" $"resource") with true. cbv iota. unfold value_to_iri. rewrite E. unfold io_ok. cbn [io_bind lift a_resource].
    rewrite (names_iri iri_parse _ _ NM). unfold io_ok. cbn [lift].
    rewrite (gap_predicates Bare iri_parse lang_parse label_ok gext printable emitted is_chars Inside _ Meant) by (assumption || lia).
    destruct (fuel - length l)%nat as [|k] eqn:K; [lia|]. reflexivity.
  - rewrite <- !app_assoc. cbn [parse_predicates r_items app r_next r_graph].
    unfold parse_attributes. cbn [app parse_attributes_from rdf_name xn_space xn_local].
    change (opt_str_eqb (Some (rdf [])) (Some XML_NAMESPACE)) with false. change (opt_str_eqb (Some (rdf [])) (Some (rdf []))) with true.
    change (str_eqb $"parseType" $"about") with false. change (str_eqb $"parseType" $"nodeID") with false. change (str_eqb $"parseType" $"ID") with false.
    change (str_eqb $"parseType" $"resource") with false. change (str_eqb $"parseType" $"parseType") with true.
    change (str_eqb $"Literal" $"Literal") with true. cbv iota zeta. unfold io_ok. cbn [io_bind lift a_resource a_parse].
    rewrite (text_read t T). cbn [app parse_xml_literal]. rewrite (contents_read b B). cbn [app parse_xml_literal wbind].
    rewrite (names_iri iri_parse _ _ NM). unfold io_ok. cbn [lift]. rewrite angles_twice, <- !app_assoc.
    rewrite (gap_predicates Bare iri_parse lang_parse label_ok gext printable emitted is_chars Inside _ Meant) by (assumption || lia).
    destruct (fuel - length l)%nat as [|k] eqn:K; [lia|]. reflexivity.
Qed.
Lemma nodes_more base n body sts n' : more_nodes iri_parse label_ok gext printable (language_says lang_parse) emitted base n body sts n' ->
  forall fuel x r g, (length body < fuel)%nat -> exists r',
  subjects fuel base (RState (body ++ IEnd x :: r) n g) = Done (RState r' n' (insert_all sts g)) /\
  (r' = r \/ exists l, gap l /\ (length l <= length body)%nat /\ r' = l ++ IEnd x :: r).
Proof.
  induction 1 as [n l G|n n1 n2 l name name' about attrs s type props body sts b y G A T F P _ IH|n n1 l name name' about attrs s type props body sts a st gp lst G A T F P R G1 G2];
    intros fuel x r g L.
  - exists r. split; [|left; reflexivity]. rewrite (gap_subjects Bare iri_parse lang_parse label_ok gext printable emitted is_chars Inside _ Meant) by assumption.
    destruct (fuel - length l)%nat as [|k] eqn:K; [lia|]. reflexivity.
  - rewrite !app_length in L. cbn [length] in L. rewrite <- !app_assoc. rewrite (gap_subjects Bare iri_parse lang_parse label_ok gext printable emitted is_chars Inside _ Meant) by (assumption || lia).
    destruct (fuel - length l)%nat as [|k] eqn:K; [lia|]. cbn [app].
    destruct (node_start_read base n name about attrs s n1 type props k (body ++ IEnd name' :: b ++ IEnd x :: r) g A T F) as (inner & E).
    rewrite E, (properties_read Bare iri_parse lang_parse label_ok gext printable emitted is_chars Inside _ Meant _ _ _ P) by lia. cbn [wbind].
    destruct (IH k x r (insert_all sts (insert_all (type ++ props) g))) as (r' & E' & C); [lia|]. exists r'. split.
    + rewrite E', !fold_left_app. reflexivity.
    + destruct C as [C|(l' & GL & LL & C)]; [left; exact C|right]. exists l'. split; [exact GL|]. split; [rewrite !app_length; cbn [app length]; rewrite !app_length; cbn [app length]; lia|exact C].
  - rewrite !app_length in L. cbn [length] in L. rewrite <- !app_assoc. rewrite (gap_subjects Bare iri_parse lang_parse label_ok gext printable emitted is_chars Inside _ Meant) by (assumption || lia).
    destruct (fuel - length l)%nat as [|k] eqn:K; [lia|]. cbn [app].
    destruct (node_start_read base n name about attrs s n1 type props k (body ++ a ++ gp ++ IEnd name' :: lst ++ IEnd x :: r) g A T F) as (inner & E).
    rewrite E. destruct (properties_then s body sts P k inner (a ++ gp ++ IEnd name' :: lst ++ IEnd x :: r) n1 (insert_all (type ++ props) g)) as (k' & LE & ->); [lia|].
    rewrite (reference_read s a st R) by lia. cbn [wbind]. exists (lst ++ IEnd x :: r). split.
    + rewrite (gap_subjects Bare iri_parse lang_parse label_ok gext printable emitted is_chars Inside _ Meant) by (assumption || lia).
      destruct (k - length gp)%nat as [|k2] eqn:K2; [lia|]. cbn [parse_subjects r_items r_next r_graph]. rewrite !fold_left_app. reflexivity.
    + right. exists lst. split; [exact G2|]. split; [repeat (rewrite !app_length; cbn [app length]); lia|reflexivity].
Qed.
Lemma c69_more n items sts n' fuel :
  more_document iri_parse label_ok gext printable (language_says lang_parse) emitted n items sts n' -> (length items < fuel)%nat ->
  xml_read Bare iri_parse lang_parse label_ok gext printable emitted fuel n items = Done (g_from_iter sts, n').
Proof.
  intros (before & attrs & base & body & name & after & rest & G & NS & A & _ & B & ->) L. repeat (rewrite !app_length in L; cbn [length] in L).
  unfold xml_read. rewrite (gap_document Bare iri_parse lang_parse label_ok gext printable emitted is_chars Inside) by (assumption || lia).
  destruct (fuel - length before)%nat as [|k] eqn:K; [lia|].
  cbn [parse_document r_items app r_next r_graph].
  assert (AT : exists a, parse_attributes iri_parse lang_parse attrs = io_ok a /\ a_base a = base).
  { destruct B as [[-> ->]|(v & b & -> & E & ->)]; [eexists; split; reflexivity|]. unfold parse_attributes. cbn. unfold value_to_iri. rewrite E. eexists. split; reflexivity. }
  destruct AT as (a & -> & AB). unfold io_ok at 1. cbn [lift]. change (name_matches $"RDF" (rdf []) (rdf_name $"RDF")) with true. cbv iota. rewrite AB.
  destruct (nodes_more _ _ _ _ _ NS k name (after ++ IDocEnd :: rest) g_default) as (r' & E & C); [lia|]. rewrite E. cbn [wbind].
  assert (FIN : forall k', (length after < k')%nat -> document k' (RState (after ++ IDocEnd :: rest) n' (insert_all sts g_default)) = Done (RState (IDocEnd :: rest) n' (insert_all sts g_default))).
  { intros k' L'. rewrite (gap_document Bare iri_parse lang_parse label_ok gext printable emitted is_chars Inside) by (assumption || lia).
    destruct (k' - length after)%nat as [|k2] eqn:K'; [lia|]. reflexivity. }
  assert (D : document k (RState r' n' (insert_all sts g_default)) = Done (RState (IDocEnd :: rest) n' (insert_all sts g_default))).
  { destruct C as [->|(l & GL & LL & ->)]; [apply FIN; lia|].
    rewrite (gap_document Bare iri_parse lang_parse label_ok gext printable emitted is_chars Inside) by (assumption || lia).
    destruct (k - length l)%nat as [|k2] eqn:K2; [lia|]. cbn [parse_document r_items r_next r_graph]. apply FIN. lia. }
  rewrite D. cbn [wbind r_graph r_next]. rewrite (fold_insert_list sts g_default []) by reflexivity. reflexivity.
Qed.

(** Bases of elements around a node. *)
Lemma own_attributes attrs own : own_base iri_parse attrs own -> exists a, parse_attributes iri_parse lang_parse attrs = io_ok a /\
  a_base a = own /\ a_resource a = None /\ a_parse a = None /\ a_data_type a = None /\ a_language a = None.
Proof.
  intros [[-> ->]|(v & b & -> & E & ->)]; [eexists; split; [reflexivity|]; repeat split|].
  unfold parse_attributes. cbn. unfold value_to_iri. rewrite E. eexists. split; [reflexivity|]. repeat split.
Qed.
Lemma about_attributes v i attrs own : iri_parse v = Some i -> own_base iri_parse attrs own ->
  exists a, parse_attributes iri_parse lang_parse ((rdf_name $"about", v) :: attrs) = io_ok a /\
  a_base a = own /\ a_inner a = [] /\ forall base n, subject_of Bare iri_parse label_ok base a n = io_ok (SRes i, n).
Proof.
  intros V [[-> ->]|(w & b & -> & E & ->)]; unfold parse_attributes; cbn; unfold value_to_iri; rewrite V; cbn; rewrite ?E; (eexists; split; [reflexivity|]; repeat split).
Qed.
Lemma id_attributes v : exists a, parse_attributes iri_parse lang_parse [(rdf_name $"ID", v)] = io_ok a /\
  a_base a = None /\ a_inner a = [] /\ forall b i n, iri_parse (b ++ v) = Some i -> subject_of Bare iri_parse label_ok (Some b) a n = io_ok (SRes i, n).
Proof.
  eexists. split; [reflexivity|]. split; [reflexivity|]. split; [reflexivity|]. intros b i n E. unfold subject_of, value_to_iri. cbn. rewrite E. reflexivity.
Qed.
Lemma c69_inherited n v0 v1 v2 o0 o1 o2 b about s id i p q w w' e1 e2 e3 e4 body sts fuel :
  own_base iri_parse v0 o0 -> own_base iri_parse v1 o1 -> own_base iri_parse v2 o2 -> nearest_base [o2; o1; o0] b ->
  iri_parse about = Some s -> iri_parse (b ++ id) = Some i -> names iri_parse p q ->
  properties_say iri_parse gext printable is_chars (language_says lang_parse) (SRes i) body sts ->
  let items := [IStart (rdf_name $"RDF") v0; IStart (rdf_name $"Description") ((rdf_name $"about", about) :: v1); IStart p []; IStart w v2;
                IStart (rdf_name $"Description") [(rdf_name $"ID", id)]] ++ body ++ [IEnd w'; IEnd e1; IEnd e2; IEnd e3; IEnd e4; IDocEnd] in
  (length items < fuel)%nat ->
  xml_read Bare iri_parse lang_parse label_ok gext printable emitted fuel n items =
  Done (g_from_iter (sts ++ [MkStmt (SRes s) q (OLit (Lit [] None None))]), n + 1).
Proof.
  intros O0 O1 O2 Nb Ab Id Nm P items L. unfold items in *. clear items. rewrite !app_length in L. cbn [length] in L.
  assert (NB : (match o2 with Some x => Some x | None => match o1 with Some x => Some x | None => o0 end end) = Some b).
  { inversion Nb as [|? ? H1]; subst; [reflexivity|]. inversion H1 as [|? ? H2]; subst; [reflexivity|]. inversion H2 as [|? ? H3]; subst; [reflexivity|inversion H3]. }
  do 6 (destruct fuel as [|fuel]; [lia|]). unfold xml_read. cbn [app].
  destruct (own_attributes _ _ O0) as (a0 & E0 & B0 & _). destruct (about_attributes _ _ _ _ Ab O1) as (a1 & E1 & B1 & I1 & S1).
  destruct (own_attributes _ _ O2) as (a2 & E2 & B2 & _). destruct (id_attributes id) as (a3 & E3 & B3 & I3 & S3).
  remember (S fuel) as f1. remember (S f1) as f2. remember (S f2) as f3. remember (S f3) as f4. remember (S f4) as f5.
  cbn [parse_document r_items r_next r_graph]. rewrite E0. unfold io_ok at 1. cbn [lift].
  change (name_matches $"RDF" (rdf []) (rdf_name $"RDF")) with true. cbv iota. rewrite B0.
  rewrite Heqf5 at 1. cbn [parse_subjects r_items r_next r_graph]. rewrite E1. unfold io_ok at 1. cbn [lift]. rewrite S1. unfold io_ok at 1. cbn [lift].
  change (name_matches $"Description" (rdf []) (rdf_name $"Description")) with true. cbv iota. unfold io_ok at 1. cbn [lift].
  rewrite I1. cbn [parse_predicate_attributes]. unfold io_ok at 1. cbn [lift].
  rewrite Heqf4 at 1. cbn [parse_predicates r_items r_next r_graph]. change (parse_attributes iri_parse lang_parse []) with (io_ok no_attrs).
  unfold io_ok at 1. cbn [lift]. change (a_resource no_attrs) with (@None str). change (a_parse no_attrs) with (@None parse_type). cbv iota.
  rewrite Heqf3 at 1. cbn [parse_object r_items r_next r_graph]. rewrite E2. unfold io_ok at 1. cbn [lift].
  assert (NB2 : or_base a2 (or_base a1 o0) = Some b) by (unfold or_base; rewrite B2, B1; exact NB). rewrite NB2.
  rewrite Heqf2 at 1. cbn [parse_subjects r_items r_next r_graph]. rewrite E3. unfold io_ok at 1. cbn [lift]. rewrite (S3 b i _ Id). unfold io_ok at 1. cbn [lift].
  change (name_matches $"Description" (rdf []) (rdf_name $"Description")) with true. cbv iota. unfold io_ok at 1. cbn [lift].
  rewrite I3. cbn [parse_predicate_attributes]. unfold io_ok at 1. cbn [lift].
  rewrite (properties_read Bare iri_parse lang_parse label_ok gext printable emitted is_chars Inside _ Meant _ _ _ P) by lia. cbn [wbind].
  rewrite Heqf1 at 1. cbn [parse_subjects r_items r_next r_graph wbind].
  rewrite Heqf2 at 1. cbn [parse_object r_items r_next r_graph wbind].
  change (a_data_type no_attrs) with (@None str). change (a_language no_attrs) with (@None str). cbv iota zeta.
  rewrite (names_iri iri_parse _ _ Nm). unfold io_ok at 1. cbn [lift].
  rewrite Heqf3 at 1. cbn [parse_predicates r_items r_next r_graph wbind].
  rewrite Heqf4 at 1. cbn [parse_subjects r_items r_next r_graph wbind].
  rewrite Heqf5 at 1. cbn [parse_document r_items r_next r_graph wbind].
  f_equal. f_equal. rewrite (fold_insert_list sts g_default []) by reflexivity. reflexivity.
Qed.
End More.
