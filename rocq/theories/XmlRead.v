From Coq Require Import Lia Arith.
From Verif Require Import StrFacts GraphProofs SimplifyProofs TermProofs XmlProofs.
From Verif Require Export XmlSpec.

Lemma name_matches_iff local ns n : name_matches local ns n = true <-> n = XName (Some ns) local.
Proof.
  unfold name_matches. destruct n as [[s|] l]; cbn [xn_local xn_space opt_str_eqb].
  - rewrite Bool.andb_true_iff, !str_eqb_eq. split; [intros [-> ->]; reflexivity|intros E; injection E as -> ->; auto].
  - rewrite Bool.andb_false_r. split; discriminate.
Qed.
Lemma opt_str_eqb_iff a b : opt_str_eqb a b = true <-> a = b.
Proof.
  destruct a as [a|], b as [b|]; cbn [opt_str_eqb]; try (split; discriminate); [|split; reflexivity].
  rewrite str_eqb_eq. split; [intros ->; reflexivity|intros E; injection E as ->; reflexivity].
Qed.
Lemma opt_str_neq a b : a <> b -> opt_str_eqb a b = false.
Proof. intros N. destruct (opt_str_eqb a b) eqn:E; [apply opt_str_eqb_iff in E; contradiction|reflexivity]. Qed.

Section Reader.
Variable m : iri_mode.
Variable iri_parse : str -> option str.
Variable lang_parse : str -> option str.
Variable label_ok : str -> bool.
Variable gext printable : chr -> bool.
Variable emitted : list xml_item -> str.
Variable inside : xml_item -> Prop.
Hypothesis Inside : forall i, inside i -> is_chars i \/ ignorable i.
Variable meant : list (xname * str) -> option str -> Prop.
Hypothesis Meant : forall attrs lang, meant attrs lang -> exists a, parse_attributes iri_parse lang_parse attrs = io_ok a /\
  a_resource a = None /\ a_parse a = None /\ a_data_type a = None /\ a_language a = lang.
Notation attributes := (parse_attributes_from iri_parse lang_parse).
Notation subjects := (parse_subjects m iri_parse lang_parse label_ok gext printable emitted).
Notation predicates := (parse_predicates m iri_parse lang_parse label_ok gext printable emitted).
Notation object := (parse_object m iri_parse lang_parse label_ok gext printable emitted).
Notation document := (parse_document m iri_parse lang_parse label_ok gext printable emitted).
Notation insert_all := (fold_left g_insert).

Lemma object_text content : forall fuel base c hc x r n g, Forall inside content -> (length content < fuel)%nat ->
  object fuel base c false hc (RState (content ++ IEnd x :: r) n g) = Done (c ++ flat_map chars content, RState r n g).
Proof.
  induction content as [|i content IH]; intros fuel base c hc x r n g F L; (destruct fuel as [|fuel]; [cbn in L; lia|]).
  - cbn. rewrite app_nil_r. reflexivity.
  - inversion F as [|i' l' H F']; subst. cbn [length] in L. apply Inside in H.
    cbn [parse_object r_items app r_next r_graph flat_map]. destruct i as [x' a| |s|s|s| | |]; try (destruct H as [[]|[]]; fail);
      rewrite IH by (assumption || lia); cbn [chars]; rewrite <- ?app_assoc; reflexivity.
Qed.
Lemma names_iri x p : names iri_parse x p -> name_to_iri iri_parse x = io_ok p.
Proof. intros (ns & E & P). unfold name_to_iri, value_to_iri. rewrite E, P. reflexivity. Qed.

Lemma gap_predicates l : forall fuel base s nc r n g, gap l -> (length l < fuel)%nat ->
  predicates fuel base s nc (RState (l ++ r) n g) = predicates (fuel - length l) base s nc (RState r n g).
Proof.
  induction l as [|i l IH]; intros fuel base s nc r n g G L; [rewrite Nat.sub_0_r; reflexivity|].
  destruct fuel as [|fuel]; [lia|]. inversion G; subst. cbn [length app] in *.
  cbn [Nat.sub]. rewrite <- (IH fuel base s nc r n g) by (assumption || lia). destruct i; try contradiction; reflexivity.
Qed.
Lemma gap_subjects l : forall fuel base r n g, gap l -> (length l < fuel)%nat ->
  subjects fuel base (RState (l ++ r) n g) = subjects (fuel - length l) base (RState r n g).
Proof.
  induction l as [|i l IH]; intros fuel base r n g G L; [rewrite Nat.sub_0_r; reflexivity|].
  destruct fuel as [|fuel]; [lia|]. inversion G; subst. cbn [length app] in *.
  cbn [Nat.sub]. rewrite <- (IH fuel base r n g) by (assumption || lia). destruct i; try contradiction; reflexivity.
Qed.
Lemma gap_document l : forall fuel r n g, gap l -> (length l < fuel)%nat ->
  document fuel (RState (l ++ r) n g) = document (fuel - length l) (RState r n g).
Proof.
  induction l as [|i l IH]; intros fuel r n g G L; [rewrite Nat.sub_0_r; reflexivity|].
  destruct fuel as [|fuel]; [lia|]. inversion G; subst. cbn [length app] in *.
  cbn [Nat.sub]. rewrite <- (IH fuel r n g) by (assumption || lia). destruct i; try contradiction; reflexivity.
Qed.

Lemma properties_read s body sts : properties_say iri_parse gext printable inside meant s body sts ->
  forall fuel base x r n g, (length body < fuel)%nat ->
  predicates fuel base s false (RState (body ++ IEnd x :: r) n g) = Done (RState r n (insert_all sts g)).
Proof.
  induction 1 as [l G|l a st b sts G P _ IH]; intros fuel base x r n g L.
  - rewrite gap_predicates by assumption. destruct (fuel - length l)%nat as [|k] eqn:K; [lia|]. reflexivity.
  - rewrite !app_length in L. rewrite <- !app_assoc. rewrite gap_predicates by (assumption || lia).
    destruct P as [nm nm' p attrs lang content NM LA F]. rewrite !app_length in L. cbn [length] in L.
    destruct (fuel - length l)%nat as [|k] eqn:K; [lia|]. rewrite <- !app_assoc. cbn [parse_predicates r_items app r_next r_graph].
    destruct (Meant _ _ LA) as (at' & -> & A1 & A2 & A3 & A4). unfold io_ok at 1. cbn [lift]. rewrite A1, A2, A3, A4.
    rewrite object_text by (assumption || lia). cbn [wbind app r_items r_next r_graph].
    rewrite (names_iri _ _ NM). unfold io_ok. cbn [lift]. rewrite IH by lia. cbn [fold_left]. destruct lang; reflexivity.
Qed.

(** The attributes of a node. *)
Lemma inner_attributes s attrs props : Forall2 (attribute_says iri_parse gext printable s) attrs props ->
  forall r, attributes r attrs = io_ok (XAttrs (a_subject r) (a_parse r) (a_base r) (a_data_type r) (a_language r) (a_resource r) (a_inner r ++ attrs)).
Proof.
  induction 1 as [|[x v] st l sts (p & N1 & N2 & NM & _) _ IH]; intros r.
  - cbn [parse_attributes_from]. rewrite app_nil_r. destruct r; reflexivity.
  - cbn [fst] in *. change (xn_space x <> Some XML_NAMESPACE) in N2. cbn [parse_attributes_from]. rewrite (opt_str_neq _ _ N1), (opt_str_neq _ _ N2). unfold io_ok at 1. cbn [io_bind]. rewrite IH.
    cbn [a_subject a_parse a_base a_data_type a_language a_resource a_inner]. rewrite <- app_assoc. reflexivity.
Qed.
Lemma node_attributes n about s n' attrs props : about_says iri_parse label_ok n about s n' ->
  Forall2 (attribute_says iri_parse gext printable s) attrs props ->
  exists a, parse_attributes iri_parse lang_parse (about ++ attrs) = io_ok a /\ a_inner a = attrs /\
    forall base, subject_of m iri_parse label_ok base a n = io_ok (s, n').
Proof.
  intros A F. unfold parse_attributes. destruct A as [n|n v i E|n b E].
  - rewrite app_nil_l, (inner_attributes _ _ _ F). eexists. split; [reflexivity|]. split; reflexivity.
  - cbn [app parse_attributes_from rdf_name xn_space xn_local].
    change (opt_str_eqb (Some (rdf [])) (Some XML_NAMESPACE)) with false. change (opt_str_eqb (Some (rdf [])) (Some (rdf []))) with true.
    change (str_eqb $"about" $"about") with true. cbv iota. unfold value_to_iri. rewrite E. unfold io_ok at 1 2. cbn [io_bind]. rewrite (inner_attributes _ _ _ F).
    eexists. split; [reflexivity|]. split; reflexivity.
  - cbn [app parse_attributes_from rdf_name xn_space xn_local].
    change (opt_str_eqb (Some (rdf [])) (Some XML_NAMESPACE)) with false. change (opt_str_eqb (Some (rdf [])) (Some (rdf []))) with true.
    change (str_eqb $"nodeID" $"about") with false. change (str_eqb $"nodeID" $"nodeID") with true. cbv iota. unfold io_ok at 1. cbn [io_bind].
    rewrite (inner_attributes _ _ _ F). eexists. split; [reflexivity|]. split; [reflexivity|]. intros base. unfold subject_of. cbn [a_subject no_attrs].
    rewrite E. reflexivity.
Qed.
Lemma attributes_read s attrs props : Forall2 (attribute_says iri_parse gext printable s) attrs props -> forall g,
  parse_predicate_attributes iri_parse gext printable attrs s g = io_ok (insert_all props g).
Proof.
  induction 1 as [|[x v] st l sts (p & _ & _ & NM & E) _ IH]; intros g; [reflexivity|]. cbn [fst snd] in *. subst st.
  cbn [parse_predicate_attributes]. rewrite (names_iri _ _ NM). unfold io_ok at 1. cbn [io_bind]. rewrite IH. reflexivity.
Qed.
Lemma nodes_read n body sts n' : nodes_say iri_parse label_ok gext printable inside meant n body sts n' ->
  forall fuel base x r g, (length body < fuel)%nat ->
  subjects fuel base (RState (body ++ IEnd x :: r) n g) = Done (RState r n' (insert_all sts g)).
Proof.
  induction 1 as [n l G|n n1 n2 l a sts1 b sts2 G N _ IH]; intros fuel base x r g L.
  - rewrite gap_subjects by assumption. destruct (fuel - length l)%nat as [|k] eqn:K; [lia|]. reflexivity.
  - rewrite !app_length in L. rewrite <- !app_assoc. rewrite gap_subjects by (assumption || lia).
    destruct N as [name name' s n1 about attrs type props body sts A T F P]. rewrite !app_length in L. cbn [length] in L.
    destruct (fuel - length l)%nat as [|k] eqn:K; [lia|]. rewrite <- !app_assoc. cbn [parse_subjects r_items app r_next r_graph].
    destruct (node_attributes n about s n1 attrs props A F) as (at' & -> & IN & SB). unfold io_ok at 1. cbn [lift].
    rewrite SB. unfold io_ok at 1. cbn [lift].
    assert (TT : (if name_matches $"Description" (rdf []) name then io_ok g
        else let? t := name_to_iri iri_parse name in io_ok (g_insert g (MkStmt s (rdf $"type") (ORes t)))) = io_ok (insert_all type g)).
    { destruct T as [|nm t ND NM]; [reflexivity|]. destruct (name_matches _ _ nm) eqn:E; [apply name_matches_iff in E; contradiction|].
      rewrite (names_iri _ _ NM). reflexivity. }
    rewrite TT. unfold io_ok at 1. cbn [lift]. rewrite IN, (attributes_read _ _ _ F). unfold io_ok at 1. cbn [lift].
    rewrite (properties_read _ _ _ P) by lia. cbn [wbind]. rewrite IH by lia. rewrite !fold_left_app. reflexivity.
Qed.
Lemma document_read n items sts n' : document_says iri_parse label_ok gext printable inside meant n items sts n' ->
  forall fuel, (length items < fuel)%nat ->
  xml_read m iri_parse lang_parse label_ok gext printable emitted fuel n items = Done (g_from_iter sts, n').
Proof.
  intros (before & attrs & body & name & after & rest & G & N & A & _ & B & ->) fuel L. rewrite !app_length in L. cbn [length] in L.
  unfold xml_read. rewrite gap_document by (assumption || lia). destruct (fuel - length before)%nat as [|k] eqn:K; [lia|].
  cbn [parse_document r_items app r_next r_graph].
  assert (AT : exists a, parse_attributes iri_parse lang_parse attrs = io_ok a).
  { destruct B as [->|(v & b & -> & E)]; [eexists; reflexivity|]. unfold parse_attributes. cbn. unfold value_to_iri. rewrite E. eexists. reflexivity. }
  destruct AT as [a ->]. unfold io_ok at 1. cbn [lift]. change (name_matches $"RDF" (rdf []) (rdf_name $"RDF")) with true. cbv iota.
  rewrite (nodes_read _ _ _ _ N) by lia. cbn [wbind]. rewrite gap_document by (assumption || lia).
  destruct (k - length after)%nat as [|k'] eqn:K'; [lia|]. cbn [parse_document r_items wbind r_graph r_next].
  rewrite (fold_insert_list sts g_default []) by reflexivity. reflexivity.
Qed.
End Reader.

Lemma language_meant iri_parse lang_parse attrs lang : language_says lang_parse attrs lang ->
  exists a, parse_attributes iri_parse lang_parse attrs = io_ok a /\
  a_resource a = None /\ a_parse a = None /\ a_data_type a = None /\ a_language a = lang.
Proof.
  destruct 1 as [|v t E]; eexists; (split; [|split; [|split; [|split]]]; [unfold parse_attributes; cbn; rewrite ?E; reflexivity|..]; reflexivity).
Qed.
Lemma c69 m iri_parse lang_parse label_ok gext printable emitted n items sts n' fuel :
  document_says iri_parse label_ok gext printable is_chars (language_says lang_parse) n items sts n' ->
  (length items < fuel)%nat ->
  xml_read m iri_parse lang_parse label_ok gext printable emitted fuel n items = Done (g_from_iter sts, n').
Proof. intros D. eapply document_read; [| |exact D]; [intros i I; left; exact I|]. intros a l. apply language_meant. Qed.
