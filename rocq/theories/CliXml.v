(** Proofs of C78 for RDF/XML that is read. *)
From Coq Require Import Permutation Lia.
From Verif Require Import StrFacts GraphProofs SimplifyProofs LiteralProofs NTriplesProofs NTriplesRead NTriplesDocs NTriplesWrite NTriplesReject
  NTriplesMain JsonProofs JsonMain XmlProofs XmlMain XmlBack XmlTrip CliMain CliMore.
From Verif Require Import XmlRead CliBack.

Section Full.
Variables (iri_parse : str -> option str) (lang_parse : str -> option str) (label_ok : str -> bool).
Variables (gext printable : chr -> bool).

Lemma about_flat n l s n' : about_says iri_parse label_ok n l s n' -> forall st, s <> SStmt st.
Proof. intros A st. inversion A; discriminate. Qed.
Lemma plain_full s p t g : (forall st, s <> SStmt st) -> shown_in_full (MkStmt s p (OLit (Lit t None g))).
Proof. intros N. destruct s as [b|i|st]; [| |destruct (N st eq_refl)]; repeat split; cbn; auto. Qed.
Lemma properties_full s inside meant l sts : (forall st, s <> SStmt st) ->
  properties_say iri_parse gext printable inside meant s l sts -> Forall shown_in_full sts.
Proof.
  intros N P. induction P as [|l a st b sts G A P IH]; [constructor|]. constructor; [|exact IH].
  destruct A. apply plain_full, N.
Qed.
Lemma node_full inside meant n l sts n' : node_says iri_parse label_ok gext printable inside meant n l sts n' -> Forall shown_in_full sts.
Proof.
  intros [name name' s n1 about attrs type props body sts1 A T F P]. pose proof (about_flat _ _ _ _ A) as N.
  apply Forall_app. split; [|apply Forall_app; split].
  - destruct T as [|name0 t _ _]; [constructor|]. constructor; [|constructor]. destruct s as [b|i|st]; [| |destruct (N st eq_refl)]; repeat split; cbn; auto.
  - clear - F N. induction F as [|a st l l' (p & _ & _ & _ & ->) F IH]; constructor; [apply plain_full, N|exact IH].
  - eapply properties_full; eassumption.
Qed.
Lemma nodes_full inside meant n l sts n' : nodes_say iri_parse label_ok gext printable inside meant n l sts n' -> Forall shown_in_full sts.
Proof.
  intros H. induction H as [|n n1 n2 l a x b y G A H IH]; [constructor|]. apply Forall_app. split; [eapply node_full; exact A|exact IH].
Qed.
Lemma document_full inside meant n l sts n' : document_says iri_parse label_ok gext printable inside meant n l sts n' -> Forall shown_in_full sts.
Proof. intros (b & a & body & nm & af & r & _ & H & _). eapply nodes_full; exact H. Qed.
End Full.

Lemma c78_from_xml e items sts n' : env_ok e ->
  document_says (e_iri e) (e_label e) (e_gext e) (e_printable e) is_chars (language_says (e_lang e)) (e_counter e) items sts n' ->
  (length items < e_fuel e)%nat ->
  exists out doc, lines_of (e_mode e) sts out /\ JsonSpec.describes (e_mode e) doc sts /\
    convert e FXml (Some FNTriples) (xml_input items) = Exits true (Some (OutText out)) /\
    convert e FXml (Some FNQuads) (xml_input items) = Exits true (Some (OutText out)) /\
    convert e FXml (Some FJson) (xml_input items) = Exits true (Some (OutJson doc)).
Proof.
  intros [O1 O2] D L. pose proof (document_full _ _ _ _ _ _ _ _ _ _ D) as Fu.
  assert (R := c69 (e_mode e) _ _ _ _ _ (e_emitted e) _ _ _ _ _ D L).
  destruct (c47_flat (e_mode e) (e_orders e) (e_order e) n' (g_from_iter sts) O1 O2) as (doc & W & Ds).
  { rewrite from_iter_list. eapply Forall_impl; [|exact Fu]. intros x [X _]. exact X. }
  rewrite from_iter_list in Ds. exists (nt_write (e_mode e) false (e_orders e) (e_order e) n' (g_from_iter sts)), doc.
  split; [apply full_lines; [split; assumption|exact Fu|rewrite from_iter_list; reflexivity]|]. split; [exact Ds|].
  unfold convert. cbn [read_graph xml_input in_events]. rewrite R. cbn [and_then write_graph]. split; [reflexivity|]. split.
  - do 3 f_equal. unfold nq_write, nt_write. rewrite simplify_name. apply flat_map_ext. intros st. apply nq_nt_line.
  - rewrite W. reflexivity.
Qed.
