From Coq Require Import Lia Arith.
From Verif Require Import StrFacts GraphProofs SimplifyProofs SkolemProofs TermProofs NTriplesWrite JsonMain XmlProofs XmlMain XmlStriped XmlRead XmlSafe.
From Verif Require Export XmlSpec.

(** ** White space *)
Notation nsp := (filter (fun i => negb (is_space i))).
Lemma nsp_app a b : nsp (a ++ b) = nsp a ++ nsp b.
Proof. apply filter_app. Qed.
Lemma nsp_nil items : nsp items = [] -> gap items.
Proof.
  induction items as [|i r IH]; [constructor|]. cbn [filter]. destruct i; cbn [is_space negb]; try discriminate. intros E. constructor; [exact Logic.I|apply IH, E].
Qed.
Lemma nsp_cons items : forall x rest, nsp items = x :: rest -> exists g r, items = g ++ x :: r /\ gap g /\ nsp r = rest.
Proof.
  induction items as [|i r IH]; intros x rest; [discriminate|]. cbn [filter]. destruct (is_space i) eqn:S; cbn [negb].
  - intros E. destruct (IH _ _ E) as (g & r' & -> & G & E'). exists (i :: g), r'. split; [reflexivity|]. split; [|exact E'].
    constructor; [destruct i; try discriminate; exact Logic.I|exact G].
  - intros E. injection E as -> E. exists [], r. split; [reflexivity|]. split; [constructor|exact E].
Qed.
Lemma broken_cons i r : i <> IDocEnd -> broken r -> broken (i :: r).
Proof.
  intros N (a & b & -> & F). exists (i :: a), b. split; [reflexivity|]. intros [->|I]; [apply N; reflexivity|apply F, I].
Qed.
Lemma broken_app a b : ~ In IDocEnd a -> broken b -> broken (a ++ b).
Proof.
  induction a as [|i a IH]; intros N B; [exact B|]. cbn [app]. apply broken_cons; [intros ->; apply N; left; reflexivity|].
  apply IH; [intros I; apply N; right; exact I|exact B].
Qed.
Lemma broken_nsp l : broken l -> broken (nsp l).
Proof.
  intros (a & b & -> & N). rewrite nsp_app. cbn [filter is_space negb]. exists (nsp a), (nsp b). split; [reflexivity|].
  intros I. apply filter_In in I as [I _]. apply N, I.
Qed.
Lemma nsp_broken l : broken (nsp l) -> broken l.
Proof.
  induction l as [|i l IH]; intros B; [exact B|]. cbn [filter] in B. destruct (is_space i) eqn:S; cbn [negb] in B.
  - apply broken_cons; [intros ->; discriminate|apply IH, B].
  - destruct B as (a & b & E & N). destruct a as [|j a]; cbn [app] in E; injection E as E1 E2.
    + subst i. exists [], l. split; [reflexivity|intros []].
    + subst j. apply broken_cons; [intros ->; apply N; left; reflexivity|]. apply IH. exists a, b. split; [exact E2|]. intros I. apply N. right. exact I.
Qed.

(** ** Malformed documents *)
Lemma parsed_broken l : forall scopes n ns attrs, In (XStart n ns attrs) l -> qname n = None -> broken (parsed scopes l).
Proof.
  assert (E1 : broken [IError]) by (exists [], []; split; [reflexivity|intros []]).
  induction l as [|e l IH]; intros scopes n ns attrs I Q; [destruct I|]. destruct e as [n' ns' a|n'|s]; cbn [parsed].
  - destruct (element_xname _ n') as [x|] eqn:X; [|exact E1]. destruct (attribute_items _ a) as [xs|]; [|exact E1].
    destruct I as [E|I]; [injection E as -> -> ->; unfold element_xname in X; rewrite Q in X; discriminate|].
    apply broken_cons; [discriminate|]. eapply IH; eassumption.
  - destruct (element_xname _ n'); [|exact E1]. destruct I as [E|I]; [discriminate|]. apply broken_cons; [discriminate|]. eapply IH; eassumption.
  - destruct I as [E|I]; [discriminate|]. apply broken_app; [|eapply IH; eassumption]. unfold text_items. destruct s; [intros []|].
    destruct (forallb _ _); intros [E|[]]; discriminate.
Qed.
Lemma unread m iri_parse lang_parse label_ok gext printable emitted doc items n ns attrs :
  In (XStart n ns attrs) doc -> qname n = None -> parses_to doc items ->
  forall fuel k x, xml_read m iri_parse lang_parse label_ok gext printable emitted fuel k items <> Done x.
Proof.
  intros I Q P fuel k x. apply broken_unread. apply nsp_broken. unfold parses_to in P. rewrite P. apply broken_nsp.
  apply broken_cons; [discriminate|]. eapply parsed_broken; eassumption.
Qed.
Lemma qname_chars s q : qname s = Some q -> Forall (fun c => name_char c = true \/ c = 58) s.
Proof.
  unfold qname. intros E. pose proof (join_split_on 58 s) as J.
  assert (A : forall l, ncname l = true -> Forall (fun c => name_char c = true \/ c = 58) l).
  { intros [|c r]; [discriminate|]. cbn [ncname]. intros H. apply andb_prop in H as [H1 H2]. constructor.
    - left. unfold name_char. rewrite H1. reflexivity.
    - apply Forall_forall. intros x X. left. rewrite forallb_forall in H2. apply H2, X. }
  destruct (split_on (N.eqb 58) s) as [|a [|b [|c r]]]; try discriminate.
  - destruct (ncname a) eqn:N; [|discriminate]. cbn [join] in J. subst s. apply A, N.
  - destruct (ncname a && ncname b) eqn:N; [|discriminate]. apply andb_prop in N as [N1 N2]. cbn [join] in J. rewrite <- J.
    apply Forall_app. split; [apply A, N1|]. constructor; [right; reflexivity|apply A, N2].
Qed.
(** The properties of a written node. *)
Lemma objects_start m g f ns local k os ev o : shows_objects m g f ns local k os ev -> In o os ->
  exists j decl attrs, In (XStart (element_name (prefix_for m ns) j local) decl attrs) ev.
Proof.
  induction 1 as [|ns local k o' os attrs inner ev SO _ IH]; intros I; [destruct I|]. destruct I as [->|I].
  - exists k. eexists _, _. apply in_app_iff. left. left. reflexivity.
  - destruct (IH I) as (j & d & a & J). exists j, d, a. rewrite !in_app_iff. right. right. right. exact J.
Qed.
Lemma groups_start m g f gs ev p os : shows_groups m g f gs ev -> In (p, os) gs ->
  exists ns local ev', divided (show_iri m p) ns local /\ shows_objects m g f ns local 0 os ev' /\ incl ev' ev.
Proof.
  induction 1 as [|q os' r ns local b1 b2 D SO _ IH]; intros I; [destruct I|]. destruct I as [E|I].
  - injection E as -> ->. exists ns, local, b1. split; [exact D|]. split; [exact SO|]. apply incl_appl, incl_refl.
  - destruct (IH I) as (ns' & l' & ev' & D' & S' & J). exists ns', l', ev'. split; [exact D'|]. split; [exact S'|]. apply incl_appr, J.
Qed.
Lemma document_block m g f subjects doc s : shows_document m g f subjects doc -> In s subjects ->
  exists ev, shows_node m g f s ev /\ incl ev doc.
Proof.
  intros (blocks & F & ->) I. assert (X : exists ev, In ev blocks /\ shows_node m g f s ev).
  { clear - F I. induction F as [|x ev l bl SN F IH]; [destruct I|]. destruct I as [->|I].
    - exists ev. split; [left; reflexivity|exact SN].
    - destruct (IH I) as (ev' & J & SN'). exists ev'. split; [right; exact J|exact SN']. }
  destruct X as (ev & J & SN). exists ev. split; [exact SN|]. intros e E. rewrite !in_app_iff. right. left. apply in_concat. eauto.
Qed.
Lemma document_property m g f subjects doc s p : shows_document m g f subjects doc -> In s subjects ->
  (exists o, In (MkStmt s p o) (g_list g)) ->
  exists ns local os ev, divided (show_iri m p) ns local /\ shows_objects m g f ns local 0 os ev /\ incl ev doc /\ NoDup os /\
    forall o, In o os <-> In (MkStmt s p o) (g_list g).
Proof.
  intros SD I (o & J). destruct (document_block _ _ _ _ _ _ SD I) as (ev & SN & IC).
  inversion SN as [s' gs attrs body NS (N & O & G) SG E1 E2]. clear SN. subst.
  destruct (proj2 (G p o) J) as (os & K & L). destruct (groups_start _ _ _ _ _ _ _ SG K) as (ns & local & ev' & D & SO & IC').
  exists ns, local, os, ev'. split; [exact D|]. split; [exact SO|]. split; [|split; [apply (O _ _ K)|]].
  - intros e E. apply IC. rewrite !in_app_iff. right. left. apply IC', E.
  - intros o'. split; [intros M; apply G; eauto|]. intros M. apply G in M as (os' & K' & M). enough (X : os = os') by (subst; exact M).
    clear - N K K'. induction gs as [|[q x] gs IH]; [destruct K|]. inversion N; subst. cbn [map fst] in *. destruct K as [E|K], K' as [E'|K'].
    + congruence.
    + exfalso. apply H1. injection E as -> ->. apply in_map_iff. exists (p, os'). auto.
    + exfalso. apply H1. injection E' as -> ->. apply in_map_iff. exists (p, os). auto.
    + apply IH; assumption.
Qed.

(** Angle brackets. *)
Lemma angled_name p ns local : divided (show_iri Angled p) ns local -> In 62 local.
Proof.
  intros (E & head & tail & (C & (h & c & -> & S) & F) & L). cbn [show_iri] in *.
  assert (T : tail <> []).
  { intros ->. rewrite app_nil_r in C. change (60 :: p ++ [62]) with ((60 :: p) ++ [62]) in C. apply app_inj_tail in C as [_ C]. destruct S; subst; discriminate. }
  assert (NL : local <> []).
  { intros ->. destruct tail; [contradiction|]. discriminate. }
  destruct (exists_last NL) as (l & x & ->). change (60 :: p ++ [62]) with ((60 :: p) ++ [62]) in E. rewrite app_assoc in E.
  apply app_inj_tail in E as [_ <-]. apply in_app_iff. right. left. reflexivity.
Qed.
Lemma element_name_local prefix k local c : In c local -> In c (element_name prefix k local).
Proof. intros I. destruct prefix; cbn [element_name]; [apply in_app_iff; right; exact I|exact I]. Qed.
Lemma c68_angled style ord_s ord_p ord_o ho n fuel g doc : let simple := fst (g_simplify ho n g) in
  (forall l, Permutation (ord_s l) l) -> any_order ord_p -> any_order ord_o ->
  (exists s p o, In (MkStmt s p o) (g_list simple) /\ (style = XStriped -> exists i, s = SRes i)) ->
  xml_write Angled style ord_s ord_p ord_o ho n fuel g = Done doc ->
  forall items, parses_to doc items -> forall m' iri_parse lang_parse label_ok gext printable emitted fuel' k x,
    xml_read m' iri_parse lang_parse label_ok gext printable emitted fuel' k items <> Done x.
Proof.
  intros simple HS HP HO (s & p & o & J & R) W items P m' iri_parse lang_parse label_ok gext printable emitted fuel' k x.
  destruct (xml_write_done Angled style ord_s ord_p ord_o ho n fuel g doc HS HP HO W) as (subjects & _ & I & SD). fold simple in I, SD.
  destruct (document_property _ _ _ _ _ s p SD) as (ns & local & os & ev & D & SO & IC & _ & O).
  - apply I. split; [eauto|]. intros E. destruct (R E) as [i ->]. reflexivity.
  - eauto.
  - destruct (objects_start _ _ _ _ _ _ _ _ o SO) as (j & decl & attrs & E); [apply O, J|].
    eapply unread; [apply IC, E| |exact P]. destruct (qname _) as [q|] eqn:Q; [|reflexivity]. exfalso. apply qname_chars in Q. rewrite Forall_forall in Q.
    destruct (Q 62) as [X|X]; [apply element_name_local; eapply angled_name, D|vm_compute in X; discriminate|discriminate].
Qed.

(** Two objects of a predicate with a known prefix. *)
Lemma twice_qname prefix p k local : prefix = Some p -> ncname p = true -> qname (element_name prefix (S k) local) = None.
Proof.
  intros -> NP. pose proof (ncname_no_colon p NP) as NC.
  assert (SP : forall x, split_on (N.eqb 58) ((p ++ $":") ++ x) = p :: split_on (N.eqb 58) x).
  { intros x. rewrite <- app_assoc. apply split_on_app_sep; [reflexivity|exact NC]. }
  cbn [element_name repeat concat]. unfold qname. rewrite <- !app_assoc. rewrite (app_assoc p), SP. rewrite (app_assoc p), SP.
  destruct (split_on (N.eqb 58) _) as [|a r] eqn:S; [destruct (split_on_nonnil _ _ S)|reflexivity].
Qed.
Lemma c68_repeated m style ord_s ord_p ord_o ho n fuel g doc s p o o' ns local : let simple := fst (g_simplify ho n g) in
  (forall l, Permutation (ord_s l) l) -> any_order ord_p -> any_order ord_o ->
  In (MkStmt s p o) (g_list simple) -> In (MkStmt s p o') (g_list simple) -> o <> o' ->
  (style = XStriped -> exists i, s = SRes i) -> divided (show_iri m p) ns local -> prefix_for m ns <> None ->
  xml_write m style ord_s ord_p ord_o ho n fuel g = Done doc ->
  forall items, parses_to doc items -> forall m' iri_parse lang_parse label_ok gext printable emitted fuel' k x,
    xml_read m' iri_parse lang_parse label_ok gext printable emitted fuel' k items <> Done x.
Proof.
  intros simple HS HP HO J J' NO R D PF W items P m' iri_parse lang_parse label_ok gext printable emitted fuel' k x.
  destruct (xml_write_done m style ord_s ord_p ord_o ho n fuel g doc HS HP HO W) as (subjects & _ & I & SD). fold simple in I, SD.
  destruct (document_property _ _ _ _ _ s p SD) as (ns' & local' & os & ev & D' & SO & IC & N & O).
  - apply I. split; [eauto|]. intros E. destruct (R E) as [i ->]. reflexivity.
  - eauto.
  - destruct (divided_unique _ _ _ _ _ D D') as [<- <-]. apply O in J, J'. destruct os as [|o1 [|o2 os]].
    + destruct J.
    + destruct J as [<-|[]], J' as [<-|[]]. contradiction.
    + destruct (prefix_for m ns) as [q|] eqn:Q; [|destruct (PF eq_refl)]. pose proof (prefix_ncname _ _ _ Q) as [NQ _].
      inversion SO as [|? ? ? ? ? attrs1 inner1 b1 _ SO1]; subst. inversion SO1 as [|? ? ? ? ? attrs2 inner2 b2 _ SO2]; subst.
      eapply unread; [apply IC; rewrite !in_app_iff; right; right; right; left; left; reflexivity| |exact P].
      apply (twice_qname _ q); assumption.
Qed.
