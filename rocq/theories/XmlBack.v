From Coq Require Import Lia Arith.
From Verif Require Import StrFacts GraphProofs SimplifyProofs SkolemProofs TermProofs NTriplesWrite JsonMain XmlProofs XmlMain XmlStriped XmlRead XmlSafe XmlTrip.
From Verif Require Export XmlSpec.

(** ** What is parsed of a property *)
Definition SC : list (str * str) := [($"rdf", rdf [])].
Definition obj_attrs (o : object) : list (xname * str) :=
  match o with
  | OBlank b => [(rdf_name $"nodeID", b)]
  | ORes i => [(rdf_name $"resource", i)]
  | OLit l =>
      match lit_language l with None | Some [] => [] | Some t => [(XName (Some XML_NAMESPACE) $"lang", t)] end
      ++ match lit_data_type l with Some d => [(rdf_name $"datatype", dt_as_iri d)] | None => [] end
  | _ => []
  end.
Definition obj_text (o : object) : str := match o with OLit l => lexical_form l | _ => [] end.
Definition inside2 (i : xml_item) : Prop := is_chars i \/ ignorable i.

Lemma prefix_rdf ns : prefix_for Bare ns = Some $"rdf" -> ns = rdf [].
Proof.
  unfold prefix_for. intros E. apply assoc_get_In in E. apply in_map_iff in E as ([a b] & E & I). cbn [fst snd] in E. injection E as <- ->.
  assert (A : forallb (fun e => negb (str_eqb (snd e) $"rdf") || str_eqb (fst e) (rdf [])) known_prefixes = true) by (vm_compute; reflexivity).
  rewrite forallb_forall in A. apply A in I. cbn [fst snd] in I. rewrite str_eqb_refl in I. cbn [negb orb] in I. apply str_eqb_eq in I. exact I.
Qed.
Lemma lookup_rdf ns : lookup_ns (declares (prefix_for Bare ns) ns ++ SC) $"rdf" = Some (rdf []).
Proof.
  unfold lookup_ns. change (str_eqb $"rdf" $"xml") with false. cbv iota. destruct (prefix_for Bare ns) as [p|] eqn:P; cbn [declares app assoc_get].
  - destruct (str_eqb p $"rdf") eqn:E; [|reflexivity]. apply str_eqb_eq in E. subst p. apply prefix_rdf in P. subst. reflexivity.
  - reflexivity.
Qed.
Lemma rdf_attribute ns s l : qname s = Some (Some $"rdf", l) -> attribute_xname (declares (prefix_for Bare ns) ns ++ SC) s = Some (rdf_name l).
Proof. intros Q. unfold attribute_xname. rewrite Q, lookup_rdf. reflexivity. Qed.
Lemma xml_attribute scope : attribute_xname scope $"xml:lang" = Some (XName (Some XML_NAMESPACE) $"lang").
Proof. reflexivity. Qed.
Lemma object_items g ns o attrs inner : shows_object Bare g true o attrs inner ->
  attribute_items (declares (prefix_for Bare ns) ns ++ SC) attrs = Some (obj_attrs o) /\
  forall scopes rest, parsed scopes (inner ++ rest) = text_items (obj_text o) ++ parsed scopes rest.
Proof.
  intros S. inversion S as [i|b _|b inner' F _|l attrs' LS]; subst.
  - cbn [attribute_items]. rewrite (rdf_attribute ns _ $"resource") by reflexivity. split; reflexivity.
  - cbn [attribute_items]. rewrite (rdf_attribute ns _ $"nodeID") by reflexivity. split; reflexivity.
  - discriminate.
  - split; [|intros scopes rest; reflexivity]. unfold literal_start in LS. subst attrs. cbn [obj_attrs].
    destruct (lit_language l) as [[|c t]|], (lit_data_type l) as [d|]; cbn [app attribute_items];
      rewrite ?(rdf_attribute ns $"rdf:datatype" $"datatype") by reflexivity; rewrite ?xml_attribute; reflexivity.
Qed.
Lemma unbroken_start scopes n ns attrs r : ~ broken (parsed scopes (XStart n ns attrs :: r)) ->
  exists x xs, element_xname (ns ++ hd [] scopes) n = Some x /\ attribute_items (ns ++ hd [] scopes) attrs = Some xs.
Proof.
  cbn [parsed]. assert (E1 : broken [IError]) by (exists [], []; split; [reflexivity|intros []]).
  destruct (element_xname _ n) as [x|]; [|intros N; destruct (N E1)]. destruct (attribute_items _ attrs) as [xs|]; [|intros N; destruct (N E1)].
  intros _. eauto.
Qed.
Lemma property_parsed g ns nm o attrs inner x sc rest : shows_object Bare g true o attrs inner ->
  element_xname (declares (prefix_for Bare ns) ns ++ SC) nm = Some x ->
  parsed (SC :: sc) ([XStart nm (declares (prefix_for Bare ns) ns) attrs] ++ inner ++ [XEnd nm] ++ rest)
  = [IStart x (obj_attrs o)] ++ text_items (obj_text o) ++ [IEnd x] ++ parsed (SC :: sc) rest.
Proof.
  intros S E. destruct (object_items g ns o attrs inner S) as [A P]. cbn [app parsed hd]. rewrite E, A. f_equal. rewrite P. f_equal.
  cbn [parsed hd tl]. rewrite E. reflexivity.
Qed.
Definition visible (t : str) : str := if forallb xml_space t then [] else t.
Lemma property_spaced items x a t y P : nsp items = nsp ([IStart x a] ++ text_items t ++ [IEnd y] ++ P) ->
  exists gp content b, items = gp ++ ([IStart x a] ++ content ++ [IEnd y]) ++ b /\ gap gp /\ Forall inside2 content /\
    flat_map chars content = visible t /\ nsp b = nsp P.
Proof.
  intros E. assert (G : forall l, gap l -> Forall inside2 l /\ flat_map chars l = []).
  { intros l. induction 1 as [|i l I _ [F C]]; [split; [constructor|reflexivity]|]. split; [constructor; [right; exact I|exact F]|].
    cbn [flat_map]. rewrite C. destruct i; try contradiction; reflexivity. }
  cbn [app] in E. cbn [filter is_space negb] in E. apply nsp_cons in E as (g1 & r & -> & G1 & E). rewrite nsp_app in E.
  assert (X : exists content b, r = content ++ IEnd y :: b /\ Forall inside2 content /\ flat_map chars content = visible t /\ nsp b = nsp P).
  { assert (N : nsp r = IEnd y :: nsp P -> exists content b, r = content ++ IEnd y :: b /\ Forall inside2 content /\ flat_map chars content = [] /\ nsp b = nsp P).
    { intros E'. apply nsp_cons in E' as (g2 & b & -> & G2 & E'). destruct (G _ G2) as [F C]. eauto 10. }
    unfold text_items, visible in *. destruct t as [|c t]; [apply N; exact E|]. destruct (forallb xml_space (c :: t)); [apply N; exact E|].
    cbn [filter is_space negb app] in E. apply nsp_cons in E as (g2 & r2 & -> & G2 & E). apply nsp_cons in E as (g3 & b & -> & G3 & E).
    destruct (G _ G2) as [F2 C2], (G _ G3) as [F3 C3]. exists (g2 ++ IChars (c :: t) :: g3), b.
    split; [rewrite <- app_assoc; reflexivity|]. split; [apply Forall_app; split; [exact F2|constructor; [left; exact Logic.I|exact F3]]|].
    split; [|exact E]. rewrite flat_map_app, C2. cbn [flat_map chars app]. rewrite C3, app_nil_r. reflexivity. }
  destruct X as (content & b & -> & F & C & E'). exists g1, content, b.
  split; [rewrite <- !app_assoc; reflexivity|]. auto.
Qed.

(** ** Without IRIs as objects, everything is read *)
Section Exact.
Variable iri_parse : str -> option str.
Variable lang_parse : str -> option str.
Variable label_ok : str -> bool.
Variable gext printable : chr -> bool.
Variable g : graph.
Inductive meant2 : list (xname * str) -> option str -> Prop :=
| Mt_lang a1 a2 lang : language_says lang_parse a1 lang -> (a2 = [] \/ exists v, a2 = [(rdf_name $"datatype", v)]) -> meant2 (a1 ++ a2) lang
| Mt_id b : meant2 [(rdf_name $"nodeID", b)] None.
Lemma meant2_attributes attrs lang : meant2 attrs lang -> exists a, parse_attributes iri_parse lang_parse attrs = io_ok a /\
  a_resource a = None /\ a_parse a = None /\ a_data_type a = None /\ a_language a = lang.
Proof.
  destruct 1 as [a1 a2 lang L D|b].
  - destruct L as [|v t E]; destruct D as [->|(v' & ->)]; eexists;
      (split; [|split; [|split; [|split]]]; [unfold parse_attributes; cbn; rewrite ?E; reflexivity|..]; reflexivity).
  - eexists. split; [unfold parse_attributes; cbn; reflexivity|]. repeat split.
Qed.
Notation says := (properties_say iri_parse gext printable inside2 meant2).
Lemma properties_gap s l a sts : gap l -> says s a sts -> says s (l ++ a) sts.
Proof.
  intros G P. destruct P as [l' G'|l' a st b sts G' P Q].
  - apply Ps_end. apply Forall_app. auto.
  - rewrite app_assoc. apply Ps_more; [apply Forall_app; auto|assumption|assumption].
Qed.
Lemma properties_app s a x b y : says s a x -> says s b y -> says s (a ++ b) (x ++ y).
Proof.
  induction 1 as [l G|l a st c sts G P _ IH]; intros B; [apply properties_gap; assumption|].
  rewrite <- !app_assoc. cbn [app]. apply Ps_more; auto.
Qed.
Definition carried := statement_carried iri_parse lang_parse label_ok.
Definition reread := xml_reread gext printable.

Lemma visible_carried t : text_carried t -> visible t = t.
Proof.
  intros [_ [->|(c & I & S)]]; [reflexivity|]. unfold visible. destruct (forallb xml_space t) eqn:E; [|reflexivity].
  rewrite forallb_forall in E. rewrite (E _ I) in S. discriminate.
Qed.
Lemma object_meant o : object_carried iri_parse lang_parse label_ok o -> (forall i, o <> ORes i) ->
  exists lang, meant2 (obj_attrs o) lang /\
  forall s p, reread (MkStmt s p o) = MkStmt s p (OLit (Lit (escape_string gext printable (visible (obj_text o))) None lang)).
Proof.
  destruct o as [b|i|l|items|t]; intros C NI; try (destruct C; fail).
  - exists None. split; [constructor|]. intros s p. reflexivity.
  - destruct (NI i eq_refl).
  - destruct C as [T L]. exists (lit_language l). split.
    + cbn [obj_attrs]. constructor.
      * destruct (lit_language l) as [[|c t]|]; [destruct L as (L & _); contradiction| |constructor]. constructor. apply L.
      * destruct (lit_data_type l); [right; eauto|left; reflexivity].
    + intros s p. unfold reread, xml_reread. cbn [st_subject st_predicate st_object obj_text]. rewrite visible_carried by exact T. reflexivity.
Qed.
Lemma objects_exact s p ns local k os ev : shows_objects Bare g true ns local k os ev ->
  p = ns ++ local -> iri_parse p = Some p -> ncname local = true ->
  (prefix_for Bare ns = None \/ os = [] \/ (k = 0%nat /\ length os = 1%nat)) ->
  (forall o, In o os -> object_carried iri_parse lang_parse label_ok o /\ forall i, o <> ORes i) ->
  forall sc rest items, nsp items = nsp (parsed (SC :: sc) (ev ++ rest)) ->
  exists a b, items = a ++ b /\ says s a (map (fun o => reread (MkStmt s p o)) os) /\ nsp b = nsp (parsed (SC :: sc) rest).
Proof.
  induction 1 as [ns local k|ns local k o os attrs inner ev SO _ IH]; intros EP IP NL PK C sc rest items E.
  - exists [], items. split; [reflexivity|]. split; [apply Ps_end; constructor|exact E].
  - assert (EL : element_xname (declares (prefix_for Bare ns) ns ++ SC) (element_name (prefix_for Bare ns) k local) = Some (XName (Some ns) local)).
    { apply c50_element. split; [exact NL|]. destruct PK as [PK|[PK|[PK _]]]; auto. discriminate. }
    rewrite <- !app_assoc in E. rewrite (property_parsed g ns _ o attrs inner _ sc (ev ++ rest) SO EL) in E.
    apply property_spaced in E as (gp & content & b & -> & G & F & V & E). destruct (C o (or_introl eq_refl)) as [CO NI].
    destruct (object_meant o CO NI) as (lang & M & R).
    destruct (IH EP IP NL) with (items := b) (sc := sc) (rest := rest) as (a' & b' & -> & P & E'); try assumption.
    + destruct PK as [PK|[PK|[_ PK]]]; [auto|discriminate|]. right. left. destruct os; [reflexivity|discriminate].
    + intros o' I. apply C. right. exact I.
    + exists (gp ++ ([IStart (XName (Some ns) local) (obj_attrs o)] ++ content ++ [IEnd (XName (Some ns) local)]) ++ a'), b'.
      split; [rewrite <- !app_assoc; reflexivity|]. split; [|exact E']. cbn [map]. rewrite R, <- V. apply Ps_more; [exact G| |exact P].
      constructor; [|exact M|exact F]. exists ns. split; [reflexivity|]. cbn [xn_local]. rewrite <- EP. exact IP.
Qed.
Definition group_statements (s : subject) (gs : list (str * list object)) : list statement :=
  flat_map (fun e => map (MkStmt s (fst e)) (snd e)) gs.
Lemma groups_exact s gs ev : shows_groups Bare g true gs ev ->
  (forall p os, In (p, os) gs -> predicate_carried iri_parse p /\
     (forall o, In o os -> object_carried iri_parse lang_parse label_ok o /\ forall i, o <> ORes i) /\
     (forall ns local, divided p ns local -> prefix_for Bare ns = None \/ (length os <= 1)%nat)) ->
  forall sc rest items, nsp items = nsp (parsed (SC :: sc) (ev ++ rest)) ->
  exists a b, items = a ++ b /\ says s a (map reread (group_statements s gs)) /\ nsp b = nsp (parsed (SC :: sc) rest).
Proof.
  induction 1 as [|p os r ns local b1 b2 D SO _ IH]; intros C sc rest items E.
  - exists [], items. split; [reflexivity|]. split; [apply Ps_end; constructor|exact E].
  - rewrite <- app_assoc in E. destruct (C p os (or_introl eq_refl)) as (((IP & _) & ns' & local' & D' & NL) & CO & PK).
    cbn [show_iri] in D. destruct (divided_unique _ _ _ _ _ D D') as [<- <-].
    destruct (objects_exact s p _ _ _ _ _ SO (proj1 D) IP NL) with (sc := sc) (rest := b2 ++ rest) (items := items) as (a & b & -> & P & E'); try assumption.
    + destruct (PK _ _ D) as [PN|PN]; [left; exact PN|right]. destruct os as [|o [|o' os]]; [left; reflexivity|right; split; reflexivity|cbn [length] in PN; lia].
    + destruct (IH (fun q os' I => C q os' (or_intror I)) sc rest b E') as (a' & b' & -> & P' & E'').
      exists (a ++ a'), b'. split; [rewrite <- app_assoc; reflexivity|]. split; [|exact E'']. unfold group_statements. cbn [flat_map fst snd]. rewrite map_app.
      apply properties_app; [|exact P']. rewrite map_map. exact P.
Qed.
Lemma subject_about s attrs : subject_carried iri_parse label_ok s -> node_start true s attrs ->
  exists about, attribute_items ([] ++ SC) attrs = Some about /\ forall n, about_says iri_parse label_ok n about s n.
Proof.
  destruct s as [b|i|t]; intros C NS; [| |destruct C]; cbn [node_start] in NS; subst attrs; eexists; (split; [reflexivity|]); intros n; constructor; apply C.
Qed.
Lemma node_exact s ev : shows_node Bare g true s ev -> (forall p o, In (MkStmt s p o) (g_list g) -> carried (MkStmt s p o) /\ forall i, o <> ORes i) ->
  (exists p o, In (MkStmt s p o) (g_list g)) -> prefixed_once (g_list g) ->
  forall sc rest items, nsp items = nsp (parsed (SC :: sc) (ev ++ rest)) ->
  exists gp a b sts, items = gp ++ a ++ b /\ gap gp /\ NoDup sts /\ (forall st, In st sts <-> In st (g_list g) /\ st_subject st = s) /\
    (forall n, node_says iri_parse label_ok gext printable inside2 meant2 n a (map reread sts) n) /\ nsp b = nsp (parsed (SC :: sc) rest).
Proof.
  intros SN C (p0 & o0 & I0) PO sc rest items E. inversion SN as [s' gs attrs body NS G SG E1 E2]. clear SN. subst s' ev.
  destruct (C _ _ I0) as [(CS & _ & _) _]. cbn [st_subject] in CS. destruct (subject_about s attrs CS NS) as (about & AI & AS).
  rewrite <- !app_assoc in E. cbn [app parsed] in E. change (hd [] (SC :: sc)) with SC in E. cbn [app] in E, AI.
  change (element_xname SC $"rdf:Description") with (Some (rdf_name $"Description")) in E. cbv iota in E. rewrite AI in E.
  cbn [filter is_space negb] in E. apply nsp_cons in E as (gp & r & -> & GP & E).
  destruct G as (N & O & GI).
  destruct (groups_exact s gs body SG) with (sc := SC :: sc) (rest := XEnd $"rdf:Description" :: rest) (items := r) as (a & b & -> & P & E').
  - intros p os I. destruct (O _ _ I) as [NE ND]. destruct os as [|o os]; [contradiction|].
    assert (J : forall o', In o' (o :: os) -> In (MkStmt s p o') (g_list g)) by (intros o' J; apply GI; eauto). split; [|split].
    + apply (C _ _ (J o (or_introl eq_refl))).
    + intros o' I'. destruct (C _ _ (J _ I')) as [(_ & _ & CO) NI]. split; assumption.
    + intros ns local D. destruct (prefix_for Bare ns) as [q|] eqn:Q; [|left; reflexivity]. right. destruct os as [|o' os]; [cbn; lia|]. exfalso.
      assert (X : o = o'). { eapply (PO s p o o' ns local); [apply J; left; reflexivity|apply J; right; left; reflexivity|exact D|congruence]. }
      inversion ND; subst. apply H1. left. reflexivity.
  - exact E.
  - cbn [parsed hd] in E'. change (element_xname SC $"rdf:Description") with (Some (rdf_name $"Description")) in E'. cbv iota in E'. cbn [filter is_space negb tl] in E'.
    apply nsp_cons in E' as (g2 & b' & -> & G2 & E').
    exists gp, ([IStart (rdf_name $"Description") (about ++ [])] ++ (a ++ g2) ++ [IEnd (rdf_name $"Description")]), b', (group_statements s gs).
    split; [rewrite app_nil_r, <- !app_assoc; reflexivity|]. split; [exact GP|]. split; [|split; [|split; [|exact E']]].
    + unfold group_statements. clear - N O. induction gs as [|[p os] gs IH]; [constructor|]. cbn [flat_map fst snd map] in *. inversion N; subst. apply NoDup_app.
      * apply FinFun.Injective_map_NoDup; [intros x y H; injection H as ->; reflexivity|]. apply (O p os). left. reflexivity.
      * apply IH; [assumption|]. intros q os' I. apply (O q os'). right. exact I.
      * intros st I J. apply in_map_iff in I as (o & <- & _). apply in_flat_map in J as ([q os'] & J & K). apply in_map_iff in K as (o' & K & _). cbn [fst] in K.
        injection K as K _. subst q. apply H1. apply in_map_iff. exists (p, os'). auto.
    + intros [s' p o]. cbn [st_subject]. unfold group_statements. rewrite in_flat_map. split.
      * intros ([q os] & I & J). apply in_map_iff in J as (o' & J & K). cbn [fst snd] in *. injection J as <- <- <-. split; [apply GI; eauto|reflexivity].
      * intros [I ->]. apply GI in I as (os & I & J). exists (p, os). split; [exact I|]. apply in_map_iff. eauto.
    + intros n. pose proof (No_node iri_parse label_ok gext printable inside2 meant2 n (rdf_name $"Description") (rdf_name $"Description") s n about [] [] []
        (a ++ g2) (map reread (group_statements s gs)) (AS n) (Ty_none _ _) (Forall2_nil _)) as NN. cbn [app] in NN. apply NN.
      rewrite <- (app_nil_r (map reread _)). apply properties_app; [exact P|]. apply Ps_end. exact G2.
Qed.
Lemma nodes_exact subjects blocks : Forall2 (shows_node Bare g true) subjects blocks -> NoDup subjects ->
  (forall s, In s subjects -> exists p o, In (MkStmt s p o) (g_list g)) ->
  (forall st, In st (g_list g) -> carried st /\ forall i, st_object st <> ORes i) -> prefixed_once (g_list g) ->
  forall sc rest items, nsp items = nsp (parsed (SC :: sc) (concat blocks ++ rest)) ->
  exists a b sts, items = a ++ b /\ NoDup sts /\ (forall st, In st sts <-> In st (g_list g) /\ In (st_subject st) subjects) /\
    (forall n, nodes_say iri_parse label_ok gext printable inside2 meant2 n a (map reread sts) n) /\ nsp b = nsp (parsed (SC :: sc) rest).
Proof.
  intros F ND NE C PO. induction F as [|s ev subjects blocks SN F IH]; intros sc rest items E.
  - exists [], items, []. split; [reflexivity|]. split; [constructor|]. split; [intros st; cbn [In]; tauto|]. split; [|exact E]. intros n. apply Ns_end. constructor.
  - inversion ND as [|? ? NI ND']; subst. cbn [concat] in E. rewrite <- app_assoc in E.
    destruct (node_exact s ev SN) with (sc := sc) (rest := concat blocks ++ rest) (items := items) as (gp & a & b & sts & -> & G & N & I & S & E'); try assumption.
    + intros p o J. apply (C _ J).
    + apply NE. left. reflexivity.
    + destruct (IH ND' (fun t T => NE t (or_intror T)) sc rest b E') as (a' & b' & sts' & -> & N' & I' & S' & E'').
      exists (gp ++ a ++ a'), b', (sts ++ sts'). split; [rewrite <- !app_assoc; reflexivity|]. split; [|split; [|split; [|exact E'']]].
      * apply NoDup_app; try assumption. intros st J K. apply I in J as [_ J]. apply I' in K as [_ K]. subst s. contradiction.
      * intros st. rewrite in_app_iff, I, I'. cbn [In]. split; [intros [[J ->]|[J K]]; auto|]. intros [J [K|K]]; auto.
      * intros n. rewrite map_app. eapply Ns_more; [exact G|apply S|apply S'].
Qed.
Lemma document_exact subjects doc items : shows_document Bare g true subjects doc -> NoDup subjects ->
  (forall s, In s subjects <-> exists p o, In (MkStmt s p o) (g_list g)) ->
  (forall st, In st (g_list g) -> carried st /\ forall i, st_object st <> ORes i) -> prefixed_once (g_list g) ->
  parses_to doc items ->
  exists sts, NoDup sts /\ (forall st, In st sts <-> In st (g_list g)) /\
    forall n, document_says iri_parse label_ok gext printable inside2 meant2 n items (map reread sts) n.
Proof.
  intros (blocks & F & ->) ND I C PO P. unfold parses_to in P. cbn [app parsed filter is_space negb] in P.
  fold SC in P.
  change (element_xname SC $"rdf:RDF") with (Some (rdf_name $"RDF")) in P. cbv iota in P. cbn [attribute_items filter is_space negb] in P.
  apply nsp_cons in P as (g1 & r & -> & G1 & P). apply nsp_cons in P as (g2 & r2 & -> & G2 & P).
  destruct (nodes_exact subjects blocks F ND (fun s => proj1 (I s)) C PO _ _ _ P) as (a & b & sts & -> & N & J & S & E).
  cbn [parsed hd tl] in E. change (element_xname SC $"rdf:RDF") with (Some (rdf_name $"RDF")) in E. cbv iota in E. cbn [filter is_space negb parsed] in E.
  apply nsp_cons in E as (g3 & r3 & -> & G3 & E). apply nsp_cons in E as (g4 & r4 & -> & G4 & E). apply nsp_nil in E.
  exists sts. split; [exact N|]. split.
  - intros st. rewrite J. split; [tauto|]. intros K. split; [exact K|]. apply I. destruct st as [s p o]. cbn [st_subject]. eauto.
  - intros n. exists (g1 ++ IOther :: g2), [], (a ++ g3), (rdf_name $"RDF"), g4, r4. split; [apply Forall_app; split; [exact G1|constructor; [exact Logic.I|exact G2]]|].
    split; [|split; [exact G4|split; [exact E|split; [left; reflexivity|rewrite <- !app_assoc; cbn [app]; rewrite <- ?app_assoc; reflexivity]]]].
    assert (X : forall a sts n n', nodes_say iri_parse label_ok gext printable inside2 meant2 n a sts n' -> forall l, gap l -> nodes_say iri_parse label_ok gext printable inside2 meant2 n (a ++ l) sts n').
    { clear. intros a sts n n' NS. induction NS as [n l G|n n1 n2 l a x b y G NO _ IH]; intros l' G'; [apply Ns_end, Forall_app; auto|].
      rewrite <- !app_assoc. eapply Ns_more; [exact G|exact NO|apply IH, G']. }
    apply X; [apply S|exact G3].
Qed.
End Exact.

Lemma c68_exact ord_s ord_p ord_o ho n fuel g doc items iri_parse lang_parse label_ok gext printable :
  let simple := fst (g_simplify ho n g) in
  (forall l, Permutation (ord_s l) l) -> any_order ord_p -> any_order ord_o ->
  (forall st, In st (g_list simple) -> statement_carried iri_parse lang_parse label_ok st /\ forall i, st_object st <> ORes i) ->
  prefixed_once (g_list simple) ->
  xml_write Bare XFlat ord_s ord_p ord_o ho n fuel g = Done doc -> parses_to doc items ->
  exists sts, NoDup sts /\ (forall st, In st sts <-> In st (g_list simple)) /\
    forall m emitted fuel' k, (length items < fuel')%nat ->
    xml_read m iri_parse lang_parse label_ok gext printable emitted fuel' k items
      = Done (g_from_iter (map (xml_reread gext printable) sts), k).
Proof.
  intros simple HS HP HO C PO W P.
  destruct (xml_write_done Bare XFlat ord_s ord_p ord_o ho n fuel g doc HS HP HO W) as (subjects & ND & I & SD). fold simple in I, SD.
  assert (I' : forall s, In s subjects <-> exists p o, In (MkStmt s p o) (g_list simple)) by (intros s; rewrite I; intuition discriminate).
  destruct (document_exact iri_parse lang_parse label_ok gext printable simple subjects doc items SD ND I' C PO P) as (sts & N & J & DS).
  exists sts. split; [exact N|]. split; [exact J|]. intros m emitted fuel' k L.
  eapply document_read; [| |apply DS|exact L]; [intros i H; exact H|]. apply meant2_attributes.
Qed.

Lemma stable_reread gext printable st : xml_stable gext printable st -> xml_reread gext printable st = st.
Proof.
  destruct st as [s p o]. intros (l & E & D & F). cbn [st_object] in E. subst o. unfold xml_reread. cbn [st_subject st_predicate st_object].
  rewrite (escape_itself gext printable _ F), <- D. destruct l; reflexivity.
Qed.
Lemma c68_stable ord_s ord_p ord_o ho n fuel g doc items iri_parse lang_parse label_ok gext printable :
  let simple := fst (g_simplify ho n g) in
  (forall l, Permutation (ord_s l) l) -> any_order ord_p -> any_order ord_o ->
  (forall st, In st (g_list simple) -> statement_carried iri_parse lang_parse label_ok st /\ xml_stable gext printable st) ->
  prefixed_once (g_list simple) ->
  xml_write Bare XFlat ord_s ord_p ord_o ho n fuel g = Done doc -> parses_to doc items ->
  exists sts, NoDup sts /\ (forall st, In st sts <-> In st (g_list simple)) /\
    forall m emitted fuel' k, (length items < fuel')%nat ->
    xml_read m iri_parse lang_parse label_ok gext printable emitted fuel' k items = Done (g_from_iter sts, k).
Proof.
  intros simple HS HP HO C PO W P.
  destruct (c68_exact ord_s ord_p ord_o ho n fuel g doc items iri_parse lang_parse label_ok gext printable HS HP HO) as (sts & N & I & R); try assumption.
  - intros st J. destruct (C st J) as [C1 (l & E & _)]. split; [exact C1|]. intros i. rewrite E. discriminate.
  - exists sts. split; [exact N|]. split; [exact I|]. intros m emitted fuel' k L. rewrite R by exact L. do 3 f_equal.
    rewrite <- (map_id sts) at 2. apply map_ext_in. intros st J. apply stable_reread. apply (C st). apply I, J.
Qed.

(** ** IRIs as objects *)
Section Shape.
Definition textual (attrs : list (xname * str)) : Prop :=
  forall iri_parse lang_parse a, parse_attributes iri_parse lang_parse attrs = io_ok a -> a_resource a = None /\ a_parse a = None.
Inductive shape : bool -> list xml_item -> Prop :=
| Sh_end l : gap l -> shape false l
| Sh_text l x attrs inner x' b r : gap l -> textual attrs -> Forall inside2 inner -> shape r b ->
    shape r (l ++ ([IStart x attrs] ++ inner ++ [IEnd x']) ++ b)
| Sh_iri l x v inner x' b r : gap l -> Forall inside2 inner -> shape r b ->
    shape true (l ++ ([IStart x [(rdf_name $"resource", v)]] ++ inner ++ [IEnd x']) ++ b).
Lemma shape_gap r l a : gap l -> shape r a -> shape r (l ++ a).
Proof.
  intros G S. destruct S as [l' G'|l' x attrs inner x' b r G' T F S|l' x v inner x' b r G' F S].
  - constructor. apply Forall_app. auto.
  - rewrite app_assoc. constructor; try assumption. apply Forall_app. auto.
  - rewrite app_assoc. eapply Sh_iri; try eassumption. apply Forall_app. auto.
Qed.
Lemma shape_app r a r' b : shape r a -> shape r' b -> shape (r || r') (a ++ b).
Proof.
  induction 1 as [l G|l x attrs inner x' c r G T F S IH|l x v inner x' c r G F S IH]; intros B.
  - apply shape_gap; assumption.
  - rewrite <- !app_assoc. pose proof (Sh_text l x attrs inner x' (c ++ b) _ G T F (IH B)) as X. rewrite <- !app_assoc in X. exact X.
  - rewrite <- !app_assoc. pose proof (Sh_iri l x v inner x' (c ++ b) _ G F (IH B)) as X. rewrite <- !app_assoc in X. exact X.
Qed.

Variable m : iri_mode.
Variable iri_parse : str -> option str.
Variable lang_parse : str -> option str.
Variable label_ok : str -> bool.
Variable gext printable : chr -> bool.
Variable emitted : list xml_item -> str.
Notation subjects := (parse_subjects m iri_parse lang_parse label_ok gext printable emitted).
Notation predicates := (parse_predicates m iri_parse lang_parse label_ok gext printable emitted).
Notation object := (parse_object m iri_parse lang_parse label_ok gext printable emitted).
Notation document := (parse_document m iri_parse lang_parse label_ok gext printable emitted).

(** Skipping, if it ends well. *)
Lemma skip_predicates l : forall fuel base s nc r n g st, Forall inside2 l ->
  predicates fuel base s nc (RState (l ++ r) n g) = Done st -> exists fuel', predicates fuel' base s nc (RState r n g) = Done st.
Proof.
  induction l as [|i l IH]; intros fuel base s nc r n g st F E; [eauto|]. destruct fuel as [|fuel]; [discriminate|].
  inversion F as [|? ? H F']; subst. destruct i; try (destruct H as [[]|[]]; fail); (eapply (IH fuel); [exact F'|exact E]).
Qed.
Lemma skip_subjects l : forall fuel base r n g st, gap l ->
  subjects fuel base (RState (l ++ r) n g) = Done st -> exists fuel', subjects fuel' base (RState r n g) = Done st.
Proof.
  induction l as [|i l IH]; intros fuel base r n g st F E; [eauto|]. destruct fuel as [|fuel]; [discriminate|].
  inversion F as [|? ? H F']; subst. destruct i; try contradiction; (eapply (IH fuel); [exact F'|exact E]).
Qed.
Lemma skip_document l : forall fuel r n g st, gap l ->
  document fuel (RState (l ++ r) n g) = Done st -> exists fuel', document fuel' (RState r n g) = Done st.
Proof.
  induction l as [|i l IH]; intros fuel r n g st F E; [eauto|]. destruct fuel as [|fuel]; [discriminate|].
  inversion F as [|? ? H F']; subst. destruct i; try contradiction; (eapply (IH fuel); [exact F'|exact E]).
Qed.
Lemma gap_inside l : gap l -> Forall inside2 l.
Proof. apply Forall_impl. intros i H. right. exact H. Qed.
Lemma object_rest l : forall fuel base c hc x r n g st, Forall inside2 l ->
  object fuel base c false hc (RState (l ++ IEnd x :: r) n g) = Done st -> r_items (snd st) = r.
Proof.
  induction l as [|i l IH]; intros fuel base c hc x r n g st F E; (destruct fuel as [|fuel]; [discriminate|]).
  - injection E as <-. reflexivity.
  - inversion F as [|? ? H F']; subst. destruct i; try (destruct H as [[]|[]]; fail); (eapply (IH fuel); [exact F'|exact E]).
Qed.
Lemma lift_done {A B} (x : io A) (f : A -> wres B) b : lift x f = Done b -> exists a, x = io_ok a /\ f a = Done b.
Proof. destruct x as [[a|e]|]; cbn [lift]; intros E; try discriminate. exists a. auto. Qed.
Lemma bind_done {A B} (x : wres A) (f : A -> wres B) b : wbind x f = Done b -> exists a, x = Done a /\ f a = Done b.
Proof. destruct x as [a|e| |]; cbn [wbind]; intros E; try discriminate. exists a. auto. Qed.

Lemma shape_predicates r l : shape r l -> forall fuel base s x rest n g st,
  predicates fuel base s false (RState (l ++ IEnd x :: rest) n g) = Done st ->
  if r then exists r' l', shape r' l' /\ r_items st = l' ++ IEnd x :: rest else r_items st = rest.
Proof.
  induction 1 as [l G|l y attrs inner y' b r G T F S IH|l y v inner y' b r G F S IH]; intros fuel base s x rest n g st E.
  - apply skip_predicates in E as (k & E); [|apply gap_inside, G]. destruct k; [discriminate|]. injection E as <-. reflexivity.
  - rewrite <- !app_assoc in E. apply skip_predicates in E as (k & E); [|apply gap_inside, G]. destruct k as [|k]; [discriminate|].
    cbn [app parse_predicates r_items r_next r_graph] in E. apply lift_done in E as (a & A & E). destruct (T _ _ _ A) as [R P]. rewrite R, P in E.
    apply bind_done in E as ([c st'] & O & E). apply object_rest in O; [|exact F]. cbn [snd] in O. apply lift_done in E as (p & _ & E). rewrite O in E.
    apply IH in E. exact E.
  - rewrite <- !app_assoc in E. apply skip_predicates in E as (k & E); [|apply gap_inside, G]. destruct k as [|k]; [discriminate|].
    cbn [app parse_predicates r_items r_next r_graph] in E. apply lift_done in E as (a & A & E).
    assert (R : exists i, a_resource a = Some i).
    { unfold parse_attributes in A. cbn [parse_attributes_from rdf_name xn_space xn_local] in A.
      change (opt_str_eqb (Some (rdf [])) (Some XML_NAMESPACE)) with false in A. change (opt_str_eqb (Some (rdf [])) (Some (rdf []))) with true in A.
      change (str_eqb $"resource" $"about") with false in A. change (str_eqb $"resource" $"nodeID") with false in A.
      change (str_eqb $"resource" $"ID") with false in A. change (str_eqb $"resource" $"resource") with true in A. cbv iota in A.
      unfold value_to_iri in A. destruct (iri_parse v) as [i|]; [|discriminate]. unfold io_ok in A. cbn [io_bind] in A. injection A as <-. exists i. reflexivity. }
    destruct R as [i R]. rewrite R in E. apply lift_done in E as (p & _ & E). apply skip_predicates in E as (k' & E); [|exact F].
    destruct k' as [|k']; [discriminate|]. cbn [parse_predicates r_items r_next r_graph] in E. injection E as <-. cbn [r_items]. exists r, b. split; [exact S|reflexivity].
Qed.
Lemma shape_subjects r l : shape r l -> forall fuel base x rest n g st,
  subjects fuel base (RState (l ++ IEnd x :: rest) n g) = Done st -> r_items st = rest.
Proof.
  assert (X : forall y attrs inner y' b, Forall inside2 inner ->
    (forall fuel base x rest n g st, subjects fuel base (RState (b ++ IEnd x :: rest) n g) = Done st -> r_items st = rest) ->
    forall l fuel base x rest n g st, gap l ->
    subjects fuel base (RState ((l ++ ([IStart y attrs] ++ inner ++ [IEnd y']) ++ b) ++ IEnd x :: rest) n g) = Done st -> r_items st = rest).
  { clear r l. intros y attrs inner y' b F IH l fuel base x rest n g st G E. rewrite <- !app_assoc in E. apply skip_subjects in E as (k & E); [|exact G].
    destruct k as [|k]; [discriminate|]. cbn [app parse_subjects r_items r_next r_graph] in E. apply lift_done in E as (a & _ & E).
    apply lift_done in E as ([s n1] & _ & E). apply lift_done in E as (g1 & _ & E). apply lift_done in E as (g2 & _ & E).
    apply bind_done in E as (st' & P & E). apply skip_predicates in P as (k' & P); [|exact F]. destruct k' as [|k']; [discriminate|].
    cbn [parse_predicates r_items r_next r_graph] in P. injection P as <-. eapply IH, E. }
  induction 1 as [l G|l y attrs inner y' b r G T F S IH|l y v inner y' b r G F S IH]; intros fuel base x rest n g st E.
  - apply skip_subjects in E as (k & E); [|exact G]. destruct k; [discriminate|]. injection E as <-. reflexivity.
  - eapply X; eassumption.
  - eapply X; eassumption.
Qed.

(** The nodes of a document, with whether they have an IRI as object. *)
Inductive nshape : list bool -> list xml_item -> Prop :=
| Nh_end l : gap l -> nshape [] l
| Nh_more l attrs body x' r b rs : gap l -> shape r body -> nshape rs b ->
    nshape (r :: rs) (l ++ ([IStart (rdf_name $"Description") attrs] ++ body ++ [IEnd x']) ++ b).
Lemma nshape_start r rs l : nshape (r :: rs) l -> forall rest, exists gp attrs t, l ++ rest = gp ++ IStart (rdf_name $"Description") attrs :: t /\ gap gp.
Proof. intros N rest. inversion N as [|l' attrs body x' ? b ? G S N']; subst. exists l', attrs. eexists. split; [rewrite <- !app_assoc; reflexivity|exact G]. Qed.
Lemma nshape_subjects rs l : nshape rs l -> forall a b, rs = a ++ true :: b -> b <> [] -> forall fuel base x rest n g st,
  subjects fuel base (RState (l ++ IEnd x :: rest) n g) = Done st ->
  exists gp attrs t, r_items st = gp ++ IStart (rdf_name $"Description") attrs :: t /\ gap gp.
Proof.
  induction 1 as [l G|l attrs body x' r b rs G S N IH]; intros a c E NB fuel base x rest n g st D; [destruct a; discriminate|].
  rewrite <- !app_assoc in D. apply skip_subjects in D as (k & D); [|exact G]. destruct k as [|k]; [discriminate|].
  cbn [app parse_subjects r_items r_next r_graph] in D. apply lift_done in D as (at' & _ & D).
  apply lift_done in D as ([s n1] & _ & D). apply lift_done in D as (g1 & _ & D). apply lift_done in D as (g2 & _ & D).
  apply bind_done in D as ([l' n' g'] & P & D). apply (shape_predicates _ _ S) in P. cbn [r_items] in P. destruct r.
  - destruct P as (r' & l2 & S' & ->). apply (shape_subjects _ _ S') in D. rewrite D.
    destruct rs as [|r2 rs]; [destruct a as [|? [|]]; cbn [app] in E; injection E as E; subst; try contradiction; discriminate|].
    apply (nshape_start _ _ _ N).
  - destruct a as [|r0 a]; cbn [app] in E; injection E as E0 E; [discriminate|]. subst. eapply IH; [reflexivity|exact NB|exact D].
Qed.
End Shape.

(** The shape of what is parsed. *)
Lemma object_textual o : (forall i, o <> ORes i) -> textual (obj_attrs o).
Proof.
  intros NI iri_parse lang_parse a. unfold parse_attributes. destruct o as [b|i|l|items|t]; try (intros E; injection E as <-; split; reflexivity).
  - destruct (NI i eq_refl).
  - cbn [obj_attrs]. destruct (lit_language l) as [[|c t]|], (lit_data_type l) as [d|]; cbn [app parse_attributes_from].
    + intros E. injection E as <-. split; reflexivity.
    + intros E. injection E as <-. split; reflexivity.
    + cbn. destruct (lang_parse (c :: t)); intros E; [injection E as <-; split; reflexivity|discriminate].
    + cbn. destruct (lang_parse (c :: t)); intros E; [injection E as <-; split; reflexivity|discriminate].
    + intros E. injection E as <-. split; reflexivity.
    + intros E. injection E as <-. split; reflexivity.
Qed.
Definition is_res (o : object) : bool := match o with ORes _ => true | _ => false end.
Lemma text_no_end t : ~ In IDocEnd (text_items t).
Proof. unfold text_items. destruct t; [intros []|]. destruct (forallb _ _); intros [E|[]]; discriminate. Qed.
Lemma objects_shape g ns local k os ev : shows_objects Bare g true ns local k os ev ->
  forall sc rest items, ~ broken (parsed (SC :: sc) (ev ++ rest)) -> nsp items = nsp (parsed (SC :: sc) (ev ++ rest)) ->
  exists a b, items = a ++ b /\ shape (existsb is_res os) a /\ nsp b = nsp (parsed (SC :: sc) rest) /\ ~ broken (parsed (SC :: sc) rest).
Proof.
  induction 1 as [ns local k|ns local k o os attrs inner ev SO _ IH]; intros sc rest items NB E.
  - exists [], items. split; [reflexivity|]. split; [apply Sh_end; constructor|]. split; assumption.
  - rewrite <- !app_assoc in E, NB. destruct (unbroken_start _ _ _ _ _ NB) as (x & xs & EX & _). cbn [hd] in EX.
    rewrite (property_parsed g ns _ o attrs inner x sc (ev ++ rest) SO EX) in E, NB.
    assert (NB' : ~ broken (parsed (SC :: sc) (ev ++ rest))).
    { intros B. apply NB. cbn [app]. apply broken_cons; [discriminate|]. apply broken_app; [apply text_no_end|]. apply broken_cons; [discriminate|exact B]. }
    apply property_spaced in E as (gp & content & b & -> & G & F & _ & E).
    destruct (IH sc rest b NB' E) as (a' & b' & -> & SH & E' & NB'').
    exists (gp ++ ([IStart x (obj_attrs o)] ++ content ++ [IEnd x]) ++ a'), b'. split; [rewrite <- !app_assoc; reflexivity|]. split; [|split; assumption].
    cbn [existsb]. destruct o as [b0|i|l|it|t]; cbn [is_res orb]; try (apply Sh_text; try assumption; apply object_textual; discriminate).
    eapply Sh_iri; eassumption.
Qed.
Lemma groups_shape g gs ev : shows_groups Bare g true gs ev ->
  forall sc rest items, ~ broken (parsed (SC :: sc) (ev ++ rest)) -> nsp items = nsp (parsed (SC :: sc) (ev ++ rest)) ->
  exists a b, items = a ++ b /\ shape (existsb (fun e => existsb is_res (snd e)) gs) a /\ nsp b = nsp (parsed (SC :: sc) rest) /\ ~ broken (parsed (SC :: sc) rest).
Proof.
  induction 1 as [|p os r ns local b1 b2 D SO _ IH]; intros sc rest items NB E.
  - exists [], items. split; [reflexivity|]. split; [apply Sh_end; constructor|]. split; assumption.
  - rewrite <- app_assoc in E, NB. destruct (objects_shape _ _ _ _ _ _ SO _ _ _ NB E) as (a & b & -> & S & E' & NB').
    destruct (IH _ _ _ NB' E') as (a' & b' & -> & S' & E'' & NB''). exists (a ++ a'), b'. split; [rewrite <- app_assoc; reflexivity|].
    split; [cbn [existsb snd]; apply shape_app; assumption|]. split; assumption.
Qed.
Definition has_res (g : graph) (s : subject) : Prop := exists p i, In (MkStmt s p (ORes i)) (g_list g).
Lemma node_shape g s ev : shows_node Bare g true s ev ->
  forall sc rest items, ~ broken (parsed (SC :: sc) (ev ++ rest)) -> nsp items = nsp (parsed (SC :: sc) (ev ++ rest)) ->
  exists gp attrs body x' r b, items = gp ++ ([IStart (rdf_name $"Description") attrs] ++ body ++ [IEnd x']) ++ b /\ gap gp /\ shape r body /\
    (has_res g s -> r = true) /\ nsp b = nsp (parsed (SC :: sc) rest) /\ ~ broken (parsed (SC :: sc) rest).
Proof.
  intros SN sc rest items NB E. inversion SN as [s' gs attrs body NS G SG E1 E2]. clear SN. subst s' ev.
  rewrite <- !app_assoc in E, NB. destruct (unbroken_start _ _ _ _ _ NB) as (x & xs & EX & AX). cbn [hd app] in EX, AX.
  cbn [app parsed] in E, NB. change (hd [] (SC :: sc)) with SC in E, NB. cbn [app] in E, NB.
  change (element_xname SC $"rdf:Description") with (Some (rdf_name $"Description")) in E, NB. cbv iota in E, NB. rewrite AX in E, NB.
  assert (NB1 : ~ broken (parsed (SC :: SC :: sc) (body ++ XEnd $"rdf:Description" :: rest))).
  { intros B. apply NB. apply broken_cons; [discriminate|exact B]. }
  cbn [filter is_space negb] in E. apply nsp_cons in E as (gp & r & -> & GP & E).
  destruct (groups_shape _ _ _ SG _ _ _ NB1 E) as (a & b & -> & SH & E' & NB2).
  cbn [parsed hd tl] in E', NB2. change (element_xname SC $"rdf:Description") with (Some (rdf_name $"Description")) in E', NB2. cbv iota in E', NB2.
  cbn [filter is_space negb] in E'. apply nsp_cons in E' as (g2 & b' & -> & G2 & E').
  exists gp, xs, (a ++ g2), (rdf_name $"Description"), (existsb (fun e => existsb is_res (snd e)) gs), b'.
  split; [rewrite <- !app_assoc; reflexivity|]. split; [exact GP|]. split; [|split; [|split; [exact E'|]]].
  - rewrite <- (Bool.orb_false_r (existsb _ gs)). apply shape_app; [exact SH|apply Sh_end; exact G2].
  - intros (p & i & J). destruct (proj2 (proj2 (proj2 G) p (ORes i)) J) as (os & K & L). apply existsb_exists. exists (p, os). split; [exact K|].
    apply existsb_exists. exists (ORes i). split; [exact L|reflexivity].
  - intros B. apply NB2. apply broken_cons; [discriminate|exact B].
Qed.
Lemma nodes_shape g subjects blocks : Forall2 (shows_node Bare g true) subjects blocks ->
  forall sc rest items, ~ broken (parsed (SC :: sc) (concat blocks ++ rest)) -> nsp items = nsp (parsed (SC :: sc) (concat blocks ++ rest)) ->
  exists a b rs, items = a ++ b /\ nshape rs a /\ Forall2 (fun s r => has_res g s -> r = true) subjects rs /\
    nsp b = nsp (parsed (SC :: sc) rest) /\ ~ broken (parsed (SC :: sc) rest).
Proof.
  induction 1 as [|s ev subjects blocks SN F IH]; intros sc rest items NB E.
  - exists [], items, []. split; [reflexivity|]. split; [apply Nh_end; constructor|]. split; [constructor|]. split; assumption.
  - cbn [concat] in E, NB. rewrite <- app_assoc in E, NB.
    destruct (node_shape g s ev SN _ _ _ NB E) as (gp & attrs & body & x' & r & b & -> & G & S & R & E' & NB').
    destruct (IH _ _ _ NB' E') as (a' & b' & rs & -> & N & FR & E'' & NB'').
    exists (gp ++ ([IStart (rdf_name $"Description") attrs] ++ body ++ [IEnd x']) ++ a'), b', (r :: rs).
    split; [rewrite <- !app_assoc; reflexivity|]. split; [constructor; assumption|]. split; [constructor; assumption|]. split; assumption.
Qed.
Lemma two_flags (g : graph) subjects rs s t : Forall2 (fun s r => has_res g s -> r = true) subjects rs -> In s subjects -> In t subjects -> s <> t ->
  has_res g s -> has_res g t -> exists a b, rs = a ++ true :: b /\ b <> [].
Proof.
  induction 1 as [|x r subjects rs R F IH]; intros IS IT NE HS HT; [destruct IS|].
  assert (X : forall y, In y subjects -> rs <> []) by (intros y Y ->; inversion F; subst; destruct Y).
  destruct IS as [->|IS].
  - rewrite (R HS). exists [], rs. split; [reflexivity|]. destruct IT as [->|IT]; [destruct (NE eq_refl)|eapply X, IT].
  - destruct IT as [->|IT].
    + rewrite (R HT). exists [], rs. split; [reflexivity|eapply X, IS].
    + destruct (IH IS IT NE HS HT) as (a & b & -> & NB). exists (r :: a), b. split; [reflexivity|exact NB].
Qed.
Lemma c68_iris ord_s ord_p ord_o ho n fuel g doc s t p q i j : let simple := fst (g_simplify ho n g) in
  (forall l, Permutation (ord_s l) l) -> any_order ord_p -> any_order ord_o ->
  In (MkStmt s p (ORes i)) (g_list simple) -> In (MkStmt t q (ORes j)) (g_list simple) -> s <> t ->
  xml_write Bare XFlat ord_s ord_p ord_o ho n fuel g = Done doc ->
  forall items, parses_to doc items -> forall m' iri_parse lang_parse label_ok gext printable emitted fuel' k x,
    xml_read m' iri_parse lang_parse label_ok gext printable emitted fuel' k items <> Done x.
Proof.
  intros simple HS HP HO IS IT NE W items P m' iri_parse lang_parse label_ok gext printable emitted fuel' k x R.
  destruct (xml_write_done Bare XFlat ord_s ord_p ord_o ho n fuel g doc HS HP HO W) as (subjects & _ & I & (blocks & F & ->)). fold simple in I, F.
  assert (NB : ~ broken items). { intros B. eapply broken_unread; [exact B|exact R]. }
  unfold parses_to in P. cbn [app parsed filter is_space negb] in P. fold SC in P.
  change (element_xname SC $"rdf:RDF") with (Some (rdf_name $"RDF")) in P. cbv iota in P. cbn [attribute_items filter is_space negb] in P.
  assert (NB1 : ~ broken (parsed [SC] (concat blocks ++ [XEnd $"rdf:RDF"]))).
  { intros B. apply NB. apply nsp_broken. rewrite P. apply broken_cons; [discriminate|]. apply broken_cons; [discriminate|]. apply broken_nsp, B. }
  apply nsp_cons in P as (g1 & r & -> & G1 & P). apply nsp_cons in P as (g2 & r2 & -> & G2 & P).
  destruct (nodes_shape simple subjects blocks F [] _ _ NB1 P) as (a & b & rs & -> & NS & FR & E & _).
  cbn [parsed hd tl] in E. change (element_xname SC $"rdf:RDF") with (Some (rdf_name $"RDF")) in E. cbv iota in E. cbn [filter is_space negb parsed] in E.
  apply nsp_cons in E as (g3 & r3 & -> & G3 & E).
  destruct (two_flags simple subjects rs s t FR) as (f1 & f2 & -> & NF).
  { apply I. split; [eauto|discriminate]. } { apply I. split; [eauto|discriminate]. } { exact NE. } { exists p, i. exact IS. } { exists q, j. exact IT. }
  assert (NS' : nshape (f1 ++ true :: f2) (a ++ g3)).
  { clear - NS G3. induction NS as [l G|l attrs body x' r b rs G S N IH]; [constructor; apply Forall_app; auto|].
    pose proof (Nh_more l attrs body x' r (b ++ g3) rs G S IH) as X. rewrite <- !app_assoc in *. exact X. }
  unfold xml_read in R. apply bind_done in R as (st & R & _).
  apply skip_document in R as (f0 & R); [|exact G1].
  match type of R with context [IOther :: g2 ++ ?X] => change (IOther :: g2 ++ X) with ((IOther :: g2) ++ X) in R end.
  apply skip_document in R as (f & R); [|constructor; [exact Logic.I|exact G2]].
  rewrite (app_assoc a) in R.
  destruct f as [|f]; [discriminate|]. cbn [parse_document r_items r_next r_graph parse_attributes parse_attributes_from] in R.
  change (name_matches $"RDF" (rdf []) (rdf_name $"RDF")) with true in R. unfold parse_attributes in R. cbn [parse_attributes_from lift io_ok] in R.
  apply bind_done in R as ([l' n' g'] & D & R).
  eapply nshape_subjects in D; [|exact NS'|reflexivity|exact NF]. destruct D as (gp & attrs & tt & E2 & GP). cbn [r_items] in E2. subst l'.
  apply skip_document in R as (f' & R); [|exact GP]. destruct f' as [|f']; [discriminate|]. cbn [parse_document r_items r_next r_graph] in R.
  apply lift_done in R as (at' & _ & R). change (name_matches $"RDF" (rdf []) (rdf_name $"Description")) with false in R. discriminate.
Qed.
