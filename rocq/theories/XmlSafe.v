From Coq Require Import Lia Arith.
From Verif Require Import StrFacts GraphProofs SimplifyProofs TermProofs XmlProofs XmlRead.
From Verif Require Export XmlSpec.

(** ** The reader comes to an end *)
Section Ends.
Variable m : iri_mode.
Variable iri_parse : str -> option str.
Variable lang_parse : str -> option str.
Variable label_ok : str -> bool.
Variable gext printable : chr -> bool.
Variable emitted : list xml_item -> str.
Notation subjects := (parse_subjects m iri_parse lang_parse label_ok gext printable emitted).
Notation predicates := (parse_predicates m iri_parse lang_parse label_ok gext printable emitted).
Notation object := (parse_object m iri_parse lang_parse label_ok gext printable emitted).
Notation document := (parse_document m iri_parse lang_parse label_ok gext printable emitted).

(** The result of reading [l] at depth [S d]. *)
Definition ended {A} (items : A -> list xml_item) (d k : nat) (x : wres A) : Prop :=
  match x with
  | OutOfFuel => False
  | Done a => exists e, (d <= e)%nat /\ nested e (items a) /\ (length (items a) < k)%nat
  | _ => True
  end.
Lemma ended_lift {A B} items d k (x : io A) (f : A -> wres B) : (forall a, ended items d k (f a)) -> ended items d k (lift x f).
Proof. intros H. destruct x as [[a|e]|]; cbn [lift]; [apply H|exact Logic.I|exact Logic.I]. Qed.
Lemma ended_bind {A B} i1 i2 d1 d2 k1 k2 (x : wres A) (f : A -> wres B) : ended i1 d1 k1 x ->
  (forall a e, (d1 <= e)%nat -> nested e (i1 a) -> (length (i1 a) < k1)%nat -> ended i2 d2 k2 (f a)) -> ended i2 d2 k2 (wbind x f).
Proof. intros H K. destruct x as [a|e| |]; cbn [wbind]; [|exact Logic.I|exact Logic.I|exact H]. destruct H as (e & L & N & Q). eapply K; eauto. Qed.
Lemma ended_le {A} items d d' k k' (x : wres A) : (d <= d')%nat -> (k' <= k)%nat -> ended items d' k' x -> ended items d k x.
Proof. intros L K. destruct x; cbn [ended]; auto. intros (e & H & N & Q). exists e. repeat split; try assumption; lia. Qed.

Lemma xml_literal_ends l : forall d opened seen, nested (S opened + d) l ->
  ended snd (S d) (length l) (parse_xml_literal emitted l opened seen).
Proof.
  induction l as [|i l IH]; intros d opened seen N; [destruct N|].
  destruct i as [n a|n|s|s|s| | |]; cbn [parse_xml_literal nested] in *;
    try (eapply ended_le; [| |apply (IH d); exact N]; cbn [length]; lia).
  - destruct opened as [|[|k]]; [exact Logic.I| |].
    + exists (S d). cbn [snd length]. repeat split; [lia|exact N|lia].
    + eapply ended_le; [| |apply (IH d (S k)); exact N]; cbn [length]; lia.
  - discriminate.
  - exact Logic.I.
Qed.
Lemma reader_ends fuel :
  (forall base st d, nested (S d) (r_items st) -> (length (r_items st) < fuel)%nat ->
     ended r_items d (length (r_items st)) (subjects fuel base st)) /\
  (forall base s nc st d, nested (S d) (r_items st) -> (length (r_items st) < fuel)%nat ->
     ended r_items d (length (r_items st)) (predicates fuel base s nc st)) /\
  (forall base c he hc st d, nested (S d) (r_items st) -> (length (r_items st) < fuel)%nat ->
     ended (fun a => r_items (snd a)) d (length (r_items st)) (object fuel base c he hc st)).
Proof.
  induction fuel as [|fuel IH]; [split; [|split]; intros; lia|]. destruct IH as (IS & IP & IO).
  assert (PS : forall base r n g d k, nested (S d) r -> (length r < fuel)%nat -> (length r <= k)%nat -> ended r_items d k (subjects fuel base (RState r n g))).
  { intros base r n g d k N L K. eapply ended_le; [| |apply (IS base (RState r n g) d); assumption]; cbn [r_items]; lia. }
  assert (PP : forall base s nc r n g d k, nested (S d) r -> (length r < fuel)%nat -> (length r <= k)%nat -> ended r_items d k (predicates fuel base s nc (RState r n g))).
  { intros base s nc r n g d k N L K. eapply ended_le; [| |apply (IP base s nc (RState r n g) d); assumption]; cbn [r_items]; lia. }
  assert (PO : forall base c he hc r n g d k, nested (S d) r -> (length r < fuel)%nat -> (length r <= k)%nat ->
    ended (fun a => r_items (snd a)) d k (object fuel base c he hc (RState r n g))).
  { intros base c he hc r n g d k N L K. eapply ended_le; [| |apply (IO base c he hc (RState r n g) d); assumption]; cbn [r_items]; lia. }
  assert (UP : forall l e d, nested e l -> (S d <= e)%nat -> exists e', (d <= e')%nat /\ nested (S e') l).
  { intros l e d N L. destruct e as [|e]; [lia|]. exists e. split; [lia|exact N]. }
  split; [|split].
  - intros base [items n g] d N L. cbn [r_items] in *. destruct items as [|i r]; [destruct N|]. cbn [length] in *.
    destruct i as [x a|x|s|s|s| | |]; cbn [parse_subjects r_items r_next r_graph nested] in *; try (apply PS; (assumption || lia)).
    + apply ended_lift. intros at'. apply ended_lift. intros [s n1]. apply ended_lift. intros g1. apply ended_lift. intros g2.
      eapply ended_bind; [apply (PP _ _ _ _ _ _ (S d) (length r)); [exact N|lia|lia]|]. intros [l' n' g'] e H N' Q. cbn [r_items] in *.
      destruct (UP _ _ _ N' H) as (e' & H' & N2). eapply ended_le; [exact H'| |apply PS; [exact N2|lia|]]; [|apply le_n]. lia.
    + exists d. repeat split; [lia|exact N|cbn; lia].
    + exact Logic.I.
  - intros base s nc [items n g] d N L. cbn [r_items] in *. destruct items as [|i r]; [destruct N|]. cbn [length] in *.
    destruct i as [x a|x|t|t|t| | |]; cbn [parse_predicates r_items r_next r_graph nested] in *; try (apply PP; (assumption || lia)).
    + destruct nc; [exact Logic.I|]. apply ended_lift. intros at'. destruct (a_resource at') as [i|].
      * apply ended_lift. intros p. eapply ended_le; [| |apply (PP _ _ _ _ _ _ (S d) (length r)); [exact N|lia|lia]]; lia.
      * destruct (a_parse at') as [[| |]|].
        -- eapply ended_bind; [apply (xml_literal_ends r (S d)); exact N|]. intros [c r'] e H N' Q. cbn [snd] in *. apply ended_lift. intros p.
           destruct (UP _ _ _ N' H) as (e' & H' & N2). eapply ended_le; [| |apply PP; [exact N2|lia|]]; [lia| |apply le_n]. lia.
        -- eapply ended_bind; [apply (PS _ _ _ _ (S d) (length r)); [exact N|lia|lia]|]. intros [l' n' g'] e H N' Q. cbn [r_items] in *.
           destruct (UP _ _ _ N' H) as (e' & H' & N2). eapply ended_le; [exact H'| |apply PP; [exact N2|lia|]]; [|apply le_n]. lia.
        -- exact Logic.I.
        -- eapply ended_bind; [apply (PO _ _ _ _ _ _ _ (S d) (length r)); [exact N|lia|lia]|]. intros [c [l' n' g']] e H N' Q. cbn [snd r_items r_next r_graph] in *.
           apply ended_lift. intros p.
           destruct (UP _ _ _ N' H) as (e' & H' & N2). eapply ended_le; [exact H'| |apply PP; [exact N2|lia|]]; [|apply le_n]. lia.
    + exists d. repeat split; [lia|exact N|cbn; lia].
    + exact Logic.I.
  - intros base c he hc [items n g] d N L. cbn [r_items] in *. destruct items as [|i r]; [destruct N|]. cbn [length] in *.
    destruct i as [x a|x|t|t|t| | |]; cbn [parse_object r_items r_next r_graph nested] in *; try (apply PO; (assumption || lia)).
    + destruct hc; [exact Logic.I|]. apply ended_lift. intros at'.
      eapply ended_bind; [apply (PS _ _ _ _ (S d) (length r)); [exact N|lia|lia]|]. intros [l' n' g'] e H N' Q. cbn [r_items] in *.
      destruct (UP _ _ _ N' H) as (e' & H' & N2). eapply ended_le; [exact H'| |apply PO; [exact N2|lia|]]; [|apply le_n]. lia.
    + exists d. repeat split; [lia|exact N|cbn; lia].
    + destruct he; [exact Logic.I|]. apply PO; (assumption || lia).
    + destruct he; [exact Logic.I|]. apply PO; (assumption || lia).
    + exact Logic.I.
Qed.
Lemma document_ends fuel : forall st d, nested d (r_items st) -> (length (r_items st) < fuel)%nat -> document fuel st <> OutOfFuel.
Proof.
  induction fuel as [|fuel IH]; intros [items n g] d N L; [lia|]. cbn [r_items] in *. destruct items as [|i r]; [destruct N|]. cbn [length] in *.
  destruct i as [x a|x|t|t|t| | |]; cbn [parse_document r_items r_next r_graph nested] in *; try (eapply IH; [exact N|cbn [r_items]; lia]); try discriminate.
  - destruct (parse_attributes iri_parse lang_parse a) as [[at'|e]|]; cbn [lift]; try discriminate. destruct (name_matches _ _ x); [|discriminate].
    pose proof (proj1 (reader_ends fuel) (a_base at') (RState r n g) d N) as E. cbn [r_items] in E. specialize (E ltac:(lia)).
    destruct (subjects fuel (a_base at') (RState r n g)) as [[l' n' g']|e| |]; cbn [wbind ended r_items] in *; try discriminate.
    + destruct E as (e & _ & N' & Q). eapply IH; [exact N'|cbn [r_items]; lia].
    + destruct E.
  - destruct d; [destruct N|]. eapply IH; [exact N|cbn [r_items]; lia].
Qed.
Lemma c70 fuel n items : nested 0 items -> (length items < fuel)%nat ->
  xml_read m iri_parse lang_parse label_ok gext printable emitted fuel n items <> OutOfFuel.
Proof.
  intros N L. unfold xml_read. pose proof (document_ends fuel (RState items n g_default) 0 N L) as E.
  destruct (document fuel _); cbn [wbind]; congruence.
Qed.

(** ** What makes it panic *)
Definition blames {A} (items : A -> list xml_item) (l : list xml_item) (x : wres A) : Prop :=
  match x with
  | Crashed => Exists panics_at l
  | Done a => incl (items a) l
  | _ => True
  end.
Lemma blames_bind {A B} i1 i2 l (x : wres A) (f : A -> wres B) : blames i1 l x ->
  (forall a, incl (i1 a) l -> blames i2 l (f a)) -> blames i2 l (wbind x f).
Proof. intros H K. destruct x as [a|e| |]; cbn [wbind]; [apply K; exact H|exact Logic.I|exact H|exact Logic.I]. Qed.
Lemma blames_incl {A} items l l' (x : wres A) : incl l' l -> blames items l' x -> blames items l x.
Proof.
  intros H. destruct x; cbn [blames]; auto.
  - intros K. eapply incl_tran; eassumption.
  - rewrite !Exists_exists. intros (i & I & P). exists i. split; [apply H, I|exact P].
Qed.
Lemma blames_lift {A B} items l (x : io A) (f : A -> wres B) : (x = Panic -> Exists panics_at l) ->
  (forall a, x = io_ok a -> blames items l (f a)) -> blames items l (lift x f).
Proof. intros H K. destruct x as [[a|e]|]; cbn [lift]; [apply K; reflexivity|exact Logic.I|apply H; reflexivity]. Qed.

(** What the attributes say of the panics to come. *)
Definition bad_attr (e : xname * str) : Prop :=
  xn_space (fst e) = None \/ fst e = rdf_name $"ID" \/ (fst e = rdf_name $"parseType" /\ snd e <> $"Resource").
Definition from_attrs (l : list (xname * str)) (a : xattrs) : Prop :=
  (forall s, a_subject a = Some (TRelative s) -> Exists bad_attr l) /\
  (forall p, a_parse a = Some p -> p <> PtResource -> Exists bad_attr l) /\
  (Exists (fun e => xn_space (fst e) = None) (a_inner a) -> Exists bad_attr l).
Lemma attributes_from more : forall l r, from_attrs l r ->
  match parse_attributes_from iri_parse lang_parse r more with
  | Panic => Exists bad_attr (l ++ more)
  | Ret (Ok a) => from_attrs (l ++ more) a
  | Ret (Err _) => True
  end.
Proof.
  induction more as [|[x v] more IH]; intros l r F; [rewrite app_nil_r; exact F|].
  replace (l ++ (x, v) :: more) with ((l ++ [(x, v)]) ++ more) by (rewrite <- app_assoc; reflexivity).
  specialize (IH (l ++ [(x, v)])). cbn [parse_attributes_from].
  assert (F' : from_attrs (l ++ [(x, v)]) r).
  { destruct F as (F1 & F2 & F3). split; [|split].
    - intros s E. apply Exists_app. left. eapply F1, E.
    - intros p E N. apply Exists_app. left. eapply F2; eauto.
    - intros E. apply Exists_app. left. apply F3, E. }
  assert (BX : bad_attr (x, v) -> Exists bad_attr (l ++ [(x, v)])).
  { intros B. apply Exists_app. right. constructor. exact B. }
  destruct (opt_str_eqb (xn_space x) (Some XML_NAMESPACE)) eqn:X1.
  { destruct (str_eqb (xn_local x) $"base"); [|destruct (str_eqb (xn_local x) $"lang")].
    - unfold value_to_iri. destruct (iri_parse v); unfold io_ok, io_err; cbn [io_bind]; [apply IH; exact F'|exact Logic.I].
    - destruct (lang_parse v); unfold io_ok, io_err; cbn [io_bind]; [apply IH; exact F'|exact Logic.I].
    - unfold io_ok; cbn [io_bind]; apply IH; exact F'. }
  destruct (opt_str_eqb (xn_space x) (Some (rdf []))) eqn:X2.
  { apply opt_str_eqb_iff in X2. destruct (str_eqb (xn_local x) $"about"); [|destruct (str_eqb (xn_local x) $"nodeID"); [|destruct (str_eqb (xn_local x) $"ID") eqn:XI;
      [|destruct (str_eqb (xn_local x) $"resource"); [|destruct (str_eqb (xn_local x) $"parseType") eqn:XP]]]].
    - unfold value_to_iri. destruct (iri_parse v); unfold io_ok, io_err; cbn [io_bind]; [apply IH|exact Logic.I].
      split; [intros s; discriminate|apply F'].
    - unfold io_ok; cbn [io_bind]; apply IH. split; [intros s; discriminate|apply F'].
    - unfold io_ok; cbn [io_bind]; apply IH. apply str_eqb_eq in XI. split; [|apply F'].
      intros s _. apply BX. right. left. cbn [fst]. destruct x as [xs xl]. cbn in *. subst. reflexivity.
    - unfold value_to_iri. destruct (iri_parse v); unfold io_ok, io_err; cbn [io_bind]; [apply IH; exact F'|exact Logic.I].
    - apply str_eqb_eq in XP. cbv zeta.
      assert (X : x = rdf_name $"parseType") by (destruct x as [xs xl]; cbn in *; subst; reflexivity).
      assert (ST : forall t, (t <> PtResource -> v <> $"Resource") -> from_attrs (l ++ [(x, v)]) (XAttrs (a_subject r) (Some t) (a_base r) (a_data_type r) (a_language r) (a_resource r) (a_inner r))).
      { intros t NT. split; [apply F'|]. split; [|apply F']. intros p E N. cbn [a_parse] in E. injection E as <-. apply BX. right. right. cbn [fst snd]. auto. }
      destruct (str_eqb v $"Literal") eqn:V1; [|destruct (str_eqb v $"Resource") eqn:V2; [|destruct (str_eqb v $"Collection") eqn:V3]].
      + unfold io_ok; cbn [io_bind]; apply IH, ST. intros _. apply str_eqb_eq in V1. subst v. vm_compute. discriminate.
      + unfold io_ok; cbn [io_bind]; apply IH, ST. intros C. destruct (C eq_refl).
      + unfold io_ok; cbn [io_bind]; apply IH, ST. intros _. apply str_eqb_neq in V2. exact V2.
      + cbn [io_bind]. apply Exists_app. left. apply BX. right. right. cbn [fst snd]. split; [exact X|]. apply str_eqb_neq in V2. exact V2.
    - unfold io_ok; cbn [io_bind]; apply IH; exact F'. }
  unfold io_ok; cbn [io_bind]; apply IH. split; [apply F'|]. split; [apply F'|]. cbn [a_inner]. intros E. apply Exists_app in E as [E|E].
  - apply F', E.
  - apply BX. left. inversion E as [? ? H|? ? H]; subst; [exact H|inversion H].
Qed.
Lemma attributes_blame x attrs r :
  match parse_attributes iri_parse lang_parse attrs with
  | Panic => Exists panics_at (IStart x attrs :: r)
  | Ret (Ok a) =>
      (forall s, a_subject a = Some (TRelative s) -> Exists panics_at (IStart x attrs :: r)) /\
      (forall p, a_parse a = Some p -> p <> PtResource -> Exists panics_at (IStart x attrs :: r)) /\
      (Exists (fun e => xn_space (fst e) = None) (a_inner a) -> Exists panics_at (IStart x attrs :: r))
  | Ret (Err _) => True
  end.
Proof.
  pose proof (attributes_from attrs [] no_attrs) as A. cbn [app] in A. unfold parse_attributes.
  assert (B : Exists bad_attr attrs -> Exists panics_at (IStart x attrs :: r)).
  { intros E. apply Exists_exists in E as ([a v] & I & E). constructor. right. exists a, v. split; [exact I|exact E]. }
  assert (F0 : from_attrs [] no_attrs). { split; [discriminate|]. split; [discriminate|]. intros E. inversion E. }
  specialize (A F0). destruct (parse_attributes_from iri_parse lang_parse no_attrs attrs) as [[a|e]|]; [|exact Logic.I|apply B, A].
  destruct A as (A1 & A2 & A3). split; [|split]; eauto.
Qed.
Lemma name_panic x : name_to_iri iri_parse x = Panic -> xn_space x = None.
Proof. unfold name_to_iri, value_to_iri. destruct (xn_space x) as [ns|]; [|reflexivity]. destruct (iri_parse _); discriminate. Qed.
Lemma inner_panic l : forall s g, parse_predicate_attributes iri_parse gext printable l s g = Panic -> Exists (fun e => xn_space (fst e) = None) l.
Proof.
  induction l as [|[x v] l IH]; intros s g; [discriminate|]. cbn [parse_predicate_attributes].
  destruct (name_to_iri iri_parse x) as [[p|e]|] eqn:E; cbn [io_bind].
  - intros P. right. eapply IH, P.
  - discriminate.
  - intros _. left. apply name_panic, E.
Qed.
Lemma xml_literal_incl l : forall opened seen c r, parse_xml_literal emitted l opened seen = Done (c, r) -> incl r l.
Proof.
  induction l as [|i l IH]; intros opened seen c r; [discriminate|]. cbn [parse_xml_literal].
  destruct i as [n a|n|s|s|s| | |]; try discriminate; try (intros E; apply IH in E; apply incl_tl, E).
  destruct opened as [|[|k]]; [discriminate| |].
  - intros E. injection E as _ <-. apply incl_tl, incl_refl.
  - intros E; apply IH in E; apply incl_tl, E.
Qed.
Lemma reader_blames fuel :
  (forall base st, blames r_items (r_items st) (subjects fuel base st)) /\
  (forall base s nc st, blames r_items (r_items st) (predicates fuel base s nc st)) /\
  (forall base c he hc st, blames (fun a => r_items (snd a)) (r_items st) (object fuel base c he hc st)).
Proof.
  induction fuel as [|fuel IH]; [split; [|split]; intros; exact Logic.I|]. destruct IH as (IS & IP & IO).
  assert (PS : forall base r n g l, incl r l -> blames r_items l (subjects fuel base (RState r n g)))
    by (intros base r n g l I; eapply blames_incl; [exact I|apply (IS base (RState r n g))]).
  assert (PP : forall base s nc r n g l, incl r l -> blames r_items l (predicates fuel base s nc (RState r n g)))
    by (intros base s nc r n g l I; eapply blames_incl; [exact I|apply (IP base s nc (RState r n g))]).
  assert (PO : forall base c he hc r n g l, incl r l -> blames (fun a => r_items (snd a)) l (object fuel base c he hc (RState r n g)))
    by (intros base c he hc r n g l I; eapply blames_incl; [exact I|apply (IO base c he hc (RState r n g))]).
  split; [|split].
  - intros base [items n g]. cbn [r_items]. destruct items as [|i r]; [exact Logic.I|]. pose proof (incl_tl i (incl_refl r)) as T.
    destruct i as [x a|x|s|s|s| | |]; cbn [parse_subjects r_items r_next r_graph]; try (apply PS; exact T); try exact Logic.I; [|exact T].
    pose proof (attributes_blame x a r) as B. destruct (parse_attributes iri_parse lang_parse a) as [[at'|e]|]; cbn [lift]; [|exact Logic.I|exact B].
    destruct B as (B1 & B2 & B3). apply blames_lift.
    { unfold subject_of. destruct (a_subject at') as [[b|i|s]|]; try discriminate.
      - destruct (bn_from_str label_ok b); discriminate.
      - intros _. eapply B1. reflexivity. }
    intros [s n1] _. apply blames_lift.
    { destruct (name_matches _ _ x); [discriminate|]. destruct (name_to_iri iri_parse x) as [[p|e]|] eqn:E; cbn [io_bind]; try discriminate.
      intros _. constructor. left. apply name_panic, E. }
    intros g1 _. apply blames_lift. { intros P. apply B3. eapply inner_panic, P. }
    intros g2 _. eapply blames_bind; [apply PP; exact T|]. intros [l' n' g'] I. apply PS. exact I.
  - intros base s nc [items n g]. cbn [r_items]. destruct items as [|i r]; [exact Logic.I|]. pose proof (incl_tl i (incl_refl r)) as T.
    destruct i as [x a|x|t|t|t| | |]; cbn [parse_predicates r_items r_next r_graph]; try (apply PP; exact T); try exact Logic.I; [|exact T].
    destruct nc; [exact Logic.I|].
    pose proof (attributes_blame x a r) as B. destruct (parse_attributes iri_parse lang_parse a) as [[at'|e]|]; cbn [lift]; [|exact Logic.I|exact B].
    destruct B as (_ & B2 & _).
    assert (BN : name_to_iri iri_parse x = Panic -> Exists panics_at (IStart x a :: r)) by (intros P; constructor; left; apply name_panic, P).
    destruct (a_resource at') as [i|].
    + apply blames_lift; [exact BN|]. intros p _. apply PP. exact T.
    + destruct (a_parse at') as [[| |]|].
      * specialize (B2 _ eq_refl ltac:(discriminate)).
        destruct (parse_xml_literal emitted r 0 []) as [[c r']|e| |] eqn:E; cbn [wbind]; [|exact Logic.I|exact B2|exact Logic.I].
        apply xml_literal_incl in E. apply blames_lift; [exact BN|]. intros p _. apply PP. apply incl_tl, E.
      * eapply blames_bind; [apply PS; exact T|]. intros [l' n' g'] I. apply PP. exact I.
      * apply (B2 _ eq_refl). discriminate.
      * eapply blames_bind; [apply PO; exact T|]. intros [c [l' n' g']] I. cbn [snd r_items r_next r_graph] in *. apply blames_lift; [exact BN|].
        intros p _. apply PP. exact I.
  - intros base c he hc [items n g]. cbn [r_items]. destruct items as [|i r]; [exact Logic.I|]. pose proof (incl_tl i (incl_refl r)) as T.
    destruct i as [x a|x|t|t|t| | |]; cbn [parse_object r_items r_next r_graph]; try (apply PO; exact T); try exact Logic.I;
      try (destruct he; [exact Logic.I|apply PO; exact T]); [|exact T].
    destruct hc; [exact Logic.I|]. apply blames_lift.
    { intros P. pose proof (attributes_blame x a r) as B. rewrite P in B. exact B. }
    intros at' _. eapply blames_bind; [apply PS; exact T|]. intros [l' n' g'] I. apply PO. exact I.
Qed.
Lemma document_blames fuel : forall st, blames r_items (r_items st) (document fuel st).
Proof.
  induction fuel as [|fuel IH]; intros [items n g]; [exact Logic.I|]. cbn [r_items].
  destruct items as [|i r]; [apply incl_refl|]. pose proof (incl_tl i (incl_refl r)) as T.
  assert (PD : forall l n g, incl l (i :: r) -> blames r_items (i :: r) (document fuel (RState l n g)))
    by (intros l n' g' I; eapply blames_incl; [exact I|apply (IH (RState l n' g'))]).
  destruct i as [x a|x|t|t|t| | |]; cbn [parse_document r_items r_next r_graph]; try (apply PD; exact T); try exact Logic.I; [|apply incl_refl].
  apply blames_lift. { intros P. pose proof (attributes_blame x a r) as B. rewrite P in B. exact B. }
  intros at' _. destruct (name_matches _ _ x); [|exact Logic.I].
  eapply blames_bind; [eapply blames_incl; [exact T|]; apply (proj1 (reader_blames fuel) (a_base at') (RState r n g))|].
  intros [l' n' g'] I. apply PD. exact I.
Qed.
Lemma c71 fuel n items : xml_read m iri_parse lang_parse label_ok gext printable emitted fuel n items = Crashed -> Exists panics_at items.
Proof.
  unfold xml_read. pose proof (document_blames fuel (RState items n g_default)) as E. destruct (document fuel _); cbn [wbind]; try discriminate.
  intros _. exact E.
Qed.

(** ** What is not well formed is not read *)
Definition kept {A} (items : A -> list xml_item) (x : wres A) : Prop :=
  match x with Done a => broken (items a) | _ => True end.
Lemma kept_bind {A B} i1 i2 (x : wres A) (f : A -> wres B) : kept i1 x -> (forall a, broken (i1 a) -> kept i2 (f a)) -> kept i2 (wbind x f).
Proof. intros H K. destruct x as [a|e| |]; cbn [wbind]; [apply K; exact H|exact Logic.I|exact Logic.I|exact Logic.I]. Qed.
Lemma kept_lift {A B} items (x : io A) (f : A -> wres B) : (forall a, kept items (f a)) -> kept items (lift x f).
Proof. intros H. destruct x as [[a|e]|]; cbn [lift]; [apply H|exact Logic.I|exact Logic.I]. Qed.
Lemma broken_tl i r : broken (i :: r) -> i <> IError -> i <> IDocEnd /\ broken r.
Proof.
  intros (l & t & E & N) NE. destruct l as [|j l]; cbn [app] in E; injection E as -> ->; [contradiction|]. split.
  - intros ->. apply N. left. reflexivity.
  - exists l, t. split; [reflexivity|]. intros I. apply N. right. exact I.
Qed.
Lemma xml_literal_kept l : forall opened seen, broken l -> kept snd (parse_xml_literal emitted l opened seen).
Proof.
  induction l as [|i l IH]; intros opened seen B; [exact Logic.I|]. cbn [parse_xml_literal].
  destruct i as [n a|n|s|s|s| | |]; try exact Logic.I; apply broken_tl in B as [_ B]; try discriminate; try (apply IH; exact B).
  destruct opened as [|[|k]]; [exact Logic.I|exact B|apply IH; exact B].
Qed.
Lemma reader_keeps fuel :
  (forall base st, broken (r_items st) -> kept r_items (subjects fuel base st)) /\
  (forall base s nc st, broken (r_items st) -> kept r_items (predicates fuel base s nc st)) /\
  (forall base c he hc st, broken (r_items st) -> kept (fun a => r_items (snd a)) (object fuel base c he hc st)).
Proof.
  induction fuel as [|fuel IH]; [split; [|split]; intros; exact Logic.I|]. destruct IH as (IS & IP & IO).
  split; [|split].
  - intros base [items n g] B. cbn [r_items] in B. destruct items as [|i r]; [exact Logic.I|].
    destruct i as [x a|x|s|s|s| | |]; cbn [parse_subjects r_items r_next r_graph]; try exact Logic.I; apply broken_tl in B as [_ B]; try discriminate;
      try (apply IS; exact B); [|exact B].
    apply kept_lift. intros at'. apply kept_lift. intros [s n1]. apply kept_lift. intros g1. apply kept_lift. intros g2.
    eapply kept_bind; [apply IP; exact B|]. intros st' B'. apply IS. exact B'.
  - intros base s nc [items n g] B. cbn [r_items] in B. destruct items as [|i r]; [exact Logic.I|].
    destruct i as [x a|x|t|t|t| | |]; cbn [parse_predicates r_items r_next r_graph]; try exact Logic.I; apply broken_tl in B as [_ B]; try discriminate;
      try (apply IP; exact B); [|exact B].
    destruct nc; [exact Logic.I|]. apply kept_lift. intros at'. destruct (a_resource at') as [i|].
    + apply kept_lift. intros p. apply IP. exact B.
    + destruct (a_parse at') as [[| |]|].
      * eapply kept_bind; [apply xml_literal_kept; exact B|]. intros [c r'] B'. apply kept_lift. intros p. apply IP. exact B'.
      * eapply kept_bind; [apply IS; exact B|]. intros st' B'. apply IP. exact B'.
      * exact Logic.I.
      * eapply kept_bind; [apply IO; exact B|]. intros [c st'] B'. apply kept_lift. intros p. apply IP. exact B'.
  - intros base c he hc [items n g] B. cbn [r_items] in B. destruct items as [|i r]; [exact Logic.I|].
    destruct i as [x a|x|t|t|t| | |]; cbn [parse_object r_items r_next r_graph]; try exact Logic.I; apply broken_tl in B as [_ B]; try discriminate;
      try (destruct he; [exact Logic.I|]); try (apply IO; exact B); try exact B.
    destruct hc; [exact Logic.I|]. apply kept_lift. intros at'. eapply kept_bind; [apply IS; exact B|]. intros st' B'. apply IO. exact B'.
Qed.
Lemma document_keeps fuel : forall st st', broken (r_items st) -> document fuel st <> Done st'.
Proof.
  induction fuel as [|fuel IH]; intros [items n g] st' B; [discriminate|]. cbn [r_items] in B.
  destruct items as [|i r]; [destruct B as ([|] & t & E & _); discriminate|].
  destruct i as [x a|x|t|t|t| | |]; cbn [parse_document r_items r_next r_graph]; try discriminate; apply broken_tl in B as [NE B]; try discriminate;
    try (apply IH; exact B); [|contradiction].
  destruct (parse_attributes iri_parse lang_parse a) as [[at'|e]|]; cbn [lift]; try discriminate. destruct (name_matches _ _ x); [|discriminate].
  pose proof (proj1 (reader_keeps fuel) (a_base at') (RState r n g) B) as E.
  destruct (subjects fuel (a_base at') (RState r n g)) as [st1|e| |]; cbn [wbind]; try discriminate. apply IH. exact E.
Qed.
Lemma broken_unread fuel n items x : broken items -> xml_read m iri_parse lang_parse label_ok gext printable emitted fuel n items <> Done x.
Proof.
  intros B. unfold xml_read. pose proof (document_keeps fuel (RState items n g_default)) as K.
  destruct (document fuel _) as [st'|e| |]; cbn [wbind]; try discriminate. destruct (K st' B eq_refl).
Qed.
End Ends.
