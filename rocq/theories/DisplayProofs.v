(** Proofs about the texts of terms (C109). *)
From Coq Require Import Lia.
From Verif Require Import StrFacts LiteralProofs TermProofs DotMain.
From Verif Require Export DisplaySpec.

Lemma numeric_bare d : bare_type d = true <-> In d numeric.
Proof.
  split.
  - destruct d; intros H; try discriminate; unfold numeric; cbn [In]; auto 14.
  - intros H. unfold numeric in H. cbn [In] in H. repeat (destruct H as [<- | H]; [reflexivity|]). destruct H.
Qed.
Lemma bare_false d : bare_type d = false <-> ~ In d numeric.
Proof. rewrite <- numeric_bare. destruct (bare_type d); split; intros; try discriminate; try reflexivity; try congruence. Qed.

(** ** What comes after a term *)
Definition after (k : str) : Prop := k = [] \/ exists r, k = 32 :: r.
Lemma after_space r : after (32 :: r).
Proof. right. eexists. reflexivity. Qed.
Lemma word_cut : forall a b k k', word a -> word b -> after k -> after k' -> a ++ k = b ++ k' -> a = b /\ k = k'.
Proof.
  induction a as [|c a IH]; intros [|d b] k k' A B K K' E.
  - split; [reflexivity|exact E].
  - cbn [app] in E. exfalso. destruct K as [-> | [r ->]]; [discriminate|]. injection E as Q _. destruct B. left. symmetry. exact Q.
  - cbn [app] in E. exfalso. destruct K' as [-> | [r ->]]; [discriminate|]. injection E as Q _. destruct A. left. exact Q.
  - injection E as -> E. destruct (IH b k k') as [-> ->].
    + intros I. apply A. right. exact I.
    + intros I. apply B. right. exact I.
    + exact K.
    + exact K'.
    + exact E.
    + split; reflexivity.
Qed.
Lemma word_app a b : word a -> word b -> word (a ++ b).
Proof. intros A B I. apply in_app_or in I as [I|I]; [exact (A I)|exact (B I)]. Qed.
Lemma word_cons c a : c <> 32 -> word a -> word (c :: a).
Proof. intros A B [I|I]; [exact (A I)|exact (B I)]. Qed.
Lemma word_nil : word [].
Proof. intros []. Qed.
Lemma iri_word_word i : iri_word i -> word i.
Proof. intros F I. unfold iri_word in F. rewrite Forall_forall in F. apply (F _ I). left. reflexivity. Qed.
Lemma word_show m i : word i -> word (show_iri m i).
Proof. intros W. destruct m; [exact W|]. apply word_cons; [discriminate|]. apply word_app; [exact W|]. apply word_cons; [discriminate|apply word_nil]. Qed.
Lemma word_angles i : word i -> word ([60] ++ i ++ [62]).
Proof. intros W. apply word_cons; [discriminate|]. apply word_app; [exact W|]. apply word_cons; [discriminate|apply word_nil]. Qed.
Lemma show_iri_inj' m i j : show_iri m i = show_iri m j -> i = j.
Proof. destruct m; cbn [show_iri]; intros E; [exact E|]. injection E as E. apply app_inj_tail in E as [E _]. exact E. Qed.
Lemma number_word_word s : number_word s -> word s.
Proof.
  intros [_ F] I. rewrite Forall_forall in F. specialize (F _ I). cbn [In] in F. lia.
Qed.
Lemma number_first s : number_word s -> exists c r, s = c :: r /\ c <> 60 /\ c <> 34 /\ c <> 40 /\ c <> 95.
Proof.
  intros [N F]. destruct s as [|c r]; [destruct N; reflexivity|]. exists c, r. inversion F as [|? ? P _]; subst.
  cbn [In] in P. repeat split; intros ->; lia.
Qed.
Lemma angles_last i r : [60] ++ i ++ [62] <> 60 :: 60 :: [] /\ (iri_word i -> [60] ++ i ++ [62] <> 60 :: 60 :: r).
Proof.
  split.
  - intros E. injection E as E. destruct i as [|a i]; [discriminate|]. injection E as _ E. destruct i; discriminate.
  - intros F E. injection E as E. destruct i as [|a i]; [discriminate|]. injection E as -> E. inversion F as [|? ? P _]; subst.
    apply P. right. left. reflexivity.
Qed.

(** ** Three kinds of objects *)
Definition is_word (alt : bool) (o : object) : Prop :=
  match o with
  | OBlank _ | ORes _ => True
  | OLit l => exists d, lit_data_type l = Some d /\ (d = DtIri \/ alt = false /\ In d numeric)
  | _ => False
  end.
Definition is_quoted (alt : bool) (l : literal) : Prop :=
  forall d, lit_data_type l = Some d -> d <> DtIri /\ (alt = true \/ ~ In d numeric).
Lemma lit_kinds alt l : is_word alt (OLit l) \/ is_quoted alt l.
Proof.
  destruct l as [s [d|] t]; cbn [is_word lit_data_type].
  - destruct (dt_eqb d DtIri) eqn:E; [apply dt_eqb_eq in E; left; exists d; auto|].
    assert (D : d <> DtIri) by (intros ->; discriminate E).
    destruct alt; [right; intros d' X; injection X as <-; auto|].
    destruct (bare_type d) eqn:B; [apply numeric_bare in B; left; exists d; auto|]. apply bare_false in B.
    right. intros d' X. injection X as <-. auto.
  - right. intros d X. discriminate.
Qed.
Lemma quoted_show m alt l : is_quoted alt l -> lit_show m alt l = lit_show_quoted m l.
Proof.
  intros Q. unfold lit_show. destruct (lit_data_type l) as [d|] eqn:E; [|reflexivity]. destruct (Q d E) as [D B].
  assert (X : bare_type d && negb alt = false).
  { destruct B as [-> | B]; [apply andb_false_r|]. apply bare_false in B. rewrite B. reflexivity. }
  rewrite X. destruct d; try reflexivity. destruct (D eq_refl).
Qed.
Lemma number_show m l d : lit_data_type l = Some d -> In d numeric -> lit_show m false l = lexical_form l.
Proof. intros E I. apply numeric_bare in I. unfold lit_show. rewrite E, I. destruct d; try reflexivity. discriminate I. Qed.

Definition suffix (m : iri_mode) (l : literal) : str :=
  match lit_data_type l, lit_language l with
  | Some d, None => $"^^<" ++ show_iri m (dt_as_iri d) ++ $">"
  | None, Some t => [64] ++ t
  | _, _ => []
  end.
Lemma suffix_word m l : clear_literal l -> word (suffix m l).
Proof.
  unfold clear_literal, suffix. destruct (lit_data_type l) as [d|], (lit_language l) as [t|].
  - intros [].
  - intros (_ & _ & _ & W). apply (word_app $"^^<"); [intros I; cbn in I; lia|]. apply word_app; [apply word_show; exact W|].
    intros I; cbn in I; lia.
  - intros (_ & W). apply word_app; [intros I; cbn in I; lia|exact W].
  - intros _. apply word_nil.
Qed.
Lemma clear_quotable l : clear_literal l -> quotable (lexical_form l) = true.
Proof.
  unfold clear_literal. destruct (lit_data_type l) as [d|], (lit_language l) as [t|]; try tauto.
Qed.
Lemma quoted_cut m alt l l' k k' : clear_literal l -> clear_literal l' -> is_quoted alt l -> is_quoted alt l' -> after k -> after k' ->
  lit_show_quoted m l ++ k = lit_show_quoted m l' ++ k' -> alike_literal alt l l' /\ k = k'.
Proof.
  intros C C' Q Q' K K' E. pose proof (suffix_word m l C) as W. pose proof (suffix_word m l' C') as W'.
  unfold lit_show_quoted in E. fold (suffix m l) in E. fold (suffix m l') in E. rewrite <- !app_assoc in E. injection E as E.
  destruct (quotable_cut (length (lexical_form l)) (lexical_form l) (lexical_form l') (suffix m l ++ k) (suffix m l' ++ k') (le_n _)
    (clear_quotable l C) (clear_quotable l' C') E) as [EL ES].
  apply word_cut in ES as [ES ->]; try assumption. split; [|reflexivity].
  destruct l as [s d t], l' as [s' d' t']. cbn [lexical_form] in EL. subst s'. unfold suffix, clear_literal, is_quoted in *. cbn [lit_data_type lit_language lexical_form] in *.
  destruct d as [d|], t as [t|], d' as [d'|], t' as [t'|]; try contradiction; try discriminate ES.
  - apply (app_inv_head $"^^<") in ES. apply app_inj_tail in ES as [ES _]. apply show_iri_inj' in ES.
    destruct (Q d eq_refl) as [D B], (Q' d' eq_refl) as [D' B']. destruct alt; [apply Alike_named; auto|].
    apply Alike_named; try assumption. right. split; [destruct B as [B|B]|destruct B' as [B'|B']]; try discriminate; assumption.
  - injection ES as ->. apply Alike_same.
  - apply Alike_same.
Qed.

Lemma word_text m alt o : is_word alt o -> clear_object o -> word (obj_show m alt o).
Proof.
  destruct o as [b|i|l|xs|st]; cbn [is_word clear_object obj_show]; try contradiction.
  - intros _ W. apply (word_app $"_:"); [intros I; cbn in I; lia|exact W].
  - intros _ W. apply word_angles, word_show, iri_word_word, W.
  - intros (d & E & [-> | [-> I]]) C.
    + unfold lit_show. rewrite E. unfold clear_literal in C. rewrite E in C. destruct (lit_language l); [contradiction|].
      apply word_angles, iri_word_word, C. reflexivity.
    + rewrite (number_show m l d E I). unfold clear_literal in C. rewrite E in C. destruct (lit_language l); [contradiction|].
      apply number_word_word, C, I.
Qed.
Lemma word_lit l d : clear_literal l -> lit_data_type l = Some d -> l = Lit (lexical_form l) (Some d) None /\
  (d = DtIri -> iri_word (lexical_form l)) /\ (In d numeric -> number_word (lexical_form l)).
Proof.
  intros C E. unfold clear_literal in C. rewrite E in C. destruct l as [s d0 t]. cbn [lexical_form lit_data_type lit_language] in *. subst d0.
  destruct t; [contradiction|]. destruct C as (C1 & C2 & _). split; [reflexivity|]. split; assumption.
Qed.
Lemma words_alike m alt o o' : is_word alt o -> is_word alt o' -> clear_object o -> clear_object o' ->
  obj_show m alt o = obj_show m alt o' -> alike_object m alt o o'.
Proof.
  destruct o as [b|i|l|xs|st]; cbn [is_word clear_object]; try contradiction;
  destruct o' as [b'|i'|l'|xs'|st']; cbn [is_word clear_object]; try contradiction.
  - intros _ _ _ _ E. cbn [obj_show] in E. apply (app_inv_head $"_:") in E. subst. constructor.
  - intros _ _ _ _ E. discriminate E.
  - intros _ (d & D & [-> | [-> I]]) _ C E; cbn [obj_show] in E.
    + unfold lit_show in E. rewrite D in E. discriminate.
    + rewrite (number_show m l' d D I) in E. destruct (word_lit l' d C D) as (_ & _ & N). destruct (number_first _ (N I)) as (c & r & X & _ & _ & _ & Y).
      rewrite X in E. injection E as <- _. destruct Y. reflexivity.
  - intros _ _ _ _ E. discriminate E.
  - intros _ _ _ _ E. cbn [obj_show] in E. injection E as E. apply app_inj_tail in E as [E _]. apply show_iri_inj' in E. subst. constructor.
  - intros _ (d & D & [-> | [-> I]]) W C E; cbn [obj_show] in E.
    + unfold lit_show in E. rewrite D in E. injection E as E. apply app_inj_tail in E as [E _].
      destruct (word_lit l' DtIri C D) as (-> & N & _). cbn [lexical_form] in *. specialize (N eq_refl). destruct m; cbn [show_iri] in E.
      * subst i. constructor. reflexivity.
      * rewrite <- E in N. inversion N as [|? ? P _]; subst. destruct P. right. left. reflexivity.
    + rewrite (number_show m l' d D I) in E. destruct (word_lit l' d C D) as (_ & _ & N). destruct (number_first _ (N I)) as (c & r & X & Y & _).
      rewrite X in E. injection E as <- _. destruct Y. reflexivity.
  - intros (d & D & [-> | [-> I]]) _ C _ E; cbn [obj_show] in E.
    + unfold lit_show in E. rewrite D in E. discriminate.
    + rewrite (number_show m l d D I) in E. destruct (word_lit l d C D) as (_ & _ & N). destruct (number_first _ (N I)) as (c & r & X & _ & _ & _ & Y).
      rewrite X in E. injection E as -> _. destruct Y. reflexivity.
  - intros (d & D & [-> | [-> I]]) _ C W E; cbn [obj_show] in E.
    + unfold lit_show in E. rewrite D in E. injection E as E. apply app_inj_tail in E as [E _].
      destruct (word_lit l DtIri C D) as (-> & N & _). cbn [lexical_form] in *. specialize (N eq_refl). destruct m; cbn [show_iri] in E.
      * subst i'. constructor. reflexivity.
      * rewrite E in N. inversion N as [|? ? P _]; subst. destruct P. right. left. reflexivity.
    + rewrite (number_show m l d D I) in E. destruct (word_lit l d C D) as (_ & _ & N). destruct (number_first _ (N I)) as (c & r & X & Y & _).
      rewrite X in E. injection E as -> _. destruct Y. reflexivity.
  - intros (d & D & A) (d' & D' & A') C C' E. cbn [obj_show] in E.
    destruct (word_lit l d C D) as (EL & N1 & N2), (word_lit l' d' C' D') as (EL' & N1' & N2').
    destruct A as [-> | [-> I]], A' as [-> | [A0' I']].
    + unfold lit_show in E. rewrite D, D' in E. injection E as E. apply app_inj_tail in E as [E _]. rewrite EL, EL', E. constructor. constructor.
    + subst alt. rewrite (number_show m l' d' D' I') in E. unfold lit_show in E. rewrite D in E.
      destruct (number_first _ (N2' I')) as (c & r & X & Y & _). rewrite X in E. injection E as <- _. destruct Y. reflexivity.
    + rewrite (number_show m l d D I) in E. unfold lit_show in E. rewrite D' in E.
      destruct (number_first _ (N2 I)) as (c & r & X & Y & _). rewrite X in E. injection E as -> _. destruct Y. reflexivity.
    + rewrite (number_show m l d D I), (number_show m l' d' D' I') in E. rewrite EL, EL', E. constructor. apply Alike_number; auto.
Qed.
(** A word is none of the openings. *)
Lemma word_no_open m alt o : is_word alt o -> clear_object o ->
  obj_show m alt o <> $"<<" /\ obj_show m alt o <> $"(" /\ (forall r, obj_show m alt o <> 34 :: r).
Proof.
  destruct o as [b|i|l|xs|st]; cbn [is_word clear_object obj_show]; try contradiction.
  - intros _ _. repeat split; discriminate.
  - intros _ _. split; [exact (proj1 (angles_last (show_iri m i) []))|]. split; discriminate.
  - intros (d & D & A) C. destruct (word_lit l d C D) as (_ & N1 & N2). destruct A as [-> | [-> I]].
    + unfold lit_show. rewrite D. split; [exact (proj1 (angles_last (lexical_form l) []))|]. split; discriminate.
    + rewrite (number_show m l d D I). destruct (number_first _ (N2 I)) as (c & r & -> & A1 & A2 & A3 & _).
      repeat split; try (intros ? E); try (intros E); injection E; congruence.
Qed.

Lemma coll_show m alt xs : obj_show m alt (OColl xs) = $"( " ++ join [32] (map (obj_show m false) xs) ++ $" )".
Proof. reflexivity. Qed.
Lemma clear_coll xs : clear_object (OColl xs) <-> Forall clear_object xs.
Proof.
  cbn [clear_object]. induction xs as [|x xs IH]; [split; constructor|]. split.
  - intros [A B]. constructor; [exact A|apply IH, B].
  - intros F. inversion F; subst. split; [assumption|apply IH; assumption].
Qed.
Lemma open_first m alt o : clear_object o -> exists c r, obj_show m alt o = c :: r /\ c <> 32.
Proof.
  destruct o as [b|i|l|xs|st]; intros C.
  - exists 95, (58 :: b). split; [reflexivity|discriminate].
  - exists 60, (show_iri m i ++ [62]). split; [reflexivity|discriminate].
  - destruct (lit_kinds alt l) as [W|Q].
    + pose proof (word_text m alt (OLit l) W C) as T. cbn [obj_show] in *. destruct (lit_show m alt l) as [|c r] eqn:E.
      * exfalso. destruct W as (d & D & A). destruct (word_lit l d C D) as (_ & _ & N). destruct A as [-> | [-> I]].
        -- unfold lit_show in E. rewrite D in E. discriminate.
        -- rewrite (number_show m l d D I) in E. apply (proj1 (N I) E).
      * exists c, r. split; [reflexivity|]. intros ->. apply T. left. reflexivity.
    + cbn [obj_show]. rewrite (quoted_show m alt l Q). eexists _, _. split; [reflexivity|discriminate].
  - rewrite coll_show. eexists _, _. split; [reflexivity|discriminate].
  - eexists _, _. split; [reflexivity|discriminate].
Qed.
Lemma after_app k r : after k -> k <> [] -> after (k ++ r).
Proof. intros [-> | [x ->]] N; [destruct N; reflexivity|]. right. eexists. reflexivity. Qed.

(** ** Texts determine terms up to their looks *)
Definition cut_obj (m : iri_mode) (o : object) : Prop := forall alt o' k k', clear_object o -> clear_object o' -> after k -> after k' ->
  obj_show m alt o ++ k = obj_show m alt o' ++ k' -> alike_object m alt o o' /\ k = k'.
Definition cut_subj (m : iri_mode) (s : subject) : Prop := forall s' k k', clear_subject s -> clear_subject s' -> after k -> after k' ->
  subj_show m s ++ k = subj_show m s' ++ k' -> alike_subject m s s' /\ k = k'.
Definition cut_st (m : iri_mode) (a : statement) : Prop := forall b k k', clear_statement a -> clear_statement b -> after k -> after k' ->
  st_show m a ++ k = st_show m b ++ k' -> alike_statement m a b /\ k = k'.

Lemma items_cut m : forall xs ys k k', Forall (cut_obj m) xs -> Forall clear_object xs -> Forall clear_object ys -> after k -> after k' ->
  join [32] (map (obj_show m false) xs) ++ $" )" ++ k = join [32] (map (obj_show m false) ys) ++ $" )" ++ k' ->
  Forall2 (alike_object m false) xs ys /\ k = k'.
Proof.
  (* "(" never appears at the head of what follows a closing bracket: the bracket is a word that no object is *)
  assert (CLOSE : forall o k r, clear_object o -> after k -> $")" ++ k <> obj_show m false o ++ r).
  { intros o k r C K E. destruct o as [b|i|l|xs|st]; try discriminate E.
    destruct (lit_kinds false l) as [W|Q].
    - destruct W as (d & D & A). destruct (word_lit l d C D) as (_ & _ & N). cbn [obj_show] in E. destruct A as [-> | [_ I]].
      + unfold lit_show in E. rewrite D in E. discriminate.
      + rewrite (number_show m l d D I) in E. destruct (N I) as [NE F]. destruct (lexical_form l) as [|c x]; [destruct NE; reflexivity|].
        injection E as <- _. inversion F as [|? ? P _]; subst. cbn [In] in P. lia.
    - cbn [obj_show] in E. rewrite (quoted_show m false l Q) in E. discriminate. }
  assert (FIRST : forall y ys t, exists r, join [32] (map (obj_show m false) (y :: ys)) ++ t = obj_show m false y ++ r).
  { intros y ys t. cbn [map]. destruct ys as [|z ys]; [exists t; reflexivity|]. cbn [map]. rewrite join_cons by discriminate. rewrite <- app_assoc. eexists. reflexivity. }
  induction xs as [|x xs IH]; intros [|y ys] k k' FX CX CY K K' E.
  - cbn [map join app] in E. injection E as ->. split; [constructor|reflexivity].
  - exfalso. cbn [map] in E. inversion CY as [|? ? C CY']; subst. destruct (open_first m false y C) as (c & r & EQ & N).
    destruct ys as [|z ys]; [cbn [map join app] in E|rewrite join_cons in E by discriminate; cbn [app] in E; rewrite <- !app_assoc in E]; cbn [map join app] in E;
      rewrite EQ in E; injection E as <- _; destruct N; reflexivity.
  - exfalso. cbn [map] in E. inversion CX as [|? ? C CX']; subst. destruct (open_first m false x C) as (c & r & EQ & N).
    destruct xs as [|z xs]; [cbn [map join app] in E|rewrite join_cons in E by discriminate; cbn [app] in E; rewrite <- !app_assoc in E]; cbn [map join app] in E;
      rewrite EQ in E; injection E as -> _; destruct N; reflexivity.
  - inversion FX as [|? ? PX FX']; inversion CX as [|? ? C CX']; inversion CY as [|? ? C' CY']; subst.
    destruct xs as [|x2 xs], ys as [|y2 ys].
    + cbn [map join] in E. destruct (PX false y _ _ C C' (after_space _) (after_space _) E) as [A B]. injection B as ->.
      split; [constructor; [exact A|constructor]|reflexivity].
    + exfalso. cbn [map] in E. rewrite (join_cons [32] (obj_show m false y)) in E by discriminate. change (join [32] [obj_show m false x]) with (obj_show m false x) in E.
      rewrite <- !app_assoc in E. destruct (PX false y _ _ C C' (after_space _) (after_space _) E) as [_ B]. apply (app_inv_head [32]) in B.
      inversion CY' as [|? ? C2 CY2]; subst. destruct (FIRST y2 ys ($" )" ++ k')) as [r EQ]. cbn [map] in EQ. rewrite EQ in B. exact (CLOSE y2 k r C2 K B).
    + exfalso. cbn [map] in E. rewrite (join_cons [32] (obj_show m false x)) in E by discriminate. change (join [32] [obj_show m false y]) with (obj_show m false y) in E.
      rewrite <- !app_assoc in E. destruct (PX false y _ _ C C' (after_space _) (after_space _) E) as [_ B]. apply (app_inv_head [32]) in B.
      inversion CX' as [|? ? C2 CX2]; subst. destruct (FIRST x2 xs ($" )" ++ k)) as [r EQ]. cbn [map] in EQ. rewrite EQ in B. exact (CLOSE x2 k' r C2 K' (eq_sym B)).
    + cbn [map] in E. rewrite (join_cons [32] (obj_show m false x)), (join_cons [32] (obj_show m false y)) in E by discriminate. rewrite <- !app_assoc in E.
      destruct (PX false y _ _ C C' (after_space _) (after_space _) E) as [A B]. apply (app_inv_head [32]) in B.
      destruct (IH (y2 :: ys) k k' FX' CX' CY' K K' B) as [A2 ->]. split; [constructor; assumption|reflexivity].
Qed.

Lemma word_open m alt o o' k k' : is_word alt o -> clear_object o -> after k ->
  match o' with OColl _ | OStmt _ => True | OLit l => is_quoted alt l | _ => False end ->
  obj_show m alt o ++ k <> obj_show m alt o' ++ k'.
Proof.
  intros W C K S E. destruct (word_no_open m alt o W C) as (N1 & N2 & N3). pose proof (word_text m alt o W C) as T.
  destruct o' as [b'|i'|l'|xs'|st']; try contradiction.
  - assert (NE : obj_show m alt o <> []) by (destruct (open_first m alt o C) as (c & r & -> & _); discriminate).
    destruct (obj_show m alt o) as [|c r]; [destruct NE; reflexivity|]. cbn [obj_show] in E. rewrite (quoted_show m alt l' S) in E.
    injection E as -> _. apply (N3 r). reflexivity.
  - rewrite coll_show in E. rewrite <- !app_assoc in E. apply (word_cut _ $"(" k) in E; [|exact T|intros I; cbn in I; lia|exact K|apply after_space].
    apply N2, E.
  - cbn [obj_show] in E. rewrite <- !app_assoc in E. apply (word_cut _ $"<<" k) in E; [|exact T|intros I; cbn in I; lia|exact K|apply after_space].
    apply N1, E.
Qed.
Lemma kinds alt o : is_word alt o \/ match o with OColl _ | OStmt _ => True | OLit l => is_quoted alt l | _ => False end.
Proof. destruct o as [b|i|l|xs|st]; auto; try (left; exact I). apply lit_kinds. Qed.

Lemma show_cut m : (forall s, cut_subj m s) /\ (forall o, cut_obj m o) /\ (forall a, cut_st m a).
Proof.
  assert (WORD : forall o, (forall alt, is_word alt o) -> cut_obj m o).
  { intros o W alt o' k k' C C' K K' E. destruct (kinds alt o') as [W'|S]; [|destruct (word_open m alt o o' k k' (W alt) C K S E)].
    apply word_cut in E as [E ->]; [|apply word_text; [apply W|assumption]|apply word_text; assumption|assumption|assumption].
    split; [apply words_alike; auto|reflexivity]. }
  assert (BACK : forall alt o o' k k', clear_object o -> clear_object o' -> after k' ->
    match o with OColl _ | OStmt _ => True | OLit l => is_quoted alt l | _ => False end ->
    obj_show m alt o ++ k = obj_show m alt o' ++ k' -> match o' with OColl _ | OStmt _ => True | OLit l => is_quoted alt l | _ => False end).
  { intros alt o o' k k' C C' K' S E. destruct (kinds alt o') as [W'|S']; [|exact S']. destruct (word_open m alt o' o k' k W' C' K' S (eq_sym E)). }
  apply term_ind.
  - intros b [b'|i'|st'] k k' C C' K K' E.
    + destruct (WORD (OBlank b) (fun _ => I) false (OBlank b') k k' C C' K K' E) as [_ ->]. split; [|reflexivity].
      apply app_inv_tail in E. apply (app_inv_head $"_:") in E. subst. constructor.
    + discriminate E.
    + discriminate E.
  - intros i [b'|i'|st'] k k' C C' K K' E.
    + discriminate E.
    + destruct (WORD (ORes i) (fun _ => I) false (ORes i') k k' C C' K K' E) as [_ ->]. split; [|reflexivity].
      apply app_inv_tail in E. cbn [subj_show] in E. injection E as E. apply app_inj_tail in E as [E _]. apply show_iri_inj' in E. subst. constructor.
    + exfalso. exact (word_open m false (ORes i) (OStmt st') k k' I C K I E).
  - intros a IH [b'|i'|st'] k k' C C' K K' E.
    + discriminate E.
    + exfalso. exact (word_open m false (ORes i') (OStmt a) k' k I C' K' I (eq_sym E)).
    + cbn [subj_show] in E. rewrite <- !app_assoc in E. apply (app_inv_head $"<< ") in E.
      destruct (IH st' _ _ C C' (after_space _) (after_space _) E) as [A B]. injection B as ->. split; [constructor; exact A|reflexivity].
  - intros b. apply WORD. intros alt. exact I.
  - intros i. apply WORD. intros alt. exact I.
  - intros l alt o' k k' C C' K K' E. destruct (lit_kinds alt l) as [W|Q].
    + destruct (kinds alt o') as [W'|S]; [|destruct (word_open m alt (OLit l) o' k k' W C K S E)].
      apply word_cut in E as [E ->]; [|apply word_text; assumption|apply word_text; assumption|assumption|assumption].
      split; [apply words_alike; auto|reflexivity].
    + pose proof (BACK alt (OLit l) o' k k' C C' K' Q E) as S. destruct o' as [b'|i'|l'|xs'|st']; try contradiction.
      * cbn [obj_show] in E. rewrite (quoted_show m alt l Q), (quoted_show m alt l' S) in E.
        destruct (quoted_cut m alt l l' k k' C C' Q S K K' E) as [A ->]. split; [constructor; exact A|reflexivity].
      * rewrite coll_show in E. cbn [obj_show] in E. rewrite (quoted_show m alt l Q) in E. discriminate.
      * cbn [obj_show] in E. rewrite (quoted_show m alt l Q) in E. discriminate.
  - intros xs F alt o' k k' C C' K K' E. pose proof (BACK alt (OColl xs) o' k k' C C' K' I E) as S.
    destruct o' as [b'|i'|l'|xs'|st']; try contradiction.
    + rewrite coll_show in E. cbn [obj_show] in E. rewrite (quoted_show m alt l' S) in E. discriminate.
    + rewrite !coll_show in E. rewrite <- !app_assoc in E. apply (app_inv_head $"( ") in E.
      apply clear_coll in C, C'. destruct (items_cut m xs xs' k k' F C C' K K' E) as [A ->]. split; [constructor; exact A|reflexivity].
    + rewrite coll_show in E. discriminate.
  - intros a IH alt o' k k' C C' K K' E. pose proof (BACK alt (OStmt a) o' k k' C C' K' I E) as S.
    destruct o' as [b'|i'|l'|xs'|st']; try contradiction.
    + cbn [obj_show] in E. rewrite (quoted_show m alt l' S) in E. discriminate.
    + rewrite coll_show in E. discriminate.
    + cbn [obj_show] in E. rewrite <- !app_assoc in E. apply (app_inv_head $"<< ") in E.
      destruct (IH st' _ _ C C' (after_space _) (after_space _) E) as [A B]. injection B as ->. split; [constructor; exact A|reflexivity].
  - intros s p o IHS IHO [s' p' o'] k k' (C1 & C2 & C3) (C1' & C2' & C3') K K' E. cbn [st_show] in E. rewrite <- !app_assoc in E.
    destruct (IHS s' _ _ C1 C1' (after_space _) (after_space _) E) as [A B].
    assert (P : ($"<" ++ show_iri m p ++ $">") ++ $" " ++ obj_show m false o ++ k = ($"<" ++ show_iri m p' ++ $">") ++ $" " ++ obj_show m false o' ++ k').
    { rewrite <- !app_assoc. apply (app_inv_head $" "). exact B. }
    apply word_cut in P as [P B2]; [|apply word_angles, word_show, iri_word_word, C2|apply word_angles, word_show, iri_word_word, C2'|apply after_space|apply after_space].
    injection P as P. apply app_inj_tail in P as [P _]. apply show_iri_inj' in P. subst p'. injection B2 as B2.
    destruct (IHO false o' k k' C3 C3' K K' B2) as [A2 ->]. split; [constructor; assumption|reflexivity].
Qed.

(** ** Terms that look alike have the same text *)
Lemma alike_lit_show m alt l l' : alike_literal alt l l' -> lit_show m alt l = lit_show m alt l'.
Proof.
  intros A. destruct A as [l|lex d d' -> I I'|lex d d' E D D' N]; [reflexivity| |].
  - rewrite (number_show m (Lit lex (Some d) None) d eq_refl I), (number_show m (Lit lex (Some d') None) d' eq_refl I'). reflexivity.
  - rewrite !quoted_show; [unfold lit_show_quoted; cbn [lexical_form lit_data_type lit_language]; rewrite E; reflexivity| |];
      intros e X; injection X as <-; split; try assumption; tauto.
Qed.
Lemma alike_show m : (forall s s', alike_subject m s s' -> subj_show m s = subj_show m s') /\
  (forall o alt o', alike_object m alt o o' -> obj_show m alt o = obj_show m alt o') /\
  (forall a b, alike_statement m a b -> st_show m a = st_show m b).
Proof.
  apply term_ind.
  - intros b s' A. inversion A; subst. reflexivity.
  - intros i s' A. inversion A; subst. reflexivity.
  - intros st IH s' A. inversion A; subst. cbn [subj_show]. do 2 f_equal. auto.
  - intros b alt o' A. inversion A; subst. reflexivity.
  - intros i alt o' A. inversion A; subst; reflexivity.
  - intros l alt o' A. inversion A; subst; [cbn [obj_show]; apply alike_lit_show; assumption|reflexivity].
  - intros xs F alt o' A. inversion A as [| | | | |? ? ys F2|]; subst. rewrite !coll_show. do 3 f_equal.
    clear A. induction F2 as [|x y xs ys H F2 IH]; [reflexivity|]. inversion F; subst. cbn [map]. f_equal; auto.
  - intros st IH alt o' A. inversion A; subst. cbn [obj_show]. do 2 f_equal. auto.
  - intros s p o IHS IHO b A. inversion A; subst. cbn [st_show]. rewrite (IHS s'), (IHO false o') by assumption. reflexivity.
Qed.

Theorem c109_exact m : (forall a b, clear_statement a -> clear_statement b -> (st_show m a = st_show m b <-> alike_statement m a b)) /\
  (forall s t, clear_subject s -> clear_subject t -> (subj_show m s = subj_show m t <-> alike_subject m s t)) /\
  (forall alt o q, clear_object o -> clear_object q -> (obj_show m alt o = obj_show m alt q <-> alike_object m alt o q)).
Proof.
  destruct (show_cut m) as (S & O & T), (alike_show m) as (S' & O' & T').
  split; [|split].
  - intros a b C C'. split; [|apply T']. intros E. apply (T a b [] [] C C' (or_introl eq_refl) (or_introl eq_refl)). rewrite E. reflexivity.
  - intros a b C C'. split; [|apply S']. intros E. apply (S a b [] [] C C' (or_introl eq_refl) (or_introl eq_refl)). rewrite E. reflexivity.
  - intros alt a b C C'. split; [|apply O']. intros E. apply (O a alt b [] [] C C' (or_introl eq_refl) (or_introl eq_refl)). rewrite E. reflexivity.
Qed.

(** ** Plain terms *)
Lemma plain_types d d' : plain_literal (Lit [] (Some d) None) -> plain_literal (Lit [] (Some d') None) -> dt_as_iri d = dt_as_iri d' -> d = d'.
Proof. intros (_ & _ & A) (_ & _ & B). apply own_look_types; assumption. Qed.
Lemma plain_lit alt l l' : plain_literal l -> plain_literal l' -> alike_literal alt l l' -> l = l'.
Proof.
  intros P P' A. destruct A as [l|lex d d' _ I I'|lex d d' E D D' N]; [reflexivity| |].
  - destruct P as [X _]. destruct (X I).
  - rewrite (plain_types d d' P P' E). reflexivity.
Qed.
Lemma plain_coll xs : plain_object (OColl xs) <-> Forall plain_object xs.
Proof.
  cbn [plain_object]. induction xs as [|x xs IH]; [split; constructor|]. split.
  - intros [A B]. constructor; [exact A|apply IH, B].
  - intros F. inversion F; subst. split; [assumption|apply IH; assumption].
Qed.
Lemma plain_alike m : (forall s s', plain_subject s -> plain_subject s' -> alike_subject m s s' -> s = s') /\
  (forall o alt o', plain_object o -> plain_object o' -> alike_object m alt o o' -> o = o') /\
  (forall a b, plain_statement a -> plain_statement b -> alike_statement m a b -> a = b).
Proof.
  apply term_ind.
  - intros b s' P P' A. inversion A; subst. reflexivity.
  - intros i s' P P' A. inversion A; subst. reflexivity.
  - intros st IH s' P P' A. inversion A; subst. f_equal. auto.
  - intros b alt o' P P' A. inversion A; subst. reflexivity.
  - intros i alt o' P P' A. inversion A; subst; [reflexivity|]. destruct P' as (_ & X & _). destruct X. reflexivity.
  - intros l alt o' P P' A. inversion A; subst; [f_equal; eapply plain_lit; eassumption|]. destruct P as (_ & X & _). destruct X. reflexivity.
  - intros xs F alt o' P P' A. inversion A as [| | | | |? ? ys F2|]; subst. apply plain_coll in P, P'. f_equal.
    clear A. induction F2 as [|x y xs ys H F2 IH]; [reflexivity|]. inversion F; inversion P; inversion P'; subst. f_equal; eauto.
  - intros st IH alt o' P P' A. inversion A; subst. f_equal. auto.
  - intros s p o IHS IHO b P P' A. inversion A as [? s' ? ? o' A1 A2]; subst. destruct P as [P1 P2], P' as [P1' P2'].
    rewrite (IHS s'), (IHO false o') by assumption. reflexivity.
Qed.
Theorem c109_plain m a b : clear_statement a -> clear_statement b -> plain_statement a -> plain_statement b -> st_show m a = st_show m b -> a = b.
Proof.
  intros C C' P P' E. apply (proj1 (c109_exact m)) in E; [|assumption|assumption]. apply (proj2 (proj2 (plain_alike m))) in E; assumption.
Qed.

(** ** What the constructors make *)
Lemma digits_number n : number_word (dec_N n).
Proof.
  split; [apply dec_N_nonnil|]. eapply Forall_impl; [|apply dec_N_digits]. intros c. unfold is_digit, in_range. lia.
Qed.
Lemma dec_Z_number z : number_word (dec_Z z).
Proof.
  destruct z; cbn [dec_Z]; [apply digits_number|apply digits_number|]. split; [discriminate|]. constructor; [|apply digits_number].
  right. right. right. right. left. reflexivity.
Qed.
Theorem c109_made gext printable : ascii_tables gext printable ->
  (forall s, clear_literal (lit_plain gext printable s) /\ plain_literal (lit_plain gext printable s)) /\
  (forall s t, word t -> clear_literal (lit_with_language gext printable s t) /\ plain_literal (lit_with_language gext printable s t)) /\
  (forall s i, word i -> clear_literal (lit_with_data_type_iri gext printable s i)) /\
  (forall s, clear_literal (lit_from_str gext printable s) /\ plain_literal (lit_from_str gext printable s)) /\
  (forall b, clear_literal (lit_from_bool gext printable b)) /\
  (forall t z, clear_literal (lit_from_int gext printable t z)).
Proof.
  intros T. assert (Q : forall s, quotable (escape_string gext printable s) = true) by (intros; apply escape_quotable).
  split; [intros s; split; [apply Q|exact I]|]. split; [intros s t W; split; [split; [apply Q|exact W]|exact I]|].
  split; [|split; [|split]].
  - intros s i W. split; [discriminate|]. split; [|split; [apply Q|exact W]]. intros N. apply numeric_bare in N. discriminate.
  - intros s. split.
    + split; [discriminate|]. split; [|split; [apply Q|vm_compute; intuition discriminate]]. intros N. apply numeric_bare in N. discriminate.
    + split; [intros N; apply numeric_bare in N; discriminate|]. split; [discriminate|]. intros i d E. discriminate.
  - intros b. split; [discriminate|]. split; [|split; [apply Q|vm_compute; intuition discriminate]]. intros _.
    assert (E : lexical_form (lit_from_bool gext printable b) = bool_str b) by (apply escape_ascii; [exact T|apply Forall_forall; intros c J; destruct b; vm_compute in J; intuition (subst; lia)]).
    rewrite E. destruct b; (split; [discriminate|]); apply Forall_forall; intros c J; vm_compute in J; intuition (subst; lia).
  - intros t z. split; [destruct t; discriminate|]. split; [|split; [apply Q|destruct t; vm_compute; intuition discriminate]]. intros _.
    rewrite (int_literal gext printable T). apply dec_Z_number.
Qed.

Theorem c109_refuted p s :
  (forall m lex, st_show m (MkStmt s p (OLit (Lit lex (Some DtByte) None))) = st_show m (MkStmt s p (OLit (Lit lex (Some DtLong) None)))) /\
  (forall i, st_show Bare (MkStmt s p (ORes i)) = st_show Bare (MkStmt s p (OLit (Lit i (Some DtIri) None)))) /\
  (forall m a b, st_show m (MkStmt s p (OColl [OLit (Lit (a ++ [32] ++ b) (Some DtInt) None)])) =
    st_show m (MkStmt s p (OColl [OLit (Lit a (Some DtInt) None); OLit (Lit b (Some DtInt) None)]))).
Proof.
  split; [reflexivity|]. split; [reflexivity|]. intros m a b. cbn [st_show obj_show join]. reflexivity.
Qed.
