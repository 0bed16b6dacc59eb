(** What is left of a Turtle document that was cut off (C117). *)
From Verif Require Import StrFacts PNameSpec Turtle TurtleSpec TurtleLitSpec TurtleProofs TurtleShape TurtleTop TurtleLitProofs
  TurtleReadSpec TurtleLex TurtleWalk TurtleParse TurtleRead TurtleCut TurtleFilesSpec.
From Verif Require Import GraphSpec.
From Verif Require Files FilesSpec FilesProofs.
From Coq Require Import Permutation Lia.

(** ** Words *)
Lemma start_calm c o m : c <> 46 -> lex_start c = Some (o, m) -> no_stop m.
Proof.
  intros N. unfold lex_start. destruct (white c); [intros [= _ <-]; exact I|]. destruct (N.eqb c 35); [intros [= _ <-]; exact I|].
  destruct (N.eqb_spec c 46) as [|_]; [contradiction|]. destruct (sign_char c); [intros [= _ <-]; exact I|].
  destruct (N.eqb c 60); [intros [= _ <-]; exact I|]. destruct (N.eqb c 34); [intros [= _ <-]; exact I|].
  destruct (N.eqb c 64); [intros [= _ <-]; exact I|]. destruct (name_char c); [intros [= _ <-]; exact N|discriminate].
Qed.
Lemma ended_calm m c o m' : c <> 46 -> lex_ended m c = Some (o, m') -> no_stop m'.
Proof.
  intros N. unfold lex_ended. destruct (lex_end m); [|discriminate]. destruct (lex_start c) as [[b k]|] eqn:S; [|discriminate].
  intros [= _ <-]. eapply start_calm; eauto.
Qed.
Lemma step_calm m c o m' : c <> 46 -> lex_step m c = Some (o, m') -> no_stop m'.
Proof.
  intros N. destruct m as [| | |w|w|w|w|w|w|w|w]; cbn [lex_step].
  - apply start_calm, N.
  - destruct (is_digit c); [intros [= _ <-]; exact N|]. apply ended_calm, N.
  - intros H. injection H as _ <-. destruct ((_ || _)%bool); exact I.
  - destruct (name_char c); [intros [= _ <-]; cbn [no_stop]; rewrite last_last; exact N|]. apply ended_calm, N.
  - destruct (N.eqb c 62); [intros [= _ <-]; exact I|]. destruct (iri_char c); [intros [= _ <-]; exact I|discriminate].
  - destruct (N.eqb c 34); [intros [= _ <-]; exact I|]. destruct (N.eqb c 92); [intros [= _ <-]; exact I|].
    destruct (existsb (N.eqb c) [10; 13]); [discriminate|intros [= _ <-]; exact I].
  - intros [= _ <-]. exact I.
  - destruct (N.eqb c 64); [intros [= _ <-]; exact I|]. destruct (N.eqb c 94); [intros [= _ <-]; exact I|].
    destruct (N.eqb c 34); [discriminate|]. apply ended_calm, N.
  - destruct (N.eqb c 94); [intros [= _ <-]; exact I|discriminate].
  - destruct (N.eqb c 60); [intros [= _ <-]; exact I|]. destruct (name_char c); [intros [= _ <-]; cbn [no_stop]; rewrite last_last; exact N|discriminate].
  - destruct (tag_char c); [intros [= _ <-]; exact I|]. apply ended_calm, N.
Qed.
Lemma calm_plain w : ~ In 46 w -> forall m, calm m w.
Proof.
  induction w as [|c w IH]; intros N m; [exact I|]. cbn [calm]. intros o m' S. split; [|apply IH; intros J; apply N; right; exact J].
  eapply step_calm; [|exact S]. intros ->. apply N. left. reflexivity.
Qed.
Lemma calm_in_iri r : forallb iri_char r = true -> forall u, calm (InIri u) (r ++ [62]).
Proof.
  induction r as [|c r IH]; intros F u; cbn [app].
  - apply calm_plain. intros [E|[]]. discriminate.
  - cbn [forallb] in F. apply andb_prop in F as [F1 F2]. cbn [calm lex_step]. intros o m' S.
    destruct (N.eqb_spec c 62) as [->|_]; [discriminate F1|]. rewrite F1 in S. injection S as _ <-. split; [exact I|apply IH, F2].
Qed.
Lemma calm_iri r : forallb iri_char r = true -> calm Gap ([60] ++ r ++ [62]).
Proof. intros F. cbn [app calm]. intros o m' S. vm_compute in S. injection S as _ <-. split; [exact I|apply calm_in_iri, F]. Qed.
Lemma calm_inner c u r : inner_char c -> (forall v, calm (InString v) r) -> calm (InString u) (c :: r).
Proof.
  intros N K. cbn [calm lex_step]. intros o m' S. unfold inner_char in N.
  destruct (N.eqb_spec c 34) as [->|_]; [cbn in N; tauto|]. destruct (N.eqb_spec c 92) as [->|_]; [cbn in N; tauto|].
  destruct (existsb (N.eqb c) [10; 13]); [discriminate|]. injection S as _ <-. split; [exact I|apply K].
Qed.
Lemma calm_inners ds r : Forall inner_char ds -> (forall v, calm (InString v) r) -> forall u, calm (InString u) (ds ++ r).
Proof. intros F K. induction F as [|d ds D F IH]; intros u; [apply K|]. cbn [app]. apply calm_inner; auto. Qed.
Lemma calm_escape c u r : (forall v, calm (InString v) r) -> calm (InString u) (92 :: c :: r).
Proof.
  intros K. cbn [calm lex_step]. intros o m' S. change (N.eqb 92 34) with false in S. change (N.eqb 92 92) with true in S. cbn iota in S.
  injection S as _ <-. split; [exact I|]. intros o' m2 S. cbn [lex_step] in S. injection S as _ <-. split; [exact I|apply K].
Qed.
Lemma calm_in_string b t r : string_reads b t -> (forall v, calm (InString v) r) -> forall u, calm (InString u) (b ++ r).
Proof.
  intros H K. induction H as [|c s t NI R IH|e c s t J R IH|ds vs s t D L S R IH|ds vs s t D L S R IH]; intros u.
  - apply K.
  - cbn [app]. apply calm_inner; auto.
  - cbn [app]. apply calm_escape. exact IH.
  - cbn [app]. apply calm_escape. intros v. rewrite <- app_assoc. apply calm_inners; [exact (hex_inner _ _ D)|exact IH].
  - cbn [app]. apply calm_escape. intros v. rewrite <- app_assoc. apply calm_inners; [exact (hex_inner _ _ D)|exact IH].
Qed.
Lemma calm_string b t rest : string_reads b t -> (~ In 46 rest \/ exists i, forallb iri_char i = true /\ rest = $"^^" ++ [60] ++ i ++ [62]) ->
  calm Gap ([34] ++ b ++ [34] ++ rest).
Proof.
  intros H R. cbn [app calm]. intros o m' S. vm_compute in S. injection S as _ <-. split; [exact I|]. apply (calm_in_string b t _ H). intros v.
  destruct R as [R|(i & F & ->)]; [apply calm_plain; intros [E|J]; [discriminate|contradiction]|].
  cbn [calm lex_step]. change (N.eqb 34 34) with true. cbn iota. intros ? ? [= _ <-]. split; [exact I|]. change $"^^" with [94; 94]. cbn [app calm lex_step].
  change (N.eqb 94 64) with false. change (N.eqb 94 94) with true. cbn iota. intros ? ? [= _ <-]. split; [exact I|].
  cbn [lex_step]. change (N.eqb 94 94) with true. cbn iota. intros ? ? [= _ <-]. split; [exact I|].
  cbn [lex_step]. change (N.eqb 60 60) with true. cbn iota. intros ? ? [= _ <-]. split; [exact I|]. apply calm_in_iri, F.
Qed.

(** ** Documents *)
Definition calm_piece (p : piece) : Prop := match p with Word w => calm Gap w | _ => True end.
Lemma calm_one s : Forall calm_piece [Sign s].
Proof. constructor; [exact I|constructor]. Qed.
Section Doc.
Variable c : setting.
Variable g : graph.
Variable base : option Url.url.
Variable mappings : list (str * str).
Hypothesis R : readable_graph c base mappings g.
Hypothesis D : dotless_graph c mappings g.
Notation shown := (shows g (nest_blank_nodes (t_opts c)) (iri_word c) (verb c) (lit_word c)).
Notation Hd := (rd_head c g base mappings R).

(** The word for an IRI is in brackets, or a name without a full stop. *)
Lemma iri_shape i w : readable_iri c base mappings i -> dotless_iri c i -> iri_word c i = Some w ->
  (exists r, w = [60] ++ r ++ [62] /\ forallb iri_char r = true) \/ ~ In 46 w.
Proof.
  intros Ri Di W. destruct (iri_written c base mappings Hd i Ri) as (w' & W' & S & _). rewrite W in W'. injection W' as <-.
  destruct S as [S|(p & ns & l & E & I & L)]; [left; exact S|].
  destruct (iri_word_plain c i w (proj1 Hd) W) as [W1 W2]. destruct Ri as (_ & (P & _) & _).
  assert (Hx : hd 0 w <> 60).
  { destruct Hd as (_ & _ & _ & _ & H). destruct (H _ _ I) as (X & _). destruct (name_facts p l X L) as (_ & _ & _ & _ & Nl & _). rewrite E.
    apply name_not in Nl. tauto. }
  assert (K : forall j, t_parse c i = Some j -> t_compress c j = Ret (Some w) \/ t_compress c j = Ret None /\ w = [60] ++ j ++ [62] -> ~ In 46 w).
  { intros j Pj K. rewrite P in Pj. injection Pj as <-. destruct K as [K|[_ K]]; [exact (Di _ K)|]. rewrite K in Hx. cbn in Hx. congruence. }
  destruct (id_base (t_opts c)) as [b|].
  - destruct (strip_prefix b i) as [r|] eqn:S.
    + rewrite W1 in Hx. cbn in Hx. congruence.
    + right. destruct (W2 eq_refl) as (j & Ej & Kj). eapply K; eauto.
  - right. destruct (W2 Logic.I) as (j & Ej & Kj). eapply K; eauto.
Qed.
Lemma iri_calm i w : readable_iri c base mappings i -> dotless_iri c i -> iri_word c i = Some w -> calm Gap w.
Proof. intros Ri Di W. destruct (iri_shape i w Ri Di W) as [(r & -> & F)|N]; [apply calm_iri, F|apply calm_plain, N]. Qed.
Lemma blank_calm b : ~ In 46 b -> calm Gap ($"_:" ++ b).
Proof. intros N. apply calm_plain. intros [E|[E|J]]; [discriminate|discriminate|contradiction]. Qed.
Lemma verb_calm p v : readable_iri c base mappings p -> (type_like p -> p = rdf $"type") -> dotless_iri c p -> verb c p = Some v -> calm Gap v.
Proof.
  intros H T Dp V. destruct (rd_verb c g base mappings R p H T) as (v' & V' & K). rewrite V in V'. injection V' as <-. destruct K as [[-> _]|W].
  - apply calm_plain. intros [E|[]]. discriminate.
  - exact (iri_calm p v H Dp W).
Qed.
Lemma literal_calm l w : readable_literal c base mappings l -> dotless_literal c l -> lit_word c l = Some w -> calm Gap w.
Proof.
  intros [(Q & F & Ri)|(d & E & H)] Dl W.
  - destruct (quoted_shape _ _ _ Q W) as (rest & -> & S). pose proof (escape_reads c _ F) as X. unfold quoted_word.
    eapply calm_string; [exact X|]. unfold quoted_literal, dotless_literal in *.
    destruct (lit_data_type l) as [d|]; [|destruct (lit_language l) as [tag|]].
    + destruct S as (x & Wx & ->). destruct (lit_language l); [contradiction|]. destruct Q as [_ Nq]. destruct (Dl d eq_refl) as [_ Di].
      destruct (iri_shape _ x Ri (Di Nq) Wx) as [(r & -> & Fr)|Nx]; [right; eauto|]. left. intros [J|[J|J]]; [discriminate|discriminate|contradiction].
    + subst rest. left. intros [J|J]; [discriminate|]. apply tag_chars in Q. rewrite forallb_forall in Q. specialize (Q _ J). discriminate.
    + subst rest. left. intros [].
  - assert (U : unquoted d) by (destruct H as [[-> _]|[[-> _]|[-> _]]]; cbn; auto 20).
    rewrite (bare_shape _ _ _ _ E U W). apply calm_plain. exact (proj1 (Dl d E) U).
Qed.
Lemma dotless_item o items : dotless_object c (OColl items) -> In o items -> dotless_object c o.
Proof. intros H J x K. apply H. econstructor; eauto. Qed.
Lemma joined_calm sep (ls : list (list piece)) : Forall calm_piece sep -> (forall l, In l ls -> Forall calm_piece l) -> Forall calm_piece (joinp sep ls).
Proof. apply Forall_joinp. Qed.
Lemma tree_calm t : forall o, readable_object c base mappings o -> dotless_object c o -> shown o t -> Forall calm_piece (tp t).
Proof.
  induction t as [w|po IH|ts IH] using tree_induction; intros o O Do S.
  - constructor; [|constructor]. specialize (Do o (In_self o)). inversion S as [i w' W|l w' W|b N E| |]; subst; inversion O; subst.
    + eapply iri_calm; eauto.
    + eapply literal_calm; eauto.
    + apply blank_calm, Do, N.
  - inversion S as [| | |b po' N H E|]; subst. inversion H as [s ps po' Nd _ A F Sn]; subst. clear S H O Do Sn.
    rewrite props_pieces. constructor; [exact I|]. apply Forall_app. split; [|apply calm_one].
    apply joined_calm; [apply calm_one|]. intros x J. apply in_map_iff in J as (e & <- & J).
    destruct (Forall2_In_r _ _ _ e F J) as (p & Ip & H). inversion H as [s q v os ts V Nd' Ao Fo _]; subst.
    apply A in Ip as (o & Ip). destruct (rd_statement c g base mappings R _ Ip) as (_ & P & T & _). destruct (proj2 D _ Ip) as (_ & Dp & _).
    cbn [st_predicate] in *. unfold entry_pieces. cbn [fst snd]. constructor; [exact (verb_calm p v P T Dp V)|].
    apply joined_calm; [apply calm_one|]. intros x K. apply in_map_iff in K as (t & <- & K).
    destruct (Forall2_In_r _ _ _ t Fo K) as (o' & Io & So). apply Ao in Io. destruct (rd_statement c g base mappings R _ Io) as (_ & _ & _ & O').
    destruct (proj2 D _ Io) as (_ & _ & D'). exact (IH _ t J K o' O' D' So).
  - inversion S as [| | | |l' ts' F]; subst. inversion O as [| | |items' H]; subst. rewrite items_pieces. constructor; [exact I|].
    apply Forall_app. split; [|apply calm_one]. apply joined_calm; [apply calm_one|]. intros x K. apply in_map_iff in K as (t & <- & K).
    destruct (Forall2_In_r _ _ _ t F K) as (o' & Io & So). apply (IH t K o'); auto. eapply dotless_item; eauto.
Qed.
Lemma blocks_calm d b : document c g d -> In b d -> Forall calm_piece (block_pieces comma b).
Proof.
  intros (nodes & blanks & _ & A & _ & _ & _ & F) I. destruct (Forall2_In_r _ _ _ b F I) as (s & Is & W & H). apply A in Is as (p0 & o0 & Is).
  destruct (rd_statement c g base mappings R _ Is) as (Rs & _). destruct (proj2 D _ Is) as (Ds & _). cbn [st_subject] in *.
  destruct b as [w po]. cbn [fst snd] in *. unfold block_pieces. cbn [fst snd]. constructor.
  - cbn [calm_piece]. destruct s as [b|i|st]; cbn [subject_w] in W; [injection W as <-; apply blank_calm, Ds|eapply iri_calm; eauto|contradiction].
  - apply Forall_app. split; [|apply calm_one]. inversion H as [s' ps po' Nd Rk Ap Fp Sn]; subst.
    apply joined_calm; [apply calm_one|]. intros x J. apply in_map_iff in J as (e & <- & J).
    destruct (Forall2_In_r _ _ _ e Fp J) as (p & Ip & He). inversion He as [s' q v os ts V Nd' Ao Fo _]; subst.
    apply Ap in Ip as (o & Ip). destruct (rd_statement c g base mappings R _ Ip) as (_ & P & T & _). destruct (proj2 D _ Ip) as (_ & Dp & _).
    cbn [st_predicate] in *. unfold entry_pieces. cbn [fst snd]. constructor; [exact (verb_calm p v P T Dp V)|].
    apply joined_calm; [apply calm_one|]. intros x K. apply in_map_iff in K as (t & <- & K).
    destruct (Forall2_In_r _ _ _ t Fo K) as (o' & Io & So). apply Ao in Io. destruct (rd_statement c g base mappings R _ Io) as (_ & _ & _ & O').
    destruct (proj2 D _ Io) as (_ & _ & D'). exact (tree_calm t o' O' D' So).
Qed.
Lemma head_calm : Forall calm_piece (head_of c mappings).
Proof.
  rewrite (rd_head_of c g base mappings R). destruct Hd as (_ & _ & B & _ & H).
  assert (Dr : forall ttl sparql args, calm Gap ttl -> calm Gap sparql -> Forall (calm Gap) args ->
    Forall calm_piece (directive (t_opts c) ttl sparql args)).
  { intros ttl sparql args T S A. assert (W : Forall calm_piece (map Word args)) by (apply Forall_map; exact A). unfold directive.
    destruct (use_sparql_style (t_opts c) && negb (use_intellij_style (t_opts c))).
    - constructor; [exact S|exact W].
    - constructor; [exact T|]. apply Forall_app. split; [exact W|apply calm_one]. }
  assert (Kw : forall w, forallb (fun x => negb (N.eqb x 46)) w = true -> calm Gap w).
  { intros w F. apply calm_plain. intros J. rewrite forallb_forall in F. specialize (F _ J). discriminate. }
  unfold directives. apply Forall_app. split.
  - destruct base as [b|]; cbn [option_map]; [|constructor]. apply Dr; [apply Kw; reflexivity|apply Kw; reflexivity|].
    constructor; [|constructor]. apply calm_iri, B.
  - apply Forall_flat_map, Forall_forall. intros [p ns] J. destruct (H _ _ J) as (P & _ & F). cbn [fst snd].
    apply Dr; [apply Kw; reflexivity|apply Kw; reflexivity|].
    constructor; [|constructor; [apply calm_iri, F|constructor]]. apply calm_plain. intros K. apply in_app_or in K as [K|[K|[]]]; [|discriminate].
    exact (proj1 D _ _ J K).
Qed.
(** Subjects are told apart by their words. *)
Lemma subject_word_inj s p o s' p' o' w : In (MkStmt s p o) (g_list g) -> In (MkStmt s' p' o') (g_list g) ->
  subject_w (iri_word c) s = Some w -> subject_w (iri_word c) s' = Some w -> s = s'.
Proof.
  intros J J' W W'. destruct (rd_subject_token c g base mappings R _ _ _ _ J W) as (_ & _ & r & [A _] & B).
  destruct (rd_subject_token c g base mappings R _ _ _ _ J' W') as (_ & _ & r' & [A' _] & B'). rewrite (leaf_fun _ _ _ _ _ A' A) in B'.
  destruct s, s'; cbn [subject_means] in *; try contradiction; subst; try discriminate; injection B' as ->; reflexivity.
Qed.
Lemma Forall2_left {A B} (P : A -> B -> Prop) l d1 d2 : Forall2 P l (d1 ++ d2) -> exists l1 l2, l = l1 ++ l2 /\ Forall2 P l1 d1 /\ Forall2 P l2 d2.
Proof. intros F. apply Forall2_app_inv_r in F as (l1 & l2 & A1 & A2 & ->). eauto. Qed.
Lemma whole_subjects d1 d2 l1 l2 a b : document c g (d1 ++ d2) -> (forall st, In st (l1 ++ l2) -> In st (g_list g)) ->
  Forall2 (says g (nest_blank_nodes (t_opts c)) (iri_word c) (verb c) (lit_word c)) l1 (top_triples d1) ->
  Forall2 (says g (nest_blank_nodes (t_opts c)) (iri_word c) (verb c) (lit_word c)) l2 (top_triples d2) ->
  In a l1 -> In b l2 -> st_subject a <> st_subject b.
Proof.
  intros (nodes & blanks & Nd & A & _ & _ & _ & F) G F1 F2 Ia Ib E. apply Forall2_left in F as (s1 & s2 & Es & S1 & S2). rewrite Es in Nd, A.
  assert (K : forall l ds ss x, Forall2 (says g (nest_blank_nodes (t_opts c)) (iri_word c) (verb c) (lit_word c)) l (top_triples ds) ->
    Forall2 (shows_block g (nest_blank_nodes (t_opts c)) (iri_word c) (verb c) (lit_word c)) ss ds -> incl ss (s1 ++ s2) ->
    In x (g_list g) -> In x l -> In (st_subject x) ss).
  { intros l ds ss x Fl Fs Sub Ig Il. destruct (Forall2_In_l _ _ _ x Fl Il) as ([[w v] t] & J & Wx & _). cbn [fst] in Wx.
    unfold top_triples in J. apply in_flat_map in J as (bl & Jb & J). apply in_flat_map in J as (e & _ & J). apply in_map_iff in J as (t' & Et & _).
    injection Et as Ew _ _. destruct (Forall2_In_r _ _ _ bl Fs Jb) as (s & Is & Ws & _). rewrite Ew in Ws.
    destruct (proj1 (A s) (Sub s Is)) as (p & o & Ip). destruct x as [sx px ox]. cbn [st_subject] in *.
    rewrite (subject_word_inj _ _ _ _ _ _ _ Ig Ip Wx Ws). exact Is. }
  assert (Ka := K _ _ _ a F1 S1 (incl_appl _ (incl_refl _)) (G a (in_or_app _ _ _ (or_introl Ia))) Ia).
  assert (Kb := K _ _ _ b F2 S2 (incl_appr _ (incl_refl _)) (G b (in_or_app _ _ _ (or_intror Ib))) Ib). rewrite E in Ka.
  clear -Nd Ka Kb. induction s1 as [|x s1 IH]; [destruct Ka|]. cbn [app] in Nd. inversion_clear Nd. destruct Ka as [->|Ka]; [|auto].
  apply H. apply in_or_app. right. exact Kb.
Qed.
End Doc.

Lemma top_app d1 d2 : top_triples (d1 ++ d2) = top_triples d1 ++ top_triples d2.
Proof. apply flat_map_app. Qed.
Lemma doc_cut c base mappings g f kept lost read out : readable_graph c base mappings g -> dotless_graph c mappings g -> short_collections g ->
  has_room c f -> (graph_size g < f)%nat -> doc_of c g mappings f = Done out -> pieces_text out = kept ++ lost -> turtle_reads kept read ->
  exists l1 l2, NoDup (l1 ++ l2) /\ (forall st, In st (l1 ++ l2) <-> In st (g_list g)) /\
    (forall a b, In a l1 -> In b l2 -> st_subject a <> st_subject b) /\
    Forall2 (statement_means g (nest_blank_nodes (t_opts c))) l1 read.
Proof.
  intros R D Sh Rm L O E (hs' & d' & b' & ps' & S' & H' & F'). destruct (rd_document _ _ _ _ _ R Rm L) as (out' & d & O' & Dc & T).
  rewrite O in O'. injection O' as <-. destruct (graph_triples _ _ _ _ _ d Dc) as (l & N & A & F).
  pose proof (proj1 (rd_parsed c g base mappings R f out d O Dc T) (proj2 (rd_long c g base mappings R d Dc) Sh)) as S.
  assert (Sg : Forall sign_ok out).
  { apply sign_blanks. rewrite T. apply Forall_app. split; [exact (rd_head_signs c g base mappings R)|]. apply Forall_flat_map, Forall_forall. intros b I.
    apply (rd_blocks c g base mappings R d b Dc I). }
  pose proof (doc_lexed c g (proj1 R) (rd_types c g base mappings R) mappings f out O Sg) as Lx.
  assert (Cl : forall w, In (Word w) (tight out) -> calm Gap w).
  { rewrite T. intros w I. apply in_app_or in I as [I|I].
    - exact (proj1 (Forall_forall _ _) (head_calm c g base mappings R D) _ I).
    - apply in_flat_map in I as (b & Ib & I). exact (proj1 (Forall_forall _ _) (blocks_calm c g base mappings R D d b Dc Ib) _ I). }
  rewrite E in S, Lx. destruct (cut_parsed _ _ _ _ _ _ _ Lx Cl S S') as [->|(-> & d2 & ->)].
  - inversion F'; subst. exists [], l. split; [exact N|]. split; [exact A|]. split; [intros a b []|constructor].
  - rewrite top_app in F. apply Forall2_left in F as (l1 & l2 & -> & F1 & F2). exists l1, l2. split; [exact N|]. split; [exact A|]. split.
    + intros a b Ia Ib. eapply whole_subjects; eauto. intros st I. apply A, I.
    + destruct (headings_fun _ _ _ H' _ _ (rd_headings c g base mappings R)) as [-> ->].
      assert (A1 : forall st, In st l1 -> In st (g_list g)) by (intros st I; apply A, in_or_app; left; exact I). clear -F' F1 A1 R. revert read F' A1.
      induction F1 as [|st x l1 ts Sx F1 IH]; intros read F' A1; inversion F' as [|x' y ts' read' Y F'']; subst; [constructor|].
      destruct (rd_says c g base mappings R st x (A1 st (or_introl eq_refl)) Sx) as (y' & Y1 & Y2). constructor.
      * assert (Q : [y] = [y']) by (eapply triples_fun; constructor; eauto). injection Q as ->. exact Y2.
      * apply IH; [exact F''|]. intros st' I. apply A1. right. exact I.
Qed.
Lemma dotless_same c mappings g g' : dotless_graph c mappings g -> Permutation (g_list g') (g_list g) -> dotless_graph c mappings g'.
Proof. intros (A & B) P. split; [exact A|]. intros st I. apply B. exact (Permutation_in _ P I). Qed.
Lemma c117_cut c base mappings g f ho n out kept lost text read : readable_graph c base mappings g -> dotless_graph c mappings g ->
  short_collections g -> has_room c f -> (graph_size g < f)%nat -> hash_order ho ->
  TurtleSpec.written c ho n mappings f g = Done out -> FilesSpec.chars (pieces_text out) -> FilesSpec.bytes (pieces_text out) = kept ++ lost ->
  Files.utf8_decode kept = Some text -> turtle_reads text read ->
  exists l1 l2, NoDup (l1 ++ l2) /\ (forall st, In st (l1 ++ l2) <-> In st (g_list g)) /\
    (forall a b, In a l1 -> In b l2 -> st_subject a <> st_subject b) /\
    Forall2 (statement_means g (nest_blank_nodes (t_opts c))) l1 read.
Proof.
  intros R D Sh Rm L Ho W Ch E U T. destruct (FilesProofs.decode_cut _ _ _ Ch E) as [X|(t & u & X & _ & _ & Et)]; [congruence|].
  rewrite U in X. injection X as <-. pose proof (rd_denest c base mappings g ho n R Ho) as P. destruct (rd_same _ _ _ _ _ R P) as (R' & Sz & Sh').
  rewrite <- Sz in L. apply Sh' in Sh. pose proof (dotless_same _ _ _ _ D P) as D'.
  destruct (doc_cut c base mappings (ttl_denest ho n g) f text u read out R' D' Sh Rm L W Et T) as (l1 & l2 & N & A & S & F).
  assert (Eq : forall st, In st (g_list (ttl_denest ho n g)) <-> In st (g_list g)) by (intros st; split; apply Permutation_in; auto; apply Permutation_sym; exact P).
  exists l1, l2. split; [exact N|]. split; [intros st; rewrite A; apply Eq|]. split; [exact S|]. eapply statement_same; [exact Eq|exact F].
Qed.

(** ** The output *)
Lemma c117_output out parts doc kept res : FilesSpec.divides parts -> ttl_write_to out parts (Done doc) = Some (kept, res) ->
  (exists lost, FilesSpec.bytes (pieces_text doc) = kept ++ lost /\ (res = Ok tt -> lost = [])) /\
  (res = Ok tt \/ res = Err Files.FileIo) /\ ((forall k bs, out k bs = None) -> res = Ok tt).
Proof.
  intros D H. cbn [ttl_write_to] in H. unfold Files.written in H.
  destruct (Files.put_parts out (parts (pieces_text doc)) Files.nothing) as [w ok] eqn:P. cbn [fst snd] in H. injection H as <- <-.
  split; [|split].
  - apply FilesProofs.put_parts_prefix in P as (x & y & A & B & C). exists y. cbn in A. rewrite A, <- B, D. split; [reflexivity|].
    destruct ok; [auto|discriminate].
  - destruct ok; auto.
  - intros K. pose proof (FilesProofs.put_parts_ok out (parts (pieces_text doc)) K Files.nothing) as Q. rewrite P in Q. cbn in Q. subst ok. reflexivity.
Qed.
