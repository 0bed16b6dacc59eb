(** What is written can be taken apart: words are followed by white space, a comma or nothing. *)
From Verif Require Import GraphProofs StrFacts Turtle TurtleSpec TurtleLitSpec TurtleProofs TurtleShape TurtleReadSpec TurtleLex.
From Verif Require XmlProofs.
From Coq Require Import Permutation Lia.
Local Opaque group_predicate pg_map.

Definition is_comma (s : str) : bool := match s with [44] => true | _ => false end.
Definition is_dot (s : str) : bool := match s with [46] => true | _ => false end.
(** [open]: the last thing written must be followed by white space or a comma. *)
Fixpoint walk (open : bool) (l : list piece) : option bool :=
  match l with
  | [] => Some open
  | Word w :: r => if open then None else walk (negb (N.eqb (hd 0 w) 60)) r
  | Sign s :: r => if open && negb (is_comma s) then None else walk (is_dot s) r
  | Blanks s :: r => if forallb white s then walk (open && match s with [] => true | _ => false end) r else None
  end.
Lemma walk_app l1 : forall b l2, walk b (l1 ++ l2) = match walk b l1 with Some x => walk x l2 | None => None end.
Proof.
  induction l1 as [|[w|s|s] l1 IH]; intros b l2; cbn [app walk]; auto.
  - destruct b; auto.
  - destruct (b && negb (is_comma s)); auto.
  - destruct (forallb white s); auto.
Qed.
Lemma walk_less l : forall b y, walk true l = Some y -> exists y', walk b l = Some y' /\ implb y' y = true.
Proof.
  intros [|] y H; [exists y; split; [exact H|destruct y; reflexivity]|]. revert y H.
  induction l as [|[w|s|s] l IH]; intros y H; cbn [walk andb] in *.
  - injection H as <-. exists false. auto.
  - discriminate.
  - destruct (is_comma s); cbn in H; [|discriminate]. exists y. split; [exact H|destruct y; reflexivity].
  - destruct (forallb white s); [|discriminate]. destruct s; [apply IH, H|]. exists y. split; [exact H|destruct y; reflexivity].
Qed.

Definition sign_ok (p : piece) : Prop :=
  match p with
  | Word w => token w
  | Sign s => In s [$","; $";"; $"["; $"]"; $"("; $")"; $"."]
  | Blanks _ => True
  end.
Lemma lex_white s r : forallb white s = true -> lex Gap (s ++ r) = lex Gap r.
Proof.
  induction s as [|c s IH]; intros H; [reflexivity|]. cbn [forallb] in H. apply andb_prop in H as [H1 H2].
  cbn [app lex lex_step]. unfold lex_start. rewrite H1, IH by exact H2. destruct (lex Gap r); reflexivity.
Qed.
Lemma lex_walk l : Forall sign_ok l -> forall b y, walk b l = Some y ->
  lex Gap (pieces_text l) = Some (tight l) /\ (b = true -> ender (pieces_text l)).
Proof.
  induction 1 as [|p l Hp Hl IH]; intros b y H; [split; [reflexivity|intros _; exact I]|].
  change (pieces_text (p :: l)) with (piece_text p ++ pieces_text l). destruct p as [w|s|s]; cbn [walk piece_text sign_ok] in *.
  - destruct b; [discriminate|]. destruct (IH _ _ H) as [I1 I2]. split; [|discriminate].
    rewrite lex_token; [rewrite I1; reflexivity|exact Hp|]. destruct (N.eqb_spec (hd 0 w) 60) as [E|E]; [left; exact E|right; apply I2; reflexivity].
  - destruct (b && negb (is_comma s)) eqn:B; [discriminate|]. destruct (IH _ _ H) as [I1 I2].
    assert (D : s = $"." \/ In s [$","; $";"; $"["; $"]"; $"("; $")"]) by (cbn [In] in *; intuition).
    split.
    + destruct D as [->|D].
      * specialize (I2 eq_refl). change ($"." ++ pieces_text l) with (46 :: pieces_text l). rewrite (lex_first 46 AfterDot) by reflexivity.
        rewrite (lex_ender AfterDot _ [Sign $"."] I2); [rewrite I1; reflexivity|reflexivity|].
        intros c J. cbn in J. intuition; subst c; reflexivity.
      * assert (K : exists c, s = [c] /\ lex_start c = Some ([Sign [c]], Gap)).
        { cbn in D. repeat (destruct D as [<-|D]; [eexists; split; reflexivity|]). destruct D. }
        destruct K as (c & -> & K). cbn [app lex lex_step]. rewrite K, I1. reflexivity.
    + intros ->. cbn [andb] in B. destruct (is_comma s) eqn:C; [|discriminate].
      destruct s as [|c s]; [discriminate|]. cbn [app ender]. right. cbn in C.
      destruct c as [|c]; [discriminate|]. do 6 (destruct c; try discriminate). reflexivity.
  - destruct (forallb white s) eqn:F; [|discriminate]. destruct (IH _ _ H) as [I1 I2]. split.
    + rewrite lex_white by exact F. exact I1.
    + intros ->. destruct s as [|c s]; [apply I2; reflexivity|]. cbn [app ender forallb] in *. apply andb_prop in F as [F _]. auto.
Qed.

(** ** Actions *)
Definition upto (b : bool) (s : wstate) : Prop := exists x, walk false (w_out s) = Some x /\ implb x b = true.
Definition pres (x y : bool) (a : action) : Prop := forall s s', a s = Done s' -> upto x s -> upto y s'.
Lemma pres_seq x y z a b : pres x y a -> pres y z b -> pres x z (wseq a b).
Proof. intros A B s s' H U. apply wseq_Done in H as (s1 & H & K). eauto. Qed.
Lemma pres_emit x y l : walk x l = Some y -> pres x y (emit l).
Proof.
  intros W s s' H (b & U & L). injection H as <-. unfold upto. cbn [w_out]. rewrite walk_app, U. destruct x.
  - apply walk_less, W.
  - destruct b; [discriminate|]. exists y. split; [exact W|destruct y; reflexivity].
Qed.
Lemma pres_weak x y x' y' a : pres x y a -> implb x' x = true -> implb y y' = true -> pres x' y' a.
Proof.
  intros P A B s s' H (b & U & L). destruct (P _ _ H) as (b' & U' & L').
  - exists b. split; [exact U|]. destruct b, x, x'; auto.
  - exists b'. split; [exact U'|]. destruct b', y, y'; auto.
Qed.
Lemma pres_skip b : pres b b skip.
Proof. intros s s' H U. injection H as <-. exact U. Qed.
Lemma pres_on_ind b f : pres b b (on_ind f).
Proof. intros s s' H U. unfold on_ind in H. destruct (f (w_ind s)); [|discriminate]. injection H as <-. exact U. Qed.
Lemma pres_if (b : bool) x y a a' : pres x y a -> pres x y a' -> pres x y (if b then a else a').
Proof. destruct b; auto. Qed.
Lemma pres_with_io {A} (r : io A) f x y : (forall a, r = io_ok a -> pres x y (f a)) -> pres x y (with_io r f).
Proof. intros H s s' E. apply with_io_Done in E as (a & E & K). exact (H a E _ _ K). Qed.
Lemma pres_fail x y e : pres x y (fun _ => Failed e).
Proof. intros s s' H. discriminate. Qed.
Lemma pres_crash x y : pres x y (fun _ => Crashed).
Proof. intros s s' H. discriminate. Qed.
Lemma white_spaces n : forallb white (repeat 32 n) = true.
Proof. induction n; [reflexivity|]. cbn [repeat forallb]. rewrite IHn. reflexivity. Qed.
Lemma pres_new_line b fl : pres b false (new_line fl).
Proof.
  apply (pres_weak true false); [|destruct b; reflexivity|reflexivity].
  intros s s' H U. unfold new_line in H. destruct (is_being_sorted fl).
  - eapply pres_emit; [|exact H|exact U]. reflexivity.
  - eapply pres_emit; [|exact H|exact U]. cbn [walk ttl_eol app forallb]. unfold ind_show. rewrite white_spaces. reflexivity.
Qed.
Lemma pres_word w : pres false true (emit [Word w]).
Proof. eapply pres_weak; [apply (pres_emit false); reflexivity|reflexivity|]. destruct (negb (hd 0 w =? 60)); reflexivity. Qed.
Lemma pres_padded v k : k = 0%nat \/ hd 0 v = 60 \/ (length v < k)%nat -> pres false false (write_padded v k).
Proof.
  intros H. unfold write_padded. destruct (Nat.eqb_spec k 0) as [E|E].
  - eapply pres_weak; [apply (pres_emit false); reflexivity|reflexivity|]. rewrite andb_false_r. reflexivity.
  - eapply pres_weak; [apply (pres_emit false)|reflexivity|].
    + cbn [walk]. rewrite white_spaces. reflexivity.
    + destruct H as [H|[H|H]]; [contradiction|rewrite H; reflexivity|].
      destruct (k - length v)%nat as [|n] eqn:D; [lia|]. cbn [repeat]. rewrite andb_false_r. reflexivity.
Qed.
Lemma pres_padding k : pres false false (write_padding k).
Proof.
  unfold write_padding. destruct (Nat.eqb_spec k 0) as [E|E]; [apply pres_emit; reflexivity|].
  apply pres_emit. cbn [walk]. rewrite white_spaces. reflexivity.
Qed.

Section Walks.
Variable c : setting.
Variable g : graph.
Hypothesis Ok : setting_ok c.
Hypothesis Fit : types_fit c g.

Notation modulus := (t_modulus c).
Notation mode := (t_mode c).
Notation m := (t_iri c).
Notation iri_parse := (t_parse c).
Notation compress := (t_compress c).
Notation opts := (t_opts c).
Notation ord_p := (t_predicates c).
Notation ord_o := (t_objects c).
Notation compressed := (compress_iri m iri_parse compress opts).

Lemma max_len_In l : forall k p w, max_len_predicates m iri_parse compress opts l = io_ok k -> In p l -> compressed p = io_ok w ->
  (byte_len w <= k)%nat.
Proof.
  induction l as [|q l IH]; intros k p w H I W; [destruct I|]. cbn [max_len_predicates] in H.
  destruct (compressed q) as [[w'|e]|] eqn:Q; try discriminate. cbn [io_bind] in H.
  destruct (max_len_predicates _ _ _ _ l) as [[k'|e]|] eqn:K; try discriminate. cbn [io_bind] in H. injection H as <-.
  destruct I as [->|I]; [rewrite Q in W; injection W as ->; lia|]. specialize (IH k' p w eq_refl I W). lia.
Qed.
(** The room for a verb. *)
Definition enough (s : subject) (p : str) (k : nat) : Prop :=
  k = 0%nat \/
  (group_predicate p <> GType -> forall w, compressed p = io_ok w -> (length w < k)%nat) /\
  (group_predicate p = GType -> place_type_on_subject_line opts = false ->
   forall v, (if use_rdf_type_a opts then io_ok $"a" else compressed (rdf $"type")) = io_ok v -> hd 0 v = 60 \/ (length v < k)%nat).
Lemma room_enough s p k : (exists o, In (MkStmt s p o) (g_list g)) ->
  forall n, (if predicate_padding opts then io_ok 0%nat
   else let? x := max_len_predicates m iri_parse compress opts (ord_p k (g_predicates_for g s)) in io_ok (S x)) = io_ok n -> enough s p n.
Proof.
  intros (o & I) n H. destruct (predicate_padding opts) eqn:Pd; [injection H as <-; left; reflexivity|right].
  destruct (max_len_predicates _ _ _ _ _) as [[x|e]|] eqn:M; try discriminate. cbn [io_bind] in H. injection H as <-.
  assert (A : forall q o' w, In (MkStmt s q o') (g_list g) -> compressed q = io_ok w -> (length w < S x)%nat /\ (byte_len w <= x)%nat).
  { intros q o' w J W. assert (byte_len w <= x)%nat.
    { eapply max_len_In; [exact M| |exact W]. destruct Ok as (Op & _). eapply Permutation_in; [apply Permutation_sym, Op|].
      apply predicates_for_spec. eauto. }
    pose proof (XmlProofs.byte_len_ge w). lia. }
  split.
  - intros _ w W. apply (A p o w I W).
  - intros T Pl v V. apply group_type in T.
    destruct (Fit s p o v I T) as [F|[F|[F|(q & o' & w & J & W & L)]]]; try congruence.
    + unfold verb, verb_word. destruct (type_like_dec p); [|contradiction]. destruct (use_rdf_type_a opts); [injection V as <-; reflexivity|].
      unfold iri_word, word_of. rewrite V. reflexivity.
    + left. exact F.
    + right. apply word_of_Some in W. destruct (A q o' w J W). lia.
Qed.

Lemma pres_verb s p k fl : enough s p k -> pres true false (write_verb m iri_parse compress opts (group_predicate p) p k fl).
Proof.
  intros E. unfold write_verb. destruct (group_predicate p) eqn:G.
  1:{ apply pres_with_io. intros v V. destruct (place_type_on_subject_line opts) eqn:Pl.
      - apply (pres_weak true false); [|reflexivity|reflexivity]. apply pres_emit. cbn [walk]. cbn. rewrite andb_false_r. reflexivity.
      - apply (pres_seq _ false); [apply pres_new_line|]. apply pres_padded. destruct E as [E|[_ E]]; auto. }
  all: apply (pres_seq _ false); [apply pres_new_line|]; apply pres_with_io; intros v V; apply pres_padded;
    destruct E as [E|[E _]]; auto; right; right; apply E; [congruence|exact V].
Qed.

Section Rec.
Variable rec : object -> ttl_flags -> action.
Hypothesis Rec : forall o fl, pres false true (rec o fl).

Lemma pres_wpoo o k fl :
  pres false (is_last_of_predicate fl) (write_predicate_object_object modulus mode rec o k fl).
Proof.
  unfold write_predicate_object_object. apply (pres_seq _ true); [apply Rec|]. destruct (is_last_of_predicate fl).
  - apply (pres_seq _ true); [apply pres_if; [apply pres_on_ind|apply pres_skip]|].
    intros s s' H U. destruct (is_not_indented (w_ind s)).
    + eapply (pres_weak true false true true); [|reflexivity|reflexivity|exact H|exact U]. apply (pres_seq _ true); [apply pres_emit; reflexivity|apply pres_new_line].
    + destruct (negb (is_last_of_subject fl)).
      * eapply (pres_weak true false true true); [|reflexivity|reflexivity|exact H|exact U]. apply pres_emit; reflexivity.
      * injection H as <-. exact U.
  - apply (pres_seq _ false); [apply pres_emit; reflexivity|]. apply pres_if; [apply pres_skip|].
    apply (pres_seq _ false); [apply pres_on_ind|]. apply (pres_seq _ false); [apply pres_new_line|].
    apply (pres_seq _ false); [apply pres_if; [apply pres_padding|apply pres_skip]|apply pres_on_ind].
Qed.
Lemma pres_objects l k fl : pres false true (write_objects modulus mode rec l k fl).
Proof.
  induction l as [|o l IH]; cbn [write_objects].
  - eapply pres_weak; [apply (pres_skip false)|reflexivity|reflexivity].
  - destruct l as [|o' l].
    + eapply pres_seq; [apply pres_wpoo|]. cbn. apply pres_skip.
    + eapply pres_seq; [apply pres_wpoo|]. exact IH.
Qed.
Lemma pres_pred s p k fl : enough s p k ->
  pres true true (write_predicate_object modulus mode m iri_parse compress opts g ord_o rec (group_predicate p) s p k fl).
Proof.
  intros E. unfold write_predicate_object. eapply pres_seq; [apply (pres_verb s), E|].
  intros s1 s2 H U. apply wbind_Done in H as (ot & _ & H). eapply pres_objects; [exact H|exact U].
Qed.
Lemma pres_group gr s l k fl : Forall (fun p => group_predicate p = gr /\ enough s p k) l -> forall n t,
  pres true true (write_group modulus mode m iri_parse compress opts g ord_o rec gr s l n t k fl).
Proof.
  induction 1 as [|p l [<- E] F IH]; intros n t; cbn [write_group]; [apply pres_skip|].
  eapply pres_seq; [apply pres_pred, E|apply IH].
Qed.
Lemma pres_groups s l k fl : labelled l -> (forall p, In p (members l) -> enough s p k) -> forall n t,
  pres true true (write_groups modulus mode m iri_parse compress opts g ord_o rec s l n t k fl).
Proof.
  induction l as [|[gr ps] l IH]; intros La E n t; cbn [write_groups]; [apply pres_skip|].
  destruct (sort_predicates m iri_parse compress opts ps) as [ps'|] eqn:S; [|apply pres_crash].
  inversion La as [|? ? L1 L2]; subst. apply sort_predicates_perm in S. eapply pres_seq.
  - apply pres_group. apply Forall_forall. intros p Hp. assert (Hp' : In p ps) by (eapply Permutation_in; eauto).
    split; [|apply E; cbn [members flat_map]; apply in_or_app; left; exact Hp'].
    cbn in L1. destruct L1 as [_ L1] || idtac. rewrite Forall_forall in L1. apply L1. exact Hp'.
  - apply IH; [exact L2|]. intros p Hp. apply E. cbn [members flat_map]. apply in_or_app. right. exact Hp.
Qed.
Lemma pres_list s fl : pres true true (write_predicate_object_list modulus mode m iri_parse compress opts g ord_p ord_o rec s fl).
Proof.
  intros s1 s2 H U. unfold write_predicate_object_list in H. apply with_io_Done in H as (k & K & H).
  destruct (group_predicates_spec (ord_p (w_tick s1) (g_predicates_for g s))) as [P La].
  eapply (pres_groups s); [exact La| |exact H|exact U]. intros p Hp. eapply room_enough; [|exact K].
  apply predicates_for_spec. destruct Ok as (Op & _). eapply Permutation_in; [apply Op|]. eapply Permutation_in; [exact P|exact Hp].
Qed.
Lemma pres_bnpl b fl : pres false true (write_blank_node_property_list modulus mode m iri_parse compress opts g ord_p ord_o rec b fl).
Proof.
  unfold write_blank_node_property_list. apply (pres_seq _ false); [apply pres_on_ind|].
  apply (pres_seq _ true); [eapply pres_weak; [apply (pres_emit false false); reflexivity|reflexivity|reflexivity]|].
  apply (pres_seq _ true); [apply pres_list|]. apply (pres_seq _ false); [apply pres_new_line|].
  eapply pres_weak; [apply (pres_emit false false); reflexivity|reflexivity|reflexivity].
Qed.
Lemma pres_items l fl : pres false true (write_items rec l fl).
Proof.
  induction l as [|o l IH]; cbn [write_items].
  - eapply pres_weak; [apply (pres_skip false)|reflexivity|reflexivity].
  - apply (pres_seq _ true); [apply Rec|]. destruct l.
    + apply (pres_seq _ true); [apply pres_skip|]. cbn. apply pres_skip.
    + apply (pres_seq _ false); [apply pres_emit; reflexivity|exact IH].
Qed.
Lemma pres_collection l fl : pres false true (write_collection modulus mode opts rec l fl).
Proof.
  unfold write_collection. destruct l as [|o l].
  - eapply pres_weak; [apply (pres_emit false false); reflexivity|reflexivity|reflexivity].
  - apply (pres_seq _ false); [apply pres_on_ind|]. apply (pres_seq _ false); [apply pres_emit; reflexivity|].
    apply (pres_seq _ false); [apply pres_new_line|]. apply (pres_seq _ true); [apply pres_items|].
    apply (pres_seq _ true); [apply pres_if; [apply pres_on_ind|apply pres_skip]|].
    apply (pres_seq _ false); [apply pres_new_line|]. apply (pres_seq _ true).
    + eapply pres_weak; [apply (pres_emit false false); reflexivity|reflexivity|reflexivity].
    + apply pres_if; [apply pres_skip|apply pres_on_ind].
Qed.
End Rec.

Notation w_obj := (write_object modulus mode m iri_parse (t_gext c) (t_printable c) compress opts g ord_p ord_o).
Lemma pres_object f : forall o fl, pres false true (w_obj f o fl).
Proof.
  induction f as [|f IH]; intros o fl; [intros s s' H; discriminate|]. destruct o as [b|i|l|items|st]; cbn [write_object].
  - apply pres_if; [|apply pres_word]. apply pres_if; [apply pres_bnpl, IH|].
    eapply pres_weak; [apply (pres_emit false false); reflexivity|reflexivity|reflexivity].
  - apply pres_with_io. intros w _. apply pres_word.
  - apply pres_with_io. intros w _. apply pres_word.
  - apply pres_collection, IH.
  - apply pres_crash.
Qed.
Lemma pres_subject s fl : pres false true (write_subject modulus mode m iri_parse compress opts s fl).
Proof.
  intros s1 s2 H U. unfold write_subject in H. eapply (pres_seq _ true); [|apply (pres_on_ind true)|exact H|exact U].
  destruct s as [b|i|st].
  - apply pres_if.
    + eapply pres_weak; [apply (pres_emit false true)|reflexivity|reflexivity].
      destruct (is_being_sorted fl); reflexivity.
    + eapply pres_weak; [apply (pres_skip false)|reflexivity|reflexivity].
  - apply pres_with_io. intros w _. apply pres_word.
  - apply pres_crash.
Qed.
Lemma pres_block f s :
  pres false false (write_block modulus mode m iri_parse (t_gext c) (t_printable c) compress opts g ord_p ord_o f s).
Proof.
  unfold write_block. apply (pres_seq _ true); [apply pres_subject|]. apply (pres_seq _ true); [apply pres_list, pres_object|].
  apply pres_emit. reflexivity.
Qed.
Lemma pres_blocks f r l :
  pres false false (write_blocks modulus mode m iri_parse (t_gext c) (t_printable c) compress opts g ord_p ord_o f r l).
Proof.
  induction l as [|s l IH]; cbn [write_blocks]; [apply pres_skip|]. apply (pres_seq _ false).
  - intros s1 s2 H U. injection H as <-. destruct r; exact U.
  - apply (pres_seq _ false); [apply pres_block|exact IH].
Qed.
(** Directives. *)
Lemma walk_end : walk false (directive_end opts) = Some false.
Proof. unfold directive_end. destruct (sparql_directives opts); reflexivity. Qed.
Lemma walk_base : walk false (base_pieces m opts) = Some false.
Proof.
  unfold base_pieces. destruct (id_base opts) as [b|]; [|reflexivity].
  assert (A : walk false [Word (if sparql_directives opts then $"BASE" else $"@base"); Blanks ttl_space; Word ([60] ++ show_iri m b ++ [62])] = Some false).
  { destruct (sparql_directives opts); reflexivity. }
  rewrite walk_app, A, walk_app, walk_end. destruct (use_intellij_style opts); reflexivity.
Qed.
Lemma walk_prefixes mappings : walk false (prefix_pieces m opts mappings) = Some false.
Proof.
  unfold prefix_pieces. destruct mappings as [|e l]; [reflexivity|]. rewrite walk_app.
  assert (A : forall l, walk false (flat_map (fun '(p, ns) =>
        [Word (if sparql_directives opts then $"PREFIX" else $"@prefix"); Blanks ttl_space; Word (p ++ $":"); Blanks ttl_space;
         Word ([60] ++ convert_first m (convert_base opts) (show_iri m ns) ++ [62])] ++ directive_end opts) l) = Some false).
  { clear. induction l as [|[p ns] l IH]; [reflexivity|]. cbn [flat_map]. rewrite walk_app, walk_app.
    assert (A : walk false [Word (if sparql_directives opts then $"PREFIX" else $"@prefix"); Blanks ttl_space; Word (p ++ $":"); Blanks ttl_space;
         Word ([60] ++ convert_first m (convert_base opts) (show_iri m ns) ++ [62])] = Some false).
    { assert (B : forall b, b && match ttl_space with [] => true | _ => false end = false) by (intros []; reflexivity).
      cbn [walk]. change (forallb white ttl_space) with true. cbn iota. rewrite !B. reflexivity. }
    rewrite A, walk_end. exact IH. }
  rewrite A. reflexivity.
Qed.
Lemma doc_walks mappings f out : doc_of c g mappings f = Done out -> exists b, walk false out = Some b.
Proof.
  unfold doc_of, write_turtle_doc. intros H. apply wbind_Done in H as (s & H & E). injection E as <-.
  assert (U : upto false s).
  { eapply (pres_seq false false false); [apply pres_blocks|apply pres_blocks|exact H|].
    exists false. split; [|reflexivity]. cbn [w_out]. rewrite walk_app, walk_base. apply walk_prefixes. }
  destruct U as (b & U & _). eauto.
Qed.
(** A document is taken apart as it was put together. *)
Lemma doc_lexed mappings f out : doc_of c g mappings f = Done out -> Forall sign_ok out -> lex Gap (pieces_text out) = Some (tight out).
Proof. intros H F. destruct (doc_walks _ _ _ H) as (b & W). exact (proj1 (lex_walk out F _ _ W)). Qed.
End Walks.
