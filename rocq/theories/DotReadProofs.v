(** Lemmas about reading DOT documents. *)
From Coq Require Import Lia Permutation.
From Verif Require Import Url IriProofs.
From Verif Require Import StrFacts LiteralProofs GraphProofs DotReadSpec DotProofs DotMain.

(** ** Tokens *)
Fixpoint lex_run (st : lexing) (s : str) : option (list dot_token * lexing) :=
  match s with
  | [] => Some ([], st)
  | c :: r =>
      match lex_step st c with
      | Some (ts, st') => option_map (fun p => (ts ++ fst p, snd p)) (lex_run st' r)
      | None => None
      end
  end.
Lemma lex_run_app s : forall st ts st' t, lex_run st s = Some (ts, st') -> forall us st'', lex_run st' t = Some (us, st'') ->
  lex_run st (s ++ t) = Some (ts ++ us, st'').
Proof.
  induction s as [|c r IH]; intros st ts st' t H us st'' U; cbn [lex_run app] in *.
  - injection H as <- <-. exact U.
  - destruct (lex_step st c) as [[a st1]|]; [|discriminate]. destruct (lex_run st1 r) as [[b st2]|] eqn:E; [|discriminate].
    injection H as <- <-. rewrite (IH _ _ _ _ E _ _ U). cbn. rewrite app_assoc. reflexivity.
Qed.
Lemma lex_run_lex s : forall st ts, lex_run st s = Some (ts, Between) -> dot_lex st s = Some ts.
Proof.
  induction s as [|c r IH]; intros st ts H; cbn [lex_run dot_lex] in *.
  - injection H as <- ->. reflexivity.
  - destruct (lex_step st c) as [[a st1]|]; [|discriminate]. destruct (lex_run st1 r) as [[b st2]|] eqn:E; [|discriminate].
    injection H as <- ->. rewrite (IH _ _ E). reflexivity.
Qed.

Lemma lex_inside : forall n s w, (length s <= n)%nat -> quotable s = true ->
  lex_run (InQuotes w) s = Some ([], InQuotes (w ++ between_quotes s)).
Proof.
  induction n as [|n IH]; intros s w L Q.
  - destruct s; [|cbn in L; lia]. cbn. rewrite app_nil_r. reflexivity.
  - destruct s as [|c r]; [cbn; rewrite app_nil_r; reflexivity|].
    cbn [quotable] in Q. cbn [lex_run lex_step]. destruct (N.eqb_spec c 92) as [->|N].
    + destruct r as [|d r]; [discriminate|]. apply andb_true_iff in Q as [Q1 Q2]. apply andb_true_iff in Q1 as [Q1 _].
      apply negb_true_iff in Q1. change (92 =? 34) with false. cbn iota. cbn [lex_run lex_step].
      change (between_quotes (92 :: d :: r)) with ((if N.eqb d 34 then [34] else [92; d]) ++ between_quotes r).
      destruct (N.eqb_spec d 34) as [->|Nd].
      * rewrite IH by (auto; cbn in L; lia). cbn [option_map fst snd app]. rewrite <- app_assoc. reflexivity.
      * rewrite Q1, IH by (auto; cbn in L; lia). cbn [option_map fst snd app]. rewrite <- app_assoc. reflexivity.
    + apply andb_true_iff in Q as [Q1 Q2]. apply andb_true_iff in Q1 as [Q1 _]. apply andb_true_iff in Q1 as [Q1 _].
      apply negb_true_iff in Q1. rewrite Q1. rewrite IH by (auto; cbn in L; lia).
      assert (B : between_quotes (c :: r) = c :: between_quotes r).
      { cbn [between_quotes]. destruct (N.eqb_spec c 92); [contradiction|reflexivity]. }
      rewrite B. cbn [option_map fst snd app]. rewrite <- app_assoc. reflexivity.
Qed.
Lemma lex_quote s : quotable s = true -> lex_run Between (quote s) = Some ([Quoted (between_quotes s)], Between).
Proof.
  intros Q. unfold quote. change ([34] ++ s ++ [34]) with (34 :: (s ++ [34])). cbn [lex_run].
  change (lex_step Between 34) with (Some (@nil dot_token, InQuotes [])). cbn iota.
  rewrite (lex_run_app s _ _ _ [34] (lex_inside (length s) s [] (le_n _) Q) [Quoted (between_quotes s)] Between) by reflexivity.
  reflexivity.
Qed.
Lemma lex_word_rest r : forall w, Forall (fun c => word_char c = true) r -> lex_run (InWord w) r = Some ([], InWord (w ++ r)).
Proof.
  induction r as [|c r IH]; intros w F; cbn [lex_run lex_step].
  - rewrite app_nil_r. reflexivity.
  - inversion F as [|? ? C F']; subst. rewrite C, IH by exact F'. cbn. rewrite <- app_assoc. reflexivity.
Qed.
Lemma word_start_start c : word_start c = true -> lex_start c = Some ([], InWord [c]).
Proof.
  intros W. unfold lex_start. assert (S : dot_space c = false).
  { apply not_true_iff_false. intros H. unfold dot_space in H. apply existsb_exists in H as (x & I & E). apply N.eqb_eq in E. subst x.
    cbn in I. repeat (destruct I as [<-|I]; [vm_compute in W; discriminate|]). destruct I. }
  assert (M : dot_mark c = false).
  { apply not_true_iff_false. intros H. unfold dot_mark in H. apply existsb_exists in H as (x & I & E). apply N.eqb_eq in E. subst x.
    vm_compute in I. repeat (destruct I as [<-|I]; [vm_compute in W; discriminate|]). destruct I. }
  rewrite S, M, W. reflexivity.
Qed.
Lemma lex_word s c : dot_word s -> In c [44; 93] -> lex_run Between (s ++ [c]) = Some ([Bare_word s; Mark c], Between).
Proof.
  intros [_ W] I. destruct s as [|x r]; [destruct W|]. destruct W as [W F].
  assert (E : lex_run Between (x :: r) = Some ([], InWord (x :: r))).
  { cbn [lex_run lex_step]. rewrite (word_start_start x W), (lex_word_rest r [x] F). reflexivity. }
  rewrite (lex_run_app (x :: r) _ _ _ [c] E [Bare_word (x :: r); Mark c] Between); [reflexivity|].
  destruct I as [<-|[<-|[]]]; reflexivity.
Qed.

Definition edge_tokens (e : dot_edge) : list dot_token :=
  [Quoted (between_quotes (e_from e)); Arrow; Quoted (between_quotes (e_to e)); Mark 91; Bare_word $"label"; Mark 61;
   Quoted (between_quotes (e_label e)); Mark 93; Mark 59].
Definition decl_tokens (d : dot_decl) : list dot_token :=
  [Quoted (between_quotes (d_name d)); Mark 91] ++
  match d_url d with Some u => [Bare_word $"URL"; Mark 61; Quoted (between_quotes u); Mark 44] | None => [] end ++
  [Bare_word $"label"; Mark 61; Quoted (between_quotes (d_label d)); Mark 44; Bare_word $"shape"; Mark 61; Bare_word (d_shape d); Mark 44;
   Bare_word $"color"; Mark 61; Bare_word (d_color d); Mark 93; Mark 59].

Lemma lex_edge e : edge_quotable e -> lex_run Between (edge_text e) = Some (edge_tokens e, Between).
Proof.
  intros (A & B & C). unfold edge_text.
  eapply (lex_run_app $"    " Between [] Between); [reflexivity|].
  unfold edge_tokens. eapply (lex_run_app _ Between [_] Between); [apply lex_quote, A|].
  eapply (lex_run_app $" -> " Between [_] Between); [reflexivity|].
  eapply (lex_run_app _ Between [_] Between); [apply lex_quote, B|].
  eapply (lex_run_app $" [label=" Between [_; _; _] Between); [reflexivity|].
  eapply (lex_run_app _ Between [_] Between); [apply lex_quote, C|]. reflexivity.
Qed.
Lemma lex_decl d : decl_quotable d -> lex_run Between (decl_text d) = Some (decl_tokens d, Between).
Proof.
  intros (A & U & L & S & C). unfold decl_text, decl_tokens.
  eapply (lex_run_app $"    " Between [] Between); [reflexivity|]. cbn [app].
  eapply (lex_run_app _ Between [_] Between); [apply lex_quote, A|].
  eapply (lex_run_app $" [" Between [_] Between); [reflexivity|].
  assert (T : lex_run Between ($"label=" ++ quote (d_label d) ++ $",shape=" ++ d_shape d ++ $",color=" ++ d_color d ++ $"];" ++ [10])
     = Some ([Bare_word $"label"; Mark 61; Quoted (between_quotes (d_label d)); Mark 44; Bare_word $"shape"; Mark 61; Bare_word (d_shape d); Mark 44;
   Bare_word $"color"; Mark 61; Bare_word (d_color d); Mark 93; Mark 59], Between)).
  { eapply (lex_run_app $"label=" Between [_; _] Between); [reflexivity|].
    eapply (lex_run_app _ Between [_] Between); [apply lex_quote, L|].
    eapply (lex_run_app $",shape=" Between [_; _; _] Between); [reflexivity|].
    change ($",color=") with ([44] ++ $"color="). rewrite <- app_assoc, app_assoc.
    eapply (lex_run_app _ Between [_; _] Between); [apply lex_word; [exact S|left; reflexivity]|].
    eapply (lex_run_app $"color=" Between [_; _] Between); [reflexivity|].
    change ($"];") with ([93] ++ $";"). rewrite <- app_assoc, app_assoc.
    eapply (lex_run_app _ Between [_; _] Between); [apply lex_word; [exact C|right; left; reflexivity]|]. reflexivity. }
  destruct (d_url d) as [u|].
  - rewrite <- !app_assoc. cbn [app].
    eapply (lex_run_app $"URL=" Between [_; _] Between); [reflexivity|].
    eapply (lex_run_app _ Between [_] Between); [apply lex_quote, U; reflexivity|].
    eapply (lex_run_app $"," Between [_] Between); [reflexivity|]. exact T.
  - exact T.
Qed.
Lemma lex_flat {A} (text : A -> str) (toks : A -> list dot_token) l :
  Forall (fun x => lex_run Between (text x) = Some (toks x, Between)) l ->
  lex_run Between (flat_map text l) = Some (flat_map toks l, Between).
Proof.
  induction 1 as [|x l E F IH]; [reflexivity|]. cbn [flat_map]. eapply lex_run_app; [exact E|exact IH].
Qed.
Lemma lex_doc d : Forall edge_quotable (doc_edges d) -> Forall decl_quotable (doc_decls d) ->
  dot_lex Between (dot_text d) = Some ([Bare_word $"digraph"; Mark 123] ++
    ([Bare_word $"rankdir"; Mark 61; Bare_word $"BT"; Bare_word $"charset"; Mark 61; Quoted $"utf-8"; Mark 59] ++
     flat_map edge_tokens (doc_edges d) ++ flat_map decl_tokens (doc_decls d) ++ [Mark 125])).
Proof.
  intros E D. apply lex_run_lex. unfold dot_text.
  eapply (lex_run_app $"digraph {" Between [_; _] Between); [reflexivity|].
  eapply (lex_run_app [10] Between [] Between); [reflexivity|].
  rewrite (app_assoc $"    rankdir=BT" [10]).
  eapply (lex_run_app ($"    rankdir=BT" ++ [10]) Between [_; _; _] Between); [reflexivity|].
  eapply (lex_run_app $"    charset=" Between [_; _] Between); [reflexivity|].
  eapply (lex_run_app (quote $"utf-8") Between [_] Between); [reflexivity|].
  eapply (lex_run_app $";" Between [_] Between); [reflexivity|].
  eapply (lex_run_app [10] Between [] Between); [reflexivity|].
  eapply (lex_run_app [10] Between [] Between); [reflexivity|].
  eapply lex_run_app; [apply lex_flat, (Forall_impl _ lex_edge E)|].
  eapply (lex_run_app [10] Between [] Between); [reflexivity|].
  eapply lex_run_app; [apply lex_flat, (Forall_impl _ lex_decl D)|]. reflexivity.
Qed.

(** ** Statements *)
Lemma word_name w : dot_word w -> name_of (Bare_word w) = Some w.
Proof. intros [K _]. cbn [name_of]. rewrite K. reflexivity. Qed.
Lemma read_edge fuel e r : (2 <= fuel)%nat -> read_stmt fuel (edge_tokens e ++ r) = Some (edge_said e, Mark 59 :: r).
Proof. intros L. destruct fuel as [|[|fuel]]; [lia|lia|]. reflexivity. Qed.
Lemma attribute_step fuel k v r k' v' : name_of k = Some k' -> name_of v = Some v' ->
  read_attributes (S fuel) (k :: Mark 61 :: v :: r) =
  option_map (fun p => ((k', v') :: fst p, snd p)) (read_attributes fuel (skip_mark 59 (skip_mark 44 r))).
Proof.
  intros K V. cbn [read_attributes]. rewrite K, V. destruct k; try reflexivity. discriminate K.
Qed.
Lemma read_decl fuel d r : decl_quotable d -> (5 <= fuel)%nat -> read_stmt fuel (decl_tokens d ++ r) = Some (decl_said d, Mark 59 :: r).
Proof.
  intros (_ & _ & _ & S & C) L. do 5 (destruct fuel as [|fuel]; [lia|]). apply word_name in S, C.
  unfold decl_tokens, decl_said. destruct (d_url d) as [u|]; cbn [app read_stmt read_list].
  - change (name_of (Quoted (between_quotes (d_name d)))) with (Some (between_quotes (d_name d))). cbn iota.
    erewrite attribute_step by reflexivity. cbn [skip_mark N.eqb Pos.eqb]. erewrite attribute_step by reflexivity. cbn [skip_mark N.eqb Pos.eqb].
    erewrite attribute_step; [|reflexivity|exact S]. cbn [skip_mark N.eqb Pos.eqb]. erewrite attribute_step; [|reflexivity|exact C]. reflexivity.
  - change (name_of (Quoted (between_quotes (d_name d)))) with (Some (between_quotes (d_name d))). cbn iota.
    erewrite attribute_step by reflexivity. cbn [skip_mark N.eqb Pos.eqb].
    erewrite attribute_step; [|reflexivity|exact S]. cbn [skip_mark N.eqb Pos.eqb]. erewrite attribute_step; [|reflexivity|exact C]. reflexivity.
Qed.
Lemma stmt_none fuel t l : name_of t = None -> read_stmt fuel (t :: l) = None.
Proof.
  intros H. cbn [read_stmt]. rewrite H. destruct l as [|u l]; [reflexivity|]. destruct u as [w|w|c|]; try reflexivity.
  - destruct c as [|p]; [reflexivity|]. do 6 (destruct p as [p|p|]; try reflexivity). destruct l; reflexivity.
  - destruct l; reflexivity.
Qed.
Lemma stmts_step fuel l x r : read_stmt fuel l = Some (x, r) ->
  read_stmts (S fuel) l = option_map (cons x) (read_stmts fuel (skip_mark 59 r)).
Proof.
  intros E. cbn [read_stmts]. destruct l as [|t l]; [discriminate|].
  assert (T : t <> Mark 125).
  { intros ->. rewrite stmt_none in E by reflexivity. discriminate. }
  rewrite E. destruct t as [w|w|c|]; try reflexivity.
  destruct c as [|p]; try reflexivity. do 7 (destruct p as [p|p|]; try reflexivity). destruct l; [contradiction|reflexivity].
Qed.
Lemma read_decls ds : Forall decl_quotable ds -> forall fuel, (S (length (flat_map decl_tokens ds)) <= fuel)%nat ->
  read_stmts fuel (flat_map decl_tokens ds ++ [Mark 125]) = Some (map decl_said ds).
Proof.
  induction 1 as [|d ds Q F IH]; intros fuel L.
  - destruct fuel; [lia|]. reflexivity.
  - destruct fuel as [|fuel]; [lia|]. cbn [flat_map] in *. rewrite app_length in L.
    assert (T : (8 <= length (decl_tokens d))%nat) by (unfold decl_tokens; rewrite !app_length; cbn; lia).
    rewrite <- app_assoc. erewrite stmts_step; [|apply read_decl; [exact Q|lia]].
    cbn [skip_mark N.eqb Pos.eqb].     rewrite IH by lia. reflexivity.
Qed.
Lemma read_edges es rest out k : (forall fuel, (k <= fuel)%nat -> read_stmts fuel rest = Some out) ->
  forall fuel, (k + length (flat_map edge_tokens es) <= fuel)%nat ->
  read_stmts fuel (flat_map edge_tokens es ++ rest) = Some (map edge_said es ++ out).
Proof.
  intros H. induction es as [|e es IH]; intros fuel L.
  - apply H. cbn in L. lia.
  - cbn [flat_map] in *. rewrite app_length in L. assert (T : length (edge_tokens e) = 9%nat) by reflexivity.
    destruct fuel as [|fuel]; [lia|]. rewrite <- app_assoc. erewrite stmts_step; [|apply read_edge; lia].
    cbn [skip_mark N.eqb Pos.eqb]. rewrite IH by lia. reflexivity.
Qed.
Lemma c111_reads d : Forall edge_quotable (doc_edges d) -> Forall decl_quotable (doc_decls d) ->
  dot_read (dot_text d) =
    Some ([Sets $"rankdir" $"BT"; Sets $"charset" $"utf-8"] ++ map edge_said (doc_edges d) ++ map decl_said (doc_decls d)).
Proof.
  intros E D. unfold dot_read. rewrite lex_doc by assumption. cbn [app].
  change (str_eqb (map dot_lower $"digraph") $"digraph") with true. cbn iota.
  set (rest := flat_map edge_tokens (doc_edges d) ++ flat_map decl_tokens (doc_decls d) ++ [Mark 125]).
  cbn [length].
  rewrite (stmts_step _ _ (Sets $"rankdir" $"BT") ([Bare_word $"charset"; Mark 61; Quoted $"utf-8"; Mark 59] ++ rest)) by reflexivity.
  cbn [app skip_mark].
  rewrite (stmts_step _ _ (Sets $"charset" $"utf-8") (Mark 59 :: rest)) by reflexivity.
  change (skip_mark 59 (Mark 59 :: rest)) with rest. unfold rest.
  rewrite (read_edges _ _ (map decl_said (doc_decls d)) (S (length (flat_map decl_tokens (doc_decls d))))).
  - reflexivity.
  - intros fuel L. apply read_decls; assumption.
  - rewrite !app_length. cbn [length]. lia.
Qed.

(** ** Quoted texts *)
Lemma between_plain s : ~ In 92 s -> between_quotes s = s.
Proof.
  induction s as [|c r IH]; intros N; [reflexivity|]. cbn [between_quotes]. destruct (N.eqb_spec c 92) as [->|_].
  - destruct N. left. reflexivity.
  - f_equal. apply IH. intros I. apply N. right. exact I.
Qed.
Lemma between_inj : forall n s t, (length s <= n)%nat -> quotable s = true -> quotable t = true ->
  between_quotes s = between_quotes t -> s = t.
Proof.
  induction n as [|n IH]; intros s t L Q R E.
  - destruct s; [|cbn in L; lia]. destruct t as [|c [|d t]]; [reflexivity| |]; cbn in E; destruct (N.eqb c 92); try discriminate.
    destruct (N.eqb d 34); discriminate.
  - destruct s as [|c s].
    { destruct t as [|c [|d t]]; [reflexivity| |]; cbn in E; destruct (N.eqb c 92); try discriminate. destruct (N.eqb d 34); discriminate. }
    destruct t as [|d t].
    { destruct s as [|d s]; cbn in E; destruct (N.eqb c 92); try discriminate. destruct (N.eqb d 34); discriminate. }
    cbn [quotable between_quotes] in *. destruct (N.eqb_spec c 92) as [->|Nc], (N.eqb_spec d 92) as [->|Nd].
    + destruct s as [|c s]; [discriminate|]. destruct t as [|d t]; [discriminate|].
      apply andb_true_iff in Q as [_ Q]. apply andb_true_iff in R as [_ R].
      assert (cons_inv : forall (a b : N) (l l' : str), a :: l = b :: l' -> a = b /\ l = l') by (intros a b l l' H; injection H; auto).
      destruct (N.eqb_spec c 34) as [->|Mc], (N.eqb_spec d 34) as [->|Md]; cbn [app] in E.
      * apply cons_inv in E as [_ E]. do 2 f_equal. apply IH; auto. cbn in L. lia.
      * apply cons_inv in E as [E _]. discriminate.
      * apply cons_inv in E as [E _]. discriminate.
      * apply cons_inv in E as [_ E]. apply cons_inv in E as [-> E]. do 2 f_equal. apply IH; auto. cbn in L. lia.
    + exfalso. destruct s as [|c s]; [discriminate|]. repeat (apply andb_true_iff in R as [R ?]). apply negb_true_iff, N.eqb_neq in R.
      destruct (N.eqb c 34); injection E; intros; congruence.
    + exfalso. destruct t as [|d t]; [discriminate|]. repeat (apply andb_true_iff in Q as [Q ?]). apply negb_true_iff, N.eqb_neq in Q.
      destruct (N.eqb d 34); injection E; intros; congruence.
    + apply andb_true_iff in Q as [_ Q]. apply andb_true_iff in R as [_ R].
      injection E as -> E. f_equal. apply IH; auto. cbn in L. lia.
Qed.
Lemma c111_labels s t : (~ In 92 s -> between_quotes s = s) /\
  (quotable s = true -> quotable t = true -> between_quotes s = between_quotes t -> s = t).
Proof. split; [apply between_plain|apply (between_inj (length s)), le_n]. Qed.

(** ** Graphs *)
Lemma node_name d : Forall (fun c => is_digit c = true) d -> quotable ($"node_" ++ d) = true /\ between_quotes ($"node_" ++ d) = $"node_" ++ d.
Proof.
  intros F. assert (A : Forall (fun c => ~ In c [10; 13; 34; 92]) ($"node_" ++ d)).
  { apply Forall_app. split; [repeat constructor; cbn; intuition discriminate|]. eapply Forall_impl; [|exact F].
    intros c C I. cbn in I. repeat (destruct I as [<-|I]; [discriminate C|]). destruct I. }
  split.
  - rewrite <- (app_nil_r ($"node_" ++ d)). rewrite (quotable_safe (fun _ => true) (fun _ => true) _ _ A). reflexivity.
  - apply between_plain. intros I. apply (proj1 (Forall_forall _ _) A) in I. apply I. cbn. auto.
Qed.
Lemma c111_picture m compress opts ho hv g doc nodes :
  hash_order ho -> (forall l, Permutation (hv l) l) -> all_drawn g -> told_apart m g ->
  options_ok opts -> node_prefix opts = $"node_" -> graph_ok m compress g ->
  dot_write m compress opts ho hv [] g = Ret (doc, nodes) ->
  exists terms node edges decls,
    dot_read (dot_text doc) = Some ([Sets $"rankdir" $"BT"; Sets $"charset" $"utf-8"] ++ edges ++ decls) /\
    NoDup terms /\ (forall x, In x terms <-> end_of g x) /\
    (forall x y, In x terms -> In y terms -> node x = node y -> x = y) /\
    Permutation decls (map (fun x => Node (node x) (attributes_of m opts (node x) x)) terms) /\
    Forall2 (fun st e => exists label, predicate_shown m compress (st_predicate st) label /\
      e = Edge (node (to_object (st_subject st))) (node (st_object st)) [($"label", between_quotes label)]) (g_iter ho g) edges.
Proof.
  intros HO HV AD TA OK NP (TO & PO) W.
  destruct (c52_picture m compress opts ho hv g doc nodes HO HV AD TA W) as (terms & node & DG & ND & T & I & P & F).
  rewrite NP in P, F.
  assert (QE : Forall edge_quotable (doc_edges doc)).
  { assert (S : forall st, In st (g_iter ho g) -> In st (g_list g)) by (intros st J; apply (g_iter_In ho g st HO), J).
    clear -F S PO DG. induction F as [|st e l es (A & B & C) F IH]; constructor.
    - unfold edge_quotable. rewrite A, B. split; [apply node_name, DG|split; [apply node_name, DG|]]. apply (PO st); [apply S; left; reflexivity|exact C].
    - apply IH. intros st' J. apply S. right. exact J. }
  assert (QD : Forall decl_quotable (doc_decls doc)).
  { apply Forall_forall. intros d J. apply (Permutation_in _ P) in J. apply in_map_iff in J as (x & <- & X). apply T in X.
    pose proof (TO x X) as Q. pose proof (AD x X) as R. destruct OK as (O1 & O2 & O3 & O4 & O5 & O6).
    destruct (node_name (node x) (DG x)) as [N1 _].
    destruct x as [b|i|l|items|st]; try destruct R; unfold decl_quotable; cbn [depicts d_name d_url d_label d_shape d_color term_ok] in *;
      (split; [exact N1|]); (split; [intros u U; try discriminate U; injection U as <-; exact Q|]);
      (split; [first [exact Q|destruct (blank_labels opts); [exact N1|reflexivity]]|]); split; assumption. }
  exists terms, (fun x => $"node_" ++ node x), (map edge_said (doc_edges doc)), (map decl_said (doc_decls doc)).
  split; [apply c111_reads; assumption|]. split; [exact ND|]. split; [exact T|]. split; [|split].
  - intros x y X Y E. apply app_inv_head in E. apply I; assumption.
  - eapply Permutation_trans; [apply Permutation_map, P|]. rewrite map_map. erewrite map_ext_in; [apply Permutation_refl|]. cbn beta. intros x X. apply T, AD in X.
    destruct (node_name (node x) (DG x)) as [_ N2].
    destruct x as [b|i|l|items|st]; try destruct X; unfold decl_said; cbn [depicts d_name d_url d_label d_shape d_color attributes_of app];
      rewrite N2; try reflexivity. destruct (blank_labels opts); [rewrite N2|]; reflexivity.
  - clear -F DG. induction F as [|st e l es (A & B & C) F IH]; cbn [map]; constructor; [|exact IH]. exists (e_label e). split; [exact C|].
    unfold edge_said. rewrite A, B. rewrite !(proj2 (node_name _ (DG _))). reflexivity.
Qed.

(** ** IRIs *)
Definition shown_char (c : chr) : Prop := 32 <= c <= 126.
Lemma chars_shown (f : chr -> bool) s : (forall c, f c = true -> shown_char c) -> forallb f s = true -> Forall shown_char s.
Proof. intros F H. apply Forall_forall. intros c I. rewrite forallb_forall in H. apply F, H, I. Qed.
Lemma printable_shown c : Url.printable c = true -> shown_char c.
Proof. unfold Url.printable, in_range, shown_char. intros H. apply andb_true_iff in H as [A B]. apply N.leb_le in A, B. lia. Qed.
Lemma const_shown s : forallb (in_range 32 126) s = true -> Forall shown_char s.
Proof. apply chars_shown. intros c H. unfold in_range in H. apply andb_true_iff in H as [A B]. apply N.leb_le in A, B. unfold shown_char. lia. Qed.
Lemma opt_shown (f : chr -> bool) sep o : Forall shown_char sep -> (forall c, f c = true -> shown_char c) -> Url.opt_all f o = true ->
  Forall shown_char (Url.opt_pre sep o).
Proof. intros S F H. destruct o as [s|]; cbn in *; [|constructor]. apply Forall_app. split; [exact S|apply (chars_shown f); assumption]. Qed.
Lemma hpath_shown sp p : Url.wf_hpath sp p = true -> Forall shown_char p.
Proof.
  unfold Url.wf_hpath. destruct p as [|c p]; [discriminate|]. unfold strip_prefix_chr. destruct (N.eqb_spec c 47) as [->|]; [|discriminate].
  intros H. apply IriProofs.wf_hpath_chars in H. constructor; [unfold shown_char; lia|]. eapply chars_shown; [|exact H].
  intros c E. apply orb_true_iff in E as [E|E]; [apply N.eqb_eq in E; subst; unfold shown_char; lia|].
  unfold Url.path_char in E. rewrite !andb_true_iff in E. apply printable_shown, E.
Qed.
Lemma url_shown u : Url.wf_url u = true -> Forall shown_char (Url.url_ser u).
Proof.
  intros W. destruct (IriProofs.wf_url_inv u W) as (S & Q & F & P). unfold Url.url_ser.
  apply Forall_app; split; [|apply Forall_app; split; [|apply Forall_app; split; [|apply Forall_app; split; [|apply Forall_app; split]]]].
  - unfold Url.wf_scheme in S. destruct (Url.u_scheme u) as [|c r]; [discriminate|]. rewrite !andb_true_iff in S. destruct S as [[S1 S2] _].
    constructor.
    + unfold is_lower, in_range in S1. apply andb_true_iff in S1 as [A B]. apply N.leb_le in A, B. unfold shown_char. lia.
    + eapply chars_shown; [|exact S2]. intros d D. unfold Url.scheme_char, is_lower, is_digit, in_range in D.
      rewrite !orb_true_iff, !andb_true_iff, !N.leb_le in D. unfold shown_char. destruct D as [[D|D]|D]; [lia|lia|].
      apply existsb_exists in D as (x & I & E). apply N.eqb_eq in E. subst x. cbn in I. lia.
  - apply const_shown; reflexivity.
  - destruct (Url.u_auth u) as [a|] eqn:A; [|constructor]. unfold Url.wf_url in W. rewrite A in W. rewrite !andb_true_iff in W. destruct W as (_ & W & _).
    cbn [Url.opt_pre]. apply Forall_app. split; [apply const_shown; reflexivity|]. eapply chars_shown; [|exact W].
    intros c C. unfold Url.auth_char in C. apply andb_true_iff in C as [C _]. apply printable_shown, C.
  - destruct P as [(_ & [P|(_ & _ & ->)])|(_ & _ & _ & P)]; [apply (hpath_shown _ _ P)|constructor|].
    eapply chars_shown; [|exact P]. intros c C. unfold Url.opaque_char, in_range in C. rewrite !andb_true_iff, !N.leb_le in C. unfold shown_char. lia.
  - apply (opt_shown Url.query_char); [apply const_shown; reflexivity| |exact Q]. intros c C. unfold Url.query_char in C.
    apply andb_true_iff in C as [C _]. apply printable_shown, C.
  - apply (opt_shown Url.frag_char); [apply const_shown; reflexivity| |exact F]. intros c C. unfold Url.frag_char in C.
    apply andb_true_iff in C as [C _]. apply printable_shown, C.
Qed.
Lemma c111_iris u m : Url.wf_url u = true -> ~ In 34 (Url.url_ser u) -> ~ In 92 (Url.url_ser u) ->
  quotable (show_iri m (Url.url_ser u)) = true.
Proof.
  intros W A B. assert (F : Forall (fun c => ~ In c [10; 13; 34; 92]) (Url.url_ser u)).
  { apply Forall_forall. intros c I J. pose proof (proj1 (Forall_forall _ _) (url_shown u W) c I) as K. unfold shown_char in K.
    destruct J as [<-|[<-|[<-|[<-|[]]]]]; [lia|lia|exact (A I)|exact (B I)]. }
  destruct m; cbn [show_iri].
  - rewrite <- (app_nil_r (Url.url_ser u)). rewrite (quotable_safe (fun _ => true) (fun _ => true) _ _ F). reflexivity.
  - change (60 :: Url.url_ser u ++ [62]) with ((60 :: Url.url_ser u) ++ [62]). rewrite (quotable_safe (fun _ => true) (fun _ => true)); [reflexivity|].
    constructor; [cbn; intuition discriminate|exact F].
Qed.
