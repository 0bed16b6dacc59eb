(** Lemmas about the DOT and TriG writers with outputs that fail. *)
From Coq Require Import Lia Permutation.
From Verif Require Import StrFacts GraphProofs DotFiles DotSpec DotProofs DotMain DotReadSpec DotReadProofs.
From Verif Require Import FilesSpec FilesProofs.

(** ** What is accepted *)
Section Output.
Variable out : output.
Variable parts : str -> list (list N).
Hypothesis D : divides parts.
Variable m : iri_mode.
Variable compress : str -> outcome (option str).
Variable opts : dot_options.
Notation put_edges := (dot_put_edges out parts m compress opts).
Notation edges := (dot_edges m compress opts).

Lemma put_edges_prefix l : forall nodes es final w w' nodes' r, edges nodes l = Ret (es, final) ->
  put_edges nodes l w = (w', nodes', r) ->
  exists x y ok, r = Ret ok /\ accepted w' = accepted w ++ x /\ bytes (flat_map edge_text es) = x ++ y /\
    (ok = true -> y = [] /\ nodes' = final).
Proof.
  induction l as [|st l IH]; intros nodes es final w w' nodes' r E P; cbn [dot_edges dot_put_edges] in *.
  - injection E as <- <-. injection P as <- <- <-. exists [], [], true. rewrite app_nil_r. auto.
  - destruct (subject_id m nodes (st_subject st)) as [s n1]. destruct (object_id m n1 (st_object st)) as [o n2].
    destruct (compress (st_predicate st)) as [c|]; [|discriminate].
    destruct (edges n2 l) as [[es' n3]|] eqn:E2; [|discriminate]. set (e := DotEdge _ _ _) in E. cbv zeta in P. fold e in P.
    clearbody e. injection E as <- <-.
    destruct (put_parts out _ w) as [w1 b] eqn:Q. apply put_parts_prefix in Q as (x & y & A & B & C). rewrite D in B.
    cbn [flat_map]. rewrite bytes_app, B. destruct b.
    + apply (IH _ _ _ _ _ _ _ E2) in P as (x2 & y2 & ok & -> & A2 & B2 & C2). exists (x ++ x2), y2, ok.
      rewrite A2, A, (C eq_refl), app_nil_r, B2, <- !app_assoc. auto.
    + injection P as <- <- <-. exists x, (y ++ bytes (flat_map edge_text es')), false. rewrite <- app_assoc. repeat split; auto; discriminate.
Qed.
Lemma put_edges_panic l : forall nodes w w' nodes', put_edges nodes l w = (w', nodes', Panic) -> edges nodes l = Panic.
Proof.
  induction l as [|st l IH]; intros nodes w w' nodes' P; cbn [dot_edges dot_put_edges] in *; [discriminate|].
  destruct (subject_id m nodes (st_subject st)) as [s n1]. destruct (object_id m n1 (st_object st)) as [o n2].
  destruct (compress (st_predicate st)) as [c|]; [|reflexivity].
  destruct (put_parts out _ w) as [w1 []]; [|discriminate]. rewrite (IH _ _ _ _ P). reflexivity.
Qed.
Lemma put_edges_all l : (forall k bs, out k bs = None) -> forall nodes w w' nodes' ok, put_edges nodes l w = (w', nodes', Ret ok) -> ok = true.
Proof.
  intros N. induction l as [|st l IH]; intros nodes w w' nodes' ok P; cbn [dot_put_edges] in *; [injection P as _ _ <-; reflexivity|].
  destruct (subject_id m nodes (st_subject st)) as [s n1]. destruct (object_id m n1 (st_object st)) as [o n2].
  destruct (compress (st_predicate st)) as [c|]; [|discriminate].
  match type of P with context [put_parts out ?p w] => pose proof (put_parts_ok out p N w) as K; destruct (put_parts out p w) as [w1 b] end.
  cbn [snd] in K. subst b. eapply IH, P.
Qed.

Lemma dot_written ho hv nodes g doc final kept nodes' res : dot_write m compress opts ho hv nodes g = Ret (doc, final) ->
  dot_write_to out parts m compress opts ho hv nodes g = (kept, nodes', res) ->
  (exists lost, bytes (dot_text doc) = kept ++ lost /\ (res = Ret (Ok tt) -> lost = [] /\ nodes' = final)) /\
  (res = Ret (Ok tt) \/ res = Ret (Err FileIo)) /\ ((forall k bs, out k bs = None) -> res = Ret (Ok tt)).
Proof.
  unfold dot_write, dot_write_to. intros W T.
  destruct (edges nodes (g_iter ho g)) as [[es n1]|] eqn:E; [|discriminate]. injection W as <- <-.
  assert (X : dot_text (DotDoc es (map (decl_of opts) (hv (map snd n1)))) =
    concat dot_head ++ flat_map edge_text es ++ concat ([10] :: map (fun n => decl_text (decl_of opts n)) (hv (map snd n1)) ++ [$"}" ++ [10]])).
  { unfold dot_text, dot_head. cbn [concat doc_edges doc_decls]. rewrite concat_app, !concat_lines. cbn [concat].
    rewrite (flat_map_concat_map decl_text (map _ _)), map_map, <- flat_map_concat_map, !app_nil_r, <- !app_assoc. reflexivity. }
  destruct (put_lines out parts dot_head nothing) as [w ok] eqn:P1.
  pose proof (put_lines_ok out parts dot_head) as K1. specialize (fun N => K1 N nothing). rewrite P1 in K1. cbn [snd] in K1.
  apply (put_lines_prefix _ _ _ D) in P1 as (x1 & y1 & A1 & B1 & C1). cbn [accepted nothing app] in A1.
  rewrite X, !bytes_app, B1. destruct ok; cbn [negb] in T.
  2:{ injection T as <- <- <-. split; [|split; [auto|intros N; specialize (K1 N); discriminate]].
      rewrite A1, <- app_assoc. eexists. split; [reflexivity|discriminate]. }
  rewrite (C1 eq_refl), app_nil_r.
  destruct (put_edges nodes (g_iter ho g) w) as [[w2 n2] r] eqn:P2.
  pose proof (fun N => put_edges_all (g_iter ho g) N nodes w w2 n2) as K2.
  apply (put_edges_prefix _ _ _ _ _ _ _ _ E) in P2 as P3. destruct P3 as (x2 & y2 & ok & -> & A2 & B2 & C2).
  rewrite B2. destruct ok.
  2:{ injection T as <- <- <-. split; [|split; [auto|intros N; specialize (K2 N _ P2); discriminate]].
      rewrite A2, A1, <- app_assoc. eexists. split; [rewrite <- (app_assoc x1 x2); reflexivity|discriminate]. }
  destruct (C2 eq_refl) as [-> ->]. rewrite app_nil_r.
  destruct (put_lines out parts ([10] :: _) w2) as [w3 ok] eqn:P4.
  pose proof (put_lines_ok out parts ([10] :: map (fun n => decl_text (decl_of opts n)) (hv (map snd n1)) ++ [$"}" ++ [10]])) as K4.
  specialize (fun N => K4 N w2). rewrite P4 in K4. cbn [snd] in K4.
  apply (put_lines_prefix _ _ _ D) in P4 as (x4 & y4 & A4 & B4 & C4). unfold written in T. cbn [fst snd] in T. injection T as <- <- <-.
  rewrite B4, A4, A2, A1. split; [|split].
  - exists y4. split; [rewrite <- !app_assoc; reflexivity|]. destruct ok; [auto|discriminate].
  - destruct ok; auto.
  - intros N. rewrite (K4 N). reflexivity.
Qed.
Lemma dot_write_panics ho hv nodes g kept nodes' : dot_write_to out parts m compress opts ho hv nodes g = (kept, nodes', Panic) ->
  dot_write m compress opts ho hv nodes g = Panic.
Proof.
  unfold dot_write, dot_write_to. destruct (put_lines out parts dot_head nothing) as [w []]; cbn [negb]; [|discriminate].
  destruct (put_edges nodes (g_iter ho g) w) as [[w2 n2] r] eqn:P. destruct r as [[]|].
  - destruct (written _). discriminate.
  - discriminate.
  - intros _. rewrite (put_edges_panic _ _ _ _ _ P). reflexivity.
Qed.
End Output.

(** ** What stays in the writer *)
Section Again.
Variable m : iri_mode.
Variable compress : str -> outcome (option str).
Variable opts : dot_options.

Lemma dn_get_app k a b n : dn_get k a = Some n -> dn_get k (a ++ b) = Some n.
Proof.
  induction a as [|[k' x] a IH]; cbn [dn_get app]; [discriminate|]. destruct (str_eqb k k'); auto.
Qed.
Lemma dn_get_new k a n : dn_get k a = None -> dn_get k (a ++ [(k, n)]) = Some n.
Proof.
  induction a as [|[k' x] a IH]; cbn [dn_get app]; [rewrite str_eqb_refl; reflexivity|]. destruct (str_eqb k k'); [discriminate|exact IH].
Qed.
(** A term that has a node keeps it. *)
Lemma object_again nodes o id n1 : drawn o -> object_id m nodes o = (id, n1) ->
  (exists x, n1 = nodes ++ x) /\ forall y, object_id m (n1 ++ y) o = (id, n1 ++ y).
Proof.
  unfold object_id. intros W E. destruct (dn_get (obj_show m false o) nodes) as [n|] eqn:G.
  - injection E as <- <-. split; [exists []; rewrite app_nil_r; reflexivity|]. intros y. rewrite (dn_get_app _ _ _ _ G). reflexivity.
  - destruct o; cbn [drawn] in W; try contradiction W; injection E as <- <-; (split; [eexists; reflexivity|]); intros y;
      rewrite (dn_get_app _ _ _ _ (dn_get_new _ _ _ G)); reflexivity.
Qed.
Lemma subject_again nodes s id n1 : drawn (to_object s) -> subject_id m nodes s = (id, n1) ->
  (exists x, n1 = nodes ++ x) /\ forall y, subject_id m (n1 ++ y) s = (id, n1 ++ y).
Proof.
  rewrite subject_object_id. intros W E. apply object_again in E as [A B]; [|exact W]. split; [exact A|]. intros y. rewrite subject_object_id. apply B.
Qed.
Definition both_drawn (st : statement) : Prop := drawn (to_object (st_subject st)) /\ drawn (st_object st).

(** What the edges need is there after some of them. *)
Lemma edges_grow l : Forall both_drawn l -> forall nodes es final, dot_edges m compress opts nodes l = Ret (es, final) ->
  exists x, final = nodes ++ x.
Proof.
  induction 1 as [|st l [W1 W2] F IH]; intros nodes es final E; cbn [dot_edges] in E.
  - injection E as <- <-. exists []. rewrite app_nil_r. reflexivity.
  - destruct (subject_id m nodes (st_subject st)) as [s n1] eqn:E1. destruct (object_id m n1 (st_object st)) as [o n2] eqn:E2.
    destruct (compress (st_predicate st)) as [c|]; [|discriminate].
    destruct (dot_edges m compress opts n2 l) as [[es' n3]|] eqn:E3; [|discriminate]. injection E as <- <-.
    apply IH in E3 as [x ->]. apply subject_again in E1 as [[y ->] _]; [|exact W1]. apply object_again in E2 as [[z ->] _]; [|exact W2].
    rewrite <- !app_assoc. eexists. reflexivity.
Qed.
Lemma edges_again out parts l : Forall both_drawn l -> forall nodes es final w w' nodes' r,
  dot_edges m compress opts nodes l = Ret (es, final) -> dot_put_edges out parts m compress opts nodes l w = (w', nodes', r) ->
  (exists x, nodes' = nodes ++ x) /\ dot_edges m compress opts nodes' l = Ret (es, final).
Proof.
  induction 1 as [|st l [W1 W2] F IH]; intros nodes es final w w' nodes' r E P; cbn [dot_edges dot_put_edges] in *.
  - injection E as <- <-. injection P as <- <- <-. split; [exists []; rewrite app_nil_r|]; reflexivity.
  - destruct (subject_id m nodes (st_subject st)) as [s n1] eqn:E1. destruct (object_id m n1 (st_object st)) as [o n2] eqn:E2.
    destruct (compress (st_predicate st)) as [c|]; [|discriminate].
    destruct (dot_edges m compress opts n2 l) as [[es' n3]|] eqn:E3; [|discriminate]. injection E as <- <-.
    apply subject_again in E1 as [[y Y] S]; [|exact W1]. apply object_again in E2 as [[z Z] O]; [|exact W2].
    destruct (put_parts out _ w) as [w1 b]. destruct b.
    + destruct (IH _ _ _ _ _ _ _ E3 P) as [[x X] H]. subst nodes'. split.
      * rewrite Z, Y, <- !app_assoc. eexists. reflexivity.
      * rewrite Z, <- app_assoc, S, app_assoc, <- Z, O, H. reflexivity.
    + injection P as <- <- <-. split.
      * rewrite Z, Y, <- !app_assoc. eexists. reflexivity.
      * rewrite Z, S, <- Z. pose proof (O []) as O0. rewrite app_nil_r in O0. rewrite O0, E3. reflexivity.
Qed.
Lemma drawn_list ho g : hash_order ho -> all_drawn g -> Forall both_drawn (g_iter ho g).
Proof.
  intros Ho A. rewrite Forall_forall. intros st I. apply (g_iter_In ho g st Ho) in I.
  split; apply A; exists st; auto.
Qed.
Lemma dot_write_again out parts ho hv nodes g doc final kept nodes' res : hash_order ho -> all_drawn g ->
  dot_write m compress opts ho hv nodes g = Ret (doc, final) ->
  dot_write_to out parts m compress opts ho hv nodes g = (kept, nodes', res) ->
  dot_write m compress opts ho hv nodes' g = Ret (doc, final).
Proof.
  intros Ho A W T. pose proof (drawn_list ho g Ho A) as F. unfold dot_write, dot_write_to in *.
  destruct (put_lines out parts dot_head nothing) as [w []]; cbn [negb] in T; [|injection T as <- <- <-; exact W].
  destruct (dot_edges m compress opts nodes (g_iter ho g)) as [[es n1]|] eqn:E; [|discriminate].
  destruct (dot_put_edges out parts m compress opts nodes (g_iter ho g) w) as [[w2 n2] r] eqn:P.
  destruct (edges_again out parts _ F _ _ _ _ _ _ _ E P) as [_ H].
  assert (nodes' = n2) as -> by (destruct r as [[]|]; [destruct (written _)| |]; congruence).
  rewrite H. exact W.
Qed.
End Again.

(** ** Drawings that are cut *)
Lemma lex_run_split s t : forall st ts st', lex_run st (s ++ t) = Some (ts, st') ->
  exists a st1 b, lex_run st s = Some (a, st1) /\ lex_run st1 t = Some (b, st') /\ ts = a ++ b.
Proof.
  induction s as [|c s IH]; intros st ts st' H; cbn [lex_run app] in *.
  - exists [], st, ts. auto.
  - destruct (lex_step st c) as [[x st1]|]; [|discriminate]. destruct (lex_run st1 (s ++ t)) as [[y st2]|] eqn:E; [|discriminate].
    injection H as <- <-. destruct (IH _ _ _ E) as (a & st3 & b & A & B & C). rewrite A. cbn [option_map fst snd].
    exists (x ++ a), st3, b. rewrite C, app_assoc. auto.
Qed.
Lemma lex_run_ends s : forall st a st1 ts, lex_run st s = Some (a, st1) -> dot_lex st s = Some ts -> ts = a \/ exists w, ts = a ++ [Bare_word w].
Proof.
  induction s as [|c s IH]; intros st a st1 ts R L; cbn [lex_run dot_lex] in *.
  - injection R as <- <-. destruct st; try discriminate; injection L as <-; [left; reflexivity|right; eexists; reflexivity].
  - destruct (lex_step st c) as [[x st2]|]; [|discriminate]. destruct (lex_run st2 s) as [[y st3]|] eqn:E; [|discriminate].
    destruct (dot_lex st2 s) as [us|] eqn:F; [|discriminate]. injection R as <- <-. injection L as <-.
    destruct (IH _ _ _ _ E F) as [->|[w ->]]; [left; reflexivity|right; exists w; rewrite app_assoc; reflexivity].
Qed.
(** Reading needs a closing brace. *)
Lemma attributes_rest fuel : forall l p r, read_attributes fuel l = Some (p, r) -> exists x, l = x ++ r.
Proof.
  assert (K : forall c l, exists x, l = x ++ skip_mark c l).
  { intros c [|[w|w|d|] l]; try (exists []; reflexivity). cbn [skip_mark]. destruct (N.eqb c d); [exists [Mark d]|exists []]; reflexivity. }
  induction fuel as [|fuel IH]; intros l p r H; [discriminate|].
  assert (H2 : (exists l', l = Mark 93 :: l' /\ r = l') \/
    exists k v l' p', l = k :: Mark 61 :: v :: l' /\ read_attributes fuel (skip_mark 59 (skip_mark 44 l')) = Some (p', r)).
  { cbn [read_attributes] in H.
    repeat match type of H with
    | context [match ?x with _ => _ end] => destruct x eqn:?; subst; try discriminate H
    end; try (injection H as <- <-; left; eexists; split; reflexivity);
    (match type of H with option_map _ ?x = _ => destruct x as [[p' r']|] eqn:Q; [|discriminate H] end;
     injection H as <- <-; right; do 4 eexists; split; [reflexivity|exact Q]). }
  destruct H2 as [(l' & -> & ->)|(k & v & l' & p' & -> & H2)]; [exists [Mark 93]; reflexivity|].
  apply IH in H2 as [x X]. destruct (K 44 l') as [y Y]. destruct (K 59 (skip_mark 44 l')) as [z Z].
  exists (k :: Mark 61 :: v :: y ++ z ++ x). cbn [app]. rewrite <- !app_assoc, <- X, <- Z, <- Y. reflexivity.
Qed.
Lemma list_rest fuel l p r : read_list fuel l = Some (p, r) -> exists x, l = x ++ r.
Proof.
  unfold read_list. intros H.
  assert (H2 : (exists l', l = Mark 91 :: l' /\ read_attributes fuel l' = Some (p, r)) \/ r = l).
  { repeat match type of H with
    | context [match ?x with _ => _ end] => destruct x eqn:?; subst
    end; try (injection H as <- <-; right; reflexivity); left; eexists; split; [reflexivity|exact H]. }
  destruct H2 as [(l' & -> & H2)| ->]; [|exists []; reflexivity]. apply attributes_rest in H2 as [x ->]. exists (Mark 91 :: x). reflexivity.
Qed.
Lemma stmt_rest fuel l s r : read_stmt fuel l = Some (s, r) -> exists x, l = x ++ r.
Proof.
  intros H. assert (H2 : exists x l' p, l = x ++ l' /\ (r = l' \/ read_list fuel l' = Some (p, r))).
  { unfold read_stmt in H. destruct l as [|a l]; [discriminate|].
    assert (G : match name_of a, read_list fuel l with Some x, Some (at_, r') => Some (Node x at_, r') | _, _ => None end = Some (s, r) ->
      exists x l' p, a :: l = x ++ l' /\ (r = l' \/ read_list fuel l' = Some (p, r))).
    { intros G. destruct (name_of a); [|discriminate]. destruct (read_list fuel l) as [[p r']|] eqn:Q; [|discriminate].
      injection G as <- <-. exists [a], l, p. split; [reflexivity|right; exact Q]. }
    destruct l as [|t l]; [apply G, H|]. destruct t as [w|w|c|]; try (apply G, H).
    - destruct c as [|c]; [apply G, H|]. do 6 (destruct c as [c|c|]; try (apply G, H)).
      destruct l as [|b l]; [apply G, H|]. destruct (name_of a), (name_of b); try discriminate. injection H as <- <-.
      exists [a; Mark 61; b], l, []. split; [reflexivity|left; reflexivity].
    - destruct l as [|b l]; [apply G, H|]. destruct (name_of a), (name_of b); try discriminate.
      destruct (read_list fuel l) as [[p r']|] eqn:Q; [|discriminate]. injection H as <- <-.
      exists [a; Arrow; b], l, p. split; [reflexivity|right; exact Q]. }
  destruct H2 as (x & l' & p & -> & [->|Q]); [exists x; reflexivity|]. apply list_rest in Q as [y ->]. exists (x ++ y). apply app_assoc.
Qed.
Lemma stmts_closed fuel : forall l s, read_stmts fuel l = Some s -> In (Mark 125) l.
Proof.
  induction fuel as [|fuel IH]; intros l s H; [discriminate|].
  assert (H2 : l = [Mark 125] \/ exists x r s', read_stmt fuel l = Some (x, r) /\ read_stmts fuel (skip_mark 59 r) = Some s').
  { cbn [read_stmts] in H.
    assert (G : match read_stmt fuel l with Some (x, r) => option_map (cons x) (read_stmts fuel (skip_mark 59 r)) | None => None end = Some s ->
      exists x r s', read_stmt fuel l = Some (x, r) /\ read_stmts fuel (skip_mark 59 r) = Some s').
    { destruct (read_stmt fuel l) as [[x r]|]; [|discriminate]. destruct (read_stmts fuel (skip_mark 59 r)) as [s'|] eqn:Q; [|discriminate].
      intros _. exists x, r, s'. split; [reflexivity|exact Q]. }
    destruct l as [|t l]; [right; apply G, H|]. destruct t as [w|w|c|]; try (right; apply G, H).
    destruct c as [|c]; [right; apply G, H|]. do 7 (destruct c as [c|c|]; try (right; apply G, H)).
    destruct l as [|t l]; [left; reflexivity|right; apply G, H]. }
  destruct H2 as [->|(x & r & s' & A & B)]; [left; reflexivity|]. apply stmt_rest in A as [y ->]. apply IH in B. apply in_or_app. right.
  destruct r as [|[w|w|c|] r]; try exact B. cbn [skip_mark] in B. destruct (N.eqb 59 c); [right|]; exact B.
Qed.
Lemma read_closed s x : dot_read s = Some x -> exists ts, dot_lex Between s = Some ts /\ In (Mark 125) ts.
Proof.
  unfold dot_read. destruct (dot_lex Between s) as [ts|]; [|discriminate]. intros H. exists ts. split; [reflexivity|].
  destruct ts as [|t ts]; [discriminate|]. destruct t as [w|w|c|]; try discriminate. destruct ts as [|t ts]; [discriminate|].
  destruct t as [v|v|c|]; try discriminate. destruct c as [|c]; [discriminate|]. do 7 (destruct c as [c|c|]; try discriminate).
  destruct (str_eqb _ _); [|discriminate]. apply stmts_closed in H. right; right. exact H.
Qed.

(** All but the last line. *)
Definition dot_body (d : dot_doc) : str :=
  concat dot_head ++ flat_map edge_text (doc_edges d) ++ [10] ++ flat_map decl_text (doc_decls d).
Lemma dot_text_body d : dot_text d = dot_body d ++ [125; 10].
Proof. unfold dot_text, dot_body, dot_head. cbn [concat]. rewrite !app_nil_r, <- !app_assoc. reflexivity. Qed.
Lemma lex_body d : Forall edge_quotable (doc_edges d) -> Forall decl_quotable (doc_decls d) ->
  exists ts, lex_run Between (dot_body d) = Some (ts, Between) /\ ~ In (Mark 125) ts.
Proof.
  intros E D. eexists. split.
  - unfold dot_body. eapply (lex_run_app (concat dot_head)); [vm_compute; reflexivity|].
    eapply lex_run_app; [apply lex_flat, (Forall_impl _ lex_edge E)|].
    eapply (lex_run_app [10] Between [] Between); [reflexivity|]. apply lex_flat, (Forall_impl _ lex_decl D).
  - rewrite !in_app_iff. intros [I|[I|[[]|I]]].
    + cbn [In] in I. intuition discriminate.
    + apply in_flat_map in I as (e & _ & I). cbn [edge_tokens In] in I. intuition discriminate.
    + apply in_flat_map in I as (e & _ & I). unfold decl_tokens in I. destruct (d_url e); cbn [app In] in I; intuition discriminate.
Qed.
Lemma dot_cut d s t : Forall edge_quotable (doc_edges d) -> Forall decl_quotable (doc_decls d) -> dot_text d = s ++ t ->
  dot_read s <> None -> t = [] \/ t = [10].
Proof.
  intros E D H R. destruct (dot_read s) as [x|] eqn:Q; [|contradiction R; reflexivity]. clear R.
  rewrite dot_text_body in H.
  assert (C : t = [] \/ t = [10] \/ exists u, dot_body d = s ++ u).
  { apply app_eq_app in H as (u & [[A B]|[A B]]).
    - right; right. exists u. exact A.
    - destruct u as [|a u]; [right; right; exists []; rewrite app_nil_r in *; auto|].
      injection B as <- B. destruct u as [|b u]; [right; left; auto|]. injection B as <- B. destruct u; [left; auto|discriminate]. }
  destruct C as [C|[C|[u C]]]; auto. exfalso.
  destruct (lex_body d E D) as (ts & L & N). rewrite C in L. apply lex_run_split in L as (a & st & b & A & _ & ->).
  apply read_closed in Q as (us & U & I). destruct (lex_run_ends _ _ _ _ _ A U) as [->|[w ->]].
  - apply N, in_or_app. auto.
  - apply in_app_iff in I as [I|[I|[]]]; [apply N, in_or_app; auto|discriminate].
Qed.
Lemma dot_file_cut d kept lost s : Forall edge_quotable (doc_edges d) -> Forall decl_quotable (doc_decls d) -> chars (dot_text d) -> chars s ->
  bytes (dot_text d) = kept ++ lost -> kept = bytes s -> dot_read s <> None -> lost = [] \/ lost = [10].
Proof.
  intros E D C Cs B -> R. apply bytes_prefix in B; [|exact C|exact Cs]. destruct B as (u & H & ->).
  destruct (dot_cut d s u E D H R) as [-> | ->]; auto.
Qed.

(** ** TriG *)
Lemma trig_calls_text m omit g : concat (map (flat_map utf8) (trig_calls m omit g)) = bytes (trig_write_graph m omit g).
Proof.
  unfold trig_calls, trig_write_graph. destruct (g_name g) as [n|]; [|reflexivity].
  destruct omit; cbn [app map concat]; rewrite ?bytes_app; cbn [app bytes flat_map utf8]; rewrite ?app_nil_r, <- ?app_assoc; reflexivity.
Qed.
Lemma trig_put_prefix out m omit l : forall w w' ok, trig_put_all out m omit l w = (w', ok) ->
  exists x y, accepted w' = accepted w ++ x /\ bytes (flat_map (trig_write_graph m omit) l) = x ++ y /\ (ok = true -> y = []).
Proof.
  induction l as [|g l IH]; intros w w' ok E; cbn [trig_put_all] in E.
  - injection E as <- <-. exists [], []. rewrite app_nil_r. auto.
  - unfold trig_put_graph in E. destruct (put_parts out _ w) as [w1 b] eqn:P. apply put_parts_prefix in P as (x & y & A & B & C).
    rewrite trig_calls_text in B. cbn [flat_map]. rewrite bytes_app, B. destruct b.
    + apply IH in E as (x2 & y2 & A2 & B2 & C2). exists (x ++ x2), y2. rewrite A2, A, (C eq_refl), app_nil_r, B2, <- !app_assoc. auto.
    + injection E as <- <-. exists x, (y ++ bytes (flat_map (trig_write_graph m omit) l)). rewrite <- app_assoc. repeat split; [exact A|discriminate].
Qed.
Lemma trig_put_ok out m omit l : (forall k bs, out k bs = None) -> forall w, snd (trig_put_all out m omit l w) = true.
Proof.
  intros N. induction l as [|g l IH]; intros w; [reflexivity|]. cbn [trig_put_all]. unfold trig_put_graph.
  pose proof (put_parts_ok out (map (flat_map utf8) (trig_calls m omit g)) N w) as P. destruct (put_parts out _ w) as [w1 b]. cbn in P. subst b. apply IH.
Qed.
Lemma trig_written out m omit hd d kept res : trig_write_to out m omit hd d = (kept, res) ->
  (exists lost, bytes (trig_write m omit hd d) = kept ++ lost /\ (res = Ok tt -> lost = [])) /\ (res = Ok tt \/ res = Err FileIo) /\
  ((forall k bs, out k bs = None) -> res = Ok tt).
Proof.
  intros E. unfold trig_write_to, written in E. destruct (trig_put_all out m omit (ds_graphs hd d) nothing) as [w ok] eqn:P.
  cbn [fst snd] in E. injection E as <- <-. split; [|split].
  - apply trig_put_prefix in P as (x & y & A & B & C). exists y. cbn [accepted nothing app] in A. rewrite A. split; [exact B|].
    destruct ok; [auto|discriminate].
  - destruct ok; auto.
  - intros N. pose proof (trig_put_ok out m omit (ds_graphs hd d) N nothing) as K. rewrite P in K. cbn in K. rewrite K. reflexivity.
Qed.
Lemma dot_panics out parts m compress opts ho hv nodes g kept nodes' : hash_order ho ->
  dot_write_to out parts m compress opts ho hv nodes g = (kept, nodes', Panic) ->
  exists st, In st (g_list g) /\ compress (st_predicate st) = Panic.
Proof.
  intros Ho H. apply dot_write_panics in H. apply c52_written in H; assumption.
Qed.
