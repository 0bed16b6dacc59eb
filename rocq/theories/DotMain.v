(** The theorems about the DOT and TriG writers. *)
From Coq Require Import Permutation Lia.
From Verif Require Import DotSpec DotProofs GraphProofs LiteralProofs StrFacts NTriplesWrite JsonMain.
Local Open Scope N_scope.

Lemma entries_nil m : entries m 0 [] = [].
Proof. reflexivity. Qed.

(** Whatever was written before with the same writer. *)
Lemma c52_exact m compress opts ho hv gs docs nodes g doc nodes' :
  hash_order ho -> (forall l, Permutation (hv l) l) ->
  dot_session m compress opts ho hv [] gs = Ret (docs, nodes) ->
  dot_write m (compress g) opts ho hv nodes g = Ret (doc, nodes') ->
  exists terms node,
    (forall x, Forall (fun c => is_digit c = true) (node x)) /\
    (forall x, In x terms -> drawn x /\ exists g', In g' (gs ++ [g]) /\ end_of g' x) /\
    (forall g' x, In g' (gs ++ [g]) -> end_of g' x -> drawn x -> In (obj_show m false x) (map (obj_show m false) terms)) /\
    NoDup (map (obj_show m false) terms) /\
    (forall g' x y, In g' (gs ++ [g]) -> end_of g' x -> drawn x -> (node x = node y <-> obj_show m false x = obj_show m false y)) /\
    Permutation (doc_decls doc) (map (fun x => depicts m opts (node_prefix opts ++ node x) x) terms) /\
    Forall2 (fun st e =>
      (drawn (to_object (st_subject st)) -> e_from e = node_prefix opts ++ node (to_object (st_subject st))) /\
      (drawn (st_object st) -> e_to e = $"node_" ++ node (st_object st)) /\
      predicate_shown m (compress g) (st_predicate st) (e_label e)) (g_iter ho g) (doc_edges doc).
Proof.
  intros HO HV S W. rewrite <- (entries_nil m) in S.
  destruct (dot_session_spec m compress opts ho hv gs HO HV [] docs nodes) as (xs & -> & N & D & K); [intros x []|constructor|exact S|]. cbn [app] in *.
  destruct (dot_write_spec m (compress g) opts ho hv xs g doc nodes' HO HV) as (zs & -> & N' & D' & K' & F & P); [intros x I; apply D, I|exact N|exact W|].
  exists (xs ++ zs), (name_in m (xs ++ zs)). split; [intros x; apply dec_N_digits|].
  assert (KK : forall g' x, In g' (gs ++ [g]) -> end_of g' x -> drawn x -> known m (xs ++ zs) x).
  { intros g' x I E X. apply in_app_or in I as [I|[<-|[]]]; [apply known_app, (K g' x I E X)|apply (K' x E X)]. }
  split; [|split; [exact KK|split; [exact N'|split; [|split; [exact P|exact F]]]]].
  - intros x I. apply in_app_or in I as [I|I].
    + destruct (D x I) as [X (g' & J & E)]. split; [exact X|]. exists g'. split; [apply in_or_app; left; exact J|exact E].
    + destruct (D' x I) as [X E]. split; [exact X|]. exists g. split; [apply in_or_app; right; left; reflexivity|exact E].
  - intros g' x y I E X. apply name_in_iff, (KK g' x I E X).
Qed.

(** A new writer, and a graph of plain terms shown differently: a picture of the graph. *)
Lemma c52_picture m compress opts ho hv g doc nodes :
  hash_order ho -> (forall l, Permutation (hv l) l) -> all_drawn g -> told_apart m g ->
  dot_write m compress opts ho hv [] g = Ret (doc, nodes) ->
  exists terms node,
    (forall x, Forall (fun c => is_digit c = true) (node x)) /\
    NoDup terms /\ (forall x, In x terms <-> end_of g x) /\
    (forall x y, In x terms -> In y terms -> node x = node y -> x = y) /\
    Permutation (doc_decls doc) (map (fun x => depicts m opts (node_prefix opts ++ node x) x) terms) /\
    Forall2 (fun st e =>
      e_from e = node_prefix opts ++ node (to_object (st_subject st)) /\ e_to e = $"node_" ++ node (st_object st) /\
      predicate_shown m compress (st_predicate st) (e_label e)) (g_iter ho g) (doc_edges doc).
Proof.
  intros HO HV AD TA W.
  destruct (c52_exact m (fun _ => compress) opts ho hv [] [] [] g doc nodes HO HV eq_refl W) as (terms & node & DG & D & K & N & I & P & F).
  cbn [app] in *. exists terms, node. split; [exact DG|].
  assert (T : forall x, In x terms <-> end_of g x).
  { intros x. split.
    - intros X. destruct (D x X) as [_ (g' & [<-|[]] & E)]. exact E.
    - intros E. specialize (K g x (or_introl eq_refl) E (AD x E)). apply in_map_iff in K as (y & S & Y).
      destruct (D y Y) as [_ (g' & [<-|[]] & E')]. rewrite <- (TA y x E' E S). exact Y. }
  split; [|split; [exact T|split; [|split; [exact P|]]]].
  - apply (NoDup_map_inv (obj_show m false)), N.
  - intros x y X Y E. apply T in X, Y. apply TA; [exact X|exact Y|]. apply (I g x y (or_introl eq_refl) X (AD x X)), E.
  - assert (S : forall st, In st (g_iter ho g) -> drawn (to_object (st_subject st)) /\ drawn (st_object st)).
    { intros st J. apply (g_iter_In ho g st HO) in J. split; apply AD; exists st; (split; [exact J|]); [left|right]; reflexivity. }
    clear -F S. induction F as [|st e l es (A & B & C) F IH]; constructor.
    + destruct (S st (or_introl eq_refl)) as [X Y]. auto.
    + apply IH. intros st' J. apply S. right. exact J.
Qed.

(** It is written unless shortening a predicate panics. *)
Lemma c52_written m compress opts ho hv nodes g : hash_order ho ->
  (dot_write m compress opts ho hv nodes g = Panic <-> exists st, In st (g_list g) /\ compress (st_predicate st) = Panic).
Proof.
  intros HO. unfold dot_write. split.
  - destruct (dot_edges m compress opts nodes (g_iter ho g)) as [[es n]|] eqn:E; [discriminate|]. intros _.
    destruct (dot_edges_panic m compress opts _ _ E) as (st & I & P). exists st. split; [apply (g_iter_In ho g st HO), I|exact P].
  - intros (st & I & P). apply (g_iter_In ho g st HO) in I. revert nodes I. generalize (g_iter ho g) as l. intros l. 
    assert (X : forall nodes, In st l -> dot_edges m compress opts nodes l = Panic).
    { induction l as [|st' l IH]; intros nodes I; [destruct I|]. cbn [dot_edges]. destruct (subject_id _ _ _) as [si n1]. destruct (object_id _ _ _) as [oi n2].
      destruct I as [-> | I]; [rewrite P; reflexivity|]. destruct (compress (st_predicate st')); [|reflexivity]. rewrite (IH n2 I). reflexivity. }
    intros nodes I. rewrite (X nodes I). reflexivity.
Qed.

(** With another prefix the edges end nowhere. *)
Lemma node_prefix_cut p k k' : Forall (fun c => is_digit c = true) k -> Forall (fun c => is_digit c = true) k' ->
  p ++ k' = $"node_" ++ k -> exists d, p = $"node_" ++ d /\ Forall (fun c => is_digit c = true) d.
Proof.
  intros K K'. change $"node_" with [110; 111; 100; 101; 95]. intros E.
  assert (bad : forall c r, Forall (fun c => is_digit c = true) (c :: r) -> is_digit c = false -> False).
  { intros c r F G. inversion F; subst. congruence. }
  assert (U : forall a r, Forall (fun c => is_digit c = true) (a ++ 95 :: r) -> False).
  { intros a r F. apply Forall_app in F as [_ F]. apply (bad _ _ F). reflexivity. }
  destruct p as [|a p]; [cbn [app] in E; rewrite E in K'; destruct (U [110; 111; 100; 101] k K')|]. injection E as -> E.
  destruct p as [|b p]; [cbn [app] in E; rewrite E in K'; destruct (U [111; 100; 101] k K')|]. injection E as -> E.
  destruct p as [|c p]; [cbn [app] in E; rewrite E in K'; destruct (U [100; 101] k K')|]. injection E as -> E.
  destruct p as [|d p]; [cbn [app] in E; rewrite E in K'; destruct (U [101] k K')|]. injection E as -> E.
  destruct p as [|e p]; [cbn [app] in E; rewrite E in K'; destruct (U [] k K')|]. injection E as -> E.
  exists p. split; [reflexivity|]. rewrite <- E in K. apply Forall_app in K. apply K.
Qed.
Lemma object_id_digits m xs o : Forall (fun c => is_digit c = true) (fst (object_id m (entries m 0 xs) o)).
Proof.
  unfold object_id. pose proof (entries_get m xs o 0) as G. destruct (dn_get _ _) as [n|]; cbn [fst].
  - destruct G as [_ ->]. apply dec_N_digits.
  - apply dec_N_digits.
Qed.
Lemma edges_targets m compress opts l : forall xs es nodes, NoDup (map (obj_show m false) xs) ->
  dot_edges m compress opts (entries m 0 xs) l = Ret (es, nodes) ->
  Forall (fun e => exists k, e_to e = $"node_" ++ k /\ Forall (fun c => is_digit c = true) k) es.
Proof.
  induction l as [|st l IH]; intros xs es nodes N; cbn [dot_edges]; [intros [= <- <-]; constructor|].
  rewrite subject_object_id. destruct (object_id_spec m xs (to_object (st_subject st)) N) as (z1 & E1 & N1 & _).
  destruct (object_id m (entries m 0 xs) (to_object (st_subject st))) as [si n1]. cbn [snd] in E1. subst n1.
  pose proof (object_id_digits m (xs ++ z1) (st_object st)) as D.
  destruct (object_id_spec m (xs ++ z1) (st_object st) N1) as (z2 & E2 & N2 & _).
  destruct (object_id m (entries m 0 (xs ++ z1)) (st_object st)) as [oi n2]. cbn [fst snd] in *. subst n2.
  destruct (compress (st_predicate st)) as [c|]; [|discriminate].
  destruct (dot_edges m compress opts (entries m 0 ((xs ++ z1) ++ z2)) l) as [[es' n3]|] eqn:R; [|discriminate].
  intros [= <- <-]. constructor; [exists oi; split; [reflexivity|exact D]|apply (IH _ _ _ N2 R)].
Qed.
Lemma c52_prefix m compress opts ho hv g doc nodes :
  hash_order ho -> (forall l, Permutation (hv l) l) ->
  (forall d, Forall (fun c => is_digit c = true) d -> node_prefix opts <> $"node_" ++ d) ->
  dot_write m compress opts ho hv [] g = Ret (doc, nodes) ->
  forall e d, In e (doc_edges doc) -> In d (doc_decls doc) -> e_to e <> d_name d.
Proof.
  intros HO HV NP W e d E D. rewrite <- (entries_nil m) in W.
  destruct (dot_write_spec m compress opts ho hv [] g doc nodes HO HV) as (zs & _ & _ & _ & _ & _ & P); [intros x []|constructor|exact W|].
  apply (Permutation_in _ P) in D. apply in_map_iff in D as (x & <- & _).
  unfold dot_write in W. destruct (dot_edges m compress opts (entries m 0 []) (g_iter ho g)) as [[es n]|] eqn:R; [|discriminate]. injection W as <- <-.
  assert (T := edges_targets m compress opts _ [] _ _ (NoDup_nil _) R). rewrite Forall_forall in T. destruct (T e E) as (k & -> & K).
  intros Q. assert (N : d_name (depicts m opts (node_prefix opts ++ name_in m ([] ++ zs) x) x) = node_prefix opts ++ name_in m ([] ++ zs) x) by (destruct x; reflexivity).
  rewrite N in Q. destruct (node_prefix_cut (node_prefix opts) k (name_in m ([] ++ zs) x) K (dec_N_digits _) (eq_sym Q)) as (dd & EQ & F).
  exact (NP dd F EQ).
Qed.

(** When terms are told apart. *)
Lemma quotable_cut : forall n s t r r', (length s <= n)%nat -> quotable s = true -> quotable t = true ->
  s ++ [34] ++ r = t ++ [34] ++ r' -> s = t /\ r = r'.
Proof.
  induction n as [|n IH]; intros s t r r' L QS QT E.
  - destruct s; [|cbn [length] in L; lia]. destruct t as [|c t]; [injection E as ->; split; reflexivity|].
    injection E as <- E. cbn [quotable] in QT. discriminate.
  - destruct s as [|c s].
    + destruct t as [|c t]; [injection E as ->; split; reflexivity|]. injection E as <- E. cbn [quotable] in QT. discriminate.
    + destruct t as [|c' t]; [injection E as -> E; cbn [quotable] in QS; discriminate|]. injection E as <- E.
      cbn [quotable length] in *. destruct (N.eqb_spec c 92) as [->|C].
      * destruct s as [|d s]; [discriminate|]. destruct t as [|d' t]; [discriminate|]. injection E as <- E.
        apply andb_prop in QS as [QS1 QS], QT as [_ QT]. cbn [length] in L. destruct (IH s t r r') as [-> ->]; [lia|exact QS|exact QT|exact E|split; reflexivity].
      * apply andb_prop in QS as [_ QS], QT as [_ QT]. destruct (IH s t r r') as [-> ->]; [lia|exact QS|exact QT|exact E|split; reflexivity].
Qed.
Lemma dt_as_iri_other : forall d d', (forall i, d <> DtOther i) -> (forall i, d' <> DtOther i) -> dt_as_iri d = dt_as_iri d' -> d = d'.
Proof.
  intros d d' A B E. destruct d; try (destruct (A iri eq_refl)); destruct d'; try (destruct (B iri eq_refl)); try reflexivity; vm_compute in E; discriminate.
Qed.
Lemma own_look_types d d' : (forall i e, d = DtOther i -> (forall j, e <> DtOther j) -> dt_as_iri e <> i) ->
  (forall i e, d' = DtOther i -> (forall j, e <> DtOther j) -> dt_as_iri e <> i) -> dt_as_iri d = dt_as_iri d' -> d = d'.
Proof.
  intros A B E.
  assert (X : forall e, (exists i, e = DtOther i) \/ forall j, e <> DtOther j) by (intros e; destruct e; try (right; discriminate); left; eexists; reflexivity).
  destruct (X d) as [[i ->]|N], (X d') as [[j ->]|N'].
  - cbn [dt_as_iri] in E. congruence.
  - destruct (A i d' eq_refl N' (eq_sym E)).
  - destruct (B j d eq_refl N E).
  - apply dt_as_iri_other; assumption.
Qed.
Lemma own_look_quoted m l : own_look l -> lit_show m false l = lit_show_quoted m l.
Proof.
  intros [_ O]. unfold lit_show. destruct (lit_data_type l) as [d|]; [|reflexivity]. destruct O as (_ & B & I & _).
  rewrite B. destruct d; try reflexivity. destruct (I eq_refl).
Qed.
Lemma own_look_inj m l l' : own_look l -> own_look l' -> lit_show m false l = lit_show m false l' -> l = l'.
Proof.
  intros O O' E. rewrite !own_look_quoted in E by assumption. destruct O as [Q O], O' as [Q' O'].
  destruct l as [s d t], l' as [s' d' t']. unfold lit_show_quoted in E. cbn [lexical_form lit_data_type lit_language] in *.
  injection E as E. destruct (quotable_cut (length s) s s' _ _ (le_n _) Q Q' E) as [-> T].
  destruct d as [d|], d' as [d'|].
  - destruct O as (-> & _ & _ & O), O' as (-> & _ & _ & O'). injection T as T. apply app_inj_tail in T as [T _]. apply show_iri_inj in T.
    rewrite (own_look_types d d' O O' T). reflexivity.
  - destruct O as (-> & _). destruct t' as [t'|]; discriminate.
  - destruct O' as (-> & _). destruct t as [t|]; discriminate.
  - destruct t as [t|], t' as [t'|]; try discriminate; [|reflexivity]. injection T as ->. reflexivity.
Qed.
Lemma c52_told_apart m g : all_drawn g -> (forall l, end_of g (OLit l) -> own_look l) -> told_apart m g.
Proof.
  intros AD O x y X Y E.
  assert (Q : forall l, end_of g (OLit l) -> exists r, obj_show m false (OLit l) = 34 :: r).
  { intros l L. cbn [obj_show]. rewrite (own_look_quoted m l (O l L)). eexists. reflexivity. }
  pose proof (AD x X) as DX. pose proof (AD y Y) as DY.
  destruct x as [b|i|l| |]; try destruct DX; destruct y as [b'|i'|l'| |]; try destruct DY;
    try (destruct (Q _ X) as [r R]; rewrite R in E); try (destruct (Q _ Y) as [r' R']; rewrite R' in E); cbn [obj_show] in E; try discriminate.
  - injection E as ->. reflexivity.
  - injection E as E. apply app_inj_tail in E as [E _]. apply show_iri_inj in E as ->. reflexivity.
  - f_equal. apply (own_look_inj m); [apply O, X|apply O, Y|]. rewrite <- R, <- R' in E. exact E.
Qed.

(** ** TriG *)
Lemma trig_names m omit : forall l l', map g_name l = map g_name l' -> flat_map (trig_write_graph m omit) l = flat_map (trig_write_graph m omit) l'.
Proof.
  induction l as [|g l IH]; intros [|g' l'] E; try discriminate; [reflexivity|]. cbn [map flat_map] in *. injection E as E1 E2.
  rewrite (IH l' E2). unfold trig_write_graph. rewrite E1. reflexivity.
Qed.
Lemma c51_names m omit hd hd' d d' : map g_name (ds_graphs hd d) = map g_name (ds_graphs hd' d') ->
  trig_write m omit hd d = trig_write m omit hd' d'.
Proof. apply trig_names. Qed.

Lemma line_cut : forall a b r r', ~ In 10 a -> ~ In 10 b -> a ++ 10 :: r = b ++ 10 :: r' -> a = b /\ r = r'.
Proof.
  induction a as [|c a IH]; intros [|c' b] r r' A B E.
  - injection E as ->. split; reflexivity.
  - injection E as <- _. destruct B. left. reflexivity.
  - injection E as -> _. destruct A. left. reflexivity.
  - injection E as <- E. destruct (IH b r r') as [-> ->]; [intros I; apply A; right; exact I|intros I; apply B; right; exact I|exact E|split; reflexivity].
Qed.
Lemma gn_show_inj m n n' : gn_show m n = gn_show m n' -> n = n'.
Proof.
  destruct n as [b|i], n' as [b'|i']; cbn [gn_show]; intros E; try discriminate.
  - injection E as ->. reflexivity.
  - injection E as E. apply app_inj_tail in E as [E _]. apply show_iri_inj in E as ->. reflexivity.
Qed.
Lemma trig_text m omit : forall l l',
  (forall g n, In g l \/ In g l' -> g_name g = Some n -> ~ In 10 (gn_show m n)) ->
  flat_map (trig_write_graph m omit) l = flat_map (trig_write_graph m omit) l' -> map g_name l = map g_name l'.
Proof.
  set (head := fun g : graph => match g_name g with Some n => (if omit then [] else $"GRAPH ") ++ gn_show m n ++ $" " | None => [] end ++ $"{").
  assert (B : forall g r, trig_write_graph m omit g ++ r = head g ++ 10 :: ($"}" ++ 10 :: r)).
  { intros g r. unfold trig_write_graph, head. repeat rewrite <- app_assoc. reflexivity. }
  assert (ne : forall g r, trig_write_graph m omit g ++ r <> []).
  { intros g r. rewrite B. destruct (head g); discriminate. }
  assert (nl : forall g, (forall n, g_name g = Some n -> ~ In 10 (gn_show m n)) -> ~ In 10 (head g)).
  { intros g H. unfold head. destruct (g_name g) as [n|]; [|intros [E|[]]; discriminate]. specialize (H n eq_refl).
    intros I. apply in_app_or in I as [I|[I|[]]]; [|discriminate]. apply in_app_or in I as [I|I].
    - destruct omit; [destruct I|]. repeat (destruct I as [I|I]; [discriminate|]). destruct I.
    - apply in_app_or in I as [I|[I|[]]]; [exact (H I)|discriminate]. }
  induction l as [|g l IH]; intros [|g' l'] H E; cbn [flat_map map] in *; [reflexivity|destruct (ne _ _ (eq_sym E))|destruct (ne _ _ E)|].
  rewrite !B in E. apply line_cut in E as [E1 E2].
  - apply line_cut in E2 as [_ E2]; [|intros [X|[]]; discriminate..].
    rewrite (IH l'); [|intros g0 n [I|I]; apply H; [left; right; exact I|right; right; exact I]|exact E2]. f_equal.
    unfold head in E1. apply app_inj_tail in E1 as [E1 _]. destruct (g_name g) as [n|], (g_name g') as [n'|]; try reflexivity.
    + apply app_inv_head in E1. apply app_inj_tail in E1 as [E1 _]. apply gn_show_inj in E1 as ->. reflexivity.
    + apply app_eq_nil in E1 as [_ E1]. apply app_eq_nil in E1 as [_ E1]. discriminate.
    + symmetry in E1. apply app_eq_nil in E1 as [_ E1]. apply app_eq_nil in E1 as [_ E1]. discriminate.
  - apply nl. intros n. apply H. left. left. reflexivity.
  - apply nl. intros n. apply H. right. left. reflexivity.
Qed.
Lemma c51_text m omit hd hd' d d' : (forall l, Permutation (hd l) l) -> (forall l, Permutation (hd' l) l) ->
  (forall k g n, In (k, g) (d ++ d') -> g_name g = Some n -> ~ In 10 (gn_show m n)) ->
  trig_write m omit hd d = trig_write m omit hd' d' -> Permutation (map (fun e => g_name (snd e)) d) (map (fun e => g_name (snd e)) d').
Proof.
  intros H H' N E. unfold trig_write, ds_graphs in E. apply trig_text in E.
  - rewrite <- (map_map snd g_name d), <- (map_map snd g_name d'). rewrite <- (H (map snd d)), <- (H' (map snd d')), E. apply Permutation_refl.
  - intros g n [I|I]; [apply (Permutation_in _ (H _)) in I|apply (Permutation_in _ (H' _)) in I];
      apply in_map_iff in I as ([k g0] & <- & I); apply (N k); apply in_or_app; [left|right]; exact I.
Qed.

(** ** The text of a DOT document *)
Lemma quote_cut s t r r' : quotable s = true -> quotable t = true -> quote s ++ r = quote t ++ r' -> s = t /\ r = r'.
Proof.
  intros S T E. unfold quote in E. cbn [app] in E. injection E as E. rewrite <- !app_assoc in E. apply (quotable_cut (length s) s t r r' (le_n _) S T E).
Qed.
Lemma char_cut (c : chr) : forall a b r r', ~ In c a -> ~ In c b -> a ++ c :: r = b ++ c :: r' -> a = b /\ r = r'.
Proof.
  induction a as [|x a IH]; intros [|y b] r r' A B E.
  - injection E as ->. split; reflexivity.
  - injection E as <- _. destruct B. left. reflexivity.
  - injection E as -> _. destruct A. left. reflexivity.
  - injection E as <- E. destruct (IH b r r') as [-> ->]; [intros I; apply A; right; exact I|intros I; apply B; right; exact I|exact E|split; reflexivity].
Qed.
Lemma edge_cut e e' r r' : edge_clean e -> edge_clean e' -> edge_text e ++ r = edge_text e' ++ r' -> e = e' /\ r = r'.
Proof.
  destruct e as [a b c], e' as [a' b' c']. intros (A & B & C) (A' & B' & C'). cbn [e_from e_to e_label] in *. unfold edge_text. cbn [e_from e_to e_label].
  intros E. rewrite <- !app_assoc in E. apply app_inv_head in E. apply quote_cut in E as [-> E]; [|assumption..]. apply app_inv_head in E.
  apply quote_cut in E as [-> E]; [|assumption..]. apply app_inv_head in E. apply quote_cut in E as [-> E]; [|assumption..].
  apply app_inv_head in E. apply app_inv_head in E. split; [reflexivity|exact E].
Qed.
Lemma decl_cut d d' r r' : decl_clean d -> decl_clean d' -> decl_text d ++ r = decl_text d' ++ r' -> d = d' /\ r = r'.
Proof.
  destruct d as [n u l s c], d' as [n' u' l' s' c']. intros (N & U & L & S & C) (N' & U' & L' & S' & C'). cbn [d_name d_url d_label d_shape d_color] in *.
  unfold decl_text. cbn [d_name d_url d_label d_shape d_color].
  intros E. rewrite <- !app_assoc in E. apply app_inv_head in E. apply quote_cut in E as [-> E]; [|assumption..]. apply app_inv_head in E.
  set (w := fun u => match u with Some u => $"URL=" ++ quote u ++ $"," | None => [] end) in E.
  change (match u with Some u => $"URL=" ++ quote u ++ $"," | None => [] end) with (w u) in E.
  change (match u' with Some u => $"URL=" ++ quote u ++ $"," | None => [] end) with (w u') in E.
  assert (T : forall q q' : str, w u ++ $"label=" ++ q = w u' ++ $"label=" ++ q' -> u = u' /\ q = q').
  { intros q q' X. unfold w in X. destruct u as [u|], u' as [u'|]; try discriminate.
    - rewrite <- !app_assoc in X. apply app_inv_head in X. apply quote_cut in X as [-> X]; [|apply U; reflexivity|apply U'; reflexivity].
      apply app_inv_head in X. apply app_inv_head in X. split; [reflexivity|exact X].
    - cbn [app] in X. apply app_inv_head in X. split; [reflexivity|exact X]. }
  apply T in E as [-> E]. apply quote_cut in E as [-> E]; [|assumption..]. apply app_inv_head in E.
  change ($",color=") with (44 :: $"color=") in E. cbn [app] in E. apply char_cut in E as [-> E]; [|assumption..].
  change ($"];") with (93 :: $";") in E. apply app_inv_head in E. cbn [app] in E.
  apply char_cut in E as [-> E]; [|assumption..]. injection E as E. split; [reflexivity|exact E].
Qed.
Lemma edges_cut : forall es es' r r', Forall edge_clean es -> Forall edge_clean es' ->
  flat_map edge_text es ++ 10 :: r = flat_map edge_text es' ++ 10 :: r' -> es = es' /\ r = r'.
Proof.
  induction es as [|e es IH]; intros [|e' es'] r r' F F' E; cbn [flat_map] in E.
  - injection E as ->. split; reflexivity.
  - discriminate.
  - discriminate.
  - inversion F; inversion F'; subst. rewrite <- !app_assoc in E. apply edge_cut in E as [-> E]; [|assumption..].
    destruct (IH es' r r') as [-> ->]; [assumption..|split; reflexivity].
Qed.
Lemma decls_cut : forall ds ds' r r', Forall decl_clean ds -> Forall decl_clean ds' ->
  flat_map decl_text ds ++ 125 :: r = flat_map decl_text ds' ++ 125 :: r' -> ds = ds' /\ r = r'.
Proof.
  induction ds as [|e es IH]; intros [|e' es'] r r' F F' E; cbn [flat_map] in E.
  - injection E as ->. split; reflexivity.
  - discriminate.
  - discriminate.
  - inversion F; inversion F'; subst. rewrite <- !app_assoc in E. apply decl_cut in E as [-> E]; [|assumption..].
    destruct (IH es' r r') as [-> ->]; [assumption..|split; reflexivity].
Qed.
Lemma c52_text d d' : Forall edge_clean (doc_edges d) -> Forall decl_clean (doc_decls d) ->
  Forall edge_clean (doc_edges d') -> Forall decl_clean (doc_decls d') -> dot_text d = dot_text d' -> d = d'.
Proof.
  destruct d as [es ds], d' as [es' ds']. cbn [doc_edges doc_decls]. intros A B A' B' E. unfold dot_text in E. cbn [doc_edges doc_decls] in E.
  do 9 apply app_inv_head in E. apply edges_cut in E as [-> E]; [|assumption..]. apply decls_cut in E as [-> _]; [|assumption..]. reflexivity.
Qed.

Lemma c51_blocks m omit hd d : exists blocks, trig_write m omit hd d = concat blocks /\
  Forall2 (trig_block m omit) (map g_name (ds_graphs hd d)) blocks.
Proof.
  exists (map (trig_write_graph m omit) (ds_graphs hd d)). split; [unfold trig_write; rewrite flat_map_concat_map; reflexivity|].
  induction (ds_graphs hd d) as [|g l IH]; cbn [map]; constructor; [|exact IH]. unfold trig_write_graph.
  destruct (g_name g) as [n|]; [|apply tb_default]. rewrite <- !app_assoc. destruct omit; constructor.
Qed.
Lemma c52_default m compress ho hv g doc nodes :
  hash_order ho -> (forall l, Permutation (hv l) l) ->
  dot_write m compress dot_default_options ho hv [] g = Ret (doc, nodes) ->
  forall d, In d (doc_decls doc) -> exists x n, end_of g x /\ default_look x (d_shape d) (d_color d) /\ d_name d = $"node_" ++ n /\
    d = depicts m dot_default_options (d_name d) x /\ (forall b, x = OBlank b -> d_label d = []).
Proof.
  intros H V E d D.
  destruct (c52_exact m (fun _ => compress) dot_default_options ho hv [] [] [] g doc nodes H V eq_refl E) as (terms & node & _ & T & _ & _ & _ & P & _).
  apply (Permutation_in _ P) in D. apply in_map_iff in D as (x & <- & X). destruct (T x X) as (R & g' & [<-|[]] & N).
  exists x, (node x). split; [exact N|]. destruct x; try destruct R; cbn [depicts d_shape d_color d_name d_label];
    (split; [constructor|]); (split; [reflexivity|]); (split; [reflexivity|]); intros z Z; try discriminate Z; reflexivity.
Qed.
