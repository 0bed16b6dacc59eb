(** Lemmas about the DOT and TriG writers. *)
From Coq Require Import Permutation Lia.
From Verif Require Import DotSpec GraphProofs LiteralProofs StrFacts NTriplesWrite JsonMain.
Local Open Scope N_scope.

Section M.
Variable m : iri_mode.
Local Notation shown := (obj_show m false).

Lemma to_object_show s : shown (to_object s) = subj_show m s.
Proof. destruct s; reflexivity. Qed.
Lemma subject_object_id nodes s : subject_id m nodes s = object_id m nodes (to_object s).
Proof. destruct s; reflexivity. Qed.

Definition kind (x : object) : node_kind := match x with ORes _ => KIri | OLit _ => KLiteral | _ => KBlank end.
Definition look (x : object) : str :=
  match x with ORes i => show_iri m i | OLit l => lexical_form l | OBlank b => b | _ => [] end.
Fixpoint entries (k : nat) (xs : list object) : dot_nodes :=
  match xs with
  | [] => []
  | x :: r => (shown x, DotNode (dec_N (N.of_nat k + 1)) (kind x) (look x)) :: entries (S k) r
  end.
Lemma entries_length xs : forall k, length (entries k xs) = length xs.
Proof. induction xs as [|x xs IH]; intros k; cbn [entries length]; [reflexivity|]. rewrite IH. reflexivity. Qed.
Lemma entries_app xs : forall k ys, entries k (xs ++ ys) = entries k xs ++ entries (k + length xs) ys.
Proof.
  induction xs as [|x xs IH]; intros k ys; cbn [entries app length]; [rewrite Nat.add_0_r; reflexivity|].
  rewrite IH. do 3 f_equal. lia.
Qed.

(** Position of the first term shown alike. *)
Fixpoint pos (xs : list object) (x : object) : nat :=
  match xs with
  | [] => 0
  | y :: r => if str_eqb (shown x) (shown y) then 0 else S (pos r x)
  end.
Definition name_in (xs : list object) (x : object) : str := dec_N (N.of_nat (pos xs x) + 1).
Definition known (xs : list object) (x : object) : Prop := In (shown x) (map shown xs).

Lemma entries_get xs x : forall k,
  match dn_get (shown x) (entries k xs) with
  | Some n => known xs x /\ dn_id n = dec_N (N.of_nat (k + pos xs x) + 1)
  | None => ~ known xs x
  end.
Proof.
  induction xs as [|y xs IH]; intros k; cbn [entries dn_get pos]; [intros []|].
  destruct (str_eqb (shown x) (shown y)) eqn:E.
  - split; [left; symmetry; apply str_eqb_eq, E|]. rewrite Nat.add_0_r. reflexivity.
  - specialize (IH (S k)). destruct (dn_get _ _) as [n|].
    + destruct IH as [K I]. split; [right; exact K|]. rewrite I. do 2 f_equal. lia.
    + intros [Y|K]; [|exact (IH K)]. rewrite <- Y, str_eqb_refl in E. discriminate.
Qed.
Lemma pos_app xs ys x : known xs x -> pos (xs ++ ys) x = pos xs x.
Proof.
  induction xs as [|y xs IH]; intros K; [destruct K|]. cbn [app pos]. destruct (str_eqb _ _) eqn:E; [reflexivity|].
  f_equal. apply IH. destruct K as [Y|K]; [|exact K]. rewrite <- Y, str_eqb_refl in E. discriminate.
Qed.
Lemma pos_new xs x : ~ known xs x -> pos xs x = length xs.
Proof.
  induction xs as [|y xs IH]; intros K; [reflexivity|]. cbn [length pos]. destruct (str_eqb _ _) eqn:E.
  - destruct K. left. symmetry. apply str_eqb_eq, E.
  - f_equal. apply IH. intros J. apply K. right. exact J.
Qed.
Lemma pos_last xs x : ~ known xs x -> pos (xs ++ [x]) x = length xs.
Proof.
  induction xs as [|y xs IH]; intros K; cbn [app pos length]; [rewrite str_eqb_refl; reflexivity|].
  destruct (str_eqb _ _) eqn:E.
  - destruct K. left. symmetry. apply str_eqb_eq, E.
  - f_equal. apply IH. intros J. apply K. right. exact J.
Qed.
Lemma pos_eq xs x y : shown x = shown y -> pos xs x = pos xs y.
Proof. intros E. induction xs as [|z xs IH]; [reflexivity|]. cbn [pos]. rewrite E, IH. reflexivity. Qed.
Lemma pos_inj xs x y : known xs x -> pos xs x = pos xs y -> shown x = shown y.
Proof.
  induction xs as [|z xs IH]; intros K E; [destruct K|]. cbn [pos] in E.
  destruct (str_eqb (shown x) (shown z)) eqn:X, (str_eqb (shown y) (shown z)) eqn:Y; try discriminate.
  - apply str_eqb_eq in X, Y. congruence.
  - injection E as E. apply IH; [|exact E]. destruct K as [Z|K]; [|exact K]. rewrite Z, str_eqb_refl in X. discriminate.
Qed.
Lemma name_in_iff xs x y : known xs x -> (name_in xs x = name_in xs y <-> shown x = shown y).
Proof.
  intros K. split.
  - intros E. apply dec_N_inj in E. apply (pos_inj xs x y K). lia.
  - intros E. unfold name_in. rewrite (pos_eq xs x y E). reflexivity.
Qed.
Lemma known_app xs ys x : known xs x -> known (xs ++ ys) x.
Proof. unfold known. rewrite map_app. intros K. apply in_or_app. left. exact K. Qed.
Lemma name_app xs ys x : known xs x -> name_in (xs ++ ys) x = name_in xs x.
Proof. intros K. unfold name_in. rewrite (pos_app xs ys x K). reflexivity. Qed.

Lemma object_id_spec xs o : NoDup (map shown xs) ->
  exists zs, snd (object_id m (entries 0 xs) o) = entries 0 (xs ++ zs) /\ NoDup (map shown (xs ++ zs)) /\
    (forall z, In z zs -> z = o /\ drawn z) /\ (drawn o -> known (xs ++ zs) o /\ fst (object_id m (entries 0 xs) o) = name_in (xs ++ zs) o).
Proof.
  intros ND. unfold object_id. pose proof (entries_get xs o 0) as G. destruct (dn_get (shown o) (entries 0 xs)) as [n|] eqn:E.
  - exists []. rewrite app_nil_r. cbn [fst snd]. split; [reflexivity|]. split; [exact ND|]. split; [intros z []|].
    intros _. destruct G as [K I]. split; [exact K|exact I].
  - assert (NX : next_id (entries 0 xs) = dec_N (N.of_nat (length xs) + 1)).
    { unfold next_id. rewrite entries_length. reflexivity. }
    assert (D : drawn o -> entries 0 (xs ++ [o]) = entries 0 xs ++ [(shown o, DotNode (next_id (entries 0 xs)) (kind o) (look o))]).
    { intros _. rewrite entries_app, NX. reflexivity. }
    assert (Q : drawn o -> known (xs ++ [o]) o /\ next_id (entries 0 xs) = name_in (xs ++ [o]) o).
    { intros _. split; [unfold known; rewrite map_app; apply in_or_app; right; left; reflexivity|].
      rewrite NX. unfold name_in. rewrite (pos_last xs o G). reflexivity. }
    assert (ND' : NoDup (map shown (xs ++ [o]))).
    { rewrite map_app. apply NoDup_app; [exact ND|constructor; [intros []|constructor]|].
      intros z I [<-|[]]. exact (G I). }
    destruct o; cbn [fst snd].
    1-3: (eexists [_]; split; [symmetry; apply D; exact Logic.I|]; split; [exact ND'|]; split;
      [intros z [<-|[]]; split; [reflexivity|exact Logic.I]|exact Q]).
    1-2: (exists []; rewrite app_nil_r; split; [reflexivity|]; split; [exact ND|]; split; [intros z []|intros []]).
Qed.
Definition stmt_end (l : list statement) (x : object) : Prop :=
  exists st, In st l /\ (x = to_object (st_subject st) \/ x = st_object st).
Section C.
Variable compress : str -> outcome (option str).
Variable opts : dot_options.
Definition edge_says (xs : list object) (st : statement) (e : dot_edge) : Prop :=
  (drawn (to_object (st_subject st)) -> e_from e = node_prefix opts ++ name_in xs (to_object (st_subject st))) /\
  (drawn (st_object st) -> e_to e = $"node_" ++ name_in xs (st_object st)) /\
  predicate_shown m compress (st_predicate st) (e_label e).

Lemma dot_edges_spec l : forall xs es nodes, NoDup (map shown xs) -> dot_edges m compress opts (entries 0 xs) l = Ret (es, nodes) ->
  exists zs, nodes = entries 0 (xs ++ zs) /\ NoDup (map shown (xs ++ zs)) /\
    (forall z, In z zs -> drawn z /\ stmt_end l z) /\
    (forall x, stmt_end l x -> drawn x -> known (xs ++ zs) x) /\
    Forall2 (edge_says (xs ++ zs)) l es.
Proof.
  induction l as [|st l IH]; intros xs es nodes ND; cbn [dot_edges].
  - intros [= <- <-]. exists []. rewrite app_nil_r. split; [reflexivity|]. split; [exact ND|]. split; [intros z []|].
    split; [intros x (st & [] & _)|constructor].
  - rewrite subject_object_id. destruct (object_id_spec xs (to_object (st_subject st)) ND) as (z1 & E1 & N1 & D1 & K1).
    destruct (object_id m (entries 0 xs) (to_object (st_subject st))) as [si n1]. cbn [fst snd] in E1, K1. subst n1.
    destruct (object_id_spec (xs ++ z1) (st_object st) N1) as (z2 & E2 & N2 & D2 & K2).
    destruct (object_id m (entries 0 (xs ++ z1)) (st_object st)) as [oi n2]. cbn [fst snd] in E2, K2. subst n2.
    destruct (compress (st_predicate st)) as [c|] eqn:CP; [|discriminate].
    destruct (dot_edges m compress opts (entries 0 ((xs ++ z1) ++ z2)) l) as [[es' n3]|] eqn:R; [|discriminate].
    intros [= <- <-]. destruct (IH _ _ _ N2 R) as (z3 & E3 & N3 & D3 & K3 & F3).
    exists (z1 ++ z2 ++ z3). rewrite !app_assoc. split; [exact E3|]. split; [exact N3|]. split; [|split].
    + intros z I. rewrite <- app_assoc in I. apply in_app_or in I as [I|I]; [|apply in_app_or in I as [I|I]].
      * apply D1 in I as [-> D]. split; [exact D|]. exists st. split; [left; reflexivity|left; reflexivity].
      * apply D2 in I as [-> D]. split; [exact D|]. exists st. split; [left; reflexivity|right; reflexivity].
      * apply D3 in I as [D (st' & J & W)]. split; [exact D|]. exists st'. split; [right; exact J|exact W].
    + intros x (st' & [<-|J] & W) D.
      * destruct W as [-> | ->]; [apply known_app, known_app, (proj1 (K1 D))|apply known_app, (proj1 (K2 D))].
      * apply K3; [exists st'; split; assumption|exact D].
    + constructor; [|exact F3]. split; [|split]; cbn [e_from e_to e_label].
      * intros D. destruct (K1 D) as [K E]. rewrite E, (name_app ((xs ++ z1) ++ z2) z3), (name_app (xs ++ z1) z2); [reflexivity|exact K|apply known_app, K].
      * intros D. destruct (K2 D) as [K E]. rewrite E, (name_app ((xs ++ z1) ++ z2) z3); [reflexivity|exact K].
      * destruct c as [q|]; [left; exact CP|right; split; [exact CP|reflexivity]].
Qed.

Lemma decl_entries xs : (forall x, In x xs -> drawn x) -> NoDup (map shown xs) -> forall ys zs, xs = ys ++ zs ->
  map (fun e => decl_of opts (snd e)) (entries (length ys) zs) = map (fun x => depicts m opts (node_prefix opts ++ name_in xs x) x) zs.
Proof.
  intros D ND ys zs. revert ys. induction zs as [|z zs IH]; intros ys ->; [reflexivity|]. cbn [entries map snd]. f_equal.
  - assert (P : name_in (ys ++ z :: zs) z = dec_N (N.of_nat (length ys) + 1)).
    { unfold name_in. change (z :: zs) with ([z] ++ zs). rewrite app_assoc, pos_app.
      - rewrite pos_last; [reflexivity|]. rewrite map_app in ND. apply NoDup_remove_2 in ND. intros K. apply ND, in_or_app. left. exact K.
      - unfold known. rewrite map_app. apply in_or_app. right. left. reflexivity. }
    rewrite P. assert (Z : drawn z) by (apply D, in_or_app; right; left; reflexivity).
    destruct z; try destruct Z; reflexivity.
  - specialize (IH (ys ++ [z])). rewrite app_length, <- app_assoc in IH. cbn [length app] in IH. rewrite Nat.add_1_r in IH. apply IH. reflexivity.
Qed.

Lemma dot_write_spec ho hv xs g doc nodes : hash_order ho -> (forall l, Permutation (hv l) l) ->
  (forall x, In x xs -> drawn x) -> NoDup (map shown xs) ->
  dot_write m compress opts ho hv (entries 0 xs) g = Ret (doc, nodes) ->
  exists zs, nodes = entries 0 (xs ++ zs) /\ NoDup (map shown (xs ++ zs)) /\
    (forall z, In z zs -> drawn z /\ end_of g z) /\
    (forall x, end_of g x -> drawn x -> known (xs ++ zs) x) /\
    Forall2 (edge_says (xs ++ zs)) (g_iter ho g) (doc_edges doc) /\
    Permutation (doc_decls doc) (map (fun x => depicts m opts (node_prefix opts ++ name_in (xs ++ zs) x) x) (xs ++ zs)).
Proof.
  intros HO HV D ND W. unfold dot_write in W. destruct (dot_edges m compress opts (entries 0 xs) (g_iter ho g)) as [[es n]|] eqn:R; [|discriminate].
  injection W as <- <-. destruct (dot_edges_spec _ _ _ _ ND R) as (zs & -> & N & DZ & K & F). exists zs.
  assert (EN : forall x, stmt_end (g_iter ho g) x <-> end_of g x).
  { intros x. split; intros (st & I & W); exists st; (split; [apply (g_iter_In ho g st HO), I|exact W]). }
  split; [reflexivity|]. split; [exact N|]. split; [intros z I; destruct (DZ z I) as [X Y]; split; [exact X|apply EN, Y]|].
  split; [intros x X; apply K, EN, X|]. split; [exact F|]. cbn [doc_decls].
  rewrite <- (decl_entries (xs ++ zs)) with (ys := []); [|intros x I; apply in_app_or in I as [I|I]; [apply D, I|apply DZ, I]|exact N|reflexivity].
  rewrite <- (map_map snd (decl_of opts)). apply Permutation_map, HV.
Qed.

Lemma dot_edges_total l : forall nodes, (forall st, In st l -> compress (st_predicate st) <> Panic) -> exists r, dot_edges m compress opts nodes l = Ret r.
Proof.
  induction l as [|st l IH]; intros nodes C; cbn [dot_edges]; [eexists; reflexivity|].
  destruct (subject_id _ _ _) as [si n1]. destruct (object_id _ _ _) as [oi n2].
  destruct (compress (st_predicate st)) eqn:E; [|destruct (C st (or_introl eq_refl) E)].
  destruct (IH n2) as [[es n3] ->]; [intros st' I; apply C; right; exact I|]. eexists. reflexivity.
Qed.
Lemma dot_edges_panic l : forall nodes, dot_edges m compress opts nodes l = Panic -> exists st, In st l /\ compress (st_predicate st) = Panic.
Proof.
  induction l as [|st l IH]; intros nodes; cbn [dot_edges]; [discriminate|].
  destruct (subject_id _ _ _) as [si n1]. destruct (object_id _ _ _) as [oi n2].
  destruct (compress (st_predicate st)) eqn:E; [|intros _; exists st; split; [left; reflexivity|exact E]].
  destruct (dot_edges m compress opts n2 l) as [[es n3]|] eqn:R; [discriminate|]. intros _.
  destruct (IH _ R) as (st' & I & P). exists st'. split; [right; exact I|exact P].
Qed.
End C.
End M.

Lemma dot_session_spec m compress opts ho hv gs : hash_order ho -> (forall l, Permutation (hv l) l) -> forall xs docs nodes,
  (forall x, In x xs -> drawn x) -> NoDup (map (obj_show m false) xs) ->
  dot_session m compress opts ho hv (entries m 0 xs) gs = Ret (docs, nodes) ->
  exists zs, nodes = entries m 0 (xs ++ zs) /\ NoDup (map (obj_show m false) (xs ++ zs)) /\
    (forall z, In z zs -> drawn z /\ exists g, In g gs /\ end_of g z) /\
    (forall g x, In g gs -> end_of g x -> drawn x -> known m (xs ++ zs) x).
Proof.
  intros HO HV. induction gs as [|g gs IH]; intros xs docs nodes D ND; cbn [dot_session].
  - intros [= <- <-]. exists []. rewrite app_nil_r. split; [reflexivity|]. split; [exact ND|]. split; [intros z []|intros g x []].
  - destruct (dot_write m (compress g) opts ho hv (entries m 0 xs) g) as [[d n1]|] eqn:W; [|discriminate].
    destruct (dot_write_spec m (compress g) opts ho hv xs g d n1 HO HV D ND W) as (z1 & -> & N1 & D1 & K1 & _ & _).
    destruct (dot_session m compress opts ho hv (entries m 0 (xs ++ z1)) gs) as [[ds n2]|] eqn:R; [|discriminate]. intros [= <- <-].
    assert (D' : forall x, In x (xs ++ z1) -> drawn x) by (intros x I; apply in_app_or in I as [I|I]; [apply D, I|apply D1, I]).
    destruct (IH _ _ _ D' N1 R) as (z2 & -> & N2 & D2 & K2). exists (z1 ++ z2). rewrite app_assoc.
    split; [reflexivity|]. split; [exact N2|]. split.
    + intros z I. apply in_app_or in I as [I|I].
      * destruct (D1 z I) as [X Y]. split; [exact X|]. exists g. split; [left; reflexivity|exact Y].
      * destruct (D2 z I) as [X (g' & J & Y)]. split; [exact X|]. exists g'. split; [right; exact J|exact Y].
    + intros g' x [<-|J] E X; [apply known_app, K1; assumption|apply (K2 g' x J E X)].
Qed.
