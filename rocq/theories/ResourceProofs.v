From Coq Require Import Lia.
From Verif Require Import StrFacts TermProofs ReifyProofs ResourceSpec.

(** *** Building *)
Lemma entry_push_pairs m p o :
  Permutation (flat_map (fun e => map (pair (fst e)) (snd e)) (entry_push m p o))
    (flat_map (fun e => map (pair (fst e)) (snd e)) m ++ [(p, o)]).
Proof.
  induction m as [|[q os] m IH]; cbn; auto. destruct (str_eqb q p) eqn:E; cbn.
  - apply str_eqb_eq in E. subst. rewrite map_app. cbn. rewrite <- !app_assoc. apply Permutation_app_head.
    apply Permutation_app_comm.
  - rewrite <- app_assoc. apply Permutation_app_head, IH.
Qed.

Lemma r_insert_pairs r p o : Permutation (pairs (r_insert r p o)) (pairs r ++ [(p, o)]).
Proof. destruct r. apply entry_push_pairs. Qed.

Definition values_of (p : str) (r : resource) : list robject :=
  map snd (filter (fun po => str_eqb (fst po) p) (pairs r)).

Definition vals (p : str) (l : list (str * robject)) : list robject := map snd (filter (fun po => str_eqb (fst po) p) l).
Lemma vals_app p a b : vals p (a ++ b) = vals p a ++ vals p b.
Proof. unfold vals. rewrite filter_app, map_app. reflexivity. Qed.
Lemma vals_same p os : vals p (map (pair p) os) = os.
Proof.
  unfold vals. induction os as [|o os IH]; cbn; auto. rewrite str_eqb_refl. cbn. rewrite IH. reflexivity.
Qed.
Lemma vals_other p q os : q <> p -> vals p (map (pair q) os) = [].
Proof.
  intros H. unfold vals. induction os as [|o os IH]; cbn; auto.
  destruct (str_eqb q p) eqn:E; auto. apply str_eqb_eq in E. contradiction.
Qed.
Lemma vals_absent p m : ~ In p (map fst m) -> vals p (flat_map (fun e => map (pair (fst e)) (snd e)) m) = [].
Proof.
  induction m as [|[q os] m IH]; cbn [flat_map map fst snd In]; intros H; auto. rewrite vals_app, IH, vals_other; auto.
Qed.

Lemma entry_push_vals m p o q : NoDup (map fst m) ->
  vals q (flat_map (fun e => map (pair (fst e)) (snd e)) (entry_push m p o)) =
  vals q (flat_map (fun e => map (pair (fst e)) (snd e)) m ++ [(p, o)]).
Proof.
  induction m as [|[a os] m IH]; intros N; [reflexivity|]. inversion N; subst. cbn [entry_push].
  destruct (str_eqb a p) eqn:E; cbn [flat_map fst snd].
  - apply str_eqb_eq in E. subst. rewrite map_app, !vals_app. cbn [map].
    destruct (str_eqb p q) eqn:E.
    + apply str_eqb_eq in E. subst. rewrite vals_absent by auto. rewrite !app_nil_r. reflexivity.
    + assert (K : vals q [(p, o)] = []) by (unfold vals; cbn; rewrite E; reflexivity).
      rewrite K, !app_nil_r. reflexivity.
  - rewrite !vals_app, IH, vals_app by auto. rewrite app_assoc. reflexivity.
Qed.
Lemma entry_push_keys m p o x : In x (map fst (entry_push m p o)) <-> In x (map fst m) \/ x = p.
Proof.
  induction m as [|[a os] m IH]; cbn; [intuition|]. destruct (str_eqb a p) eqn:E; cbn.
  - apply str_eqb_eq in E. subst. intuition.
  - rewrite IH. intuition.
Qed.
Lemma entry_push_NoDup m p o : NoDup (map fst m) -> NoDup (map fst (entry_push m p o)).
Proof.
  induction m as [|[a os] m IH]; cbn; intros N; [repeat constructor; auto|]. inversion N; subst.
  destruct (str_eqb a p) eqn:E; cbn; constructor; auto. rewrite entry_push_keys. intros [K| ->]; auto.
  rewrite str_eqb_refl in E. discriminate.
Qed.

(** [built r q]: [r] holds the pairs [q], in order for every property. *)
Definition built (r : resource) (q : list (str * robject)) : Prop :=
  NoDup (map fst (r_preds r)) /\ Permutation (pairs r) q /\ forall p, vals p (pairs r) = vals p q.

Lemma built_insert r q p o : built r q -> built (r_insert r p o) (q ++ [(p, o)]) /\ r_subject (r_insert r p o) = r_subject r.
Proof.
  destruct r as [s m]. intros (N & P & V). split; auto. split; [apply entry_push_NoDup, N|]. split.
  - rewrite r_insert_pairs. apply Permutation_app_tail, P.
  - intros p'. unfold pairs, r_insert, r_preds. rewrite entry_push_vals by exact N. rewrite !vals_app.
    unfold pairs, r_preds in V. rewrite V. reflexivity.
Qed.

Lemma built_fold name os : forall r q, built r q ->
  built (fold_left (fun r o => r_insert r name o) os r) (q ++ map (pair name) os) /\
  r_subject (fold_left (fun r o => r_insert r name o) os r) = r_subject r.
Proof.
  induction os as [|o os IH]; intros r q B; cbn [fold_left map].
  - rewrite app_nil_r. auto.
  - destruct (built_insert r q name o B) as [B1 S1]. destruct (IH _ _ B1) as [B2 S2].
    rewrite <- app_assoc in B2. split; [exact B2|congruence].
Qed.

Lemma pb_run_spec name cs : pb_run name cs = MkPredicate name (map asked_p cs).
Proof.
  unfold pb_run, pb_new. assert (H : forall os, fold_left pb_apply cs (MkPredicate name os) = MkPredicate name (os ++ map asked_p cs)).
  { induction cs as [|c cs IH]; intros os; cbn [fold_left map]; [rewrite app_nil_r; reflexivity|].
    replace (pb_apply (MkPredicate name os) c) with (MkPredicate name (os ++ [asked_p c])) by (destruct c; reflexivity).
    rewrite IH, <- app_assoc. reflexivity. }
  apply H.
Qed.

Lemma built_apply gext printable c r q : built r q ->
  built (r_apply gext printable r c) (q ++ asked gext printable c) /\ r_subject (r_apply gext printable r c) = r_subject r.
Proof.
  intros B. destruct c; try (apply built_insert; exact B).
  cbn [r_apply asked]. rewrite pb_run_spec. unfold r_predicate. cbn [pb_name pb_objects].
  replace (map (fun c => (name, asked_p c)) cs) with (map (pair name) (map asked_p cs)) by (rewrite map_map; reflexivity).
  apply built_fold, B.
Qed.

Lemma built_run gext printable cs : forall r q, built r q ->
  built (r_run gext printable r cs) (q ++ flat_map (asked gext printable) cs) /\
  r_subject (r_run gext printable r cs) = r_subject r.
Proof.
  induction cs as [|c cs IH]; intros r q B; cbn [flat_map].
  - rewrite app_nil_r. auto.
  - destruct (built_apply gext printable c r q B) as [B1 S1]. destruct (IH _ _ B1) as [B2 S2].
    rewrite <- app_assoc in B2. split; auto. cbn [r_run fold_left]. unfold r_run in S2. congruence.
Qed.

Lemma c58_build gext printable s cs :
  let r := r_run gext printable (r_new s) cs in
  r_subject r = s /\ NoDup (map fst (r_preds r)) /\
  Permutation (pairs r) (flat_map (asked gext printable) cs) /\
  (forall p, map snd (filter (fun po => str_eqb (fst po) p) (pairs r)) =
             map snd (filter (fun po => str_eqb (fst po) p) (flat_map (asked gext printable) cs))) /\
  (r_is_an_individual r = true <-> Exists (fun e => fst e = rdf $"type") (r_preds r)).
Proof.
  cbn zeta. destruct (built_run gext printable cs (r_new s) []) as [(N & P & V) S].
  - split; [constructor|]. split; [constructor|reflexivity].
  - split; [exact S|]. split; [exact N|]. split; [exact P|]. split; [exact V|].
    unfold r_is_an_individual. rewrite existsb_exists, Exists_exists. split; intros (x & H & K); exists x; split; auto; apply str_eqb_eq; auto.
Qed.

(** *** Induction over resources *)
Section Ind.
Variables (P : resource -> Prop) (Q : robject -> Prop).
Hypothesis HR : forall s m, Forall (fun e => Forall Q (snd e)) m -> P (MkResource s m).
Hypothesis HRes : forall r, P r -> Q (RRes r).
Hypothesis HRess : forall k rs, Forall P rs -> Q (RResources k rs).
Hypothesis HLit : forall l, Q (RLit l).
Hypothesis HLits : forall k ls, Q (RLits k ls).
Fixpoint resource_ind' (r : resource) : P r :=
  match r with
  | MkResource s m => HR s m
      ((fix go (m : list (str * list robject)) : Forall (fun e => Forall Q (snd e)) m :=
         match m with
         | [] => Forall_nil _
         | e :: m' => Forall_cons e
             ((fix go2 (os : list robject) : Forall Q os :=
                match os with [] => Forall_nil _ | o :: os' => Forall_cons o (robject_ind' o) (go2 os') end) (snd e))
             (go m')
         end) m)
  end
with robject_ind' (o : robject) : Q o :=
  match o with
  | RRes r => HRes r (resource_ind' r)
  | RResources k rs => HRess k rs
      ((fix go (rs : list resource) : Forall P rs :=
         match rs with [] => Forall_nil _ | r :: rs' => Forall_cons r (resource_ind' r) (go rs') end) rs)
  | RLit l => HLit l
  | RLits k ls => HLits k ls
  end.
End Ind.

(** *** Flattening *)
Definition code_link (s c : subject) : object := to_object s.
Notation W := (written code_link 0).
Notation W1 := (written_one code_link 0).
Notation WA := (written_all code_link 0).
Notation WE := (written_each code_link 0).

Lemma NoDup_app' {A} (l1 l2 : list A) : NoDup l1 -> NoDup l2 -> (forall x, In x l1 -> In x l2 -> False) -> NoDup (l1 ++ l2).
Proof.
  induction 1; cbn; intros H2 D; auto. constructor.
  - rewrite in_app_iff. intros [K|K]; [auto|]. apply (D x); cbn; auto.
  - apply IHNoDup; auto. intros y K1 K2. apply (D y); cbn; auto.
Qed.

(** Labels [ls] are distinct and generated between [n] and [n']. *)
Definition labels_ok (n n' : N) (ls : list str) : Prop :=
  n' = n + N.of_nat (length ls) /\ NoDup ls /\ forall b, In b ls -> exists k, n <= k < n' /\ b = gen_label k.

Lemma labels_nil n : labels_ok n n [].
Proof. split; [cbn; lia|]. split; [constructor|intros b []]. Qed.
Lemma labels_app a b c l1 l2 : labels_ok a b l1 -> labels_ok b c l2 -> labels_ok a c (l1 ++ l2).
Proof.
  intros (A1 & B1 & C1) (A2 & B2 & C2). split; [rewrite app_length; lia|]. split.
  - apply NoDup_app'; auto. intros x H1 H2. destruct (C1 x H1) as (k1 & K1 & ->). destruct (C2 _ H2) as (k2 & K2 & E).
    apply gen_label_inj in E. lia.
  - intros x H. apply in_app_or in H as [H|H]; [destruct (C1 x H) as (k & K & E)|destruct (C2 x H) as (k & K & E)]; exists k; split; auto; lia.
Qed.
Lemma labels_cons n n' l : labels_ok (n + 1) n' l -> labels_ok n n' (gen_label n :: l).
Proof.
  intros H. apply (labels_app n (n + 1) n' [gen_label n] l); auto. split; [cbn; lia|]. split; [repeat constructor; auto|].
  intros b [<-|[]]. exists n. split; [lia|reflexivity].
Qed.

Lemma push_literals_spec b ls : forall i st, push_literals (SBlank b) i ls st = (fst st ++ numbered i b (map OLit ls), snd st).
Proof.
  induction ls as [|l ls IH]; intros i st; cbn [push_literals numbered map].
  - rewrite app_nil_r. destruct st; reflexivity.
  - rewrite IH. unfold push. cbn [fst snd]. rewrite <- app_assoc. reflexivity.
Qed.

Lemma numbered_app i b a : forall o, numbered i b (a ++ [o]) = numbered i b a ++ [MkStmt (SBlank b) (rdf ($"_" ++ dec_N (i + N.of_nat (length a)))) o].
Proof.
  revert i. induction a as [|x a IH]; intros i o; cbn [app numbered length].
  - rewrite N.add_0_r. reflexivity.
  - rewrite IH. replace (i + 1 + N.of_nat (length a)) with (i + N.of_nat (S (length a))) by lia. reflexivity.
Qed.

Definition flat_ok (r : resource) : Prop := forall r0, reordered r0 r -> forall sts n,
  exists new n' ls, flatten r (sts, n) = (sts ++ new, n') /\ W r0 ls new /\ labels_ok n n' ls.
Definition flat_obj_ok (o : robject) : Prop := forall o0, reordered_object o0 o -> forall s p sts n,
  exists new n' ls one, flatten_object s p o (sts, n) = (sts ++ new, n') /\ W1 s p o0 ls one /\ Permutation one new /\ labels_ok n n' ls.

Lemma WA_app s a la sa b lb sb : WA s a la sa -> WA s b lb sb -> WA s (a ++ b) (la ++ lb) (sa ++ sb).
Proof.
  induction 1; intros Hb; cbn; auto. rewrite <- !app_assoc. constructor; auto.
Qed.

Lemma flatten_objects s p os : Forall flat_obj_ok os -> forall os0, Forall2 reordered_object os0 os -> forall sts n,
  exists new n' ls one, fold_left (fun st o => flatten_object s p o st) os (sts, n) = (sts ++ new, n') /\
    WA s (map (pair p) os0) ls one /\ Permutation one new /\ labels_ok n n' ls.
Proof.
  induction os as [|o os IH]; intros F os0 R sts n; inversion F as [|? ? F1 F2]; inversion R as [|x1 ? y1 ? R1 R2]; subst; cbn [fold_left map].
  - exists [], n, [], []. rewrite app_nil_r. split; auto. split; [constructor|]. split; auto using labels_nil.
  - destruct (F1 _ R1 s p sts n) as (new1 & n1 & l1 & one1 & E1 & K1 & P1 & L1). rewrite E1.
    destruct (IH F2 _ R2 (sts ++ new1) n1) as (new2 & n2 & l2 & one2 & E2 & K2 & P2 & L2). rewrite E2.
    exists (new1 ++ new2), n2, (l1 ++ l2), (one1 ++ one2). rewrite app_assoc. split; auto. split; [constructor; auto|].
    split; [apply Permutation_app; auto|]. eapply labels_app; eauto.
Qed.

Lemma flatten_entries s m : Forall (fun e => Forall flat_obj_ok (snd e)) m -> forall m0,
  Forall2 (fun a b => fst a = fst b /\ Forall2 reordered_object (snd a) (snd b)) m0 m -> forall sts n,
  exists new n' ls one, fold_left (fun st (e : str * list robject) => let '(p, objects) := e in
      fold_left (fun st o => flatten_object s p o st) objects st) m (sts, n) = (sts ++ new, n') /\
    WA s (flat_map (fun e => map (pair (fst e)) (snd e)) m0) ls one /\ Permutation one new /\ labels_ok n n' ls.
Proof.
  induction m as [|[p os] m IH]; intros F m0 R sts n; inversion F as [|? ? F1 F2]; inversion R as [|x1 ? y1 ? R1 R2]; subst; cbn [fold_left flat_map].
  - exists [], n, [], []. rewrite app_nil_r. split; auto. split; [constructor|]. split; auto using labels_nil.
  - destruct R1 as [E0 R0]. destruct x1 as [p0 os0]. cbn [fst snd] in *. subst p0.
    destruct (flatten_objects s p os F1 os0 R0 sts n) as (new1 & n1 & l1 & one1 & E1 & K1 & P1 & L1). rewrite E1.
    destruct (IH F2 _ R2 (sts ++ new1) n1) as (new2 & n2 & l2 & one2 & E2 & K2 & P2 & L2). rewrite E2.
    exists (new1 ++ new2), n2, (l1 ++ l2), (one1 ++ one2). rewrite app_assoc. split; auto. split; [apply WA_app; auto|].
    split; [apply Permutation_app; auto|]. eapply labels_app; eauto.
Qed.

Lemma flatten_members b rs : Forall flat_ok rs -> forall rs0, Forall2 reordered rs0 rs -> forall i sts n,
  exists new n' ls each, snd (fold_left (fun (ist : N * fstate) r =>
             let '(index, st) := ist in
             (index + 1, push (flatten r st) (MkStmt (SBlank b) (rdf_member index) (to_object (r_subject r)))))
           rs (i, (sts, n))) = (sts ++ new, n') /\
   WE rs0 ls each /\ Permutation (numbered i b (map (fun r => to_object (r_subject r)) rs0) ++ each) new /\ labels_ok n n' ls.
Proof.
  induction rs as [|r rs IH]; intros F rs0 R i sts n; inversion F as [|? ? F1 F2]; inversion R as [|x1 ? y1 ? R1 R2]; subst; cbn [fold_left map numbered].
  - exists [], n, [], []. rewrite app_nil_r. split; auto. split; [constructor|]. split; auto using labels_nil.
  - destruct (F1 _ R1 sts n) as (new1 & n1 & l1 & E1 & K1 & L1). rewrite E1.
    set (t := MkStmt (SBlank b) (rdf_member i) (to_object (r_subject r))).
    change (push (sts ++ new1, n1) t) with ((sts ++ new1) ++ [t], n1).
    destruct (IH F2 _ R2 (i + 1) ((sts ++ new1) ++ [t]) n1) as (new2 & n2 & l2 & each2 & E2 & K2 & P2 & L2).
    exists (new1 ++ t :: new2), n2, (l1 ++ l2), (new1 ++ each2). split; [|split; [constructor; auto|split; [|eapply labels_app; eauto]]].
    + eapply eq_trans; [exact E2|]. rewrite <- !app_assoc. reflexivity.
    + assert (S : r_subject x1 = r_subject r) by (inversion R1; reflexivity).
      rewrite S. change (MkStmt (SBlank b) (rdf ($"_" ++ dec_N i)) (to_object (r_subject r))) with t. cbn [app].
      eapply perm_trans; [|apply Permutation_cons_app, Permutation_app_head, P2]. constructor.
      rewrite !app_assoc. apply Permutation_app_tail, Permutation_app_comm.
Qed.

Lemma flatten_ok : forall r, flat_ok r.
Proof.
  apply (resource_ind' flat_ok flat_obj_ok).
  - intros s m F r0 R sts n. inversion R; subst.
    destruct (flatten_entries s m F m1 H3 sts n) as (new & n' & ls & one & E & K & P & L).
    exists new, n', ls. split; [exact E|]. split; auto. econstructor; [|exact K|exact P].
    unfold pairs, r_preds. apply Permutation_flat_map, H2.
  - intros r IH o0 R s p sts n. inversion R; subst. destruct (IH _ H1 sts n) as (new & n' & ls & E & K & L).
    exists (new ++ [MkStmt s p (to_object s)]), n', ls, (MkStmt s p (code_link s (r_subject r0)) :: new).
    cbn [flatten_object]. rewrite E. unfold push. cbn [fst snd]. rewrite <- app_assoc. split; auto. split; [constructor; auto|].
    split; auto. apply Permutation_cons_append.
  - intros k rs IH o0 R s p sts n. inversion R; subst. cbn [flatten_object fst snd push to_object].
    destruct (flatten_members (gen_label n) rs IH rs0 H1 0
      ((sts ++ [MkStmt s p (OBlank (gen_label n))]) ++ [MkStmt (SBlank (gen_label n)) (rdf $"type") (ORes (kind_iri k))]) (n + 1))
      as (new & n' & ls & each & E & K & P & L).
    do 4 eexists. split; [eapply eq_trans; [exact E|]; rewrite <- !app_assoc; reflexivity|]. split; [apply WResources; exact K|]. split; [|apply labels_cons, L].
    cbn [app]. do 2 constructor. exact P.
  - intros l o0 R s p sts n. inversion R; subst. exists [MkStmt s p (OLit l)], n, [], [MkStmt s p (OLit l)].
    split; auto. split; [constructor|]. split; auto using labels_nil.
  - intros k ls o0 R s p sts n. inversion R; subst. cbn [flatten_object fst snd push to_object]. rewrite push_literals_spec.
    unfold push. cbn [fst snd]. do 4 eexists. rewrite <- !app_assoc. split; [reflexivity|]. split; [apply (WLits _ _ _ _ _ _ (gen_label n))|].
    split; [reflexivity|]. apply labels_cons, labels_nil.
Qed.

Lemma c31_exact r r' n : reordered r r' ->
  let '(sts, n') := r_statements r' n in
  exists labels, written (fun s _ => to_object s) 0 r labels sts /\
    n' = n + N.of_nat (length labels) /\ NoDup labels /\
    (forall b, In b labels -> exists k, n <= k < n' /\ b = gen_label k).
Proof.
  intros R. destruct (flatten_ok r' r R [] n) as (new & n' & ls & E & K & L). unfold r_statements. rewrite E.
  exists ls. split; auto.
Qed.

Lemma Forall2_refl_In {A} (R : A -> A -> Prop) l : Forall (fun x => R x x) l -> Forall2 R l l.
Proof. induction 1; auto. Qed.

Lemma reordered_refl : forall r, reordered r r.
Proof.
  apply (resource_ind' (fun r => reordered r r) (fun o => reordered_object o o)).
  - intros s m F. econstructor; [reflexivity|]. apply Forall2_refl_In. eapply Forall_impl; [|exact F].
    intros e H. split; auto. apply Forall2_refl_In, H.
  - intros r H. constructor; auto.
  - intros k rs F. constructor. apply Forall2_refl_In, F.
  - constructor.
  - constructor.
Qed.

(** *** Where the intended meaning is met *)
Lemma literals_written link first r ls sts : literals_only r -> written link first r ls sts ->
  ls = [] /\ Permutation (map (fun po => MkStmt (r_subject r) (fst po) (match snd po with RLit l => OLit l | _ => OColl [] end)) (pairs r)) sts.
Proof.
  intros L H. inversion H; subst. 
  assert (L' : Forall (fun po => exists l, snd po = RLit l) ps).
  { unfold literals_only in L; rewrite Forall_forall in *. intros x K. apply L. apply (Permutation_in x (Permutation_sym H0) K). }
  rewrite (Permutation_map _ H0).
  assert (K : ls = [] /\ map (fun po => MkStmt (r_subject r) (fst po) (match snd po with RLit l => OLit l | _ => OColl [] end)) ps = sts0).
  { clear - L' H1. revert ls sts0 H1. generalize (r_subject r). intros s.
    induction ps as [|[p o] ps IH]; intros ls sts0 H; inversion H as [|? ? ? ? l1 l2 st1 st2 Ho Ha]; subst; auto.
    inversion L' as [|? ? [l E] L2]; subst. cbn in E. subst o. inversion Ho; subst.
    destruct (IH L2 _ _ Ha) as [-> <-]. auto. }
  destruct K as [-> <-]. split; auto.
Qed.

Lemma literals_written_inv link first r sts : literals_only r ->
  Permutation (map (fun po => MkStmt (r_subject r) (fst po) (match snd po with RLit l => OLit l | _ => OColl [] end)) (pairs r)) sts ->
  written link first r [] sts.
Proof.
  intros L P. econstructor; [reflexivity| |exact P].
  unfold literals_only in L. generalize dependent (pairs r). intros ps L _. generalize (r_subject r). intros s.
  induction ps as [|[p o] ps IH]; [constructor|]. inversion L; subst. destruct H1 as [l E]. cbn in E. subst o.
  cbn [map]. apply (WCons link first s p (RLit l) ps [] [] [_] _); [apply WLit|]. apply IH; auto.
Qed.

Lemma c31_literals r r' n : reordered r r' -> literals_only r ->
  let '(sts, n') := r_statements r' n in intended r [] sts /\ n' = n.
Proof.
  intros R L. pose proof (c31_exact r r' n R) as H. destruct (r_statements r' n) as [sts n'].
  destruct H as (ls & K & E & _). destruct (literals_written _ _ _ _ _ L K) as [-> P]. split; [|cbn in E; lia].
  apply literals_written_inv; auto.
Qed.

(** *** The counterexamples *)
Lemma perm_singleton {A} (x y : A) : Permutation [x] [y] -> x = y.
Proof. intros H. apply Permutation_length_1 in H. exact H. Qed.

Lemma c31_nested_wrong s c p n : s <> c ->
  forall labels, ~ intended (r_insert (r_new s) p (RRes (r_new c))) labels
    (fst (r_statements (r_insert (r_new s) p (RRes (r_new c))) n)).
Proof.
  intros NE labels H. cbn in H. inversion H; subst. clear H. unfold pairs in H0. cbn in H0.
  apply Permutation_length_1_inv in H0. subst ps. cbn [r_subject r_insert r_new] in H1.
  inversion H1 as [|? ? ? ? l1 l2 st1 st2 Ho Ha]; subst. inversion Ha; subst.
  inversion Ho as [|? ? ? ls0 sts0 Hw| |]; subst. inversion Hw as [? ps ? sts1 ? P0 Wn P1]; subst.
  apply Permutation_nil in P0. subst ps. inversion Wn; subst. apply Permutation_nil in P1. subst.
  cbn [app] in H2. apply perm_singleton in H2. injection H2 as E. apply NE.
  destruct s, c; cbn in E; congruence.
Qed.

Lemma dec_N_01 : dec_N 1 <> dec_N 0.
Proof. vm_compute. discriminate. Qed.

Lemma c31_numbering_wrong s p l n : 
  forall labels, ~ intended (r_insert (r_new s) p (RLits KSeq [l])) labels
    (fst (r_statements (r_insert (r_new s) p (RLits KSeq [l])) n)).
Proof.
  intros labels H. unfold r_statements in H. cbn [r_insert r_new r_preds r_subject entry_push flatten fold_left flatten_object push_literals push fst snd app] in H.
  inversion H; subst. clear H. unfold pairs in H0. cbn [flat_map map r_preds r_insert r_new entry_push fst snd app] in H0.
  apply Permutation_length_1_inv in H0. subst ps. cbn [r_subject r_insert r_new] in H1.
  inversion H1 as [|? ? ? ? l1 l2 st1 st2 Ho Ha]; subst. inversion Ha; subst. inversion Ho; subst.
  cbn [app numbered map] in H2.
  assert (K : In (MkStmt (SBlank (gen_label n)) (rdf_member 0) (OLit l))
    [MkStmt s p (OBlank b); MkStmt (SBlank b) (rdf $"type") (ORes (kind_iri KSeq));
     MkStmt (SBlank b) (rdf ($"_" ++ dec_N 1)) (OLit l)]).
  { apply (Permutation_in _ (Permutation_sym H2)). right. right. left. reflexivity. }
  destruct K as [K|[K|[K|[]]]].
  - discriminate K.
  - discriminate K.
  - unfold rdf_member in K. assert (E : rdf ($"_" ++ dec_N 1) = rdf ($"_" ++ dec_N 0)) by congruence.
    vm_compute in E. discriminate E.
Qed.

Lemma c58_new b i n m : 
  r_is_a_resource (r_individual i) = true /\ r_is_a_resource (r_semi_anonymous b) = false /\
  r_is_a_resource (fst (r_anonymous n)) = false /\ r_preds (fst (r_anonymous n)) = [] /\
  r_preds (r_individual i) = [] /\ r_preds (r_semi_anonymous b) = [] /\
  r_subject (r_individual i) = SRes i /\ r_subject (r_semi_anonymous b) = SBlank b /\
  ((snd (r_anonymous n) <= m)%N -> r_subject (fst (r_anonymous n)) <> r_subject (fst (r_anonymous m))).
Proof.
  repeat (split; [reflexivity|]). unfold r_anonymous, r_new. cbn [fst snd r_subject]. intros L E.
  assert (X : gen_label n = gen_label m) by congruence. apply gen_label_inj in X. lia.
Qed.
