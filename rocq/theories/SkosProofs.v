(** Lemmas for the SKOS properties. *)
From Verif Require Import TermProofs.
From Verif Require Export SkosSpec.
From Coq Require Import Lia Permutation Arith.

Lemma step_rt_t (R : nat -> nat -> Prop) a b c : R a b -> clos_refl_trans nat R b c -> clos_trans nat R a c.
Proof.
  intros S T. apply clos_rt_rtn1 in T. induction T as [|y z D T IH]; [apply t_step, S|].
  eapply t_trans; [exact IH|apply t_step, D].
Qed.
Lemma t_rt (R : nat -> nat -> Prop) a b : clos_trans nat R a b -> clos_refl_trans nat R a b.
Proof. induction 1; [apply rt_step; assumption|eapply rt_trans; eassumption]. Qed.

(** ** Flattening, for any tree of places *)

(** Both flattenings are this one, for the places below a place. *)
Section Trees.
Variable below : nat -> list nat.
Fixpoint flatten (fuel k : nat) : option (list nat) :=
  match fuel with
  | O => None
  | S f => sequence (map (fun k' => option_map (fun subs => subs ++ [k']) (flatten f k')) (below k))
  end.
Definition flatten_all (fuel : nat) (ks : list nat) : option (list nat) :=
  sequence (map (fun k => option_map (fun subs => subs ++ [k]) (flatten fuel k)) ks).
Lemma flatten_S f k : flatten (S f) k = flatten_all f (below k).
Proof. reflexivity. Qed.

Lemma flatten_all_cons f k ks : flatten_all f (k :: ks) =
  match flatten f k with None => None | Some x => option_map (fun y => (x ++ [k]) ++ y) (flatten_all f ks) end.
Proof. unfold flatten_all. cbn [map sequence]. destruct (flatten f k); reflexivity. Qed.

Lemma flatten_all_app f ks ks' : flatten_all f (ks ++ ks') =
  match flatten_all f ks, flatten_all f ks' with Some a, Some b => Some (a ++ b) | _, _ => None end.
Proof.
  induction ks as [|k ks IH]; cbn [app]; [change (flatten_all f []) with (Some (@nil nat)); destruct (flatten_all f ks'); reflexivity|].
  rewrite !flatten_all_cons, IH. destruct (flatten f k); [|reflexivity]. destruct (flatten_all f ks); cbn; [|reflexivity].
  destruct (flatten_all f ks'); cbn; [|reflexivity]. rewrite !app_assoc. reflexivity.
Qed.

Lemma flatten_more f k l : flatten f k = Some l -> flatten (S f) k = Some l.
Proof.
  revert k l. induction f as [|f IH]; intros k l E; [discriminate E|]. rewrite flatten_S in *.
  revert l E. induction (below k) as [|a r IHr]; intros l E; [exact E|].
  rewrite flatten_all_cons in *. destruct (flatten f a) eqn:Ea; [|discriminate E].
  rewrite (IH _ _ Ea). destruct (flatten_all f r) eqn:Er; [|discriminate E]. rewrite (IHr _ eq_refl). exact E.
Qed.
Lemma flatten_mono f f' k l : (f <= f')%nat -> flatten f k = Some l -> flatten f' k = Some l.
Proof. induction 1; intros E; [exact E|]. apply flatten_more. apply IHle, E. Qed.
Lemma flatten_all_mono f f' ks l : (f <= f')%nat -> flatten_all f ks = Some l -> flatten_all f' ks = Some l.
Proof.
  intros L. revert l. induction ks as [|k ks IH]; intros l E; [exact E|]. rewrite flatten_all_cons in *.
  destruct (flatten f k) eqn:Ek; [|discriminate E]. rewrite (flatten_mono _ _ _ _ L Ek).
  destruct (flatten_all f ks); [|discriminate E]. rewrite (IH _ eq_refl). exact E.
Qed.

(** What is in the list. *)
Definition child (a b : nat) : Prop := In b (below a).
Lemma flatten_in f : (forall k l, flatten f k = Some l -> forall x, In x l <-> clos_trans nat child k x) /\
  (forall ks l, flatten_all f ks = Some l -> forall x, In x l <-> exists t, In t ks /\ clos_refl_trans nat child t x).
Proof.
  assert (step : forall f, (forall k l, flatten f k = Some l -> forall x, In x l <-> clos_trans nat child k x) ->
    forall ks l, flatten_all f ks = Some l -> forall x, In x l <-> exists t, In t ks /\ clos_refl_trans nat child t x).
  { clear f. intros f IH ks. induction ks as [|k ks IHk]; intros l E x.
    - injection E as <-. split; [intros []|intros (t & [] & _)].
    - rewrite flatten_all_cons in E. destruct (flatten f k) as [a|] eqn:Ea; [|discriminate E].
      destruct (flatten_all f ks) as [b|] eqn:Eb; [|discriminate E]. injection E as <-.
      rewrite !in_app_iff, (IH _ _ Ea), (IHk _ eq_refl). cbn. split.
      + intros [[T|[<-|[]]]|(t & I & T)]; [exists k|exists k|exists t]; (split; [auto|]).
        * apply t_rt, T.
        * apply rt_refl.
        * exact T.
      + intros (t & [<- | I] & T); [|right; exists t; auto].
        left. apply clos_rt_rtn1 in T. destruct T as [|y z C T]; [auto|]. left. apply clos_rtn1_rt in T.
        eapply clos_rt_t; [exact T|apply t_step, C]. }
  induction f as [|f [IH IHa]]; split.
  - intros k l E; discriminate E.
  - apply step. intros k l E; discriminate E.
  - intros k l E x. rewrite flatten_S in E. rewrite (IHa _ _ E). split.
    + intros (t & I & T). apply clos_rt_rtn1 in T. induction T as [|y z C T IHT]; [apply t_step, I|].
      eapply t_trans; [exact IHT|apply t_step, C].
    + intros T. apply clos_trans_t1n in T. destruct T as [y C|y z C T]; [exists y; split; [exact C|apply rt_refl]|].
      exists y. split; [exact C|]. apply t_rt, clos_t1n_trans, T.
  - apply step. intros k l E x. rewrite flatten_S in E. rewrite (IHa _ _ E). split.
    + intros (t & I & T). apply clos_rt_rtn1 in T. induction T as [|y z C T IHT]; [apply t_step, I|].
      eapply t_trans; [exact IHT|apply t_step, C].
    + intros T. apply clos_trans_t1n in T. destruct T as [y C|y z C T]; [exists y; split; [exact C|apply rt_refl]|].
      exists y. split; [exact C|]. apply t_rt, clos_t1n_trans, T.
Qed.

(** When it ends. *)
Inductive path : nat -> list nat -> Prop :=
| p_one k : path k [k]
| p_more k k' l : child k k' -> path k' l -> path k (k :: l).
Lemma flatten_none f k : flatten f k = None -> exists l, path k l /\ length l = S f.
Proof.
  revert k. induction f as [|f IH]; intros k E; [exists [k]; split; [constructor|reflexivity]|].
  rewrite flatten_S in E. assert (X : exists k', child k k' /\ flatten f k' = None).
  { unfold child. revert E. induction (below k) as [|a r IHr]; intros E; [discriminate E|].
    rewrite flatten_all_cons in E. destruct (flatten f a) eqn:Ea; [|exists a; split; [left; reflexivity|exact Ea]].
    destruct (flatten_all f r); [discriminate E|]. destruct (IHr eq_refl) as (k' & I & N). exists k'. split; [right; exact I|exact N]. }
  destruct X as (k' & C & N). destruct (IH _ N) as (l & P & L). exists (k :: l). split; [econstructor; eassumption|cbn; lia].
Qed.
Lemma path_reach k l : path k l -> forall x, In x l -> clos_refl_trans nat child k x.
Proof.
  induction 1 as [k|k k' l C P IH]; intros x I; [destruct I as [<-|[]]; apply rt_refl|].
  destruct I as [<-|I]; [apply rt_refl|]. eapply rt_trans; [apply rt_step, C|apply IH, I].
Qed.
Lemma path_cycle k l : path k l -> ~ NoDup l -> exists x, clos_refl_trans nat child k x /\ clos_trans nat child x x.
Proof.
  induction 1 as [k|k k' l C P IH]; intros N; [exfalso; apply N; constructor; [intros []|constructor]|].
  destruct (in_dec Nat.eq_dec k l) as [I|I].
  - exists k. split; [apply rt_refl|]. eapply step_rt_t; [exact C|eapply path_reach; eassumption].
  - destruct IH as (x & R & T); [intros D; apply N; constructor; assumption|].
    exists x. split; [eapply rt_trans; [apply rt_step, C|exact R]|exact T].
Qed.
Lemma path_last_free n k l : (forall a b, child a b -> (b < n)%nat) -> (k < n)%nat -> path k l -> Forall (fun x => (x < n)%nat) l.
Proof. intros B K P. revert K. induction P as [k|k k' l C P IH]; intros K; constructor; auto. apply IH. eapply B, C. Qed.

Lemma bounded_nodup n l : Forall (fun x => (x < n)%nat) l -> NoDup l -> (length l <= n)%nat.
Proof.
  intros F N. rewrite <- (seq_length n 0). apply NoDup_incl_length; [exact N|]. intros x I. apply in_seq.
  rewrite Forall_forall in F. specialize (F _ I). lia.
Qed.

Variable n : nat.
Hypothesis bound : forall a b, child a b -> (b < n)%nat.
Lemma flatten_ends k : (k < n)%nat -> ~ (exists x, clos_refl_trans nat child k x /\ clos_trans nat child x x) ->
  exists l, flatten n k = Some l.
Proof.
  intros K A. destruct (flatten n k) eqn:E; [eauto|]. exfalso. apply flatten_none in E as (l & P & L).
  apply A. apply (path_cycle _ _ P). intros N. apply (bounded_nodup n) in N; [lia|eapply path_last_free; eassumption].
Qed.
Lemma flatten_all_ends ks : (forall k, In k ks -> (k < n)%nat) ->
  ~ (exists t x, In t ks /\ clos_refl_trans nat child t x /\ clos_trans nat child x x) -> exists l, flatten_all n ks = Some l.
Proof.
  induction ks as [|k ks IH]; intros K A; [exists []; reflexivity|]. rewrite flatten_all_cons.
  destruct (flatten_ends k) as (a & Ea); [apply K; left; reflexivity|intros (x & R & T); apply A; exists k, x; split; [left; reflexivity|auto]|].
  rewrite Ea. destruct IH as (b & Eb); [intros k' I; apply K; right; exact I|intros (t & x & I & R); apply A; exists t, x; split; [right; exact I|exact R]|].
  rewrite Eb. eexists. reflexivity.
Qed.
End Trees.

(** A cycle does not end. *)
Lemma flatten_child_some below f k l k' : flatten below (S f) k = Some l -> child below k k' -> exists l', flatten below f k' = Some l'.
Proof.
  rewrite flatten_S. unfold child. revert l. induction (below k) as [|a r IH]; intros l E I; [destruct I|].
  rewrite flatten_all_cons in E. destruct (flatten below f a) eqn:Ea; [|discriminate E].
  destruct I as [<-|I]; [eauto|]. destruct (flatten_all below f r) eqn:Er; [|discriminate E]. eapply IH; [reflexivity|exact I].
Qed.
Lemma flatten_cycle below f : forall x, clos_trans nat (child below) x x -> flatten below f x = None.
Proof.
  induction f as [|f IH]; intros x T; [reflexivity|]. destruct (flatten below (S f) x) eqn:E; [|reflexivity]. exfalso.
  assert (X : exists y, child below x y /\ clos_trans nat (child below) y y).
  { pose proof T as T0. apply clos_trans_t1n in T. inversion T as [y C E1|y z C T' E1]; subst.
    - exists x. split; [exact C|exact T0].
    - exists y. split; [exact C|]. eapply t_trans; [apply clos_t1n_trans, T'|apply t_step, C]. }
  destruct X as (y & C & Ty). destruct (flatten_child_some _ _ _ _ _ E C) as (l' & E'). rewrite (IH _ Ty) in E'. discriminate E'.
Qed.
Lemma flatten_reach below k x : clos_refl_trans nat (child below) k x -> forall f l, flatten below f k = Some l ->
  exists f' l', flatten below f' x = Some l'.
Proof.
  intros R. apply clos_rt_rt1n in R. induction R as [|k y x C R IH]; intros f l E; [eauto|].
  destruct f as [|f]; [discriminate E|]. destruct (flatten_child_some _ _ _ _ _ E C) as (l' & E'). eapply IH, E'.
Qed.
Lemma flatten_all_each below f ks l : flatten_all below f ks = Some l -> forall k, In k ks -> exists l', flatten below f k = Some l'.
Proof.
  revert l. induction ks as [|a ks IH]; intros l E k I; [destruct I|]. rewrite flatten_all_cons in E.
  destruct (flatten below f a) eqn:Ea; [|discriminate E]. destruct I as [<-|I]; [eauto|].
  destruct (flatten_all below f ks) eqn:Ek; [|discriminate E]. eapply IH; [reflexivity|exact I].
Qed.
Lemma flatten_all_no_cycle below f ks l : flatten_all below f ks = Some l ->
  ~ (exists t x, In t ks /\ clos_refl_trans nat (child below) t x /\ clos_trans nat (child below) x x).
Proof.
  intros E (t & x & I & R & T). destruct (flatten_all_each _ _ _ _ E _ I) as (l1 & E1).
  destruct (flatten_reach _ _ _ R _ _ E1) as (f' & l2 & E2). rewrite (flatten_cycle _ _ _ T) in E2. discriminate E2.
Qed.

(** ** The two flattenings *)
Definition below_c (w : world) (k : nat) : list nat :=
  match nth_error (w_concepts w) k with
  | None => []
  | Some c => map snd (filter (fun rk => rel_is_narrower (fst rk)) (kc_concepts c))
  end.
Definition sub_places (ms : list member) : list nat :=
  flat_map (fun m => match m with MCollection k => [k] | MConcept _ => [] end) ms.
Definition below_l (w : world) (k : nat) : list nat :=
  match nth_error (w_collections w) k with None => [] | Some c => sub_places (kl_members c) end.

Lemma flat_c w f k : concepts_flattened f w k = flatten (below_c w) f k.
Proof.
  revert k. induction f as [|f IH]; intros k; [reflexivity|]. rewrite flatten_S. cbn [concepts_flattened]. unfold below_c at 2.
  destruct (nth_error (w_concepts w) k) as [c|]; [|reflexivity].
  induction (kc_concepts c) as [|[r k'] l IHl]; [reflexivity|]. cbn [map filter fst]. destruct (rel_is_narrower r).
  - cbn [map snd]. rewrite flatten_all_cons, <- IHl, IH. cbn [sequence]. destruct (flatten (below_c w) f k'); reflexivity.
  - rewrite <- IHl. cbn [sequence]. destruct (sequence _); reflexivity.
Qed.
Lemma flat_l w f k : collections_flattened f w k = flatten (below_l w) f k.
Proof.
  revert k. induction f as [|f IH]; intros k; [reflexivity|]. rewrite flatten_S. cbn [collections_flattened]. unfold below_l at 2.
  destruct (nth_error (w_collections w) k) as [c|]; [|reflexivity].
  induction (kl_members c) as [|[k'|k'] l IHl]; [reflexivity| |]; cbn [map sub_places flat_map].
  - cbn [sequence app]. unfold sub_places in IHl. rewrite <- IHl. destruct (sequence _); reflexivity.
  - change ([k'] ++ flat_map (fun m => match m with MCollection k => [k] | MConcept _ => [] end) l) with (k' :: sub_places l).
    rewrite flatten_all_cons, <- IHl, IH. cbn [sequence]. destruct (flatten (below_l w) f k'); reflexivity.
Qed.
Lemma scheme_flat_c w f : scheme_concepts_flattened f w = flatten_all (below_c w) f (ks_concepts (w_scheme w)).
Proof. unfold scheme_concepts_flattened, flatten_all. f_equal. apply map_ext. intros k. rewrite flat_c. reflexivity. Qed.
Lemma scheme_flat_l w f : scheme_collections_flattened f w = flatten_all (below_l w) f (ks_collections (w_scheme w)).
Proof. unfold scheme_collections_flattened, flatten_all. f_equal. apply map_ext. intros k. rewrite flat_l. reflexivity. Qed.

Lemma narrower_iff r : rel_is_narrower r = true <-> narrower r.
Proof. unfold narrower. destruct r; cbn; split; intros H; try discriminate; auto; destruct H as [H|[H|H]]; discriminate. Qed.
Lemma child_under w a b : child (below_c w) a b <-> under w a b.
Proof.
  unfold child, below_c, under. destruct (nth_error (w_concepts w) a) as [c|] eqn:E.
  - rewrite in_map_iff. split.
    + intros ([r k] & <- & I). apply filter_In in I as [I N]. exists c, r. split; [reflexivity|]. split; [exact I|]. apply narrower_iff, N.
    + intros (c' & r & E' & I & N). injection E' as <-. exists (r, b). split; [reflexivity|]. apply filter_In. split; [exact I|]. apply narrower_iff, N.
  - split; [intros []|intros (c & r & E' & _); discriminate E'].
Qed.
Lemma rt_ext (R S : nat -> nat -> Prop) : (forall a b, R a b <-> S a b) -> forall a b, clos_refl_trans nat R a b <-> clos_refl_trans nat S a b.
Proof.
  intros H a b. split; intros T; (induction T; [apply rt_step, H; assumption|apply rt_refl|eapply rt_trans; eassumption]).
Qed.
Lemma t_ext (R S : nat -> nat -> Prop) : (forall a b, R a b <-> S a b) -> forall a b, clos_trans nat R a b <-> clos_trans nat S a b.
Proof. intros H a b. split; intros T; (induction T; [apply t_step, H; assumption|eapply t_trans; eassumption]). Qed.

Lemma c_in_tree w f l : scheme_concepts_flattened f w = Some l -> forall k, In k l <-> in_tree w k.
Proof.
  rewrite scheme_flat_c. intros E k. destruct (flatten_in (below_c w) f) as [_ H]. rewrite (H _ _ E). unfold in_tree.
  split; intros (t & I & T); exists t; (split; [exact I|]); apply (rt_ext _ _ (child_under w)); exact T.
Qed.
Lemma c_cycle w f l : scheme_concepts_flattened f w = Some l -> ~ narrower_cycle w.
Proof.
  rewrite scheme_flat_c. intros E (k & (t & I & R) & T). apply (flatten_all_no_cycle _ _ _ _ E).
  exists t, k. split; [exact I|]. split; [apply (rt_ext _ _ (child_under w)), R|apply (t_ext _ _ (child_under w)), T].
Qed.

(** ** Places that exist *)
Definition ok_concept (nc : nat) (c : concept) : Prop := forall r k, In (r, k) (kc_concepts c) -> (k < nc)%nat.
Definition ok_member (nc nl : nat) (m : member) : Prop := match m with MConcept k => (k < nc)%nat | MCollection k => (k < nl)%nat end.
Definition ok_collection (nc nl : nat) (c : collection) : Prop := Forall (ok_member nc nl) (kl_members c).
Definition wf (w : world) : Prop :=
  let nc := length (w_concepts w) in let nl := length (w_collections w) in
  Forall (ok_concept nc) (w_concepts w) /\ Forall (ok_collection nc nl) (w_collections w) /\
  Forall (fun k => (k < nc)%nat) (ks_concepts (w_scheme w)) /\ Forall (fun k => (k < nl)%nat) (ks_collections (w_scheme w)).

Lemma update_length {A} k f (l : list A) : length (update k f l) = length l.
Proof. revert k. induction l as [|x l IH]; intros [|k]; cbn; auto. Qed.
Lemma update_forall {A} (P : A -> Prop) k f l : Forall P l -> (forall x, P x -> P (f x)) -> Forall P (update k f l).
Proof. intros F H. revert k. induction F as [|x l Px F IH]; intros [|k]; cbn; constructor; auto. Qed.
Lemma update_nth {A} k f (l : list A) j : nth_error (update k f l) j =
  if Nat.eqb k j then option_map f (nth_error l j) else nth_error l j.
Proof.
  revert k j. induction l as [|x l IH]; intros [|k] [|j]; cbn; try reflexivity; [destruct (Nat.eqb k j); reflexivity|apply IH].
Qed.
Lemma nth_app_one {A} (l : list A) x j : nth_error (l ++ [x]) j = if Nat.eqb j (length l) then Some x else nth_error l j.
Proof.
  destruct (Nat.eqb_spec j (length l)) as [->|N]; [rewrite nth_error_app2, Nat.sub_diag by lia; reflexivity|].
  destruct (Nat.lt_ge_cases j (length l)); [apply nth_error_app1; assumption|].
  rewrite (proj2 (nth_error_None l j)) by lia. apply nth_error_None. rewrite app_length. cbn. lia.
Qed.

Lemma ok_concept_weaken nc nc' c : (nc <= nc')%nat -> ok_concept nc c -> ok_concept nc' c.
Proof. intros L H r k I. specialize (H r k I). lia. Qed.
Lemma ok_collection_weaken nc nc' nl nl' c : (nc <= nc')%nat -> (nl <= nl')%nat -> ok_collection nc nl c -> ok_collection nc' nl' c.
Proof. intros L L'. unfold ok_collection. apply Forall_impl. intros [k|k]; cbn; lia. Qed.
Lemma forall_lt_weaken n n' l : (n <= n')%nat -> Forall (fun k => (k < n)%nat) l -> Forall (fun k => (k < n')%nat) l.
Proof. intros L. apply Forall_impl. intros k; lia. Qed.
Lemma ok_concept_new nc u l : ok_concept nc (concept_new u l).
Proof. intros r k []. Qed.
Lemma ok_add_concept nc r k c : (k < nc)%nat -> ok_concept nc c -> ok_concept nc (kc_add_concept r k c).
Proof. intros K H r' k' I. cbn in I. apply in_app_iff in I as [I|[E|[]]]; [eapply H, I|]. injection E as <- <-. exact K. Qed.
Lemma ok_add_member nc nl m c : ok_member nc nl m -> ok_collection nc nl c -> ok_collection nc nl (kl_add_member m c).
Proof. intros K H. unfold ok_collection. cbn. apply Forall_app. split; [exact H|]. constructor; [exact K|constructor]. Qed.

Lemma wf_step w o : wf w -> wf (skos_step w o).
Proof.
  intros (A & B & C & D). unfold wf. destruct o; cbn [skos_step].
  - cbn [w_on_scheme w_on_concepts w_concepts w_collections w_scheme ks_add_concept ks_concepts ks_collections]. rewrite app_length. cbn [length].
    split; [apply Forall_app; split; [eapply Forall_impl; [|exact A]; intros c; apply ok_concept_weaken; lia|constructor; [apply ok_concept_new|constructor]]|].
    split; [eapply Forall_impl; [|exact B]; intros c; apply ok_collection_weaken; lia|].
    split; [apply Forall_app; split; [eapply forall_lt_weaken; [|exact C]; lia|constructor; [lia|constructor]]|exact D].
  - destruct (Nat.ltb_spec k (length (w_concepts w))) as [L|L]; [|repeat (split; [assumption|]); assumption].
    cbn [w_on_scheme w_on_concepts w_concepts w_collections w_scheme]. rewrite app_length, update_length. cbn [length].
    split; [apply Forall_app; split; [|constructor; [apply ok_concept_new|constructor]]|].
    { apply update_forall; [eapply Forall_impl; [|exact A]; intros c; apply ok_concept_weaken; lia|]. intros c. apply ok_add_concept. lia. }
    split; [eapply Forall_impl; [|exact B]; intros c; apply ok_collection_weaken; lia|].
    split; [eapply forall_lt_weaken; [|exact C]; lia|exact D].
  - destruct (Nat.ltb_spec k' (length (w_concepts w))) as [L|L]; [|repeat (split; [assumption|]); assumption].
    cbn [w_on_scheme w_on_concepts w_concepts w_collections w_scheme]. rewrite update_length.
    split; [apply update_forall; [exact A|intros c; apply ok_add_concept, L]|]. repeat (split; [assumption|]); assumption.
  - cbn [w_on_scheme w_on_concepts w_concepts w_collections w_scheme ks_add_concept ks_concepts ks_collections]. rewrite app_length. cbn [length].
    split; [apply Forall_app; split; [eapply Forall_impl; [|exact A]; intros c; apply ok_concept_weaken; lia|constructor; [apply ok_concept_new|constructor]]|].
    split; [eapply Forall_impl; [|exact B]; intros c; apply ok_collection_weaken; lia|].
    split; [eapply forall_lt_weaken; [|exact C]; lia|exact D].
  - cbn [w_on_concepts w_concepts w_collections w_scheme]. rewrite update_length. split; [apply update_forall; [exact A|intros c H; exact H]|auto].
  - cbn [w_on_concepts w_concepts w_collections w_scheme]. rewrite update_length. split; [apply update_forall; [exact A|intros c H; exact H]|auto].
  - cbn [w_on_concepts w_concepts w_collections w_scheme]. rewrite update_length. split; [apply update_forall; [exact A|intros c H; exact H]|auto].
  - cbn [w_on_scheme w_on_collections w_concepts w_collections w_scheme ks_add_collection ks_concepts ks_collections]. rewrite app_length. cbn [length].
    split; [exact A|]. split; [apply Forall_app; split; [eapply Forall_impl; [|exact B]; intros c; apply ok_collection_weaken; lia|constructor; [constructor|constructor]]|].
    split; [exact C|]. apply Forall_app; split; [eapply forall_lt_weaken; [|exact D]; lia|constructor; [lia|constructor]].
  - destruct (Nat.ltb_spec k (length (w_collections w))) as [L|L]; [|repeat (split; [assumption|]); assumption].
    cbn [w_on_scheme w_on_collections w_concepts w_collections w_scheme]. rewrite app_length, update_length. cbn [length].
    split; [exact A|]. split; [apply Forall_app; split; [|constructor; [constructor|constructor]]|].
    { apply update_forall; [eapply Forall_impl; [|exact B]; intros c; apply ok_collection_weaken; lia|]. intros c. apply ok_add_member. cbn. lia. }
    split; [exact C|eapply forall_lt_weaken; [|exact D]; lia].
  - destruct (Nat.ltb_spec k' (length (w_concepts w))) as [L|L]; [|repeat (split; [assumption|]); assumption].
    cbn [w_on_scheme w_on_collections w_concepts w_collections w_scheme]. rewrite update_length.
    split; [exact A|]. split; [apply update_forall; [exact B|intros c; apply ok_add_member; exact L]|]. split; assumption.
  - cbn [w_on_collections w_concepts w_collections w_scheme]. rewrite update_length. split; [exact A|]. split; [apply update_forall; [exact B|intros c H; exact H]|auto].
  - cbn [w_on_collections w_concepts w_collections w_scheme]. rewrite update_length. split; [exact A|]. split; [apply update_forall; [exact B|intros c H; exact H]|auto].
  - repeat (split; [assumption|]); assumption.
  - repeat (split; [assumption|]); assumption.
Qed.
Lemma wf_run u l h : wf (skos_run (world_new u l) h).
Proof.
  unfold skos_run. assert (W : wf (world_new u l)) by (repeat split; constructor). revert W. generalize (world_new u l).
  induction h as [|o h IH]; intros w W; [exact W|]. apply IH, wf_step, W.
Qed.

Lemma c_ends w : wf w -> ~ narrower_cycle w -> exists l, scheme_concepts_flattened (length (w_concepts w)) w = Some l.
Proof.
  intros (A & _ & C & _) N. rewrite scheme_flat_c. apply flatten_all_ends.
  - intros a b Ch. unfold child, below_c in Ch. destruct (nth_error (w_concepts w) a) as [c|] eqn:E; [|destruct Ch].
    apply in_map_iff in Ch as ([r k] & <- & I). apply filter_In in I as [I _]. apply nth_error_In in E.
    rewrite Forall_forall in A. exact (A _ E r k I).
  - rewrite Forall_forall in C. exact C.
  - intros (t & x & I & R & T). apply N. exists x. split; [exists t; split; [exact I|apply (rt_ext _ _ (child_under w)), R]|].
    apply (t_ext _ _ (child_under w)), T.
Qed.

(** ** Every collection once *)
Lemma flatten_ext below below' n : (forall a b, child below a b -> (b < n)%nat) -> (forall j, (j < n)%nat -> below' j = below j) ->
  forall f, (forall k, (k < n)%nat -> flatten below' f k = flatten below f k) /\
            (forall ks, Forall (fun k => (k < n)%nat) ks -> flatten_all below' f ks = flatten_all below f ks).
Proof.
  intros B E.
  assert (step : forall f, (forall k, (k < n)%nat -> flatten below' f k = flatten below f k) ->
    forall ks, Forall (fun k => (k < n)%nat) ks -> flatten_all below' f ks = flatten_all below f ks).
  { intros f H ks F. induction F as [|k ks K F IH]; [reflexivity|]. rewrite !flatten_all_cons, (H k K), IH. reflexivity. }
  induction f as [|f [IH IHa]].
  - split; [intros k K; reflexivity|]. apply step. intros k K. reflexivity.
  - assert (H : forall k, (k < n)%nat -> flatten below' (S f) k = flatten below (S f) k).
    { intros k K. rewrite !flatten_S, (E k K). apply IHa. apply Forall_forall. intros b I. eapply B, I. }
    split; [exact H|]. apply step, H.
Qed.

Definition ins (k n : nat) (l : list nat) : list nat := flat_map (fun j => if Nat.eqb j k then [n; j] else [j]) l.
Lemma ins_app k n a b : ins k n (a ++ b) = ins k n a ++ ins k n b.
Proof. apply flat_map_app. Qed.
Lemma flatten_ins below below' k n : (k < n)%nat -> (forall a b, child below a b -> (b < n)%nat) ->
  (forall j, (j < n)%nat -> below' j = below j ++ (if Nat.eqb j k then [n] else [])) -> below' n = [] ->
  forall f, (forall j l, (j < n)%nat -> flatten below f j = Some l ->
               flatten below' (S f) j = Some (ins k n l ++ (if Nat.eqb j k then [n] else []))) /\
            (forall ks l, Forall (fun j => (j < n)%nat) ks -> flatten_all below f ks = Some l ->
               flatten_all below' (S f) ks = Some (ins k n l)).
Proof.
  intros K B E0 E1.
  assert (step : forall f, (forall j l, (j < n)%nat -> flatten below f j = Some l ->
      flatten below' (S f) j = Some (ins k n l ++ (if Nat.eqb j k then [n] else []))) ->
    forall ks l, Forall (fun j => (j < n)%nat) ks -> flatten_all below f ks = Some l -> flatten_all below' (S f) ks = Some (ins k n l)).
  { intros f H ks l F. revert l. induction F as [|j ks J F IH]; intros l El; [injection El as <-; reflexivity|].
    rewrite flatten_all_cons in El. destruct (flatten below f j) as [a|] eqn:Ea; [|discriminate El].
    destruct (flatten_all below f ks) as [b|] eqn:Eb; [|discriminate El]. injection El as <-.
    rewrite flatten_all_cons, (H _ _ J Ea), (IH _ eq_refl). cbn [option_map]. rewrite !ins_app. cbn. 
    destruct (Nat.eqb j k); rewrite <- ?app_assoc; cbn; rewrite ?app_nil_r; reflexivity. }
  induction f as [|f [IH IHa]].
  - split; [intros j l J Ej; discriminate Ej|]. apply step. intros j l J Ej. discriminate Ej.
  - assert (H : forall j l, (j < n)%nat -> flatten below (S f) j = Some l ->
        flatten below' (S (S f)) j = Some (ins k n l ++ (if Nat.eqb j k then [n] else []))).
    { intros j l J Ej. rewrite flatten_S in Ej |- *. rewrite (E0 j J), flatten_all_app.
      rewrite (IHa (below j) l); [|apply Forall_forall; intros b I; eapply B, I|exact Ej].
      destruct (Nat.eqb j k); [|reflexivity]. rewrite flatten_all_cons, flatten_S, E1. reflexivity. }
    split; [exact H|]. apply step, H.
Qed.

Definition once (w : world) : Prop := exists f F, flatten_all (below_l w) f (ks_collections (w_scheme w)) = Some F /\
  Permutation F (seq 0 (length (w_collections w))).
Lemma below_l_bound w : wf w -> forall a b, child (below_l w) a b -> (b < length (w_collections w))%nat.
Proof.
  intros (_ & B & _) a b C. unfold child, below_l in C. destruct (nth_error (w_collections w) a) as [c|] eqn:E; [|destruct C].
  apply nth_error_In in E. rewrite Forall_forall in B. specialize (B _ E). unfold ok_collection in B. rewrite Forall_forall in B.
  unfold sub_places in C. apply in_flat_map in C as ([k|k] & I & C); [destruct C|]. destruct C as [<-|[]]. exact (B _ I).
Qed.
Lemma once_same w w' : wf w -> length (w_collections w') = length (w_collections w) ->
  ks_collections (w_scheme w') = ks_collections (w_scheme w) -> (forall j, below_l w' j = below_l w j) -> once w -> once w'.
Proof.
  intros W L T E (f & F & EF & P). exists f, F. rewrite L, T. split; [|exact P].
  destruct (flatten_ext (below_l w) (below_l w') (length (w_collections w)) (below_l_bound w W) (fun j _ => E j) f) as [_ H].
  rewrite H; [exact EF|]. apply W.
Qed.
Lemma below_l_update w k g : (forall c, sub_places (kl_members (g c)) = sub_places (kl_members c)) ->
  forall j, below_l (w_on_collections (update k g) w) j = below_l w j.
Proof.
  intros H j. unfold below_l. cbn [w_on_collections w_collections]. rewrite update_nth.
  destruct (Nat.eqb k j); [|reflexivity]. destruct (nth_error (w_collections w) j); [apply H|reflexivity].
Qed.
Lemma ins_perm k n F : (k < n)%nat -> Permutation F (seq 0 n) -> Permutation (ins k n F) (seq 0 (S n)).
Proof.
  intros K P. assert (N : NoDup F) by (eapply Permutation_NoDup; [apply Permutation_sym, P|apply seq_NoDup]).
  assert (I : In k F) by (eapply Permutation_in; [apply Permutation_sym, P|apply in_seq; lia]).
  apply in_split in I as (a & b & ->). rewrite seq_S. cbn [plus].
  assert (Q : Permutation (ins k n (a ++ k :: b)) (n :: a ++ k :: b)).
  { rewrite ins_app. cbn. rewrite Nat.eqb_refl. fold (ins k n b). assert (X : forall l, ~ In k l -> ins k n l = l).
    { induction l as [|x l IH]; intros NI; [reflexivity|]. cbn. destruct (Nat.eqb_spec x k) as [->|Ne]; [exfalso; apply NI; left; reflexivity|].
      cbn. f_equal. apply IH. intros J; apply NI; right; exact J. }
    apply NoDup_remove_2 in N. rewrite (X a), (X b); [|intros J; apply N, in_app_iff; auto|intros J; apply N, in_app_iff; auto].
    cbn. apply Permutation_sym, Permutation_middle. }
  eapply perm_trans; [exact Q|]. eapply perm_trans; [apply perm_skip, P|]. apply Permutation_cons_append.
Qed.
Lemma once_step w o : wf w -> once w -> once (skos_step w o).
Proof.
  intros W O. destruct o; cbn [skos_step]; try (apply (once_same w); [exact W|reflexivity|reflexivity|intros j; reflexivity|exact O]).
  - destruct (Nat.ltb k (length (w_concepts w))); [|exact O]. apply (once_same w); [exact W|reflexivity|reflexivity|intros j; reflexivity|exact O].
  - destruct (Nat.ltb k' (length (w_concepts w))); [|exact O]. apply (once_same w); [exact W|reflexivity|reflexivity|intros j; reflexivity|exact O].
  - destruct O as (f & F & E & P). exists (S f), (F ++ [length (w_collections w)]).
    cbn [w_on_scheme w_on_collections w_scheme w_collections ks_add_collection ks_collections]. rewrite app_length. cbn [length].
    set (w' := w_on_scheme _ _). assert (B : forall j, (j < length (w_collections w))%nat -> below_l w' j = below_l w j).
    { intros j J. unfold below_l, w'. cbn [w_on_scheme w_on_collections w_collections]. rewrite nth_error_app1 by exact J. reflexivity. }
    split.
    + rewrite flatten_all_app. destruct (flatten_ext (below_l w) (below_l w') (length (w_collections w)) (below_l_bound w W) B (S f)) as [_ H].
      rewrite H by apply W. rewrite (flatten_all_mono _ f (S f) _ F); [|lia|exact E].
      assert (Z : below_l w' (length (w_collections w)) = []).
      { unfold below_l, w'. cbn [w_on_scheme w_on_collections w_collections]. rewrite nth_error_app2, Nat.sub_diag by lia. reflexivity. }
      rewrite flatten_all_cons, flatten_S, Z. reflexivity.
    + rewrite Nat.add_1_r, seq_S. apply Permutation_app_tail, P.
  - destruct (Nat.ltb_spec k (length (w_collections w))) as [K|K]; [|exact O]. destruct O as (f & F & E & P).
    exists (S f), (ins k (length (w_collections w)) F).
    cbn [w_on_collections w_scheme w_collections]. rewrite app_length, update_length. cbn [length]. rewrite Nat.add_1_r.
    split; [|apply ins_perm; [exact K|exact P]].
    set (w' := w_on_collections _ w). set (n := length (w_collections w)) in *.
    destruct (flatten_ins (below_l w) (below_l w') k n K (below_l_bound w W)) with (f := f) as [_ H].
    + intros j J. unfold below_l, w'. cbn [w_on_collections w_collections]. rewrite nth_error_app1 by (rewrite update_length; exact J).
      rewrite update_nth, (Nat.eqb_sym k j). destruct (Nat.eqb j k); [|rewrite app_nil_r; reflexivity].
      destruct (nth_error (w_collections w) j) eqn:Ej; [|apply nth_error_None in Ej; fold n in Ej; lia].
      cbn. unfold sub_places. rewrite flat_map_app. reflexivity.
    + unfold below_l, w'. cbn [w_on_collections w_collections]. rewrite nth_error_app2 by (rewrite update_length; unfold n; lia). rewrite update_length.
      unfold n. rewrite Nat.sub_diag. reflexivity.
    + apply H; [apply W|exact E].
  - destruct (Nat.ltb k' (length (w_concepts w))); [|exact O]. apply (once_same w); [exact W|apply update_length|reflexivity| |exact O].
    apply below_l_update. intros c. cbn. unfold sub_places. rewrite flat_map_app. apply app_nil_r.
  - apply (once_same w); [exact W|apply update_length|reflexivity| |exact O]. apply below_l_update. reflexivity.
  - apply (once_same w); [exact W|apply update_length|reflexivity| |exact O]. apply below_l_update. reflexivity.
Qed.
Lemma once_run u l h : once (skos_run (world_new u l) h).
Proof.
  unfold skos_run. assert (W : wf (world_new u l)) by (repeat split; constructor).
  assert (O : once (world_new u l)) by (exists 0%nat, []; split; [reflexivity|constructor]). revert W O. generalize (world_new u l).
  induction h as [|o h IH]; intros w W O; [exact O|]. apply IH; [apply wf_step, W|apply once_step; assumption].
Qed.
Lemma l_perm w f l : once w -> scheme_collections_flattened f w = Some l -> Permutation l (seq 0 (length (w_collections w))).
Proof.
  rewrite scheme_flat_l. intros (f' & F & E' & P) E.
  apply (flatten_all_mono _ f (max f f')) in E; [|lia]. apply (flatten_all_mono _ f' (max f f')) in E'; [|lia].
  rewrite E in E'. injection E' as ->. exact P.
Qed.
