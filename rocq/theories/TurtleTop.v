(** What follows for whole Turtle documents; see PropsTurtle.v. *)
From Verif Require Import Turtle TurtleSpec TurtleProofs TurtleRuns TurtleShape TurtleMain GraphProofs TermProofs ResourceProofs ReifyProofs StrFacts GraphSpec.
From Coq Require Import Permutation Relations Sorted Lia.
Local Opaque group_predicate pg_map.

(** ** Termination *)
Lemma size_universe g : length (universe g) = graph_size g.
Proof.
  unfold universe, graph_size. induction (g_list g) as [|st l IH]; [reflexivity|]. cbn [flat_map map]. rewrite app_length, IH.
  rewrite <- osize_parts. reflexivity.
Qed.
Lemma c48_terminates c g mappings : setting_ok c -> nest_blank_nodes (t_opts c) = false \/ ~ cyclic g ->
  exists r, r <> OutOfFuel /\ forall f, (graph_size g < f)%nat -> doc_of c g mappings f = r.
Proof.
  intros (Op & Oo & Os) A. exists (doc_of c g mappings (S (graph_size g))). split.
  - unfold doc_of. apply doc_terminates; auto. rewrite size_universe. lia.
  - intros f L. unfold doc_of. apply doc_more; [lia|]. apply doc_terminates; auto. rewrite size_universe. lia.
Qed.
Lemma c48_more c g mappings f f' : (f <= f')%nat -> doc_of c g mappings f <> OutOfFuel ->
  doc_of c g mappings f' = doc_of c g mappings f.
Proof. intros. unfold doc_of. apply doc_more; auto. Qed.
Lemma c48_never c g mappings f out : setting_ok c -> nest_blank_nodes (t_opts c) = true -> cyclic g ->
  doc_of c g mappings f <> Done out.
Proof. intros (Op & Oo & Os) N C. unfold doc_of. apply doc_cyclic; auto. Qed.

Lemma room_roomy c f : has_room c f -> roomy (t_modulus c) f ind_default /\
  roomy (t_modulus c) (S f) (with_default_indent_width ind_default (indent_width (t_opts c))).
Proof.
  intros [W R]. unfold roomy, with_default_indent_width, ind_default. cbn [width current].
  set (w := indent_width (t_opts c)) in *. set (k := N.max 2 w) in *. assert (2 <= k /\ w <= k) as [K1 K2] by lia.
  split; (split; [lia|]).
  - eapply N.le_lt_trans; [|exact R]. nia.
  - eapply N.le_lt_trans; [|exact R]. nia.
Qed.
Lemma c62_shape c g mappings f : setting_ok c -> can_write c g -> has_room c f ->
  doc_of c g mappings f = OutOfFuel \/
  exists out d, doc_of c g mappings f = Done out /\ document c g d /\
    tight out = head_of c mappings ++ flat_map (block_pieces [Sign $","]) d.
Proof.
  intros (Op & Oo & Os) W R. destruct (room_roomy c f R) as [R1 R2]. unfold doc_of, document, head_of.
  apply doc_shape; auto.
Qed.
Lemma c48_diverges c g mappings f : setting_ok c -> nest_blank_nodes (t_opts c) = true -> cyclic g ->
  can_write c g -> has_room c f -> doc_of c g mappings f = OutOfFuel.
Proof.
  intros S N C W R. destruct (c62_shape c g mappings f S W R) as [E|(out & d & E & _)]; auto.
  destruct (c48_never c g mappings f out S N C E).
Qed.
Lemma c62_document c g mappings f : setting_ok c -> can_write c g -> has_room c f -> (graph_size g < f)%nat ->
  nest_blank_nodes (t_opts c) = false \/ ~ cyclic g ->
  exists out d, doc_of c g mappings f = Done out /\ document c g d /\
    tight out = head_of c mappings ++ flat_map (block_pieces [Sign $","]) d.
Proof.
  intros S W R L A. destruct (c62_shape c g mappings f S W R) as [E|H]; auto.
  destruct (c48_terminates c g mappings S A) as (r & N & H). rewrite (H f L) in E. contradiction.
Qed.

(** ** Trees *)
Section TreeInd.
Variable P : tree -> Prop.
Hypothesis HL : forall w, P (Leaf w).
Hypothesis HP : forall po, (forall e t, In e po -> In t (snd e) -> P t) -> P (Props po).
Hypothesis HI : forall l, (forall t, In t l -> P t) -> P (Items l).
Fixpoint tree_induction (t : tree) : P t :=
  match t with
  | Leaf w => HL w
  | Props po => HP po
      ((fix go (po : list (str * list tree)) : forall e t, In e po -> In t (snd e) -> P t :=
          match po with
          | [] => fun e t I => match I with end
          | e0 :: r => fun e t I J =>
              match I with
              | or_introl E =>
                  (fix go2 (l : list tree) : In t l -> P t :=
                     match l with
                     | [] => fun I => match I with end
                     | x :: l' => fun I => match I with
                                           | or_introl E2 => match E2 in _ = y return P y with eq_refl => tree_induction x end
                                           | or_intror I' => go2 l' I'
                                           end
                     end) (snd e0) (match eq_sym E in _ = y return In t (snd y) with eq_refl => J end)
              | or_intror I' => go r e t I' J
              end
          end) po)
  | Items l => HI l
      ((fix go (l : list tree) : forall t, In t l -> P t :=
          match l with
          | [] => fun t I => match I with end
          | x :: r => fun t I => match I with
                                 | or_introl E => match E in _ = y return P y with eq_refl => tree_induction x end
                                 | or_intror I' => go r t I'
                                 end
          end) l)
  end.
End TreeInd.

Lemma list_sum_cons x l : list_sum (x :: l) = (x + list_sum l)%nat.
Proof. reflexivity. Qed.
Lemma list_sum_0 {A} (f : A -> nat) l : (forall x, In x l -> f x = 0%nat) -> list_sum (map f l) = 0%nat.
Proof. intros H. induction l as [|x l IH]; [reflexivity|]. cbn. rewrite (H x) by (left; auto). apply IH. intros y I. apply H. right. exact I. Qed.
Lemma list_sum_In {A} (f : A -> nat) l x : In x l -> (f x <= list_sum (map f l))%nat.
Proof. intros H. induction l as [|y l IH]; [destruct H|]. cbn. fold (list_sum (map f l)). destruct H as [->|H]; [lia|]. specialize (IH H). lia. Qed.
Lemma Forall2_In_r {A B} (R : A -> B -> Prop) l l' y : Forall2 R l l' -> In y l' -> exists x, In x l /\ R x y.
Proof. induction 1 as [|a b l l' H F IH]; intros I; [destruct I|]. destruct I as [->|I]; [exists a; cbn; auto|]. destruct (IH I) as (x & K & L). exists x. cbn. auto. Qed.
Lemma Forall2_In_l {A B} (R : A -> B -> Prop) l l' x : Forall2 R l l' -> In x l -> exists y, In y l' /\ R x y.
Proof. induction 1 as [|a b l l' H F IH]; intros I; [destruct I|]. destruct I as [->|I]; [exists b; cbn; auto|]. destruct (IH I) as (y & K & L). exists y. cbn. auto. Qed.

(** ** Statements at the top level *)
Section Top.
Variable g : graph.
Variable nest : bool.
Variable iri_w verb_w : str -> option str.
Variable lit_w : literal -> option str.
Notation shows := (shows g nest iri_w verb_w lit_w).
Notation shows_entry := (shows_entry g nest iri_w verb_w lit_w).
Notation shows_entries := (shows_entries g nest iri_w verb_w lit_w).
Notation shows_graph := (shows_graph g nest iri_w verb_w lit_w).

Lemma entry_triples s p e : shows_entry s p e -> exists l, NoDup l /\
  (forall st, In st l <-> In st (g_list g) /\ st_subject st = s /\ st_predicate st = p) /\
  Forall2 (fun st t => verb_w (st_predicate st) = Some (fst e) /\ shows (st_object st) t) l (snd e).
Proof.
  intros H. inversion H as [s' p' v os ts V N I F]; subst. exists (map (MkStmt s p) os). split.
  - apply FinFun.Injective_map_NoDup; auto. intros x y E. congruence.
  - split.
    + intros st. rewrite in_map_iff. split.
      * intros (o & <- & J). apply I in J. auto.
      * destruct st as [s' p' o]. cbn. intros (J & -> & ->). exists o. split; auto. apply I. exact J.
    + cbn [fst snd]. clear -F V. induction F; cbn; constructor; auto.
Qed.
Definition said (w : str) (st : statement) (x : str * str * tree) : Prop :=
  fst (fst x) = w /\ verb_w (st_predicate st) = Some (snd (fst x)) /\ shows (st_object st) (snd x).
Lemma entries_triples w s po : shows_entries s po -> exists l, NoDup l /\
  (forall st, In st l <-> In st (g_list g) /\ st_subject st = s) /\
  Forall2 (said w) l (flat_map (fun e => map (fun t => (w, fst e, t)) (snd e)) po).
Proof.
  intros H. inversion H as [s' ps po' N R I F Sn]; subst.
  enough (K : exists l, NoDup l /\ (forall st, In st l <-> In st (g_list g) /\ st_subject st = s /\ In (st_predicate st) ps) /\
    Forall2 (said w) l (flat_map (fun e => map (fun t => (w, fst e, t)) (snd e)) po)).
  { destruct K as (l & K1 & K2 & K3). exists l. split; auto. split; auto. intros st. rewrite K2. split; [tauto|].
    intros [J E]. split; auto. split; auto. apply I. destruct st as [s' p o]. cbn in *. subst. eauto. }
  clear H R I Sn. induction F as [|p e ps po E F IH]; [exists []; split; [constructor|split; [|constructor]]; cbn; tauto|].
  inversion_clear N as [|? ? N1 N2]. destruct (IH N2) as (l & K1 & K2 & K3).
  destruct (entry_triples s p e E) as (k & L1 & L2 & L3). exists (k ++ l). split; [|split].
  - apply NoDup_app'; auto. intros st I1 I2. apply L2 in I1 as (_ & _ & E1). apply K2 in I2 as (_ & _ & I2). congruence.
  - intros st. rewrite in_app_iff, L2, K2. cbn. intuition congruence.
  - cbn [flat_map]. apply Forall2_app; auto. clear -L3. induction L3 as [|st t k ts [H1 H2] F IH]; cbn; constructor; auto.
    split; auto.
Qed.
Notation says := (says g nest iri_w verb_w lit_w).
Lemma graph_triples d : shows_graph d -> exists l, NoDup l /\ (forall st, In st l <-> In st (g_list g)) /\
  Forall2 says l (top_triples d).
Proof.
  intros (nodes & blanks & N & I & _ & _ & _ & F).
  enough (K : exists l, NoDup l /\ (forall st, In st l <-> In st (g_list g) /\ In (st_subject st) (nodes ++ blanks)) /\
    Forall2 says l (top_triples d)).
  { destruct K as (l & K1 & K2 & K3). exists l. split; auto. split; auto. intros st. rewrite K2. split; [tauto|].
    intros J. split; auto. apply I. destruct st as [s p o]. cbn. eauto. }
  clear I. induction F as [|s b ss d [W E] F IH]; [exists []; split; [constructor|split; [|constructor]]; cbn; tauto|].
  inversion_clear N as [|? ? N1 N2]. destruct (IH N2) as (l & K1 & K2 & K3).
  destruct (entries_triples (fst b) s (snd b) E) as (k & L1 & L2 & L3). exists (k ++ l). split; [|split].
  - apply NoDup_app'; auto. intros st I1 I2. apply L2 in I1 as (_ & E1). apply K2 in I2 as (_ & I2). congruence.
  - intros st. rewrite in_app_iff, L2, K2. cbn. intuition congruence.
  - change (top_triples (b :: d)) with (flat_map (fun e => map (fun t => (fst b, fst e, t)) (snd e)) (snd b) ++ top_triples d).
    apply Forall2_app; auto. assert (A : forall st, In st k -> st_subject st = s) by (intros st J; apply L2 in J; tauto).
    clear -L3 A W. induction L3 as [|st t k ts (H1 & H2 & H3) F IH]; constructor.
    + split; [|split; auto]. rewrite (A st (or_introl eq_refl)), W, H1. reflexivity.
    + apply IH. intros st' J. apply A. right. exact J.
Qed.

(** Without nesting nothing else is said. *)
Lemma flat_count t : nest = false -> forall o, shows o t -> tree_count t = 0%nat.
Proof.
  intros N. induction t as [w|po IH|l IH] using tree_induction; intros o H; [reflexivity| |].
  - inversion H; congruence.
  - inversion H as [| | | |items ts F]; subst. cbn [tree_count]. apply list_sum_0. intros t I.
    destruct (Forall2_In_r _ _ _ _ F I) as (x & _ & S). eapply IH; eauto.
Qed.
Lemma count_top d : (forall x, In x (top_triples d) -> tree_count (snd x) = 0%nat) -> doc_count d = length (top_triples d).
Proof.
  unfold doc_count. intros H. induction (top_triples d) as [|x l IH]; [reflexivity|]. cbn. rewrite (H x) by (left; auto).
  cbn. f_equal. apply IH. intros y I. apply H. right. exact I.
Qed.
Lemma count_top_lt d x : In x (top_triples d) -> (0 < tree_count (snd x))%nat -> (length (top_triples d) < doc_count d)%nat.
Proof.
  unfold doc_count. assert (L : forall l : list (str * str * tree), (length l <= list_sum (map (fun x => S (tree_count (snd x))) l))%nat).
  { induction l; cbn [map length]; [auto|]. rewrite list_sum_cons. lia. }
  induction (top_triples d) as [|y l IH]; intros I P; [destruct I|]. cbn [map length].
  rewrite list_sum_cons. destruct I as [->|I].
  - specialize (L l). lia.
  - specialize (IH I P). lia.
Qed.
(** A nested blank node has its statements there as well. *)
Lemma nested_count o t b : shows o t -> inside (OBlank b) o -> nest = true ->
  (exists p x, In (MkStmt (SBlank b) p x) (g_list g)) -> (0 < tree_count t)%nat.
Proof.
  intros H I N Ex. remember (OBlank b) as ob eqn:Eb. revert t H. induction I as [o|o x items J I IH]; intros t H; subst o.
  - inversion H as [| | |b' po N' Sp|]; subst; [congruence|]. destruct Ex as (p & x & Ex).
    inversion Sp as [s ps po' _ _ K F]; subst. assert (Ip : In p ps) by (apply K; eauto).
    destruct (Forall2_In_l _ _ _ _ F Ip) as (e & Ie & Se). inversion Se as [s p' v os ts V Nd A Ft]; subst.
    destruct (Forall2_In_l _ _ _ _ Ft (proj2 (A x) Ex)) as (t & It & _).
    cbn [tree_count]. eapply Nat.lt_le_trans;
      [|apply (list_sum_In (fun e => list_sum (map (fun t => S (tree_count t)) (snd e))) po _ Ie)].
    cbn [snd]. eapply Nat.lt_le_trans; [|apply (list_sum_In (fun t => S (tree_count t)) ts _ It)]. lia.
  - inversion H as [| | | |items' ts F]; subst. destruct (Forall2_In_l _ _ _ _ F J) as (t & It & St).
    cbn [tree_count]. eapply Nat.lt_le_trans; [apply (IH eq_refl t St)|]. apply (list_sum_In tree_count ts _ It).
Qed.
Lemma nested_twice d s p o b : shows_graph d -> nest = true -> In (MkStmt s p o) (g_list g) -> inside (OBlank b) o ->
  (exists q x, In (MkStmt (SBlank b) q x) (g_list g)) -> (length (top_triples d) < doc_count d)%nat.
Proof.
  intros D N I J Ex. destruct (graph_triples d D) as (l & _ & A & F).
  destruct (Forall2_In_l _ _ _ _ F (proj2 (A _) I)) as (x & Ix & _ & _ & S). apply (count_top_lt d x Ix).
  eapply nested_count; eauto.
Qed.
End Top.

(** ** The grammar *)
Notation comma := [Sign $","].
Lemma joinp_ext {A} (f h : A -> list piece) sep l : (forall x, In x l -> f x = h x) -> joinp sep (map f l) = joinp sep (map h l).
Proof. intros H. f_equal. apply map_ext_in. exact H. Qed.
Lemma list_sum_0_In {A} (f : A -> nat) l x : list_sum (map f l) = 0%nat -> In x l -> f x = 0%nat.
Proof. intros H I. pose proof (list_sum_In f l x I). lia. Qed.
Lemma tree_no_long t : long_items t = 0%nat -> tree_pieces comma t = tree_pieces [] t.
Proof.
  induction t as [w|po IH|l IH] using tree_induction; intros H; [reflexivity| |]; cbn [long_items tree_pieces] in *.
  - f_equal. f_equal. apply joinp_ext. intros e Ie. f_equal. apply joinp_ext. intros t It. apply (IH e t Ie It).
    eapply list_sum_0_In; [|exact It]. apply (list_sum_0_In (fun e => list_sum (map long_items (snd e))) po e H Ie).
  - f_equal. f_equal. destruct l as [|x [|y l]]; [reflexivity| |discriminate]. cbn. apply IH; [left; reflexivity|].
    cbn in H. lia.
Qed.
Lemma block_no_long b : (forall x, In x (top_triples [b]) -> long_items (snd x) = 0%nat) ->
  block_pieces comma b = block_pieces [] b.
Proof.
  destruct b as [w po]. unfold block_pieces, top_triples. cbn [fst snd flat_map]. rewrite app_nil_r. intros H. f_equal. f_equal.
  unfold entries_pieces. apply joinp_ext. intros e Ie. unfold entry_pieces. f_equal. apply joinp_ext. intros t It.
  apply tree_no_long. apply (H (w, fst e, t)). apply in_flat_map. exists e. split; auto. apply in_map_iff. eauto.
Qed.
Lemma doc_no_long d : no_long_items d -> flat_map (block_pieces comma) d = flat_map (block_pieces []) d.
Proof.
  intros H. assert (K : forall b, In b d -> block_pieces comma b = block_pieces [] b).
  { intros b I. apply block_no_long. intros [[s v] t] J. apply (H s v t). unfold top_triples in *. cbn in J.
    rewrite app_nil_r in J. apply in_flat_map. eauto. }
  clear H. induction d as [|b d IH]; [reflexivity|]. cbn [flat_map]. rewrite K by (left; auto). rewrite IH; auto.
  intros b' I. apply K. right. exact I.
Qed.
(** What is open: [None] if a comma has been met directly within parentheses. *)
Fixpoint scan (st : list bool) (l : list piece) : option (list bool) :=
  match l with
  | [] => Some st
  | Sign s :: r =>
      if str_eqb s $"[" then scan (true :: st) r
      else if str_eqb s $"(" then scan (false :: st) r
      else if str_eqb s $"]" || str_eqb s $")" then scan (tl st) r
      else if str_eqb s $"," then match st with false :: _ => None | _ => scan st r end
      else scan st r
  | _ :: r => scan st r
  end.
Lemma scan_app l1 l2 st : scan st (l1 ++ l2) = match scan st l1 with Some st' => scan st' l2 | None => None end.
Proof.
  revert st. induction l1 as [|[w|w|w] l1 IH]; intros st; cbn [app scan]; auto.
  destruct (str_eqb w $"["); auto. destruct (str_eqb w $"("); auto. destruct (str_eqb w $"]" || str_eqb w $")"); auto.
  destruct (str_eqb w $","); auto. destruct st as [|[] st]; auto.
Qed.
Definition steady (st : list bool) (l : list piece) : Prop := scan st l = Some st.
Lemma steady_app st l1 l2 : steady st l1 -> steady st l2 -> steady st (l1 ++ l2).
Proof. unfold steady. intros H K. rewrite scan_app, H. exact K. Qed.
Lemma steady_joinp st sep ls : steady st sep -> (forall l, In l ls -> steady st l) -> steady st (joinp sep ls).
Proof.
  intros S H. induction ls as [|x [|y ls] IH]; [reflexivity|apply H; left; reflexivity|].
  change (joinp sep (x :: y :: ls)) with (x ++ sep ++ joinp sep (y :: ls)).
  apply steady_app; [apply H; left; reflexivity|]. apply steady_app; auto. apply IH. intros l I. apply H. right. exact I.
Qed.
Lemma steady_props st l : steady (true :: st) l -> steady st (Sign $"[" :: l ++ [Sign $"]"]).
Proof. unfold steady. intros H. change (scan (true :: st) (l ++ [Sign $"]"]) = Some st). rewrite scan_app, H. reflexivity. Qed.
Lemma steady_items st l : steady (false :: st) l -> steady st (Sign $"(" :: l ++ [Sign $")"]).
Proof. unfold steady. intros H. change (scan (false :: st) (l ++ [Sign $")"]) = Some st). rewrite scan_app, H. reflexivity. Qed.
(** In a document of the grammar commas stand between objects only. *)
Lemma tree_steady t : forall st, steady st (tree_pieces [] t).
Proof.
  induction t as [w|po IH|l IH] using tree_induction; intros st; [reflexivity| |]; cbn [tree_pieces].
  - apply steady_props. apply steady_joinp; [reflexivity|]. intros x I.
    apply in_map_iff in I as (e & <- & I). apply (steady_app _ [Word (fst e)]); [reflexivity|].
    apply steady_joinp; [reflexivity|]. intros y J. apply in_map_iff in J as (t & <- & J). apply (IH e t I J).
  - apply steady_items. apply steady_joinp; [reflexivity|]. intros x I. apply in_map_iff in I as (t & <- & I). apply (IH t I).
Qed.
Lemma block_steady b st : head st <> Some false -> steady st (block_pieces [] b).
Proof.
  intros H. unfold block_pieces. apply (steady_app st [Word (fst b)]); [reflexivity|]. apply steady_app; [|reflexivity].
  apply steady_joinp; [reflexivity|]. intros x I. apply in_map_iff in I as (e & <- & I).
  apply (steady_app st [Word (fst e)]); [reflexivity|]. apply steady_joinp.
  - destruct st as [|[] st]; try reflexivity. destruct H. reflexivity.
  - intros y J. apply in_map_iff in J as (t & <- & J). apply tree_steady.
Qed.
Lemma doc_steady d : steady [] (flat_map (block_pieces []) d).
Proof. induction d as [|b d IH]; [reflexivity|]. cbn [flat_map]. apply steady_app; [apply block_steady; discriminate|exact IH]. Qed.

(** A comma within parentheses is met. *)
Definition stuck (st : list bool) (l : list piece) : Prop := scan st l = None.
Lemma stuck_app st l1 l2 : stuck st l1 \/ steady st l1 /\ stuck st l2 -> stuck st (l1 ++ l2).
Proof. unfold stuck, steady. rewrite scan_app. intros [-> | [-> H]]; auto. Qed.
(** Pieces that either keep what is open or are stuck. *)
Definition fair (st : list bool) (l : list piece) : Prop := steady st l \/ stuck st l.
Lemma fair_app st l1 l2 : fair st l1 -> fair st l2 -> fair st (l1 ++ l2).
Proof.
  intros [H|H] [K|K].
  - left. apply steady_app; auto.
  - right. apply stuck_app. auto.
  - right. apply stuck_app. auto.
  - right. apply stuck_app. auto.
Qed.
Lemma fair_joinp st sep ls : fair st sep -> (forall l, In l ls -> fair st l) -> fair st (joinp sep ls).
Proof.
  intros S H. induction ls as [|x [|y ls] IH]; [left; reflexivity|apply H; left; reflexivity|].
  change (joinp sep (x :: y :: ls)) with (x ++ sep ++ joinp sep (y :: ls)).
  apply fair_app; [apply H; left; reflexivity|]. apply fair_app; auto. apply IH. intros l I. apply H. right. exact I.
Qed.
Lemma stuck_joinp st sep ls x : fair st sep -> (forall l, In l ls -> fair st l) -> In x ls -> stuck st x -> stuck st (joinp sep ls).
Proof.
  intros S H I K. induction ls as [|y [|z ls] IH]; [destruct I|destruct I as [->|[]]; auto|].
  change (joinp sep (y :: z :: ls)) with (y ++ sep ++ joinp sep (z :: ls)). apply stuck_app.
  destruct I as [->|I]; [auto|]. destruct (H y (or_introl eq_refl)) as [Y|Y]; auto. right. split; auto. apply stuck_app.
  destruct S as [S|S]; auto. right. split; auto. apply IH; auto. intros l J. apply H. right. exact J.
Qed.
Lemma fair_props st l : fair (true :: st) l -> fair st (Sign $"[" :: l ++ [Sign $"]"]).
Proof. intros [H|H]; [left; apply steady_props; auto|right]. change (scan (true :: st) (l ++ [Sign $"]"]) = None). rewrite scan_app, H. reflexivity. Qed.
Lemma fair_items st l : fair (false :: st) l -> fair st (Sign $"(" :: l ++ [Sign $")"]).
Proof. intros [H|H]; [left; apply steady_items; auto|right]. change (scan (false :: st) (l ++ [Sign $")"]) = None). rewrite scan_app, H. reflexivity. Qed.
Lemma fair_comma st : fair st comma.
Proof. destruct st as [|[] st]; [left|left|right]; reflexivity. Qed.
Lemma tree_fair t : forall st, fair st (tree_pieces comma t).
Proof.
  induction t as [w|po IH|l IH] using tree_induction; intros st; [left; reflexivity| |]; cbn [tree_pieces].
  - apply fair_props. apply fair_joinp; [left; reflexivity|]. intros x I. apply in_map_iff in I as (e & <- & I).
    apply (fair_app _ [Word (fst e)]); [left; reflexivity|]. apply fair_joinp; [apply fair_comma|]. intros y J.
    apply in_map_iff in J as (t & <- & J). apply (IH e t I J).
  - apply fair_items. apply fair_joinp; [apply fair_comma|]. intros x I. apply in_map_iff in I as (t & <- & I). apply (IH t I).
Qed.
Lemma list_sum_pos {A} (f : A -> nat) l : (0 < list_sum (map f l))%nat -> exists x, In x l /\ (0 < f x)%nat.
Proof.
  induction l as [|x l IH]; cbn [map]; [cbn; lia|]. rewrite list_sum_cons. intros H.
  destruct (f x) eqn:E; [|exists x; rewrite E; split; [left; auto|lia]]. destruct IH as (y & I & K); [lia|]. exists y. split; [right|]; auto.
Qed.
Lemma stuck_props st l : stuck (true :: st) l -> stuck st (Sign $"[" :: l ++ [Sign $"]"]).
Proof. intros H. change (scan (true :: st) (l ++ [Sign $"]"]) = None). rewrite scan_app, H. reflexivity. Qed.
Lemma stuck_items st l : stuck (false :: st) l -> stuck st (Sign $"(" :: l ++ [Sign $")"]).
Proof. intros H. change (scan (false :: st) (l ++ [Sign $")"]) = None). rewrite scan_app, H. reflexivity. Qed.
Lemma entry_fair st (e : str * list tree) : fair st (entry_pieces comma e).
Proof.
  apply (fair_app _ [Word (fst e)]); [left; reflexivity|]. apply fair_joinp; [apply fair_comma|]. intros y J.
  apply in_map_iff in J as (t & <- & J). apply tree_fair.
Qed.
Lemma entry_stuck st (e : str * list tree) t : In t (snd e) -> stuck st (tree_pieces comma t) -> stuck st (entry_pieces comma e).
Proof.
  intros I H. apply (stuck_app _ [Word (fst e)]). right. split; [reflexivity|].
  eapply stuck_joinp; [apply fair_comma| |apply in_map; exact I|exact H].
  intros y J. apply in_map_iff in J as (t' & <- & J). apply tree_fair.
Qed.
Lemma entries_stuck st (po : list (str * list tree)) e : In e po -> stuck st (entry_pieces comma e) -> stuck st (entries_pieces comma po).
Proof.
  intros I H. eapply stuck_joinp; [left; reflexivity| |apply in_map; exact I|exact H].
  intros y J. apply in_map_iff in J as (e' & <- & J). apply entry_fair.
Qed.
Lemma tree_stuck t : (0 < long_items t)%nat -> forall st, stuck st (tree_pieces comma t).
Proof.
  induction t as [w|po IH|l IH] using tree_induction; intros H st; [cbn in H; lia| |]; cbn [tree_pieces long_items] in *.
  - apply list_sum_pos in H as (e & Ie & H). apply list_sum_pos in H as (t & It & H). apply stuck_props.
    apply (entries_stuck _ po e Ie). apply (entry_stuck _ e t It). apply (IH e t Ie It H).
  - apply stuck_items. destruct l as [|x [|y l]].
    + cbn in H. lia.
    + cbn [map joinp]. apply IH; [left; auto|]. cbn in H. lia.
    + cbn [map]. change (joinp comma (tree_pieces comma x :: tree_pieces comma y :: map (tree_pieces comma) l))
        with (tree_pieces comma x ++ comma ++ joinp comma (tree_pieces comma y :: map (tree_pieces comma) l)).
      apply stuck_app. destruct (tree_fair x (false :: st)) as [S|S]; auto. right. split; auto. apply stuck_app. left. reflexivity.
Qed.
Lemma block_fair b : fair [] (block_pieces comma b).
Proof.
  unfold block_pieces. apply (fair_app [] [Word (fst b)]); [left; reflexivity|]. apply fair_app; [|left; reflexivity].
  apply fair_joinp; [left; reflexivity|]. intros y J. apply in_map_iff in J as (e' & <- & J). apply entry_fair.
Qed.
Lemma doc_stuck d x : In x (top_triples d) -> (0 < long_items (snd x))%nat -> stuck [] (flat_map (block_pieces comma) d).
Proof.
  intros I H. apply in_flat_map in I as (b & Ib & I). apply in_flat_map in I as (e & Ie & I). apply in_map_iff in I as (t & <- & It).
  cbn [snd] in H. assert (B : stuck [] (block_pieces comma b)).
  { unfold block_pieces. apply (stuck_app _ [Word (fst b)]). right. split; [reflexivity|]. apply stuck_app. left.
    apply (entries_stuck _ _ e Ie). apply (entry_stuck _ e t It). apply tree_stuck. exact H. }
  clear -Ib B. induction d as [|b' d IH]; [destruct Ib|]. cbn [flat_map]. apply stuck_app.
  destruct Ib as [->|Ib]; auto. destruct (block_fair b'); auto.
Qed.
Lemma c62_grammar d : (exists d', flat_map (block_pieces comma) d = flat_map (block_pieces []) d') <-> no_long_items d.
Proof.
  split.
  - intros (d' & E) s v t I. destruct (long_items t) eqn:L; auto. exfalso.
    assert (K : stuck [] (flat_map (block_pieces comma) d)) by (apply (doc_stuck d (s, v, t) I); cbn; lia).
    rewrite E in K. pose proof (doc_steady d') as S. unfold stuck, steady in *. congruence.
  - intros H. exists d. apply doc_no_long. exact H.
Qed.

(** ** Predicates *)
Lemma c49_own c g d : document c g d ->
  (forall st, In st (g_list g) -> type_like (st_predicate st) -> st_predicate st = rdf $"type") ->
  forall x, In x (top_triples d) -> exists st, In st (g_list g) /\ subject_w (iri_word c) (st_subject st) = Some (fst (fst x)) /\
    own_verb c (st_predicate st) = Some (snd (fst x)).
Proof.
  intros D H x I. destruct (graph_triples _ _ _ _ _ d D) as (l & _ & A & F).
  destruct (Forall2_In_r _ _ _ _ F I) as (st & J & S1 & S2 & S3). apply A in J. exists st. split; auto. split; auto.
  rewrite <- S2. unfold own_verb, verb, verb_word. specialize (H st J).
  destruct (type_like_dec (st_predicate st)) as [T|T].
  - rewrite (H T). destruct (str_eq_dec (rdf $"type") (rdf $"type")); congruence.
  - destruct (str_eq_dec (st_predicate st) (rdf $"type")) as [E|E]; auto. destruct T. rewrite E. left. reflexivity.
Qed.
Lemma c49_lost c g d st : document c g d -> In st (g_list g) -> type_like (st_predicate st) ->
  exists x, In x (top_triples d) /\ subject_w (iri_word c) (st_subject st) = Some (fst (fst x)) /\
    own_verb c (rdf $"type") = Some (snd (fst x)) /\
    shows g (nest_blank_nodes (t_opts c)) (iri_word c) (verb c) (lit_word c) (st_object st) (snd x).
Proof.
  intros D I T. destruct (graph_triples _ _ _ _ _ d D) as (l & _ & A & F).
  destruct (Forall2_In_l _ _ _ _ F (proj2 (A _) I)) as (x & J & S1 & S2 & S3). exists x. split; auto. split; auto. split; auto.
  rewrite <- S2. unfold own_verb, verb, verb_word. destruct (type_like_dec (st_predicate st)) as [K|K]; [|contradiction].
  destruct (str_eq_dec (rdf $"type") (rdf $"type")); congruence.
Qed.

(** ** Quoted statements *)
Lemma reify_node n s p o : exists sts n', reify n (MkStmt s p o) = ((SBlank (gen_label n), sts), n') /\
  In (MkStmt (SBlank (gen_label n)) (rdf $"type") (ORes (rdf $"Statement"))) sts /\
  In (MkStmt (SBlank (gen_label n)) (rdf $"predicate") (ORes p)) sts /\
  ((forall t, s <> SStmt t) -> In (MkStmt (SBlank (gen_label n)) (rdf $"subject") (to_object s)) sts).
Proof.
  cbn [reify].
  destruct (match s with SStmt st' => _ | _ => _ end) as [sp n2] eqn:E1.
  destruct (match o with OStmt st' => _ | _ => _ end) as [op n3] eqn:E2.
  eexists. eexists. split; [reflexivity|]. split; [left; reflexivity|]. split.
  - apply in_or_app. right. apply in_or_app. right. left. reflexivity.
  - intros Ns. apply in_or_app. right. apply in_or_app. left. destruct s as [b|i|t'].
    + injection E1 as <- <-. left. reflexivity.
    + injection E1 as <- <-. left. reflexivity.
    + destruct (Ns t'). reflexivity.
Qed.
Lemma reify_all_In l : forall n st, In st l -> exists k sts k', reify k st = ((SBlank (gen_label k), sts), k') /\
  In (MkStmt (st_subject st) (st_predicate st) (OBlank (gen_label k))) (fst (ttl_reify_all n l)) /\
  incl sts (fst (ttl_reify_all n l)).
Proof.
  induction l as [|x l IH]; intros n st I; [destruct I|]. cbn [ttl_reify_all].
  destruct (reify n x) as [[node new] n1] eqn:E. destruct (ttl_reify_all n1 l) as [more n2] eqn:E2. cbn [fst].
  destruct I as [->|I].
  - destruct st as [s p o]. destruct (reify_node n s p o) as (sts & n' & R & _). rewrite R in E. injection E as <- <- <-.
    exists n, sts, n'. split; [exact R|]. split.
    + apply in_or_app. right. left. reflexivity.
    + intros y J. apply in_or_app. auto.
  - destruct (IH n1 st I) as (k & sts & k' & R & J & K). rewrite E2 in J, K. cbn [fst] in J, K. exists k, sts, k'. split; auto.
    split; [apply in_or_app; right; right; exact J|]. intros y Hy. apply in_or_app. right. right. apply K. exact Hy.
Qed.
Lemma denest_list ho n g : g_list (ttl_denest ho n g) =
  fst (ttl_reify_all n (filter is_nested (g_iter ho g))) ++ filter (fun st => negb (is_nested st)) (g_iter ho g).
Proof. reflexivity. Qed.
Lemma denest_nested ho n g st : hash_order ho -> In st (g_list g) -> is_nested st = true ->
  exists k sts k', reify k st = ((SBlank (gen_label k), sts), k') /\
  In (MkStmt (st_subject st) (st_predicate st) (OBlank (gen_label k))) (g_list (ttl_denest ho n g)) /\
  incl sts (g_list (ttl_denest ho n g)).
Proof.
  intros H I N. rewrite denest_list. destruct (reify_all_In (filter is_nested (g_iter ho g)) n st) as (k & sts & k' & R & J & K).
  { apply filter_In. split; auto. apply g_iter_In; auto. }
  exists k, sts, k'. split; auto. split; [apply in_or_app; auto|]. intros y Hy. apply in_or_app. left. apply K. exact Hy.
Qed.
Lemma filter_none {A} (f : A -> bool) l : (forall x, In x l -> f x = false) -> filter f l = [].
Proof. intros H. induction l as [|x l IH]; [reflexivity|]. cbn. rewrite (H x) by (left; auto). apply IH. intros y I. apply H. right. exact I. Qed.
Lemma filter_all {A} (f : A -> bool) l : (forall x, In x l -> f x = true) -> filter f l = l.
Proof. intros H. induction l as [|x l IH]; [reflexivity|]. cbn. rewrite (H x) by (left; auto). f_equal. apply IH. intros y I. apply H. right. exact I. Qed.
Lemma c63_plain ho n g : hash_order ho -> (forall st, In st (g_list g) -> is_nested st = false) ->
  Permutation (g_list (ttl_denest ho n g)) (g_list g) /\ g_mappings (ttl_denest ho n g) = g_mappings g.
Proof.
  intros H N. split; [|reflexivity]. rewrite denest_list. rewrite filter_none, filter_all; [apply g_iter_perm; auto| |].
  - intros x I. apply g_iter_In in I; auto. rewrite (N x I). reflexivity.
  - intros x I. apply g_iter_In in I; auto.
Qed.
Lemma c63_node ho n g s p t : hash_order ho -> In (MkStmt s p (OStmt t)) (g_list g) -> s_is_statement s = false ->
  exists b, In (MkStmt s p (OBlank b)) (g_list (ttl_denest ho n g)) /\
    In (MkStmt (SBlank b) (rdf $"type") (ORes (rdf $"Statement"))) (g_list (ttl_denest ho n g)) /\
    In (MkStmt (SBlank b) (rdf $"subject") (to_object s)) (g_list (ttl_denest ho n g)) /\
    In (MkStmt (SBlank b) (rdf $"predicate") (ORes p)) (g_list (ttl_denest ho n g)).
Proof.
  intros H I N. destruct (denest_nested ho n g _ H I) as (k & sts & k' & R & J & K).
  { unfold is_nested. cbn. apply Bool.orb_true_r. }
  destruct (reify_node k s p (OStmt t)) as (sts' & k2 & R' & A1 & A2 & A3). rewrite R in R'. injection R' as <- <-.
  exists (gen_label k). split; auto. split; [apply K; auto|]. split; [|apply K; auto]. apply K, A3.
  intros t' ->. discriminate.
Qed.
Lemma c63_cyclic ho n g b p t : hash_order ho -> In (MkStmt (SBlank b) p (OStmt t)) (g_list g) -> cyclic (ttl_denest ho n g).
Proof.
  intros H I. destruct (c63_node ho n g _ p t H I eq_refl) as (k & A1 & _ & A2 & _). exists b.
  apply t_trans with k; apply t_step; [exists p, (OBlank k)|exists (rdf $"subject"), (OBlank b)]; split; auto; constructor.
Qed.
Lemma c63_blank ho n g b p t c mappings f out : setting_ok c -> nest_blank_nodes (t_opts c) = true -> hash_order ho ->
  In (MkStmt (SBlank b) p (OStmt t)) (g_list g) -> written c ho n mappings f g <> Done out.
Proof. intros S N H I. apply (c48_never c _ mappings f out S N). eapply c63_cyclic; eauto. Qed.

Section Crash.
Variable modulus : N.
Variable mode : overflow.
Variable m : iri_mode.
Variable iri_parse : str -> option str.
Variable gext printable : chr -> bool.
Variable compress : str -> outcome (option str).
Variable opts : ttl_options.
Variable g : graph.
Variable ord_p : nat -> list str -> list str.
Variable ord_o : nat -> list object -> list object.
Variable ord_s : nat -> list subject -> list subject.
Lemma blocks_subject f r l s s' : write_blocks modulus mode m iri_parse gext printable compress opts g ord_p ord_o f r l s = Done s' ->
  forall subj, In subj l -> (exists s1 s2, write_subject modulus mode m iri_parse compress opts subj ttl_no_flags s1 = Done s2) /\
    exists s1 s2, write_predicate_object_list modulus mode m iri_parse compress opts g ord_p ord_o
      (write_object modulus mode m iri_parse gext printable compress opts g ord_p ord_o f) subj ttl_no_flags s1 = Done s2.
Proof.
  revert s. induction l as [|x l IH]; cbn [write_blocks]; intros s H subj I; [destruct I|].
  apply wseq_Done in H as (s1 & _ & H). apply wseq_Done in H as (s2 & H & K).
  destruct I as [E|I]; [subst x|eauto]. unfold write_block in H. apply wseq_Done in H as (s3 & H1 & H).
  apply wseq_Done in H as (s4 & H & _). eauto 6.
Qed.
End Crash.
Lemma doc_subject c g mappings f out s p o : setting_ok c -> doc_of c g mappings f = Done out -> In (MkStmt s p o) (g_list g) ->
  (exists s1 s2, write_subject (t_modulus c) (t_mode c) (t_iri c) (t_parse c) (t_compress c) (t_opts c) s ttl_no_flags s1 = Done s2) /\
  exists s1 s2, write_predicate_object_list (t_modulus c) (t_mode c) (t_iri c) (t_parse c) (t_compress c) (t_opts c) g (t_predicates c) (t_objects c)
    (write_object (t_modulus c) (t_mode c) (t_iri c) (t_parse c) (t_gext c) (t_printable c) (t_compress c) (t_opts c) g (t_predicates c) (t_objects c) f)
    s ttl_no_flags s1 = Done s2.
Proof.
  intros (Op & Oo & Os) H I. unfold doc_of, write_turtle_doc in H. apply wbind_Done in H as (s' & H & _).
  unfold write_triples in H. apply wseq_Done in H as (s1 & H1 & H2).
  destruct (s_is_blank s) eqn:B.
  - eapply blocks_subject; [exact H2|]. eapply Permutation_in; [apply Permutation_sym, Os|].
    apply blank_node_subjects_spec. split; eauto. destruct s; try discriminate. eauto.
  - eapply blocks_subject; [exact H1|]. unfold sorted_subjects. eapply Permutation_in; [apply Permutation_sym, stable_sort_perm|].
    eapply Permutation_in; [apply Permutation_sym, Os|]. apply node_subjects_spec. split; eauto. destruct s; try discriminate; intros; discriminate.
Qed.
Lemma c63_subject ho n g t p o c mappings f out : setting_ok c -> hash_order ho -> In (MkStmt (SStmt t) p o) (g_list g) ->
  written c ho n mappings f g <> Done out.
Proof.
  intros S H I E. destruct (denest_nested ho n g _ H I eq_refl) as (k & sts & k' & _ & J & _). cbn in J.
  destruct (doc_subject c _ mappings f out _ _ _ S E J) as [(s1 & s2 & K) _].
  unfold write_subject in K. apply wseq_Done in K as (s3 & K & _). discriminate.
Qed.

(** ** IRIs printed in angle brackets *)
Lemma convert_angled l : forall iri, exists r, fold_left (convert_one Angled) l (60 :: iri) = 60 :: r.
Proof.
  induction l as [|[a b] l IH]; intros iri; [eexists; reflexivity|]. cbn [fold_left]. unfold convert_one at 2. cbn [fst snd].
  destruct (strip_prefix (show_iri Angled a) (60 :: iri)); apply IH.
Qed.
Lemma angled_fails parse compress opts iri : (forall r, parse (60 :: r) = None) -> id_base opts = None ->
  compress_iri Angled parse compress opts iri = io_err InvalidIri.
Proof.
  intros P B. unfold compress_iri. rewrite B. destruct (convert_angled (convert_base opts) (iri ++ [62])) as (r & E).
  cbn [show_iri]. rewrite E, P. reflexivity.
Qed.
Lemma c62_angled c g mappings f out : setting_ok c -> t_iri c = Angled -> (forall r, t_parse c (60 :: r) = None) ->
  id_base (t_opts c) = None -> predicate_padding (t_opts c) = false -> g_list g <> [] -> doc_of c g mappings f <> Done out.
Proof.
  intros S A P B Q N E. destruct (g_list g) as [|[s p o] l] eqn:G; [congruence|].
  assert (I : In (MkStmt s p o) (g_list g)) by (rewrite G; left; reflexivity).
  destruct (doc_subject c g mappings f out s p o S E I) as [_ (s1 & s2 & K)].
  unfold write_predicate_object_list in K. cbn zeta in K. rewrite Q, A in K.
  set (preds := t_predicates c (w_tick s1) (g_predicates_for g s)) in *.
  assert (Ne : In p preds).
  { eapply Permutation_in; [apply Permutation_sym; apply S|]. apply predicates_for_spec. eauto. }
  destruct preds as [|q preds]; [destruct Ne|]. cbn [max_len_predicates] in K. rewrite (angled_fails _ _ _ q P B) in K. discriminate.
Qed.

(** ** IRIs *)
Lemma up_to_slash_end p : up_to_slash (p ++ $"/") = p ++ $"/".
Proof.
  induction p as [|x p IH]; [reflexivity|]. cbn [app up_to_slash]. rewrite IH.
  replace (existsb (N.eqb 47) (x :: p ++ $"/")) with true; [reflexivity|]. symmetry. apply existsb_exists.
  exists 47. split; [right; apply in_or_app; right; left; reflexivity|reflexivity].
Qed.
Lemma up_to_slash_prefix p : exists t, p = up_to_slash p ++ t /\ (up_to_slash p = [] \/ exists q, up_to_slash p = q ++ $"/").
Proof.
  induction p as [|x p (t & E & H)]; [exists []; auto|]. cbn [up_to_slash].
  destruct (existsb (N.eqb 47) (x :: p)) eqn:X; [|exists (x :: p); auto]. exists t. split; [cbn; f_equal; exact E|]. right.
  destruct H as [H|(q & H)]; [|exists (x :: q); rewrite H; reflexivity].
  cbn [existsb] in X. destruct (N.eqb 47 x) eqn:Ex.
  - apply N.eqb_eq in Ex. subst x. rewrite H. exists []. reflexivity.
  - cbn in X. exfalso. rewrite H in E. cbn in E. subst t. destruct p as [|y p]; [discriminate|].
    cbn [up_to_slash] in H. rewrite X in H. discriminate.
Qed.
Lemma resolved_iff b r : Url.u_path b <> [] -> resolved b r = Url.url_ser b ++ r <-> directory b.
Proof.
  intros Np. assert (M : merged b r = up_to_slash (Url.u_path b) ++ r).
  { unfold merged. destruct (Url.u_auth b); auto. destruct (Url.u_path b); congruence. }
  unfold resolved. rewrite M. destruct b as [sc au pa qu fr]. unfold Url.url_ser, directory in *.
  cbn [Url.u_scheme Url.u_auth Url.u_path Url.u_query Url.u_frag Url.opt_pre] in *. rewrite ?app_nil_r, <- ?app_assoc. split.
  - intros E. do 3 apply app_inv_head in E. destruct (up_to_slash_prefix pa) as (t & Ep & H).
    rewrite Ep in E at 2. rewrite <- app_assoc in E. apply app_inv_head in E.
    assert (L : t = [] /\ Url.opt_pre $"?" qu = [] /\ Url.opt_pre $"#" fr = []).
    { apply (f_equal (@length _)) in E. rewrite !app_length in E. repeat split; apply length_zero_iff_nil; lia. }
    destruct L as (-> & Q & F). rewrite app_nil_r in Ep. split; [|split].
    + destruct H as [H|(q & H)]; [congruence|]. exists q. congruence.
    + destruct qu; [discriminate|reflexivity].
    + destruct fr; [discriminate|reflexivity].
  - intros ((p & ->) & -> & ->). rewrite up_to_slash_end. cbn [Url.opt_pre]. rewrite ?app_nil_l. rewrite <- ?app_assoc. reflexivity.
Qed.
Lemma iri_word_plain c i w : no_conversion c -> iri_word c i = Some w ->
  match id_base (t_opts c) with
  | Some b => match strip_prefix b i with Some r => w = [60] ++ r ++ [62] | None => True end
  | None => True
  end /\
  (match id_base (t_opts c) with Some b => strip_prefix b i = None | None => True end ->
   exists j, t_parse c i = Some j /\ (t_compress c j = Ret (Some w) \/ t_compress c j = Ret None /\ w = [60] ++ j ++ [62])).
Proof.
  intros (M & C1 & C2) H. unfold iri_word, word_of, compress_iri in H. rewrite M, C1, C2 in H. cbn [show_iri fold_left] in H.
  destruct (id_base (t_opts c)) as [b|].
  - unfold relative_to in H. cbn [show_iri] in H. destruct (strip_prefix b i) as [r|].
    + split; [|discriminate]. injection H as <-. reflexivity.
    + split; auto. intros _. destruct (t_parse c i) as [j|]; [|discriminate]. exists j. split; auto.
      destruct (t_compress c j) as [[q|]|]; [left|right|discriminate]; injection H as <-; auto.
  - split; auto. intros _. destruct (t_parse c i) as [j|]; [|discriminate]. exists j. split; auto.
    destruct (t_compress c j) as [[q|]|]; [left|right|discriminate]; injection H as <-; auto.
Qed.
Lemma c65_denotes c base expand i w : no_conversion c -> names_expand c expand ->
  id_base (t_opts c) = option_map Url.url_ser base ->
  t_parse c i = Some i -> absolute i ->
  match base with Some b => directory b /\ forall r, i = Url.url_ser b ++ r -> segment r | None => True end ->
  iri_word c i = Some w -> word_denotes base expand w i.
Proof.
  intros N X B P A H W. destruct (iri_word_plain c i w N W) as [W1 W2]. rewrite B in W1, W2.
  assert (Abs : match option_map Url.url_ser base with Some b => strip_prefix b i = None | None => True end -> word_denotes base expand w i).
  { intros Q. destruct (W2 Q) as (j & Ej & K). rewrite P in Ej. injection Ej as <-. destruct K as [K|[K ->]]; [|constructor; auto].
    destruct (X _ _ K). constructor; auto. }
  destruct base as [b|]; cbn [option_map] in *; [|apply Abs; auto]. destruct (strip_prefix (Url.url_ser b) i) as [r|] eqn:S; [|apply Abs; auto].
  apply strip_prefix_Some in S. destruct H as [D H]. specialize (H r S). rewrite W1. rewrite S.
  assert (Np : Url.u_path b <> []) by (destruct D as [(p & ->) _]; destruct p; discriminate).
  rewrite <- (proj2 (resolved_iff b r Np) D). constructor; auto.
Qed.
Lemma c65_wrong c b expand r w : no_conversion c -> id_base (t_opts c) = Some (Url.url_ser b) -> Url.u_path b <> [] ->
  ~ directory b -> segment r -> iri_word c (Url.url_ser b ++ r) = Some w ->
  word_denotes (Some b) expand w (resolved b r) /\ ~ word_denotes (Some b) expand w (Url.url_ser b ++ r).
Proof.
  intros N B Np D S W. destruct (iri_word_plain c _ w N W) as [W1 _]. rewrite B, strip_prefix_app in W1. subst w.
  split; [constructor; auto|]. intros H. inversion H as [i (sc & rest & A) E1 E2|b' r' Eb Sr E1 E2|q i Hd E E1 E2]; subst.
  - apply app_inv_tail in E1. apply (f_equal (@length _)) in E1. rewrite app_length in E1.
    unfold Url.url_ser in E1. rewrite !app_length in E1. cbn in E1. lia.
  - injection Eb as <-. apply app_inv_tail in E1. subst r'. apply D. apply (resolved_iff b r Np). exact E2.
  - apply Hd. reflexivity.
Qed.

(** ** Order *)
Lemma c64_entries c g s po :
  shows_entries g (nest_blank_nodes (t_opts c)) (iri_word c) (verb c) (lit_word c) s po -> listed c g s po.
Proof.
  intros E. inversion E as [s' ps po' N R A F Sn]; subst. exists ps. split; [exact N|]. split; [exact A|]. split; [|split; [exact R|split; [exact Sn|]]].
  - clear -F. induction F as [|p x ps po H F IH]; constructor; auto. inversion H. auto.
  - intros x Ix. destruct (Forall2_In_r _ _ _ _ F Ix) as (p & _ & H). inversion H. assumption.
Qed.
Lemma c64_subjects c g d : document c g d -> exists nodes blanks,
  Forall2 (fun s b => subject_w (iri_word c) s = Some (fst b) /\ listed c g s (snd b)) (nodes ++ blanks) d /\
  StronglySorted (fun a b => subj_cmp a b = Lt) nodes /\
  (forall s, In s nodes -> s_is_blank s = false) /\ (forall s, In s blanks -> s_is_blank s = true).
Proof.
  intros (nodes & blanks & _ & _ & A & So & B & F). exists nodes, blanks. split; [|auto].
  clear -F. induction F as [|s b ss d [H E] F IH]; constructor; auto. split; [exact H|]. apply c64_entries. exact E.
Qed.
Lemma c62_flat c g d : document c g d -> nest_blank_nodes (t_opts c) = false -> doc_count d = length (top_triples d).
Proof.
  intros D N. apply count_top. intros x I. destruct (graph_triples _ _ _ _ _ d D) as (l & _ & _ & F).
  destruct (Forall2_In_r _ _ _ _ F I) as (st & _ & _ & _ & S). eapply flat_count; eauto.
Qed.

(** ** The same for what is written *)
Lemma written_document c g mappings f : can_be_written c g f -> exists d, writes c g mappings f d /\ document c g d.
Proof.
  intros (S & W & R & L & A). destruct (c62_document c g mappings f S W R L A) as (out & d & E & D & T).
  exists d. split; [exists out; auto|exact D].
Qed.
Lemma written_such c g mappings f (P : list (str * list (str * list tree)) -> Prop) :
  can_be_written c g f -> (forall d, document c g d -> P d) -> exists d, writes c g mappings f d /\ P d.
Proof. intros H K. destruct (written_document c g mappings f H) as (d & W & D). eauto. Qed.
Lemma c62_each_statement c g mappings f : can_be_written c g f -> exists d, writes c g mappings f d /\
  (exists l, NoDup l /\ (forall st, In st l <-> In st (g_list g)) /\
    Forall2 (says g (nest_blank_nodes (t_opts c)) (iri_word c) (verb c) (lit_word c)) l (top_triples d)) /\
  (nest_blank_nodes (t_opts c) = false -> doc_count d = length (top_triples d)).
Proof.
  intros H. apply written_such; [exact H|]. intros d D. split; [exact (graph_triples _ _ _ _ _ d D)|apply c62_flat with (g := g), D].
Qed.
Lemma c62_twice c g mappings f s p o b : can_be_written c g f -> nest_blank_nodes (t_opts c) = true ->
  In (MkStmt s p o) (g_list g) -> inside (OBlank b) o -> (exists q x, In (MkStmt (SBlank b) q x) (g_list g)) ->
  exists d, writes c g mappings f d /\ (length (top_triples d) < doc_count d)%nat.
Proof. intros H N I J X. apply written_such; [exact H|]. intros d D. exact (nested_twice _ _ _ _ _ d s p o b D N I J X). Qed.
Lemma c49_own_written c g mappings f : can_be_written c g f ->
  (forall st, In st (g_list g) -> type_like (st_predicate st) -> st_predicate st = rdf $"type") ->
  exists d, writes c g mappings f d /\
  forall x, In x (top_triples d) -> exists st, In st (g_list g) /\ subject_w (iri_word c) (st_subject st) = Some (fst (fst x)) /\
    own_verb c (st_predicate st) = Some (snd (fst x)).
Proof. intros H T. apply written_such; [exact H|]. intros d D. exact (c49_own c g d D T). Qed.
Lemma c49_lost_written c g mappings f st : can_be_written c g f -> In st (g_list g) -> type_like (st_predicate st) ->
  exists d, writes c g mappings f d /\
  exists x, In x (top_triples d) /\ subject_w (iri_word c) (st_subject st) = Some (fst (fst x)) /\
    own_verb c (rdf $"type") = Some (snd (fst x)) /\
    shows g (nest_blank_nodes (t_opts c)) (iri_word c) (verb c) (lit_word c) (st_object st) (snd x).
Proof. intros H I T. apply written_such; [exact H|]. intros d D. exact (c49_lost c g d st D I T). Qed.
Lemma c64_order c g mappings f : can_be_written c g f -> exists d, writes c g mappings f d /\
  exists nodes blanks,
    Forall2 (fun s b => subject_w (iri_word c) s = Some (fst b) /\ listed c g s (snd b)) (nodes ++ blanks) d /\
    StronglySorted (fun a b => subj_cmp a b = Lt) nodes /\
    (forall s, In s nodes -> s_is_blank s = false) /\ (forall s, In s blanks -> s_is_blank s = true).
Proof. intros H. apply written_such; [exact H|]. exact (c64_subjects c g). Qed.
Lemma c62_grammar_written c g mappings f : can_be_written c g f -> exists d, writes c g mappings f d /\
  ((exists d', flat_map (block_pieces [Sign $","]) d = flat_map (block_pieces []) d') <-> no_long_items d).
Proof. intros H. apply written_such; [exact H|]. intros d _. apply c62_grammar. Qed.

(** ** Conversions *)
Lemma strip_outside b i : (forall r, i <> b ++ r) -> strip_prefix b i = None.
Proof. intros H. destruct (strip_prefix b i) as [r|] eqn:E; [|reflexivity]. apply strip_prefix_Some in E. destruct (H r E). Qed.
Lemma replaced_fold l i j : replaced l i j -> fold_left (convert_one Bare) l i = j.
Proof.
  induction 1 as [i|from to l r j H IH|from to l i j N H IH]; cbn [fold_left]; [reflexivity| |];
    unfold convert_one at 2; cbn [show_iri fst snd].
  - rewrite strip_prefix_app. exact IH.
  - rewrite (strip_outside _ _ N). exact IH.
Qed.
Lemma c65_converted c base expand i j w : t_iri c = Bare -> names_expand c expand ->
  id_base (t_opts c) = option_map Url.url_ser base ->
  meant_iri (t_opts c) i j -> t_parse c j = Some j -> absolute j ->
  match base with Some b => directory b /\ forall r, j = Url.url_ser b ++ r -> segment r | None => True end ->
  iri_word c i = Some w -> word_denotes base expand w j.
Proof.
  intros M X B K P A H W. unfold iri_word, word_of, compress_iri in W. rewrite M in W. cbn [show_iri] in W.
  assert (Seg : forall b r, id_base (t_opts c) = Some b -> j = b ++ r -> word_denotes base expand ([60] ++ r ++ [62]) (b ++ r)).
  { intros b r E J. rewrite B in E. destruct base as [u|]; [|discriminate]. injection E as <-. destruct H as [D H]. specialize (H r J).
    assert (Np : Url.u_path u <> []) by (destruct D as [(p & ->) _]; destruct p; discriminate).
    rewrite <- (proj2 (resolved_iff u r Np) D). constructor; auto. }
  assert (No : forall b, not_under b i -> match b with Some b' => relative_to Bare b' i | None => None end = None).
  { intros [b'|] O; [|reflexivity]. unfold relative_to. cbn [show_iri]. rewrite strip_outside; [reflexivity|]. intros r. exact (O b' r eq_refl). }
  destruct K as [t b r E1 E2|b r E O|i j O1 O2 R].
  - rewrite E1, E2 in W. unfold relative_to in W at 1. cbn [show_iri] in W. rewrite strip_prefix_app in W. injection W as <-. exact (Seg b r E1 eq_refl).
  - rewrite E, (No _ O) in W. unfold relative_to in W. cbn [show_iri] in W. rewrite strip_prefix_app in W. injection W as <-. exact (Seg b r E eq_refl).
  - assert (Q : match id_base (t_opts c) with
      | Some b => match match convert_to_id_base (t_opts c) with Some t => relative_to Bare t i | None => None end with
                  | Some r => Some r | None => relative_to Bare b i end
      | None => None end = None).
    { specialize (No _ O2). destruct (id_base (t_opts c)) as [b|]; [|reflexivity]. destruct O1 as [O1|O1]; [discriminate|].
      assert (T : match convert_to_id_base (t_opts c) with Some t => relative_to Bare t i | None => None end = None).
      { destruct (convert_to_id_base (t_opts c)) as [t|]; [|reflexivity]. unfold relative_to. cbn [show_iri].
        rewrite strip_outside; [reflexivity|]. intros r. exact (O1 t r eq_refl). }
      rewrite T. exact No. }
    rewrite Q, (replaced_fold _ _ _ R), P in W. destruct (t_compress c j) as [[q|]|] eqn:E; [| |discriminate]; injection W as <-.
    + destruct (X _ _ E). constructor; auto.
    + constructor. auto.
Qed.
