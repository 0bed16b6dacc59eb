(** Proofs of C110: what is hashed. *)
From Coq Require Import Lia ZArith.
From Verif Require Import StrFacts LiteralProofs TermProofs GraphProofs.
From Verif Require Export HashSpec.

(** ** Bytes *)
Lemma app_cut {A} : forall (a b r s : list A), length a = length b -> a ++ r = b ++ s -> a = b /\ r = s.
Proof.
  induction a as [|x a IH]; intros [|y b] r s L E; try discriminate L; [auto|].
  injection L as L. cbn [app] in E. injection E as -> E. apply IH in E as [-> ->]; auto.
Qed.
Lemma le_length w : forall n, length (le_bytes w n) = w.
Proof. induction w as [|w IH]; intros n; cbn [le_bytes length]; auto. Qed.
Lemma le_inj w : forall n m, n < 256 ^ N.of_nat w -> m < 256 ^ N.of_nat w -> le_bytes w n = le_bytes w m -> n = m.
Proof.
  induction w as [|w IH]; intros n m Hn Hm E.
  - cbn in Hn, Hm. lia.
  - rewrite Nnat.Nat2N.inj_succ, N.pow_succ_r' in Hn, Hm. cbn [le_bytes] in E. injection E as E1 E2.
    apply IH in E2; [|apply N.div_lt_upper_bound; lia|apply N.div_lt_upper_bound; lia].
    rewrite (N.div_mod n 256), (N.div_mod m 256) by lia. congruence.
Qed.

Lemma cons_eq {A} (x y : A) a b : x :: a = y :: b -> x = y /\ a = b.
Proof. intros E. injection E. auto. Qed.

Section Feed.
Variable w : nat.
Variable big : bool.
Variable ends : str -> list N.
Hypothesis W : (1 <= w)%nat.
Notation word := (feed_word w big).

Lemma word_length n : length (word n) = w.
Proof. unfold feed_word. destruct big; [rewrite rev_length|]; apply le_length. Qed.
Lemma word_free : prefix_free (fun n => n < 256 ^ N.of_nat w) word.
Proof.
  intros n m r s Hn Hm E. apply app_cut in E as [E ->]; [|rewrite !word_length; reflexivity]. split; [|reflexivity].
  unfold feed_word in E. destruct big; [|eapply le_inj; eauto].
  apply (f_equal (@rev N)) in E. rewrite !rev_involutive in E. eapply le_inj; eauto.
Qed.
Lemma small n : n < 256 -> n < 256 ^ N.of_nat w.
Proof.
  intros H. eapply N.lt_le_trans; [exact H|]. replace 256 with (256 ^ 1) at 1 by reflexivity. apply N.pow_le_mono_r; lia.
Qed.

(** ** Texts *)
Lemma split64 c d : c / 64 = d / 64 -> c mod 64 = d mod 64 -> c = d.
Proof. intros A B. rewrite (N.div_mod c 64), (N.div_mod d 64) by lia. congruence. Qed.
Lemma utf8_head c : c < 1114112 -> exists h t, utf8 c = h :: t /\
  (c < 128 /\ h = c /\ t = [] \/
   128 <= c < 2048 /\ h = 192 + c / 64 /\ h < 224 /\ t = [128 + c mod 64] \/
   2048 <= c < 65536 /\ h = 224 + c / 64 / 64 /\ h < 240 /\ t = [128 + (c / 64) mod 64; 128 + c mod 64] \/
   65536 <= c /\ h = 240 + c / 64 / 64 / 64 /\ h < 255 /\ t = [128 + (c / 64 / 64) mod 64; 128 + (c / 64) mod 64; 128 + c mod 64]).
Proof.
  intros H. unfold utf8.
  assert (D2 : c / 4096 = c / 64 / 64) by (rewrite N.div_div by lia; reflexivity).
  assert (D3 : c / 262144 = c / 64 / 64 / 64) by (rewrite !N.div_div by lia; reflexivity).
  destruct (N.ltb_spec c 128); [eexists _, _; split; [reflexivity|]; auto|].
  destruct (N.ltb_spec c 2048).
  { assert (c / 64 < 32) by (apply N.div_lt_upper_bound; lia). eexists _, _. split; [reflexivity|]. right. left. repeat split; auto; lia. }
  destruct (N.ltb_spec c 65536).
  { assert (c / 4096 < 16) by (apply N.div_lt_upper_bound; lia). eexists _, _. split; [reflexivity|]. right. right. left.
    rewrite <- D2. repeat split; auto; lia. }
  assert (c / 262144 < 5) by (apply N.div_lt_upper_bound; lia). eexists _, _. split; [reflexivity|]. right. right. right.
  rewrite <- D3, <- D2. repeat split; auto; lia.
Qed.
Lemma utf8_free c d r s : c < 1114112 -> d < 1114112 -> utf8 c ++ r = utf8 d ++ s -> c = d /\ r = s.
Proof.
  intros Hc Hd. destruct (utf8_head c Hc) as (h & t & -> & C). destruct (utf8_head d Hd) as (h' & t' & -> & D).
  cbn [app]. intros E. apply cons_eq in E as [-> E].
  destruct C as [(C1 & C2 & ->)|[(C1 & C2 & C3 & ->)|[(C1 & C2 & C3 & ->)|(C1 & C2 & C3 & ->)]]];
  destruct D as [(D1 & D2 & ->)|[(D1 & D2 & D3 & ->)|[(D1 & D2 & D3 & ->)|(D1 & D2 & D3 & ->)]]];
  try (exfalso; lia); cbn [app] in E.
  - split; [congruence|exact E].
  - apply cons_eq in E as [E1 E]. split; [|exact E]. apply split64; lia.
  - apply cons_eq in E as [E1 E]. apply cons_eq in E as [E2 E]. split; [|exact E]. apply split64; [apply split64|]; lia.
  - apply cons_eq in E as [E1 E]. apply cons_eq in E as [E2 E]. apply cons_eq in E as [E3 E]. split; [|exact E]. apply split64; [apply split64; [apply split64|]|]; lia.
Qed.
Lemma utf8_no255 c r s : c < 1114112 -> utf8 c ++ r <> 255 :: s.
Proof.
  intros Hc. destruct (utf8_head c Hc) as (h & t & -> & C). cbn [app]. intros E. apply cons_eq in E as [-> E].
  destruct C as [(C1 & C2 & _)|[(C1 & C2 & C3 & _)|[(C1 & C2 & C3 & _)|(C1 & C2 & C3 & _)]]]; lia.
Qed.
Lemma text_bound c : c < 55296 \/ 57344 <= c < 1114112 -> c < 1114112.
Proof. lia. Qed.
Lemma str_free : prefix_free is_text feed_str.
Proof.
  intros a. unfold feed_str. induction a as [|c a IH]; intros [|d b] r s A B E.
  - cbn in E. injection E as ->. auto.
  - exfalso. cbn [flat_map app] in E. rewrite <- !app_assoc in E. symmetry in E. revert E. apply utf8_no255, text_bound. inversion B; assumption.
  - exfalso. cbn [flat_map app] in E. rewrite <- !app_assoc in E. revert E. apply utf8_no255, text_bound. inversion A; assumption.
  - inversion A as [|? ? Ac Aa]. inversion B as [|? ? Bd Bb]. subst. cbn [flat_map] in E. rewrite <- !app_assoc in E.
    apply utf8_free in E as [-> E]; [|apply text_bound; assumption|apply text_bound; assumption].
    rewrite !app_assoc in E. apply IH in E as [-> ->]; auto.
Qed.

(** ** Terms *)
Lemma option_free {A} (P : A -> Prop) (f : A -> list N) : prefix_free P f ->
  prefix_free (fun o => forall a, o = Some a -> P a) (feed_option w big f).
Proof.
  intros F [a|] [b|] r s A1 B1 E; cbn [feed_option] in E; rewrite <- ?app_assoc in E;
    apply word_free in E as [N E]; try (apply small; lia); try discriminate N.
  - apply F in E as [-> ->]; auto.
  - auto.
Qed.
Lemma index_small d : dt_index d < 256.
Proof. destruct d; cbn; lia. Qed.
Lemma data_type_free : prefix_free (fun d => forall i, d = DtOther i -> is_text i) (feed_data_type w big).
Proof.
  intros d e r s D E H. unfold feed_data_type in H. rewrite <- !app_assoc in H.
  apply word_free in H as [N H]; try (apply small, index_small).
  destruct d, e; cbn in N; try discriminate N; try (split; [reflexivity|exact H]).
  apply str_free in H as [-> ->]; auto.
Qed.
Lemma language_free : prefix_free is_text (feed_language w big ends).
Proof.
  intros a b r s A B E. unfold feed_language in E. rewrite <- !app_assoc in E. apply str_free in E as [-> E]; auto.
  split; [reflexivity|]. apply app_inv_head in E. exact E.
Qed.
Lemma literal_free : prefix_free sized_literal (feed_literal w big ends).
Proof.
  intros [x d t] [y e u] r s (A1 & A2 & A3) (B1 & B2 & B3) E. cbn [lexical_form lit_data_type lit_language] in *.
  unfold feed_literal in E. cbn [lexical_form lit_data_type lit_language] in E. rewrite <- !app_assoc in E.
  apply str_free in E as [-> E]; auto.
  apply (option_free _ _ data_type_free) in E as [-> E]; [|intros z -> i ->; auto|intros z -> i ->; auto].
  apply (option_free _ _ language_free) in E as [-> ->]; auto.
Qed.

Lemma sized_coll xs : sized_object w (OColl xs) <-> N.of_nat (length xs) < 256 ^ N.of_nat w /\ Forall (sized_object w) xs.
Proof.
  cbn [sized_object]. split; intros [L H]; (split; [exact L|]); clear L; induction xs as [|x xs IH].
  - constructor.
  - constructor; [apply H|apply IH, H].
  - exact I.
  - inversion H; subst. split; [assumption|apply IH; assumption].
Qed.
Notation f_s := (feed_subject w big ends).
Notation f_o := (feed_object w big ends).
Notation f_t := (feed_statement w big ends).
Lemma coll_feed xs : f_o (OColl xs) = word 3 ++ word (N.of_nat (length xs)) ++ flat_map f_o xs.
Proof. reflexivity. Qed.

Lemma items_free : forall xs, Forall (fun x => forall y r s, sized_object w x -> sized_object w y -> f_o x ++ r = f_o y ++ s -> x = y /\ r = s) xs ->
  forall ys r s, length xs = length ys -> Forall (sized_object w) xs -> Forall (sized_object w) ys ->
  flat_map f_o xs ++ r = flat_map f_o ys ++ s -> xs = ys /\ r = s.
Proof.
  induction 1 as [|x xs X _ IH]; intros [|y ys] r s L SX SY E; try discriminate L; [auto|].
  cbn [flat_map] in E. rewrite <- !app_assoc in E. inversion SX; inversion SY; subst.
  apply X in E as [-> E]; auto. apply IH in E as [-> ->]; auto.
Qed.
Ltac heads A B E := cbn [sized_subject sized_statement] in A, B; cbn [feed_subject feed_object feed_statement] in E; rewrite <- ?app_assoc in E;
  apply word_free in E as [?N E]; try (apply small; lia); try discriminate.
Lemma terms_free :
  (forall s t r u, sized_subject w s -> sized_subject w t -> f_s s ++ r = f_s t ++ u -> s = t /\ r = u) /\
  (forall o q r u, sized_object w o -> sized_object w q -> f_o o ++ r = f_o q ++ u -> o = q /\ r = u) /\
  (forall a b r u, sized_statement w a -> sized_statement w b -> f_t a ++ r = f_t b ++ u -> a = b /\ r = u).
Proof.
  apply term_ind.
  - intros b [c|i|st] r u A B E; heads A B E. apply str_free in E as [-> ->]; auto.
  - intros b [c|i|st] r u A B E; heads A B E. apply str_free in E as [-> ->]; auto.
  - intros b IH [c|i|st] r u A B E; heads A B E. apply IH in E as [-> ->]; auto.
  - intros b [c|i|l|xs|st] r u A B E; heads A B E. apply str_free in E as [-> ->]; auto.
  - intros b [c|i|l|xs|st] r u A B E; heads A B E. apply str_free in E as [-> ->]; auto.
  - intros b [c|i|l|xs|st] r u A B E; heads A B E. apply literal_free in E as [-> ->]; auto.
  - intros xs IH [c|i|l|ys|st] r u A B E; heads A B E.
    apply sized_coll in A as [LA A]. apply sized_coll in B as [LB B].
    apply word_free in E as [L E]; auto. apply Nnat.Nat2N.inj in L.
    apply (items_free xs IH) in E as [-> ->]; auto.
  - intros b IH [c|i|l|xs|st] r u A B E; heads A B E. apply IH in E as [-> ->]; auto.
  - intros s p o Hs Ho [s' p' o'] r u (A1 & A2 & A3) (B1 & B2 & B3) E. cbn [feed_statement] in E. rewrite <- !app_assoc in E.
    apply Hs in E as [-> E]; auto. apply str_free in E as [-> E]; auto. apply Ho in E as [-> ->]; auto.
Qed.
Lemma name_free : prefix_free sized_name (feed_graph_name w big).
Proof.
  intros [b|i] [c|j] r s A B E; cbn [feed_graph_name] in E; rewrite <- !app_assoc in E;
    apply word_free in E as [N E]; try (apply small; lia); try discriminate N; apply str_free in E as [-> ->]; auto.
Qed.
End Feed.

Theorem c110_prefix_free w big ends : (1 <= w)%nat ->
  prefix_free (sized_statement w) (feed_statement w big ends) /\ prefix_free (sized_subject w) (feed_subject w big ends) /\
  prefix_free (sized_object w) (feed_object w big ends) /\ prefix_free sized_literal (feed_literal w big ends) /\
  prefix_free sized_name (feed_graph_name w big) /\ prefix_free is_text feed_str.
Proof.
  intros W. destruct (terms_free w big ends W) as (S & O & T).
  split; [|split; [|split; [|split; [|split]]]].
  - intros a b r s; apply T.
  - intros a b r s; apply S.
  - intros a b r s; apply O.
  - exact (literal_free w big ends W).
  - exact (name_free w big ends W).
  - exact (str_free w ends W).
Qed.
Lemma free_eq {A} (P : A -> Prop) f (eqb : A -> A -> bool) : prefix_free P f -> (forall a b, eqb a b = true <-> a = b) ->
  forall a b, P a -> P b -> (f a = f b <-> eqb a b = true).
Proof.
  intros F Q a b A1 B1. rewrite Q. split; [|congruence]. intros E. apply (F a b [] [] A1 B1). rewrite !app_nil_r. exact E.
Qed.
Lemma gn_eqb_eq' a b : gn_eqb a b = true <-> a = b.
Proof. destruct a, b; cbn [gn_eqb]; rewrite ?str_eqb_eq; split; congruence. Qed.
Theorem c110_equal w big ends : (1 <= w)%nat ->
  (forall a b, sized_statement w a -> sized_statement w b -> (feed_statement w big ends a = feed_statement w big ends b <-> st_eqb a b = true)) /\
  (forall a b, sized_subject w a -> sized_subject w b -> (feed_subject w big ends a = feed_subject w big ends b <-> subj_eqb a b = true)) /\
  (forall a b, sized_object w a -> sized_object w b -> (feed_object w big ends a = feed_object w big ends b <-> obj_eqb a b = true)) /\
  (forall a b, sized_literal a -> sized_literal b -> (feed_literal w big ends a = feed_literal w big ends b <-> lit_eqb a b = true)) /\
  (forall a b, sized_name a -> sized_name b -> (feed_graph_name w big a = feed_graph_name w big b <-> gn_eqb a b = true)).
Proof.
  intros W. destruct (c110_prefix_free w big ends W) as (T & S & O & L & G & _).
  repeat apply conj; apply free_eq; auto using st_eqb_eq, subj_eqb_eq, obj_eqb_eq, lit_eqb_eq, gn_eqb_eq'.
Qed.

(** ** Tables *)
Section Table.
Context {A : Type}.
Variable hash : A -> N.
Variable eqb : A -> A -> bool.
Hypothesis Q : forall a b, eqb a b = true <-> a = b.
Definition hashed (t : list (N * A)) : Prop := Forall (fun e => fst e = hash (snd e)) t.
Lemma contains_in t x : hashed t -> (tb_contains hash eqb x t = true <-> In x (map snd t)).
Proof.
  intros H. unfold tb_contains. rewrite existsb_exists, in_map_iff. split; intros (e & E).
  - destruct E as [I M]. exists e. split; [|exact I]. apply andb_true_iff in M as [_ M]. apply Q in M. auto.
  - destruct E as [E I]. exists e. split; [exact I|]. unfold tb_matches. pose proof (proj1 (Forall_forall _ _) H _ I) as F.
    cbn beta in F. rewrite F, E, N.eqb_refl. apply Q. reflexivity.
Qed.
Lemma insert_set t x : hashed t -> hashed (tb_insert hash eqb t x) /\ map snd (tb_insert hash eqb t x) = hs_insert eqb (map snd t) x.
Proof.
  intros H. unfold tb_insert, hs_insert. pose proof (contains_in t x H) as C.
  pose proof (hs_mem_In eqb Q x (map snd t)) as M.
  destruct (tb_contains hash eqb x t), (hs_mem eqb x (map snd t)); try (split; [exact H|reflexivity]).
  - exfalso. rewrite <- M in C. destruct C as [C _]. specialize (C eq_refl). discriminate.
  - exfalso. rewrite <- C in M. destruct M as [M _]. specialize (M eq_refl). discriminate.
  - split; [apply Forall_app; split; [exact H|constructor; [reflexivity|constructor]]|]. rewrite map_app. reflexivity.
Qed.
Lemma remove_set t x : hashed t -> NoDup (map snd t) ->
  hashed (tb_remove hash eqb x t) /\ map snd (tb_remove hash eqb x t) = hs_remove eqb x (map snd t).
Proof.
  induction t as [|[h y] t IH]; intros H D; [split; [constructor|reflexivity]|].
  inversion H as [|? ? Hy Ht]; subst. cbn [map] in D. inversion D as [|? ? Dy Dt]; subst. cbn [fst snd] in Hy. subst h.
  cbn [tb_remove map snd hs_remove filter]. unfold tb_matches at 1 2. cbn [fst snd]. destruct (eqb x y) eqn:E.
  - apply Q in E. subst y. rewrite N.eqb_refl. cbn [andb negb]. split; [exact Ht|].
    clear - Q Dy. induction (map snd t) as [|z l IH]; [reflexivity|]. cbn [filter].
    destruct (eqb x z) eqn:E; [apply Q in E; subst z; exfalso; apply Dy; left; reflexivity|].
    cbn [negb]. f_equal. apply IH. intros J. apply Dy. right. exact J.
  - rewrite andb_false_r. cbn [negb map snd]. destruct (IH Ht Dt) as [H1 H2]. split; [constructor; auto|]. f_equal. exact H2.
Qed.

Definition ok (past : list (tb_op A)) (t : list (N * A)) : Prop :=
  hashed t /\ NoDup (map snd t) /\ forall x, In x (map snd t) <-> inside x past.
Lemma inside_cons (op : tb_op A) past x : inside x (op :: past) <-> op = TInsert x \/ op <> TRemove x /\ inside x past.
Proof.
  split.
  - intros I. inversion I; subst; [left; reflexivity|right; auto].
  - intros [-> | [R I]]; [constructor|]. apply Inside_later; assumption.
Qed.
Lemma step_ok past t op : ok past t -> ok (op :: past) (fst (tb_step hash eqb t op)) /\ right_answer past op (snd (tb_step hash eqb t op)).
Proof.
  intros (H & D & I). destruct op as [x|x|x]; cbn [tb_step fst snd].
  - destruct (insert_set t x H) as [H1 M]. split.
    + split; [exact H1|]. rewrite M. split; [apply hs_insert_NoDup; auto|]. intros y. rewrite (hs_insert_In eqb Q), inside_cons, I.
      split.
      * intros [-> | Y]; [left; reflexivity|right; split; [discriminate|exact Y]].
      * intros [E|[_ Y]]; [injection E as ->; left; reflexivity|right; exact Y].
    + unfold right_answer. rewrite negb_true_iff, <- I, <- (contains_in t x H). destruct (tb_contains hash eqb x t); split; congruence.
  - destruct (remove_set t x H D) as [H1 M]. split.
    + split; [exact H1|]. rewrite M. split; [apply NoDup_filter, D|]. intros y. rewrite (hs_remove_In eqb Q), inside_cons, I.
      split.
      * intros [Y N]. right. split; [congruence|exact Y].
      * intros [E|[N Y]]; [discriminate E|]. split; [exact Y|congruence].
    + unfold right_answer. rewrite <- I. apply contains_in, H.
  - split.
    + split; [exact H|]. split; [exact D|]. intros y. rewrite inside_cons, I. split; [right; split; [discriminate|assumption]|intros [E|[_ Y]]; [discriminate E|exact Y]].
    + unfold right_answer. rewrite <- I. apply contains_in, H.
Qed.
Lemma run_ok : forall ops past t, ok past t ->
  ok (rev ops ++ past) (fst (tb_run hash eqb t ops)) /\
  forall before op after, ops = before ++ op :: after ->
    exists a, nth_error (snd (tb_run hash eqb t ops)) (length before) = Some a /\ right_answer (rev before ++ past) op a.
Proof.
  induction ops as [|op ops IH]; intros past t K.
  - split; [exact K|]. intros [|? ?] ? ? E; discriminate E.
  - destruct (step_ok past t op K) as [K1 R]. cbn [tb_run]. destruct (tb_step hash eqb t op) as [t1 a]. cbn [fst snd] in K1, R.
    destruct (IH _ _ K1) as [K2 S]. destruct (tb_run hash eqb t1 ops) as [t2 l]. cbn [fst snd] in K2, S |- *.
    split; [cbn [rev]; rewrite <- app_assoc; exact K2|].
    intros [|b before] o after E; cbn [app] in E; injection E as -> ->.
    + exists a. split; [reflexivity|exact R].
    + destruct (S before o after eq_refl) as (x & X1 & X2). exists x. split; [exact X1|]. cbn [rev]. rewrite <- app_assoc. exact X2.
Qed.
Lemma table_set : works_as_set hash eqb.
Proof.
  intros ops. destruct (run_ok ops [] []) as [(H & D & I) R].
  - split; [constructor|]. split; [constructor|]. intros x. split; [intros []|intros J; inversion J].
  - rewrite app_nil_r in I. split; [exact D|]. split; [exact I|]. intros before op after E.
    destruct (R before op after E) as (a & A1 & A2). exists a. rewrite app_nil_r in A2. auto.
Qed.
End Table.

Theorem c110_set w big ends finish :
  works_as_set (fun st => finish (feed_statement w big ends st)) st_eqb /\
  works_as_set (fun s => finish (feed_subject w big ends s)) subj_eqb /\
  works_as_set (fun o => finish (feed_object w big ends o)) obj_eqb /\
  works_as_set (fun p => finish (feed_str p)) str_eqb /\
  works_as_set (fun k => finish (feed_option w big (feed_graph_name w big) k)) key_eqb.
Proof.
  repeat apply conj; apply table_set; auto using st_eqb_eq, subj_eqb_eq, obj_eqb_eq, str_eqb_eq.
  intros [a|] [b|]; cbn [key_eqb]; rewrite ?gn_eqb_eq'; split; congruence.
Qed.

(** The sets of the graph model are such tables. *)
Lemma collect_set {A} (hash : A -> N) (eqb : A -> A -> bool) : (forall a b, eqb a b = true <-> a = b) -> forall l,
  map snd (fold_left (tb_insert hash eqb) l []) = hs_from_iter eqb l.
Proof.
  intros Q l. unfold hs_from_iter, hs_extend.
  assert (G : forall t, hashed hash t -> map snd (fold_left (tb_insert hash eqb) l t) = fold_left (hs_insert eqb) l (map snd t)).
  { induction l as [|x l IH]; intros t H; [reflexivity|]. cbn [fold_left].
    destruct (insert_set hash eqb Q t x H) as [H1 M]. rewrite IH by exact H1. rewrite M. reflexivity. }
  apply (G []). constructor.
Qed.
Theorem c110_collect w big ends finish :
  (forall l, map snd (fold_left (tb_insert (fun st => finish (feed_statement w big ends st)) st_eqb) l []) = hs_from_iter st_eqb l) /\
  (forall l, map snd (fold_left (tb_insert (fun s => finish (feed_subject w big ends s)) subj_eqb) l []) = hs_from_iter subj_eqb l) /\
  (forall l, map snd (fold_left (tb_insert (fun o => finish (feed_object w big ends o)) obj_eqb) l []) = hs_from_iter obj_eqb l) /\
  (forall l, map snd (fold_left (tb_insert (fun p => finish (feed_str p)) str_eqb) l []) = hs_from_iter str_eqb l).
Proof. repeat apply conj; apply collect_set; auto using st_eqb_eq, subj_eqb_eq, obj_eqb_eq, str_eqb_eq. Qed.
