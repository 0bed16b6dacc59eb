(** Turtle documents that were cut off: what is left of the words and of the sentences. *)
From Verif Require Import StrFacts PNameSpec Turtle TurtleSpec TurtleLitSpec TurtleProofs TurtleShape TurtleTop TurtleLitProofs
  TurtleReadSpec TurtleLex TurtleWalk TurtleParse TurtleRead.
From Coq Require Import Permutation Lia.

(** ** The scanner, up to a place *)
Fixpoint run (m : lmode) (s : str) : option (list piece * lmode) :=
  match s with
  | [] => Some ([], m)
  | c :: r =>
      match lex_step m c with
      | Some (out, m') => match run m' r with Some (l, m'') => Some (out ++ l, m'') | None => None end
      | None => None
      end
  end.
Lemma lex_run a : forall m b, lex m (a ++ b) =
  match run m a with Some (out, m') => match lex m' b with Some l => Some (out ++ l) | None => None end | None => None end.
Proof.
  induction a as [|c a IH]; intros m b; cbn [app lex run].
  - destruct (lex m b); reflexivity.
  - destruct (lex_step m c) as [[o m']|]; [|reflexivity]. rewrite IH. destruct (run m' a) as [[o' m'']|]; [|reflexivity].
    destruct (lex m'' b); [|reflexivity]. rewrite app_assoc. reflexivity.
Qed.
Lemma run_app a : forall m b, run m (a ++ b) =
  match run m a with Some (out, m') => match run m' b with Some (l, m'') => Some (out ++ l, m'') | None => None end | None => None end.
Proof.
  induction a as [|c a IH]; intros m b; cbn [app run].
  - destruct (run m b) as [[l m']|]; reflexivity.
  - destruct (lex_step m c) as [[o m']|]; [|reflexivity]. rewrite IH. destruct (run m' a) as [[o' m'']|]; [|reflexivity].
    destruct (run m'' b) as [[l m3]|]; [|reflexivity]. rewrite app_assoc. reflexivity.
Qed.
(** What is open was begun in a gap. *)
Definition begun (m : lmode) : Prop :=
  match m with
  | Gap | InComment => True
  | AfterDot => run Gap [46] = Some ([], m)
  | InName w | InIri w | InString w | Escaped w | AfterString w | OneHat w | TwoHats w | InTag w => run Gap w = Some ([], m)
  end.
Lemma begun_start c o m : lex_start c = Some (o, m) -> begun m.
Proof.
  intros H. assert (K : o = [] -> run Gap [c] = Some ([], m)).
  { intros ->. cbn [run lex_step]. rewrite H. reflexivity. }
  revert H K. unfold lex_start.
  destruct (white c); [intros [= <- <-]; exact (fun _ => I)|]. destruct (N.eqb c 35); [intros [= <- <-]; exact (fun _ => I)|].
  destruct (N.eqb_spec c 46) as [->|]; [intros [= <- <-] _; reflexivity|]. destruct (sign_char c); [intros [= <- <-]; exact (fun _ => I)|].
  destruct (N.eqb c 60); [intros [= <- <-] K; exact (K eq_refl)|]. destruct (N.eqb c 34); [intros [= <- <-] K; exact (K eq_refl)|].
  destruct (N.eqb c 64); [intros [= <- <-] K; exact (K eq_refl)|]. destruct (name_char c); [intros [= <- <-] K; exact (K eq_refl)|discriminate].
Qed.
Lemma begun_ended m c o m' : lex_ended m c = Some (o, m') -> begun m'.
Proof.
  unfold lex_ended. destruct (lex_end m); [|discriminate]. destruct (lex_start c) as [[b k]|] eqn:S; [|discriminate].
  intros [= _ <-]. eapply begun_start; eauto.
Qed.
Lemma begun_more w m c m' : run Gap w = Some ([], m) -> lex_step m c = Some ([], m') -> run Gap (w ++ [c]) = Some ([], m').
Proof. intros A B. rewrite run_app, A. cbn [run]. rewrite B. reflexivity. Qed.
Lemma begun_step m c o m' : begun m -> lex_step m c = Some (o, m') -> begun m'.
Proof.
  intros B H. destruct m as [| | |w|w|w|w|w|w|w|w]; cbn [begun] in B.
  - eapply begun_start; eauto.
  - pose proof H as H0. cbn [lex_step] in H. destruct (is_digit c) eqn:D; [|eapply begun_ended; eauto]. injection H as <- <-.
    exact (begun_more [46] AfterDot c _ B H0).
  - injection H as <- <-. match goal with |- begun (if ?b then _ else _) => destruct b end; exact I.
  - pose proof H as H0. cbn [lex_step] in H. destruct (name_char c) eqn:D; [|eapply begun_ended; eauto]. injection H as <- <-.
    exact (begun_more w _ c _ B H0).
  - pose proof H as H0. cbn [lex_step] in H. destruct (N.eqb c 62); [injection H as <- <-; exact I|].
    destruct (iri_char c); [|discriminate]. injection H as <- <-. exact (begun_more w _ c _ B H0).
  - pose proof H as H0. cbn [lex_step] in H. destruct (N.eqb c 34); [injection H as <- <-; exact (begun_more w _ c _ B H0)|].
    destruct (N.eqb c 92); [injection H as <- <-; exact (begun_more w _ c _ B H0)|]. match type of H with (if ?b then _ else _) = _ => destruct b end; [discriminate|].
    injection H as <- <-. exact (begun_more w _ c _ B H0).
  - pose proof H as H0. cbn [lex_step] in H. injection H as <- <-. exact (begun_more w _ c _ B H0).
  - pose proof H as H0. cbn [lex_step] in H. destruct (N.eqb c 64); [injection H as <- <-; exact (begun_more w _ c _ B H0)|].
    destruct (N.eqb c 94); [injection H as <- <-; exact (begun_more w _ c _ B H0)|]. destruct (N.eqb c 34); [discriminate|]. eapply begun_ended; eauto.
  - pose proof H as H0. cbn [lex_step] in H. destruct (N.eqb c 94); [|discriminate]. injection H as <- <-. exact (begun_more w _ c _ B H0).
  - pose proof H as H0. cbn [lex_step] in H. destruct (N.eqb c 60); [injection H as <- <-; exact (begun_more w _ c _ B H0)|].
    destruct (name_char c); [|discriminate]. injection H as <- <-. exact (begun_more w _ c _ B H0).
  - pose proof H as H0. cbn [lex_step] in H. destruct (tag_char c); [|eapply begun_ended; eauto]. injection H as <- <-.
    exact (begun_more w _ c _ B H0).
Qed.
Lemma begun_run s : forall m o m', begun m -> run m s = Some (o, m') -> begun m'.
Proof.
  induction s as [|c s IH]; intros m o m' B H; cbn [run] in H; [injection H as _ <-; exact B|].
  destruct (lex_step m c) as [[a k]|] eqn:S; [|discriminate]. destruct (run k s) as [[b k']|] eqn:R; [|discriminate]. injection H as _ <-.
  eapply IH; [|exact R]. eapply begun_step; eauto.
Qed.

(** ** Words that a reader does not take for something else when they are cut *)
Definition no_stop (m : lmode) : Prop := match m with InName x => last x 0 <> 46 | AfterDot => False | _ => True end.
Fixpoint calm (m : lmode) (s : str) : Prop :=
  match s with
  | [] => True
  | c :: r => forall o m', lex_step m c = Some (o, m') -> no_stop m' /\ calm m' r
  end.
Lemma calm_run a : forall m b o m', calm m (a ++ b) -> run m a = Some (o, m') -> no_stop m -> no_stop m'.
Proof.
  induction a as [|c a IH]; intros m b o m' C R N; cbn [run app calm] in *; [injection R as _ <-; exact N|].
  destruct (lex_step m c) as [[x k]|] eqn:S; [|discriminate]. destruct (run k a) as [[y k']|] eqn:R'; [|discriminate]. injection R as _ <-.
  destruct (C _ _ eq_refl) as [N' C']. eapply IH; eauto.
Qed.

(** ** Names and full stops *)
Lemma end_name_stop w : end_name (rev (w ++ [46])) [] = end_name (rev w) [] ++ [Sign [46]].
Proof.
  assert (K : forall r stops x, end_name r (stops ++ [x]) = end_name r stops ++ [x]).
  { induction r as [|c r IH]; intros stops x; cbn [end_name]; [reflexivity|]. destruct (N.eqb c 46); [|reflexivity].
    exact (IH (Sign [46] :: stops) x). }
  rewrite rev_app_distr. cbn [rev app end_name]. change (N.eqb 46 46) with true. cbn iota. exact (K (rev w) [] (Sign [46])).
Qed.
Lemma end_name_stops k w : end_name (rev (w ++ repeat 46 k)) [] = end_name (rev w) [] ++ repeat (Sign [46]) k.
Proof.
  induction k as [|k IH]; [rewrite !app_nil_r; reflexivity|]. cbn [repeat]. rewrite (repeat_cons k 46), (repeat_cons k (Sign [46])).
  rewrite !app_assoc, end_name_stop, IH, <- !app_assoc. reflexivity.
Qed.
Lemma stops_last (s : str) : exists a k, s = a ++ repeat 46 k /\ last a 0 <> 46.
Proof.
  induction s as [|x s (a & k & E & L)] using rev_ind; [exists [], 0%nat; split; [reflexivity|discriminate]|].
  destruct (N.eq_dec x 46) as [->|N].
  - exists a, (S k). split; [|exact L]. rewrite E. cbn [repeat]. rewrite (repeat_cons k 46), app_assoc. reflexivity.
  - exists (s ++ [x]), 0%nat. split; [rewrite app_nil_r; reflexivity|]. rewrite last_last. exact N.
Qed.
Lemma lex_open_name s : forall w l, lex (InName w) s = Some l -> exists more r, l = end_name (rev (w ++ more)) [] ++ r.
Proof.
  induction s as [|c s IH]; intros w l H; cbn [lex] in H.
  - injection H as <-. exists [], []. rewrite !app_nil_r. reflexivity.
  - cbn [lex_step] in H. destruct (name_char c).
    + destruct (lex (InName (w ++ [c])) s) as [k|] eqn:E; [|discriminate]. injection H as <-. apply IH in E as (more & r & ->).
      exists (c :: more), r. rewrite <- app_assoc. reflexivity.
    + unfold lex_ended in H. cbn [lex_end] in H. destruct (lex_start c) as [[b m']|]; [|discriminate].
      destruct (lex m' s) as [k|]; [|discriminate]. injection H as <-. exists [], (b ++ k). rewrite app_nil_r, app_assoc. reflexivity.
Qed.
(** What is left of the signs and words of a text. *)
Lemma cut_lexed kept lost l l' : lex Gap (kept ++ lost) = Some l -> lex Gap kept = Some l' ->
  (forall w, In (Word w) l -> calm Gap w) ->
  (exists r, l = l' ++ r) \/ exists k w, l' = k ++ [Word w].
Proof.
  intros H K C. rewrite lex_run in H. rewrite <- (app_nil_r kept), lex_run in K. destruct (run Gap kept) as [[o m]|] eqn:R; [|discriminate].
  destruct (lex m lost) as [rest|] eqn:L; [|discriminate]. injection H as <-. cbn [lex] in K. destruct (lex_end m) as [e|] eqn:E; [|discriminate].
  injection K as <-. pose proof (begun_run kept Gap o m I R) as B.
  assert (P : forall r, rest = e ++ r -> (exists r, o ++ rest = (o ++ e) ++ r) \/ exists k w, o ++ e = k ++ [Word w]).
  { intros r ->. left. exists r. apply app_assoc. }
  destruct m as [| | |w|w|w|w|w|w|w|w]; cbn [lex_end] in E; try discriminate; injection E as <-.
  - apply (P rest). reflexivity.
  - destruct lost as [|c lost]; cbn [lex] in L; [injection L as <-; apply (P []); reflexivity|]. cbn [lex_step] in L.
    destruct (is_digit c) eqn:D.
    + exfalso. destruct (lex (InName [46; c]) lost) as [k|] eqn:X; [|discriminate]. injection L as <-. apply lex_open_name in X as (more & r & ->).
      destruct (stops_last more) as (a & j & -> & La).
      assert (W : end_name (rev ([46; c] ++ a ++ repeat 46 j)) [] = Word (46 :: c :: a) :: repeat (Sign [46]) j).
      { rewrite app_assoc, end_name_stops, end_name_last; [reflexivity|]. cbn [app]. destruct a as [|x a]; [|exact La].
        cbn [last]. intros ->. discriminate. }
      rewrite W in C. assert (X : calm Gap (46 :: c :: a)) by (apply C; apply in_or_app; right; left; reflexivity).
      cbn [calm] in X. destruct (X _ _ eq_refl) as [[] _].
    + unfold lex_ended in L. cbn [lex_end] in L. destruct (lex_start c) as [[b m']|]; [|discriminate]. destruct (lex m' lost) as [k|]; [|discriminate].
      injection L as <-. apply (P (b ++ k)). reflexivity.
  - apply (P rest). reflexivity.
  - destruct (N.eq_dec (last w 0) 46) as [Lw|Lw].
    + apply lex_open_name in L as (more & r & ->). destruct (stops_last more) as (a & j & -> & La).
      assert (W : end_name (rev (w ++ a ++ repeat 46 j)) [] = end_name (rev (w ++ a)) [] ++ repeat (Sign [46]) j)
        by (rewrite app_assoc; apply end_name_stops).
      destruct a as [|x a].
      * apply (P (repeat (Sign [46]) j ++ r)). rewrite W, app_nil_r, <- app_assoc. reflexivity.
      * exfalso. rewrite W, end_name_last in C by (rewrite last_app_cons; exact La).
        assert (X : calm Gap (w ++ x :: a)) by (apply C; apply in_or_app; right; left; reflexivity).
        pose proof (calm_run w Gap (x :: a) [] (InName w) X B I) as Y. exact (Y Lw).
    + rewrite end_name_last by exact Lw. right. eauto.
  - right. eauto.
  - right. eauto.
Qed.

(** ** The parser *)
Definition after (k : chr) (l : list piece) : option (list piece) :=
  match l with Sign [x] :: r => if N.eqb x k then Some r else None | _ => None end.
Lemma after_Some k l r : after k l = Some r -> l = Sign [k] :: r.
Proof.
  destruct l as [|[w|[|x [|y s]]|s] l]; cbn; try discriminate. destruct (N.eqb_spec x k) as [->|]; [|discriminate]. intros [= ->]. reflexivity.
Qed.
Lemma after_app k l x : l <> [] -> after k (l ++ x) = match after k l with Some r => Some (r ++ x) | None => None end.
Proof. destruct l as [|[w|[|y [|z s]]|s] l]; try congruence; intros _; cbn; try reflexivity. destruct (N.eqb y k); reflexivity. Qed.
Lemma p_object_tests f l : p_object (S f) l =
  match l with
  | Word w :: r => Some (Leaf w, r)
  | _ =>
      match after 91 l with
      | Some r =>
          match after 93 r with
          | Some r' => Some (Props [], r')
          | None =>
              match p_entries f r with
              | Some (po, q) => match after 93 q with Some r' => Some (Props po, r') | None => None end
              | None => None
              end
          end
      | None =>
          match after 40 l with
          | Some r => match p_items f r with Some (ts, r') => Some (Items ts, r') | None => None end
          | None => None
          end
      end
  end.
Proof.
  assert (K : forall (X : Type) (q : list piece) (a : list piece -> X) (b : X),
    match q with Sign [93] :: r' => a r' | _ => b end = match after 93 q with Some r' => a r' | None => b end).
  { intros X q a b. destruct q as [|[w|[|x [|y s]]|s] q]; try reflexivity; (destruct x as [|x]; [reflexivity|]; do 7 (destruct x as [x|x|]; try reflexivity)). }
  cbn [p_object]. destruct l as [|[w|[|x [|y s]]|s] l]; try reflexivity.
  - destruct x as [|x]; [reflexivity|]. do 7 (destruct x as [x|x|]; try reflexivity). cbn [after N.eqb Pos.eqb].
    rewrite (K _ l (fun r' => Some (Props [], r'))). destruct (after 93 l); [reflexivity|]. destruct (p_entries f l) as [[po q]|]; [|reflexivity].
    apply (K _ q (fun r' => Some (Props po, r'))).
  - destruct x as [|x]; [reflexivity|]. do 7 (destruct x as [x|x|]; try reflexivity).
Qed.
Lemma p_items_tests f l : p_items (S f) l =
  match after 41 l with
  | Some r => Some ([], r)
  | None =>
      match p_object f l with
      | Some (t, r) => match p_items f r with Some (ts, r') => Some (t :: ts, r') | None => None end
      | None => None
      end
  end.
Proof.
  cbn [p_items]. destruct l as [|[w|[|x [|y s]]|s] l]; try reflexivity; (destruct x as [|x]; [reflexivity|]; do 7 (destruct x as [x|x|]; try reflexivity)).
Qed.
Lemma p_objects_tests f l : p_objects (S f) l =
  match p_object f l with
  | Some (t, r) =>
      match after 44 r with
      | Some r' => match p_objects f r' with Some (ts, q) => Some (t :: ts, q) | None => None end
      | None => Some ([t], r)
      end
  | None => None
  end.
Proof.
  rewrite p_objects_S. destruct (p_object f l) as [[t [|[w|[|x [|y s]]|s] r]]|]; try reflexivity. cbn [after]. destruct (N.eqb x 44); reflexivity.
Qed.
Lemma p_entries_tests f l : p_entries (S f) l =
  match l with
  | Word v :: r =>
      match p_objects f r with
      | Some (ts, r') =>
          match after 59 r' with
          | Some q => match p_entries f q with Some (po, k) => Some ((v, ts) :: po, k) | None => None end
          | None => Some ([(v, ts)], r')
          end
      | None => None
      end
  | _ => None
  end.
Proof.
  rewrite p_entries_S. destruct l as [|[v|s|s] l]; try reflexivity. destruct (p_objects f l) as [[ts [|[w|[|x [|y s]]|s] r]]|]; try reflexivity.
  cbn [after]. destruct (N.eqb x 59); reflexivity.
Qed.
Lemma p_blocks_tests f l : p_blocks (S f) l =
  match l with
  | [] => Some []
  | Word s :: r =>
      match p_entries f r with
      | Some (po, q) =>
          match after 46 q with
          | Some r' => match p_blocks f r' with Some d => Some ((s, po) :: d) | None => None end
          | None => None
          end
      | None => None
      end
  | _ => None
  end.
Proof.
  cbn [p_blocks]. destruct l as [|[v|s|s] l]; try reflexivity. destruct (p_entries f l) as [[po [|[w|[|x [|y s]]|s] r]]|]; try reflexivity;
    (destruct x as [|x]; [reflexivity|]; do 7 (destruct x as [x|x|]; try reflexivity)).
Qed.

(** What follows does not change what has been read, and more fuel does not. *)
Definition obj_more (f : nat) : Prop := forall l t r x f', p_object f l = Some (t, r) -> (f <= f')%nat ->
  p_object f' (l ++ x) = Some (t, r ++ x) /\ exists pre, l = pre ++ r.
Definition items_more (f : nat) : Prop := forall l t r x f', p_items f l = Some (t, r) -> (f <= f')%nat ->
  p_items f' (l ++ x) = Some (t, r ++ x) /\ exists pre, l = pre ++ r.
Definition objs_more (f : nat) : Prop := forall l t r x f', p_objects f l = Some (t, r) -> (f <= f')%nat -> r <> [] ->
  p_objects f' (l ++ x) = Some (t, r ++ x) /\ exists pre, l = pre ++ r.
Definition ents_more (f : nat) : Prop := forall l t r x f', p_entries f l = Some (t, r) -> (f <= f')%nat -> r <> [] ->
  p_entries f' (l ++ x) = Some (t, r ++ x) /\ exists pre, l = pre ++ r.
Lemma parser_more : forall f, obj_more f /\ items_more f /\ objs_more f /\ ents_more f.
Proof.
  induction f as [|f (Io & Ii & Is & Ie)]; [repeat split; discriminate|]. split; [|split; [|split]].
  - intros l t r x f' H L. destruct f' as [|f']; [lia|]. apply le_S_n in L. rewrite p_object_tests in H. rewrite p_object_tests.
    destruct l as [|[w|s|s] l]; [discriminate| |  |discriminate].
    + injection H as <- <-. split; [reflexivity|]. exists [Word w]. reflexivity.
    + cbn [app]. change (Sign s :: l ++ x) with ((Sign s :: l) ++ x). rewrite !after_app by discriminate.
      destruct (after 91 (Sign s :: l)) as [r1|] eqn:A.
      * apply after_Some in A. injection A as -> ->. destruct r1 as [|p1 r1].
        { cbn [after] in H. destruct f; discriminate. }
        rewrite after_app by discriminate. destruct (after 93 (p1 :: r1)) as [r2|] eqn:B.
        { injection H as <- <-. apply after_Some in B. rewrite B. split; [reflexivity|]. exists [Sign [91]; Sign [93]]. reflexivity. }
        destruct (p_entries f (p1 :: r1)) as [[po q]|] eqn:E; [|discriminate]. destruct (after 93 q) as [r2|] eqn:D; [|discriminate].
        injection H as <- <-. assert (Q : q <> []) by (intros ->; discriminate). destruct (Ie _ _ _ x f' E L Q) as [E' (pre & P)].
        rewrite E', after_app, D by exact Q. split; [reflexivity|]. apply after_Some in D. subst q. rewrite P.
        exists (Sign [91] :: pre ++ [Sign [93]]). cbn [app]. rewrite <- app_assoc. reflexivity.
      * destruct (after 40 (Sign s :: l)) as [r1|] eqn:B; [|discriminate]. apply after_Some in B. injection B as -> ->.
        destruct (p_items f r1) as [[ts q]|] eqn:E; [|discriminate]. injection H as <- <-. destruct (Ii _ _ _ x f' E L) as [E' (pre & P)].
        rewrite E'. split; [reflexivity|]. rewrite P. exists (Sign [40] :: pre). reflexivity.
  - intros l t r x f' H L. destruct f' as [|f']; [lia|]. apply le_S_n in L. rewrite p_items_tests in H. rewrite p_items_tests.
    destruct l as [|p l]; [destruct f; discriminate|]. rewrite after_app by discriminate. destruct (after 41 (p :: l)) as [r1|] eqn:A.
    + injection H as <- <-. apply after_Some in A. rewrite A. split; [reflexivity|]. exists [Sign [41]]. reflexivity.
    + destruct (p_object f (p :: l)) as [[t1 r1]|] eqn:E; [|discriminate]. destruct (p_items f r1) as [[ts r2]|] eqn:F; [|discriminate].
      injection H as <- <-. destruct (Io _ _ _ x f' E L) as [E' (pre & P)]. destruct (Ii _ _ _ x f' F L) as [F' (pre' & P')].
      rewrite E', F'. split; [reflexivity|]. exists (pre ++ pre'). rewrite P, P', app_assoc. reflexivity.
  - intros l t r x f' H L N. destruct f' as [|f']; [lia|]. apply le_S_n in L. rewrite p_objects_tests in H. rewrite p_objects_tests.
    destruct (p_object f l) as [[t1 r1]|] eqn:E; [|discriminate]. destruct (Io _ _ _ x f' E L) as [E' (pre & P)]. rewrite E'.
    destruct (after 44 r1) as [r2|] eqn:A.
    + rewrite after_app, A by (intros ->; discriminate). destruct (p_objects f r2) as [[ts q]|] eqn:F; [|discriminate]. injection H as <- <-.
      destruct (Is _ _ _ x f' F L N) as [F' (pre' & P')]. rewrite F'. split; [reflexivity|]. apply after_Some in A.
      exists (pre ++ Sign [44] :: pre'). rewrite P, A, P', <- app_assoc. reflexivity.
    + injection H as <- <-. rewrite after_app, A by exact N. split; [reflexivity|]. eauto.
  - intros l t r x f' H L N. destruct f' as [|f']; [lia|]. apply le_S_n in L. rewrite p_entries_tests in H. rewrite p_entries_tests.
    destruct l as [|[v|s|s] l]; try discriminate. cbn [app]. destruct (p_objects f l) as [[ts r1]|] eqn:E; [|discriminate].
    destruct (after 59 r1) as [r2|] eqn:A.
    + assert (Q : r1 <> []) by (intros ->; discriminate). destruct (Is _ _ _ x f' E L Q) as [E' (pre & P)]. rewrite E', after_app, A by exact Q.
      destruct (p_entries f r2) as [[po k]|] eqn:F; [|discriminate]. injection H as <- <-. destruct (Ie _ _ _ x f' F L N) as [F' (pre' & P')].
      rewrite F'. split; [reflexivity|]. apply after_Some in A. exists (Word v :: pre ++ Sign [59] :: pre'). cbn [app]. rewrite P, A, P', <- app_assoc. reflexivity.
    + injection H as <- <-. destruct (Is _ _ _ x f' E L N) as [E' (pre & P)]. rewrite E', after_app, A by exact N. split; [reflexivity|].
      exists (Word v :: pre). rewrite P. reflexivity.
Qed.
(** Sentences that are there are read, and then the others. *)
Lemma blocks_prefix f : forall l d x f' d', p_blocks f l = Some d -> (f <= f')%nat -> p_blocks f' (l ++ x) = Some d' -> exists d2, d' = d ++ d2.
Proof.
  induction f as [|f IH]; intros l d x f' d' H L K; [discriminate|]. destruct f' as [|f']; [lia|]. apply le_S_n in L.
  rewrite p_blocks_tests in H. destruct l as [|[s|s|s] l]; try discriminate; [injection H as <-; exists d'; reflexivity|].
  rewrite p_blocks_tests in K. cbn [app] in K. destruct (p_entries f l) as [[po q]|] eqn:E; [|discriminate].
  destruct (after 46 q) as [r|] eqn:A; [|discriminate]. destruct (p_blocks f r) as [d1|] eqn:B; [|discriminate]. injection H as <-.
  assert (Q : q <> []) by (intros ->; discriminate). destruct (parser_more f) as (_ & _ & _ & Ie). destruct (Ie _ _ _ x f' E L Q) as [E' _].
  rewrite E', after_app, A in K by exact Q. destruct (p_blocks f' (r ++ x)) as [d2|] eqn:B'; [|discriminate]. injection K as <-.
  destruct (IH _ _ _ _ _ B L B') as (d3 & ->). exists d3. reflexivity.
Qed.
Lemma blocks_last f : forall l d, p_blocks f l = Some d -> l = [] \/ exists k, l = k ++ [Sign [46]].
Proof.
  induction f as [|f IH]; intros l d H; [discriminate|]. rewrite p_blocks_tests in H. destruct l as [|[s|s|s] l]; try discriminate; [left; reflexivity|].
  destruct (p_entries f l) as [[po q]|] eqn:E; [|discriminate]. destruct (after 46 q) as [r|] eqn:A; [|discriminate].
  destruct (p_blocks f r) as [d1|] eqn:B; [|discriminate]. assert (Q : q <> []) by (intros ->; discriminate).
  destruct (parser_more f) as (_ & _ & _ & Ie). destruct (Ie _ _ _ [] f E (le_n f) Q) as [_ (pre & P)]. apply after_Some in A. subst. right.
  apply IH in B as [->|(k & ->)]; [exists (Word s :: pre); reflexivity|]. exists (Word s :: pre ++ Sign [46] :: k). cbn [app]. rewrite <- app_assoc. reflexivity.
Qed.
Lemma blocks_none f d : p_blocks f [] = Some d -> d = [].
Proof. destruct f; [discriminate|]. rewrite p_blocks_tests. intros [= <-]. reflexivity. Qed.
(** Directives. *)
Lemma headings_more k : forall l hs r x, (length l <= k)%nat -> p_headings l = Some (hs, r) -> r <> [] ->
  p_headings (l ++ x) = Some (hs, r ++ x) /\ exists pre, l = pre ++ r.
Proof.
  assert (Dot : forall (X : Type) (q : list piece) (a : list piece -> option X), match q with Sign [46] :: r' => a r' | _ => None end =
    match after 46 q with Some r' => a r' | None => None end).
  { intros X q a. destruct q as [|[w|[|y [|z s]]|s] q]; try reflexivity; (destruct y as [|y]; [reflexivity|]; do 7 (destruct y as [y|y|]; try reflexivity)). }
  induction k as [|k IH]; intros l hs r x L H N.
  { destruct l; [|cbn in L; lia]. injection H as <- <-. congruence. }
  assert (Skip : forall h pre l1, (length l1 <= k)%nat -> (match p_headings l1 with Some (hs, k) => Some (h :: hs, k) | None => None end) = Some (hs, r) ->
    (match p_headings (l1 ++ x) with Some (hs, k) => Some (h :: hs, k) | None => None end) = Some (hs, r ++ x) /\ exists p, pre ++ l1 = p ++ r).
  { intros h pre l1 L1 H1. destruct (p_headings l1) as [[hs1 r1]|] eqn:E; [|discriminate]. injection H1 as <- ->.
    destruct (IH _ _ _ x L1 E N) as [-> (p & ->)]. split; [reflexivity|]. exists (pre ++ p). rewrite app_assoc. reflexivity. }
  destruct l as [|[w|s|s] l].
  - injection H as <- <-. congruence.
  - cbn [app p_headings] in *. destruct (str_eqb w $"@base").
    { destruct l as [|[i|s|s] l]; try discriminate. cbn [app]. rewrite (Dot _ l (fun r' => match p_headings r' with Some (hs, k) => Some (HBase i :: hs, k) | None => None end)) in H.
      rewrite (Dot _ (l ++ x) (fun r' => match p_headings r' with Some (hs, k) => Some (HBase i :: hs, k) | None => None end)).
      destruct (after 46 l) as [l1|] eqn:A; [|discriminate]. rewrite after_app, A by (intros ->; discriminate). apply after_Some in A. subst l.
      apply (Skip _ [Word w; Word i; Sign [46]] l1); [cbn in L; lia|exact H]. }
    destruct (str_eqb w $"BASE").
    { destruct l as [|[i|s|s] l]; try discriminate. cbn [app]. apply (Skip _ [Word w; Word i] l); [cbn in L; lia|exact H]. }
    destruct (str_eqb w $"@prefix").
    { destruct l as [|[p|s|s] [|[i|s'|s'] l]]; try discriminate. cbn [app]. rewrite (Dot _ l (fun r' => match p_headings r' with Some (hs, k) => Some (HPrefix p i :: hs, k) | None => None end)) in H.
      rewrite (Dot _ (l ++ x) (fun r' => match p_headings r' with Some (hs, k) => Some (HPrefix p i :: hs, k) | None => None end)).
      destruct (after 46 l) as [l1|] eqn:A; [|discriminate]. rewrite after_app, A by (intros ->; discriminate). apply after_Some in A. subst l.
      apply (Skip _ [Word w; Word p; Word i; Sign [46]] l1); [cbn in L; lia|exact H]. }
    destruct (str_eqb w $"PREFIX").
    { destruct l as [|[p|s|s] [|[i|s'|s'] l]]; try discriminate. cbn [app]. apply (Skip _ [Word w; Word p; Word i] l); [cbn in L; lia|exact H]. }
    injection H as <- <-. split; [reflexivity|]. exists []. reflexivity.
  - injection H as <- <-. split; [reflexivity|]. exists []. reflexivity.
  - injection H as <- <-. split; [reflexivity|]. exists []. reflexivity.
Qed.
(** What is left of the sentences of a text. *)
Lemma cut_parsed kept lost l hs d hs' d' : lex Gap (kept ++ lost) = Some l -> (forall w, In (Word w) l -> calm Gap w) ->
  turtle_syntax (kept ++ lost) = Some (hs, d) -> turtle_syntax kept = Some (hs', d') ->
  d' = [] \/ hs' = hs /\ exists d2, d = d' ++ d2.
Proof.
  intros Lx C. unfold turtle_syntax. rewrite Lx. destruct (lex Gap kept) as [l'|] eqn:Lk; [|discriminate].
  destruct (p_headings l) as [[h r]|] eqn:H; [|discriminate]. destruct (p_blocks _ r) as [d0|] eqn:B; [|discriminate]. intros [= <- <-].
  destruct (p_headings l') as [[h' r']|] eqn:H'; [|discriminate]. destruct (p_blocks _ r') as [d0'|] eqn:B'; [|discriminate]. intros [= <- <-].
  destruct r' as [|p r']; [left; eapply blocks_none; eauto|].
  destruct (cut_lexed kept lost l l' Lx Lk C) as [(rest & ->)|(k & w & ->)].
  - destruct (headings_more _ _ _ _ rest (le_n _) H') as [E _]; [discriminate|]. rewrite H in E. injection E as -> ->. right. split; [reflexivity|].
    eapply blocks_prefix; [exact B'| |exact B]. rewrite app_length. lia.
  - exfalso. destruct (headings_more _ _ _ _ [] (le_n _) H') as [_ (pre & E)]; [discriminate|].
    apply blocks_last in B' as [B'|(k' & B')]; [discriminate|]. rewrite B', app_assoc in E. apply app_inj_tail in E as [_ E]. discriminate.
Qed.
