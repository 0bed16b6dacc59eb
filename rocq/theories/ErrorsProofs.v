(** Proofs for PropsErrors.v. *)
From Coq Require Import Lia.
From Coq Require Import ZArith.
From Verif Require Import StrFacts ErrorsSpec LiteralProofs FloatsSpec FloatsProofs.

Fixpoint depth (e : dyn_error) : nat := match e with DynError _ (Some s) => S (depth s) | DynError _ None => 1%nat end.

Lemma messages_exist e : exists l, messages e l /\ length l = depth e.
Proof.
  revert e. fix IH 1. intros [m [s|]].
  - destruct (IH s) as (l & H & L). exists (m :: l). split; [exact (messages_more (DynError m (Some s)) s l eq_refl H)|cbn; congruence].
  - exists [m]. split; [exact (messages_last (DynError m None) eq_refl)|reflexivity].
Qed.

Lemma text_of_lines_app a b : text_of_lines (a ++ b) = text_of_lines a ++ text_of_lines b.
Proof. induction a as [|x a IH]; cbn; [reflexivity|]. rewrite IH, <- app_assoc. reflexivity. Qed.

Lemma app_line (a : str) b : a ++ [10] ++ b = a ++ 10 :: b.
Proof. reflexivity. Qed.

Definition numbered (count : N) (l : list str) : list str :=
  map (fun p => dec_N (fst p) ++ $". " ++ snd p) (combine (map (fun k => count + N.of_nat k) (seq 0 (length l))) l).

Lemma numbered_cons count m l : numbered count (m :: l) = (dec_N count ++ $". " ++ m) :: numbered (count + 1) l.
Proof.
  unfold numbered. cbn [length seq map combine fst snd]. rewrite N.add_0_r. f_equal.
  f_equal. f_equal. rewrite <- seq_shift, map_map. apply map_ext. intros k. lia.
Qed.

Lemma trace_messages e l : messages e l -> forall count,
  trace_one e count = text_of_lines (numbered count l ++ repeat [] (length l)).
Proof.
  induction 1 as [[m s] H|[m s0] s l H _ IH]; intros count; cbn [dyn_source dyn_message] in *; subst.
  - cbn [trace_one]. rewrite numbered_cons. cbn [length repeat app text_of_lines].
    change (numbered (count + 1) []) with (@nil str). cbn [app text_of_lines]. rewrite <- !app_assoc. reflexivity.
  - cbn [trace_one]. rewrite IH, numbered_cons. cbn [length].
    replace (repeat (@nil N) (S (length l))) with (repeat (@nil N) (length l) ++ [[]])
      by (rewrite <- repeat_cons; reflexivity).
    rewrite !text_of_lines_app. cbn [text_of_lines app].
    rewrite <- !app_assoc. cbn [app]. rewrite <- ?app_assoc. reflexivity.
Qed.

Lemma messages_fun e l l' : messages e l -> messages e l' -> l = l'.
Proof.
  intros H. revert l'. induction H as [e N|e s l S H IH]; intros l' H'; inversion H'; subst; try congruence.
  f_equal. apply IH. congruence.
Qed.

Lemma nth_numbered l k m count : nth_error l k = Some m ->
  nth_error (numbered count l) k = Some (dec_N (count + N.of_nat k) ++ $". " ++ m).
Proof.
  revert k count. induction l as [|x l IH]; intros [|k] count E; try discriminate E; rewrite numbered_cons; cbn [nth_error] in *.
  - injection E as ->. rewrite N.add_0_r. reflexivity.
  - rewrite (IH _ _ E). do 3 f_equal. lia.
Qed.

Lemma numbered_length count l : length (numbered count l) = length l.
Proof. unfold numbered. rewrite map_length, combine_length, map_length, seq_length. lia. Qed.

(** C99: the trace. *)
Lemma c99_trace e : exists l lines, messages e l /\ error_trace e = text_of_lines lines /\
  length lines = (2 * length l)%nat /\
  (forall k m, nth_error l k = Some m -> exists n, int_value n = Some (Z.of_nat (S k)) /\ canonical_int n /\ nth_error lines k = Some (n ++ $". " ++ m)) /\
  (forall k, (length l <= k < 2 * length l)%nat -> nth_error lines k = Some []).
Proof.
  destruct (messages_exist e) as (l & H & _).
  exists l, (numbered 1 l ++ repeat [] (length l)). split; [exact H|]. split; [apply trace_messages, H|].
  split; [rewrite app_length, numbered_length, repeat_length; lia|]. split.
  - intros k m E. assert (K : (k < length l)%nat) by (apply nth_error_Some; congruence).
    rewrite nth_error_app1 by (rewrite numbered_length; exact K). rewrite (nth_numbered _ _ _ _ E).
    exists (dec_N (1 + N.of_nat k)). replace (dec_N (1 + N.of_nat k)) with (dec_Z (Z.of_nat (S k)))
      by (cbn [Z.of_nat dec_Z]; apply f_equal; lia).
    split; [apply int_value_dec|]. split; [apply canonical_dec|reflexivity].
  - intros k K. rewrite nth_error_app2 by (rewrite numbered_length; lia).
    rewrite numbered_length. apply nth_error_repeat. lia.
Qed.

Lemma text_of_lines_inj a b : Forall (fun s => ~ In 10 s) a -> Forall (fun s => ~ In 10 s) b ->
  text_of_lines a = text_of_lines b -> a = b.
Proof.
  intros A. revert b. induction A as [|x a X A IH]; intros [|y b] B E; cbn in E; auto.
  - destruct y; discriminate.
  - destruct x; discriminate.
  - inversion B; subst. 
    assert (S1 := proj2 (split_first_Some 10 (x ++ 10 :: text_of_lines a) _ _) (conj eq_refl X)).
    assert (S2 := proj2 (split_first_Some 10 (y ++ 10 :: text_of_lines b) _ _) (conj eq_refl H1)).
    rewrite E in S1. rewrite S1 in S2. injection S2 as -> S2. f_equal. apply IH; auto.
Qed.

(** C99: traces of errors whose messages are single lines tell the messages. *)
Lemma c99_faithful e f l l' : messages e l -> messages f l' ->
  Forall (fun s => ~ In 10 s) l -> Forall (fun s => ~ In 10 s) l' -> error_trace e = error_trace f -> l = l'.
Proof.
  intros H H' L L' E. unfold error_trace in E. rewrite (trace_messages _ _ H), (trace_messages _ _ H') in E.
  assert (G : forall l, Forall (fun s => ~ In 10 s) l -> forall c,
    Forall (fun s => ~ In 10 s) (numbered c l ++ repeat [] (length l))).
  { clear. intros l L c. apply Forall_app. split.
    - revert c. induction L as [|m l M L IH]; intros c; [constructor|]. rewrite numbered_cons. constructor; [|apply IH].
      intros I. apply in_app_or in I as [I|I]; [exact (dec_N_no 10 c eq_refl I)|].
      apply in_app_or in I as [I|I]; [vm_compute in I; intuition discriminate|exact (M I)].
    - apply Forall_forall. intros s I. apply repeat_spec in I. subst. intros []. }
  apply text_of_lines_inj in E; [|apply G, L|apply G, L'].
  assert (N : length l = length l').
  { apply (f_equal (@length _)) in E. rewrite !app_length, !numbered_length, !repeat_length in E. lia. }
  rewrite N in E. apply app_inv_tail in E. clear -E N. revert l' E N. generalize 1 as c.
  induction l as [|m l IH]; intros c [|m' l'] E N; try discriminate N; [reflexivity|].
  rewrite !numbered_cons in E. injection E as E1 E2. injection N as N.
  apply app_inv_head in E1. f_equal; [|apply (IH (c + 1)); assumption].
  cbn in E1. injection E1 as ->. reflexivity.
Qed.

(** C99: messages include what they are about. *)
Lemma within_mid (p t q s : str) : s = p ++ t ++ q -> within t s.
Proof. intros ->. exists p, q. reflexivity. Qed.

Lemma within_here (t q : str) : within t (t ++ q).
Proof. exists [], q. reflexivity. Qed.
Lemma within_end (t : str) : within t t.
Proof. exists [], []. cbn. rewrite app_nil_r. reflexivity. Qed.
Lemma within_skip (p t s : str) : within t s -> within t (p ++ s).
Proof. intros (a & b & ->). exists (p ++ a), b. rewrite <- app_assoc. reflexivity. Qed.

Lemma c99_payload gext printable e s : In s (payload e) -> within s (core_display gext printable e).
Proof.
  destruct e; cbn [payload]; intros H; repeat (destruct H as [<-|H]); try destruct H;
    unfold core_display; repeat first [exact (within_end _) | exact (within_here _ _) | apply within_skip].
Qed.

Lemma c99_source gext printable e s : core_source e = Some s -> ends_with (core_display gext printable e) (dyn_message s).
Proof. destruct e; cbn [core_source]; intros H; try discriminate H; injection H as <-; eexists; reflexivity. Qed.

Lemma c99_iri_source e : exists s, dyn_source (iri_error_dyn e) = Some s /\ ends_with (dyn_message (iri_error_dyn e)) (dyn_message s).
Proof. destruct e; eexists; (split; [reflexivity|eexists; reflexivity]). Qed.

Lemma c99_causes gext printable e :
  (forall s l, made_around e s -> messages s l -> (forall r t, e <> Tokenizer r t) ->
     messages (core_dyn gext printable e) (core_display gext printable e :: l)) /\
  ((forall s, ~ made_around e s) -> messages (core_dyn gext printable e) [core_display gext printable e]).
Proof.
  split.
  - intros s l H M N. apply (messages_more (core_dyn gext printable e) s l); [|exact M].
    destruct H; try reflexivity. destruct (N r s eq_refl).
  - intros H. apply (messages_last (core_dyn gext printable e)).
    destruct e; try reflexivity;
      match goal with |- dyn_source (core_dyn _ _ (IriError ?x)) = _ => destruct x | _ => idtac end;
      exfalso; eapply H; constructor.
Qed.

Lemma c99_names s e : In e [InvalidCharacter s; TooManySeparators s; MissingSeparator s] ->
  within ($"""" ++ s ++ $"""") (name_error_display e).
Proof.
  assert (G : forall p, within ($"""" ++ s ++ $"""") ((p ++ $"""") ++ s ++ $"""")).
  { intros p. exists p, []. rewrite app_nil_r, <- app_assoc. reflexivity. }
  intros [<-|[<-|[<-|[]]]]; unfold name_error_display.
  - exact (G $"The parser encountered a character which is not valid according to its grammar; input: ").
  - exact (G $"The parser encountered more `':'` separator characters than expected; input: ").
  - exact (G $"The Namespace string is missing a `':'` separator character at the end; input: ").
Qed.
Lemma within_before (t s q : str) : within t s -> within t (s ++ q).
Proof. intros (a & b & ->). exists a, (b ++ q). rewrite <- !app_assoc. reflexivity. Qed.
Lemma join_two sep (a b : str) r : exists q, join sep (a :: b :: r) = a ++ sep ++ b ++ q.
Proof. destruct r as [|c r]; [exists []; cbn; rewrite app_nil_r; reflexivity|exists (sep ++ join sep (c :: r)); reflexivity]. Qed.
Lemma join_skip sep l : forall m, m <> [] -> exists p, join sep (l ++ m) = p ++ join sep m.
Proof.
  induction l as [|x l IH]; intros m M; [exists []; reflexivity|]. destruct (IH m M) as [p E].
  exists (x ++ sep ++ p). cbn [app]. rewrite <- !app_assoc, <- E. destruct l; [destruct m; [destruct (M eq_refl)|reflexivity]|reflexivity].
Qed.
Lemma c99_listed gext printable f g before s t after :
  within ($"""" ++ escape_string gext printable s ++ $""", """ ++ escape_string gext printable t ++ $"""")
    (core_display gext printable (ParserUnexpected f g (before ++ s :: t :: after))).
Proof.
  unfold core_display. do 5 apply within_skip. apply within_before. unfold debug_list. apply within_skip, within_before.
  rewrite map_app. cbn [map]. destruct (join_skip $", " (map (debug_str gext printable) before)
    (debug_str gext printable s :: debug_str gext printable t :: map (debug_str gext printable) after)) as [p ->]; [discriminate|].
  apply within_skip. destruct (join_two $", " (debug_str gext printable s) (debug_str gext printable t) (map (debug_str gext printable) after)) as [q ->].
  exists [], q. unfold debug_str. change ($""", """) with ([34] ++ $", " ++ [34]). change ($"""") with [34].
  rewrite <- !app_assoc. reflexivity.
Qed.

(** ** Kinds *)
Definition leads : list str :=
  [$"The tokenizer for "; $"Parser was expecting `"; $"Parser was not expecting `"; $"Parser should not"; $"The String value `";
   $"Not possible"; $"Could not decode"; $"The String value `"; $"A QName"; $"The String value `"; $"Values"; $"The match"; $"An Absolute";
   $"Some"; $"Statements"; $"Cited"; $"Could not read"; $"A cell"; $"An I/O"; $"An error occurred parsing an IRI";
   $"An error occurred parsing a l"; $"An error occurred parsing a n"; $"An error occurred parsing a U"; $"An error occurred parsing a b"; $"Unknown"].
Lemma led gext printable e : exists r, core_display gext printable e = nth (kind e) leads [] ++ r.
Proof. destruct e; cbn [kind core_display]; eexists; reflexivity. Qed.
Fixpoint agree (a b : str) : bool :=
  match a, b with x :: a', y :: b' => N.eqb x y && agree a' b' | _, _ => true end.
Lemma agree_app a b r r' : a ++ r = b ++ r' -> agree a b = true.
Proof.
  revert b. induction a as [|x a IH]; intros [|y b] E; try reflexivity. cbn [app agree] in *.
  assert (X : x = y /\ a ++ r = b ++ r') by (split; congruence). destruct X as [-> X]. rewrite N.eqb_refl. exact (IH b X).
Qed.
Definition stringy (k : nat) : bool := Nat.eqb k 4 || Nat.eqb k 7 || Nat.eqb k 9.
Lemma leads_apart j k : (j < 25)%nat -> (k < 25)%nat -> agree (nth j leads []) (nth k leads []) = true -> j = k \/ stringy j = true /\ stringy k = true.
Proof.
  intros J K A.
  assert (X : forallb (fun j => forallb (fun k => negb (agree (nth j leads []) (nth k leads [])) || Nat.eqb j k || stringy j && stringy k) (seq 0 25)) (seq 0 25) = true)
    by (vm_compute; reflexivity).
  rewrite forallb_forall in X. specialize (X j). rewrite in_seq in X. specialize (X (conj (Nat.le_0_l j) J)).
  rewrite forallb_forall in X. specialize (X k). rewrite in_seq in X. specialize (X (conj (Nat.le_0_l k) K)).
  rewrite A in X. cbn [negb orb] in X. apply orb_true_iff in X as [X|X]; [left; apply Nat.eqb_eq, X|right; apply andb_true_iff, X].
Qed.
Lemma kind_lt e : (kind e < 25)%nat.
Proof. apply Nat.ltb_lt. destruct e; reflexivity. Qed.
Definition tails (k : nat) : str := match k with 4%nat => $"'." | 7%nat => $"k Node name." | _ => $"QName." end.
Lemma trailed gext printable e : stringy (kind e) = true -> exists r, core_display gext printable e = r ++ tails (kind e).
Proof.
  destruct e; try discriminate; intros _; cbn [kind core_display tails].
  - exists ($"The String value `" ++ value ++ $"` is not a valid value for it's type: '" ++ name). rewrite <- !app_assoc. reflexivity.
  - exists ($"The String value `" ++ name ++ $"` is not a valid Blan"). rewrite <- !app_assoc. reflexivity.
  - exists ($"The String value `" ++ name ++ $"` is not a valid "). rewrite <- !app_assoc. reflexivity.
Qed.
Lemma c99_kind gext printable e f : core_display gext printable e = core_display gext printable f -> kind e = kind f.
Proof.
  intros E. destruct (led gext printable e) as (r & R), (led gext printable f) as (r' & R').
  assert (A : agree (nth (kind e) leads []) (nth (kind f) leads []) = true) by (apply (agree_app _ _ r r'); congruence).
  destruct (leads_apart _ _ (kind_lt e) (kind_lt f) A) as [K|[S S']]; [exact K|].
  destruct (trailed gext printable e S) as (q & Q), (trailed gext printable f S') as (q' & Q').
  assert (B : agree (rev (tails (kind e))) (rev (tails (kind f))) = true).
  { apply (agree_app _ _ (rev q) (rev q')). rewrite <- !rev_app_distr. congruence. }
  clear - S S' B. destruct e; try discriminate S; destruct f; try discriminate S'; try reflexivity; vm_compute in B; discriminate B.
Qed.
