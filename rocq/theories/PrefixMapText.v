(** Proofs for C17: the text of a prefix map. *)
From Coq Require Import Lia.
From Verif Require Import Str StrFacts PName PNameSpec PNameProofs Url Iri IriSpec IriProofs IriEditProofs AMap PrefixMap PrefixMapSpec PrefixMapProofs.
From Verif Require DotReadProofs.

Definition shown_mapping (x : namespace * iri) : str := $"    " ++ ns_text (fst x) ++ $"  <" ++ url_ser (snd x) ++ $"> ,".
Definition parsed (x : namespace * iri) : Prop := (exists s, namespace_from_str s = Ok (fst x)) /\ wf_url (snd x) = true.

Lemma no_lf s : ~ In 10 s -> forallb (fun c => negb (N.eqb 10 c)) s = true.
Proof. intros H. apply forallb_forall. intros c I. destruct (N.eqb_spec 10 c) as [<-|]; [contradiction|reflexivity]. Qed.
Lemma base_no_lf : ~ PN_CHARS_BASE 10.
Proof. intros H. apply is_pn_chars_base_iff in H. discriminate H. Qed.
Lemma chars_no_lf : ~ PN_CHARS_or_dot 10.
Proof. intros [H|H]; [apply is_pn_chars_iff in H; discriminate H|discriminate H]. Qed.
Lemma ns_no_lf s n : namespace_from_str s = Ok n -> ~ In 10 (ns_text n).
Proof.
  intros H. apply namespace_from_str_ok in H as [L ->]. destruct L as [|c mid B F].
  - intros [E|[]]. discriminate E.
  - intros [->|I]; [exact (base_no_lf B)|]. apply in_app_iff in I as [I|[E|[]]]; [|discriminate E].
    rewrite Forall_forall in F. exact (chars_no_lf (F _ I)).
Qed.
Lemma url_no_lf u : wf_url u = true -> ~ In 10 (url_ser u).
Proof.
  intros W I. pose proof (DotReadProofs.url_shown u W) as F. rewrite Forall_forall in F. specialize (F _ I). unfold DotReadProofs.shown_char in F. lia.
Qed.
Lemma line_no_lf x : parsed x -> ~ In 10 (shown_mapping x).
Proof.
  intros [[s N] W] I. unfold shown_mapping in I. rewrite !in_app_iff in I. destruct I as [I|[I|[I|[I|I]]]].
  - cbn in I. repeat destruct I as [I|I]; try discriminate I; try exact I.
  - exact (ns_no_lf _ _ N I).
  - cbn in I. repeat destruct I as [I|I]; try discriminate I; try exact I.
  - exact (url_no_lf _ W I).
  - cbn in I. repeat destruct I as [I|I]; try discriminate I; try exact I.
Qed.
Lemma display_lines l : Forall parsed l ->
  split_on (N.eqb 10) (concat (map (fun pi => $"    " ++ namespace_display (fst pi) ++ $"  " ++ iri_display false (snd pi) ++ $" ," ++ [10]) l) ++ $")" ++ [10]) =
  map shown_mapping l ++ [$")"; []].
Proof.
  induction 1 as [|x l P _ IH]; [reflexivity|]. cbn [map concat].
  assert (E : $"    " ++ namespace_display (fst x) ++ $"  " ++ iri_display false (snd x) ++ $" ," ++ [10] = shown_mapping x ++ [10]).
  { unfold shown_mapping, iri_display, namespace_display. rewrite <- !app_assoc. reflexivity. }
  rewrite E, <- !app_assoc. change ([10] ++ ?r) with (10 :: r).
  rewrite split_on_app_sep; [|reflexivity|apply no_lf, line_no_lf, P]. cbn [app]. f_equal. exact IH.
Qed.
Lemma mappings_parsed parse s h m : parser_ok parse -> Forall op_ok h -> pm_run parse s h = Ret m ->
  (forall p, In p (pm_prefixes m) -> exists t, namespace_from_str t = Ok p) -> Forall parsed (pm_mappings m).
Proof.
  intros Hp O E N. destruct (c11_bijection parse Hp s h m O E) as (_ & W & M & _). apply Forall_forall. intros [p i] I. split.
  - apply N. unfold pm_prefixes, pm_mappings in *. apply (in_map fst) in I. exact I.
  - apply (W p i), M, I.
Qed.
Lemma c17_display parse : parser_ok parse -> forall s h m, Forall op_ok h -> pm_run parse s h = Ret m ->
  (forall p, In p (pm_prefixes m) -> exists t, namespace_from_str t = Ok p) ->
  split_on (N.eqb 10) (pm_display m) =
  [$"Prefixes("] ++ map (fun x => $"    " ++ ns_text (fst x) ++ $"  <" ++ url_ser (snd x) ++ $"> ,") (pm_mappings m) ++ [$")"; []].
Proof.
  intros Hp s h m O E N. unfold pm_display. change ([10] ++ ?r) with (10 :: r).
  rewrite split_on_app_sep by reflexivity. cbn [app]. f_equal. apply display_lines. eapply mappings_parsed; eassumption.
Qed.
Lemma first_colon a b r r' : ~ In 58 a -> ~ In 58 b -> a ++ 58 :: r = b ++ 58 :: r' -> a = b /\ r = r'.
Proof.
  revert b. induction a as [|x a IH]; intros [|y b] A B E.
  - injection E as E. auto.
  - injection E as <- _. exfalso. apply B. left. reflexivity.
  - injection E as -> _. exfalso. apply A. left. reflexivity.
  - injection E as <- E. destruct (IH b) as [-> ->]; [intros I; apply A; right; exact I|intros I; apply B; right; exact I|exact E|auto].
Qed.
Lemma shown_inj x y : parsed x -> parsed y -> shown_mapping x = shown_mapping y -> x = y.
Proof.
  destruct x as [p i], y as [q j]. intros [[s A] W] [[t B] V] E. unfold shown_mapping in E. cbn [fst snd] in *.
  apply app_inv_head in E. destruct (ns_end _ _ A) as (a & Ea & Na). destruct (ns_end _ _ B) as (b & Eb & Nb).
  rewrite Ea, Eb, <- !app_assoc in E. cbn [app] in E. apply first_colon in E as [-> E]; [|assumption|assumption].
  assert (p = q) by (destruct p, q; cbn in *; congruence). subst q. f_equal.
  apply app_inv_head in E. apply app_inv_tail in E. apply url_ser_inj; assumption.
Qed.
Lemma c17_readable parse : parser_ok parse -> forall s1 h1 m1 s2 h2 m2, Forall op_ok h1 -> Forall op_ok h2 ->
  pm_run parse s1 h1 = Ret m1 -> pm_run parse s2 h2 = Ret m2 ->
  (forall p, In p (pm_prefixes m1) -> exists t, namespace_from_str t = Ok p) ->
  (forall p, In p (pm_prefixes m2) -> exists t, namespace_from_str t = Ok p) ->
  pm_display m1 = pm_display m2 <-> pm_eq m1 m2.
Proof.
  intros Hp s1 h1 m1 s2 h2 m2 O1 O2 E1 E2 N1 N2.
  split; [intros E|intros E; unfold pm_display, pm_mappings; rewrite E; reflexivity].
  pose proof (c17_display parse Hp _ _ _ O1 E1 N1) as D1. pose proof (c17_display parse Hp _ _ _ O2 E2 N2) as D2.
  rewrite E, D2 in D1. apply app_inv_head in D1. apply app_inv_tail in D1.
  pose proof (mappings_parsed parse _ _ _ Hp O1 E1 N1) as F1. pose proof (mappings_parsed parse _ _ _ Hp O2 E2 N2) as F2.
  unfold pm_eq, pm_mappings in *. clear - D1 F1 F2. revert D1 F2. generalize (left2right m2) as l2.
  induction F1 as [|x l P F IH]; intros [|y l2] D G; try discriminate D; [reflexivity|].
  change (shown_mapping y :: map shown_mapping l2 = shown_mapping x :: map shown_mapping l) in D.
  pose proof (Forall_inv G) as Py. apply Forall_inv_tail in G.
  assert (H : shown_mapping x = shown_mapping y /\ map shown_mapping l2 = map shown_mapping l) by (split; congruence).
  destruct H as [H K]. rewrite (shown_inj x y P Py H). f_equal. apply IH; assumption.
Qed.
