(** The texts of Turtle documents are taken apart as they were put together. *)
From Verif Require Import NTriplesSpec NTriplesProofs StrFacts PNameSpec Turtle TurtleSpec TurtleLitSpec TurtleProofs TurtleShape TurtleLitProofs TurtleReadSpec.
From Coq Require Import Permutation Lia.
Local Opaque group_predicate pg_map.

(** ** Words *)
Definition opt_cons {A} (x : A) (o : option (list A)) : option (list A) :=
  match o with Some l => Some (x :: l) | None => None end.
(** What may follow a word that does not end by itself. *)
Definition ender (s : str) : Prop := match s with [] => True | c :: _ => white c = true \/ c = 44 end.
Lemma ender_cases c (P : chr -> Prop) : (forall x, In x [32; 9; 10; 13; 44] -> P x) -> white c = true \/ c = 44 -> P c.
Proof.
  intros H [W | ->]; [|apply H; cbn; auto 10]. apply H. unfold white in W. apply existsb_exists in W as (x & I & E).
  apply N.eqb_eq in E. subst x. cbn in *. intuition.
Qed.
Lemma lex_ender m s l : ender s -> lex_end m = Some l ->
  (forall c, In c [32; 9; 10; 13; 44] -> lex_step m c = lex_ended m c) ->
  lex m s = match lex Gap s with Some k => Some (l ++ k) | None => None end.
Proof.
  intros H E S. destruct s as [|c r]; cbn [lex ender] in *.
  - rewrite E. cbn [lex_end]. rewrite app_nil_r. reflexivity.
  - assert (K : lex_step m c = lex_ended m c) by (apply (ender_cases c (fun c => lex_step m c = lex_ended m c)); auto).
    rewrite K. unfold lex_ended. rewrite E. cbn [lex_step]. destruct (lex_start c) as [[b m']|]; [|reflexivity].
    destruct (lex m' r); [|reflexivity]. rewrite <- app_assoc. reflexivity.
Qed.
Lemma end_name_last w : last w 0 <> 46 -> end_name (rev w) [] = [Word w].
Proof.
  destruct w as [|x w _] using rev_ind; [reflexivity|]. rewrite last_last, rev_app_distr. cbn [rev app end_name]. intros H.
  apply N.eqb_neq in H. rewrite H. rewrite rev_involutive. reflexivity.
Qed.
Lemma lex_name w r : forallb name_char w = true -> forall u, last (u ++ w) 0 <> 46 -> ender r ->
  lex (InName u) (w ++ r) = opt_cons (Word (u ++ w)) (lex Gap r).
Proof.
  induction w as [|c w IH]; intros F u L E.
  - rewrite app_nil_r in *. cbn [app]. rewrite (lex_ender _ r [Word u] E).
    + destruct (lex Gap r); reflexivity.
    + cbn [lex_end]. rewrite end_name_last by exact L. reflexivity.
    + intros c I. cbn [lex_step]. assert (X : name_char c = false) by (cbn in I; intuition; subst c; reflexivity). rewrite X. reflexivity.
  - cbn [forallb] in F. apply andb_prop in F as [F1 F2]. cbn [app lex lex_step]. rewrite F1.
    rewrite IH; [|exact F2|rewrite <- app_assoc; exact L|exact E]. rewrite <- app_assoc. cbn [app].
    destruct (lex Gap r); reflexivity.
Qed.
Lemma lex_iri w r : forallb iri_char w = true -> forall u,
  lex (InIri u) (w ++ 62 :: r) = opt_cons (Word (u ++ w ++ [62])) (lex Gap r).
Proof.
  induction w as [|c w IH]; intros F u.
  - cbn [app lex lex_step]. change (N.eqb 62 62) with true. cbn iota. destruct (lex Gap r); reflexivity.
  - cbn [forallb] in F. apply andb_prop in F as [F1 F2]. cbn [app lex lex_step]. rewrite F1.
    destruct (N.eqb_spec c 62) as [->|_]; [vm_compute in F1; discriminate|].
    rewrite IH by exact F2. rewrite <- app_assoc. cbn [app]. destruct (lex Gap r); reflexivity.
Qed.
Lemma lex_tag w r : forallb tag_char w = true -> forall u, ender r ->
  lex (InTag u) (w ++ r) = opt_cons (Word (u ++ w)) (lex Gap r).
Proof.
  induction w as [|c w IH]; intros F u E.
  - rewrite app_nil_r in *. cbn [app]. rewrite (lex_ender _ r [Word u] E).
    + destruct (lex Gap r); reflexivity.
    + reflexivity.
    + intros c I. cbn [lex_step]. assert (X : tag_char c = false) by (cbn in I; intuition; subst c; reflexivity). rewrite X. reflexivity.
  - cbn [forallb] in F. apply andb_prop in F as [F1 F2]. cbn [app lex lex_step]. rewrite F1.
    rewrite IH; [|exact F2|exact E]. rewrite <- app_assoc. cbn [app].
    destruct (lex Gap r); reflexivity.
Qed.
(** Characters of a string that stand for themselves. *)
Definition inner_char (c : chr) : Prop := ~ In c [34; 92; 10; 13].
Lemma lex_inner c u r : inner_char c -> lex (InString u) (c :: r) = lex (InString (u ++ [c])) r.
Proof.
  intros H. cbn [lex lex_step].
  destruct (N.eqb_spec c 34) as [->|N1]; [exfalso; apply H; cbn; auto|].
  destruct (N.eqb_spec c 92) as [->|N2]; [exfalso; apply H; cbn; auto|].
  cbn [existsb]. destruct (N.eqb_spec c 10) as [->|N3]; [exfalso; apply H; cbn; auto|].
  destruct (N.eqb_spec c 13) as [->|N4]; [exfalso; apply H; cbn; auto|]. cbn.
  destruct (lex (InString (u ++ [c])) r); reflexivity.
Qed.
Lemma lex_inners ds : Forall inner_char ds -> forall u r, lex (InString u) (ds ++ r) = lex (InString (u ++ ds)) r.
Proof.
  induction 1 as [|c ds H F IH]; intros u r; [rewrite app_nil_r; reflexivity|].
  cbn [app]. rewrite lex_inner by exact H. rewrite IH, <- app_assoc. reflexivity.
Qed.
Lemma lex_escape c u r : lex (InString u) (92 :: c :: r) = lex (InString (u ++ [92; c])) r.
Proof.
  cbn [lex lex_step]. change (N.eqb 92 34) with false. change (N.eqb 92 92) with true. cbn iota. cbn [lex lex_step].
  rewrite <- app_assoc. cbn [app]. destruct (lex (InString (u ++ [92; c])) r); reflexivity.
Qed.
Lemma hex_inner ds vs : Forall2 hex_digit ds vs -> Forall inner_char ds.
Proof.
  induction 1 as [|d v ds vs H F IH]; constructor; auto. apply hex_val_Some in H.
  intros I. cbn in I. destruct I as [<-|[<-|[<-|[<-|[]]]]]; vm_compute in H; discriminate.
Qed.
Lemma lex_string b t : string_reads b t -> forall u r, lex (InString u) (b ++ r) = lex (InString (u ++ b)) r.
Proof.
  induction 1 as [|c s t NI R IH|e c s t I R IH|ds vs s t D L S R IH|ds vs s t D L S R IH]; intros u r.
  - rewrite app_nil_r. reflexivity.
  - cbn [app]. rewrite lex_inner by exact NI. rewrite IH, <- app_assoc. reflexivity.
  - cbn [app]. rewrite lex_escape, IH, <- app_assoc. reflexivity.
  - cbn [app]. rewrite lex_escape. rewrite <- app_assoc, (lex_inners ds (hex_inner _ _ D)), IH, <- !app_assoc. reflexivity.
  - cbn [app]. rewrite lex_escape. rewrite <- app_assoc, (lex_inners ds (hex_inner _ _ D)), IH, <- !app_assoc. reflexivity.
Qed.
Lemma lex_closing u r : lex (InString u) (34 :: r) = lex (AfterString (u ++ [34])) r.
Proof. cbn [lex lex_step]. change (N.eqb 34 34) with true. cbn iota. destruct (lex (AfterString (u ++ [34])) r); reflexivity. Qed.
Lemma lex_hats u r : lex (AfterString u) (94 :: 94 :: r) = lex (TwoHats (u ++ [94; 94])) r.
Proof.
  cbn [lex lex_step]. change (N.eqb 94 64) with false. change (N.eqb 94 94) with true. cbn iota. cbn [lex_step]. change (N.eqb 94 94) with true. cbn iota.
  rewrite <- app_assoc. cbn [app]. destruct (lex (TwoHats (u ++ [94; 94])) r); reflexivity.
Qed.
Lemma lex_hat_iri u r : lex (TwoHats u) (60 :: r) = lex (InIri (u ++ [60])) r.
Proof. cbn [lex lex_step]. change (N.eqb 60 60) with true. cbn iota. destruct (lex (InIri (u ++ [60])) r); reflexivity. Qed.
Lemma lex_hat_name u c r : name_char c = true -> lex (TwoHats u) (c :: r) = lex (InName (u ++ [c])) r.
Proof.
  intros H. cbn [lex lex_step]. destruct (N.eqb_spec c 60) as [->|_]; [vm_compute in H; discriminate|]. rewrite H.
  destruct (lex (InName (u ++ [c])) r); reflexivity.
Qed.

(** A word that can be told from what follows. *)
Inductive token : str -> Prop :=
| Tk_iri i : forallb iri_char i = true -> token ([60] ++ i ++ [62])
| Tk_name c w : forallb name_char (c :: w) = true -> c <> 46 -> last (c :: w) 0 <> 46 -> token (c :: w)
| Tk_point d w : is_digit d = true -> forallb name_char w = true -> last (46 :: d :: w) 0 <> 46 -> token (46 :: d :: w)
| Tk_string b t : string_reads b t -> token ([34] ++ b ++ [34])
| Tk_lang b t tag : string_reads b t -> forallb tag_char tag = true -> token ([34] ++ b ++ [34] ++ $"@" ++ tag)
| Tk_typed b t i : string_reads b t -> forallb iri_char i = true -> token ([34] ++ b ++ [34] ++ $"^^" ++ [60] ++ i ++ [62])
| Tk_named b t c w : string_reads b t -> forallb name_char (c :: w) = true -> last (c :: w) 0 <> 46 ->
    token ([34] ++ b ++ [34] ++ $"^^" ++ c :: w)
| Tk_keyword w : forallb tag_char w = true -> token (64 :: w).
Lemma name_start c : name_char c = true -> c <> 46 -> lex_start c = Some ([], InName [c]).
Proof.
  intros N D. unfold lex_start.
  assert (X : white c = false /\ N.eqb c 35 = false /\ sign_char c = false /\ N.eqb c 60 = false /\ N.eqb c 34 = false /\ N.eqb c 64 = false).
  { assert (K : forall x, In x [32; 9; 10; 13; 35; 44; 59; 91; 93; 40; 41; 60; 34; 64] -> c <> x).
    { intros x I ->. cbn in I. repeat (destruct I as [<-|I]; [vm_compute in N; discriminate|]). destruct I. }
    unfold white, sign_char. cbn [existsb].
    repeat match goal with |- context[N.eqb c ?x] => rewrite (proj2 (N.eqb_neq c x) (K x ltac:(cbn; auto 20))) end.
    auto 10. }
  destruct X as (-> & -> & -> & -> & -> & ->). apply N.eqb_neq in D. rewrite D, N. reflexivity.
Qed.
Lemma opt_same {A} (x : A) o : match o with Some k => Some ([] ++ k) | None => None end = (o : option (list A)).
Proof. destruct o; reflexivity. Qed.
Lemma lex_first c m r : lex_start c = Some ([], m) -> lex Gap (c :: r) = lex m r.
Proof. intros H. cbn [lex lex_step]. rewrite H. destruct (lex m r); reflexivity. Qed.
Lemma last_app_cons {A} (u w : list A) c d : last (u ++ c :: w) d = last (c :: w) d.
Proof. induction u as [|x u IH]; [reflexivity|]. cbn [app last]. destruct (u ++ c :: w) eqn:E; [destruct u; discriminate|]. exact IH. Qed.
Lemma lex_token w r : token w -> (hd 0 w = 60 \/ ender r) -> lex Gap (w ++ r) = opt_cons (Word w) (lex Gap r).
Proof.
  intros [i F|c v F D L|d v D F L|b t R|b t tag R F|b t i R F|b t c v R F L|v F] [H|E]; try discriminate H.
  - cbn [app]. rewrite (lex_first 60 (InIri [60])) by reflexivity. rewrite <- app_assoc. cbn [app]. rewrite lex_iri by exact F. reflexivity.
  - cbn [app]. rewrite (lex_first 60 (InIri [60])) by reflexivity. rewrite <- app_assoc. cbn [app]. rewrite lex_iri by exact F. reflexivity.
  - cbn [hd] in H. subst c. cbn [forallb] in F. vm_compute in F. discriminate.
  - cbn [forallb] in F. apply andb_prop in F as [F1 F2]. cbn [app]. rewrite (lex_first c (InName [c])) by (apply name_start; auto).
    rewrite lex_name; auto.
  - cbn [app]. rewrite (lex_first 46 AfterDot) by reflexivity. cbn [lex lex_step]. rewrite D.
    rewrite lex_name; auto. destruct (lex Gap r); reflexivity.
  - cbn [app]. rewrite (lex_first 34 (InString [34])) by reflexivity. rewrite <- app_assoc. rewrite (lex_string b t R). cbn [app].
    rewrite lex_closing. rewrite (lex_ender _ r [Word ((34 :: b) ++ [34])] E); [destruct (lex Gap r); reflexivity|reflexivity|].
    intros c I. cbn in I. intuition; subst c; reflexivity.
  - cbn [app]. rewrite (lex_first 34 (InString [34])) by reflexivity. rewrite <- app_assoc. rewrite (lex_string b t R). cbn [app].
    rewrite lex_closing. change (($"@" ++ tag) ++ r) with (64 :: (tag ++ r)). change ($"@" ++ tag) with (64 :: tag). cbn [lex lex_step]. change (N.eqb 64 64) with true. cbn iota. rewrite lex_tag by auto.
    rewrite <- !app_assoc. cbn [app]. destruct (lex Gap r); reflexivity.
  - cbn [app]. rewrite (lex_first 34 (InString [34])) by reflexivity. rewrite <- app_assoc. rewrite (lex_string b t R). cbn [app].
    rewrite lex_closing. change $"^^" with [94; 94]. cbn [app]. rewrite lex_hats, lex_hat_iri. rewrite <- !app_assoc. cbn [app].
    rewrite lex_iri by auto. rewrite <- !app_assoc. cbn [app]. rewrite <- ?app_assoc. reflexivity.
  - cbn [app]. rewrite (lex_first 34 (InString [34])) by reflexivity. rewrite <- app_assoc. rewrite (lex_string b t R). cbn [app].
    cbn [forallb] in F. apply andb_prop in F as [F1 F2].
    rewrite lex_closing. change $"^^" with [94; 94]. cbn [app]. rewrite lex_hats, lex_hat_name by exact F1.
    rewrite lex_name; auto.
    + rewrite <- !app_assoc. cbn [app]. rewrite <- ?app_assoc. reflexivity.
    + rewrite <- !app_assoc. cbn [app]. rewrite <- ?app_assoc. cbn [app].
      change (34 :: b ++ 34 :: 94 :: 94 :: c :: v) with ((34 :: b) ++ 34 :: 94 :: 94 :: c :: v). rewrite last_app_cons. exact L.
  - cbn [app]. rewrite (lex_first 64 (InTag [64])) by reflexivity. rewrite lex_tag by auto. reflexivity.
Qed.
