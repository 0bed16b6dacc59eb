(** Property theorems C31 and C58 (resource builder).  Statements only; proofs in
    ResourceProofs.v.  [reordered r r']: the maps inside [r'] are iterated in some other
    order; the theorems hold for every order. *)
From Verif Require Import Str Literal Term Resource ResourceSpec ResourceProofs.

Definition ex_gext (c : chr) : bool := false.
Definition ex_printable (c : chr) : bool := true.
Definition ex_r : resource :=
  r_run ex_gext ex_printable (r_new (SRes $"s"))
    [CLiteralStr $"p" $"x"; CPropertySequence $"q" [Lit $"y" None None; Lit $"z" None None];
     CPredicate $"p" [PProperty (Lit $"w" None None); PResourceNamed $"c"]].
Definition ex_r_other_order : resource :=
  MkResource (SRes $"s") (rev (r_preds ex_r)).

(** C31 is false: a resource with a nested resource does not refer to it ... *)
Theorem C31_nested_refuted : forall s c p n, s <> c ->
  let r := r_insert (r_new s) p (RRes (r_new c)) in
  forall labels, ~ intended r labels (fst (r_statements r n)).
Proof. exact c31_nested_wrong. Qed.
Print Assumptions C31_nested_refuted.

(** ... and containers are numbered from 0. *)
Theorem C31_numbering_refuted : forall s p l n,
  let r := r_insert (r_new s) p (RLits KSeq [l]) in
  forall labels, ~ intended r labels (fst (r_statements r n)).
Proof. exact c31_numbering_wrong. Qed.
Print Assumptions C31_numbering_refuted.

(** C31, exactly what is produced: in place of the nested resource the outer subject is
    linked, members are numbered from 0, everything else is as intended; containers get
    new labels, one each. *)
Theorem C31_statements : forall r r' n, reordered r r' ->
  let '(sts, n') := r_statements r' n in
  exists labels, written (fun s _ => to_object s) 0 r labels sts /\
    n' = n + N.of_nat (length labels) /\ NoDup labels /\
    (forall b, In b labels -> exists k, n <= k < n' /\ b = gen_label k).
Proof. exact c31_exact. Qed.
Print Assumptions C31_statements.

(** C31: as intended for resources with literal values only. *)
Theorem C31_literals : forall r r' n, reordered r r' -> literals_only r ->
  let '(sts, n') := r_statements r' n in intended r [] sts /\ n' = n.
Proof. exact c31_literals. Qed.
Print Assumptions C31_literals.

Example C31_example :
  reordered ex_r ex_r_other_order /\
  r_statements ex_r_other_order 5 =
   ([MkStmt (SRes $"s") $"q" (OBlank $"B5");
     MkStmt (SBlank $"B5") (rdf $"type") (ORes (rdf $"Seq"));
     MkStmt (SBlank $"B5") (rdf $"_0") (OLit (Lit $"y" None None));
     MkStmt (SBlank $"B5") (rdf $"_1") (OLit (Lit $"z" None None));
     MkStmt (SRes $"s") $"p" (OLit (Lit $"x" None None));
     MkStmt (SRes $"s") $"p" (OLit (Lit $"w" None None));
     MkStmt (SRes $"s") $"p" (ORes $"s")], 6) /\
  literals_only (r_run ex_gext ex_printable (r_new (SRes $"s")) [CLiteralStr $"p" $"x"; CLiteralStr $"q" $"x"]).
Proof.
  split; [|split; [vm_compute; reflexivity|repeat constructor; eexists; reflexivity]].
  econstructor; [apply Permutation_rev|]. apply Forall2_refl_In. repeat constructor. apply reordered_refl.
Qed.

(** C58 *)
Theorem C58_builder_collects : forall gext printable s cs,
  let r := r_run gext printable (r_new s) cs in
  r_subject r = s /\ NoDup (map fst (r_preds r)) /\
  Permutation (pairs r) (flat_map (asked gext printable) cs) /\
  (forall p, map snd (filter (fun po => str_eqb (fst po) p) (pairs r)) =
             map snd (filter (fun po => str_eqb (fst po) p) (flat_map (asked gext printable) cs))) /\
  (r_is_an_individual r = true <-> Exists (fun e => fst e = rdf $"type") (r_preds r)).
Proof. exact c58_build. Qed.
Print Assumptions C58_builder_collects.

(** C58: where it begins; anonymous resources are all different. *)
Theorem C58_new : forall b i n m,
  r_is_a_resource (r_individual i) = true /\ r_is_a_resource (r_semi_anonymous b) = false /\
  r_is_a_resource (fst (r_anonymous n)) = false /\ r_preds (fst (r_anonymous n)) = [] /\
  r_preds (r_individual i) = [] /\ r_preds (r_semi_anonymous b) = [] /\
  r_subject (r_individual i) = SRes i /\ r_subject (r_semi_anonymous b) = SBlank b /\
  ((snd (r_anonymous n) <= m)%N -> r_subject (fst (r_anonymous n)) <> r_subject (fst (r_anonymous m))).
Proof. exact c58_new. Qed.
Print Assumptions C58_new.

Example C58_example :
  r_preds ex_r =
    [($"p", [RLit (Lit $"x" None None); RLit (Lit $"w" None None); RRes (r_new (SRes $"c"))]);
     ($"q", [RLits KSeq [Lit $"y" None None; Lit $"z" None None]])].
Proof. vm_compute. reflexivity. Qed.
