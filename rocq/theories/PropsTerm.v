(** Property theorems C18, C19 and C38 (terms).  Statements only; proofs in TermProofs.v
    and LiteralProofs.v. *)
From Verif Require Import Str StrFacts Literal LiteralProofs Term TermProofs.

(** C18: [total_order] (StrFacts.v) is: [Eq] only for equal values, swapping the arguments
    swaps the result, and [Lt] is transitive. *)
Theorem C18_total_orders :
  total_order dt_cmp /\ total_order lit_cmp /\ total_order subj_cmp /\ total_order obj_cmp /\ total_order st_cmp.
Proof. exact (conj dt_total (conj lit_total (conj subj_total (conj obj_total st_total)))). Qed.
Print Assumptions C18_total_orders.

(** C18: [cmp] says [Equal] exactly when [==] holds, and [==] is equality of terms. *)
Theorem C18_cmp_agrees_with_eq :
  (forall a b, dt_cmp a b = Eq <-> dt_eqb a b = true) /\
  (forall a b, lit_cmp a b = Eq <-> lit_eqb a b = true) /\
  (forall a b, subj_cmp a b = Eq <-> subj_eqb a b = true) /\
  (forall a b, obj_cmp a b = Eq <-> obj_eqb a b = true) /\
  (forall a b, st_cmp a b = Eq <-> st_eqb a b = true).
Proof.
  exact (conj (cmp_agrees_eqb _ _ dt_total dt_eqb_eq) (conj (cmp_agrees_eqb _ _ lit_total lit_eqb_eq)
    (conj (cmp_agrees_eqb _ _ subj_total subj_eqb_eq) (conj (cmp_agrees_eqb _ _ obj_total obj_eqb_eq)
      (cmp_agrees_eqb _ _ st_total st_eqb_eq))))).
Qed.
Print Assumptions C18_cmp_agrees_with_eq.

Theorem C18_equality :
  (forall a b, dt_eqb a b = true <-> a = b) /\ (forall a b, lit_eqb a b = true <-> a = b) /\
  (forall a b, subj_eqb a b = true <-> a = b) /\ (forall a b, obj_eqb a b = true <-> a = b) /\
  (forall a b, st_eqb a b = true <-> a = b).
Proof. exact (conj dt_eqb_eq (conj lit_eqb_eq (conj subj_eqb_eq (conj obj_eqb_eq st_eqb_eq)))). Qed.
Print Assumptions C18_equality.

Definition ex_st : statement := MkStmt (SRes $"http://e/s") $"http://e/p" (OBlank $"b").
Definition ex_nested : statement :=
  MkStmt (SStmt ex_st) $"http://e/q" (OColl [OLit (Lit $"1" (Some DtInt) None); OStmt ex_st]).

Example C18_example :
  st_cmp ex_st ex_nested = Lt /\ st_cmp ex_nested ex_st = Gt /\ st_cmp ex_nested ex_nested = Eq /\
  obj_cmp (OColl [OBlank $"a"]) (OColl [OBlank $"a"; OBlank $"b"]) = Lt /\
  lit_cmp (Lit $"b" None None) (Lit $"a" (Some DtString) None) = Lt.
Proof. vm_compute. repeat split. Qed.

(** C19 *)
Theorem C19_conversions :
  (forall s, to_subject (to_object s) = Some s) /\
  (forall o s, to_subject o = Some s -> to_object s = o) /\
  (forall o, to_subject o = None <-> (exists l, o = OLit l) \/ (exists l, o = OColl l)) /\
  (forall s t, obj_cmp (to_object s) (to_object t) = subj_cmp s t).
Proof. exact (conj to_subject_to_object (conj to_object_to_subject (conj to_subject_None to_object_cmp))). Qed.
Print Assumptions C19_conversions.

(** C19: the tests and partial conversions. *)
Theorem C19_variants : forall s o,
  (forall b, s_as_blank s = Some b <-> s = SBlank b) /\ (s_is_blank s = true <-> exists b, s = SBlank b) /\
  (forall st, s_as_statement s = Some st <-> s = SStmt st) /\ (s_is_statement s = true <-> exists st, s = SStmt st) /\
  (forall b, o_as_blank o = Some b <-> o = OBlank b) /\
  (forall st, o_as_statement o = Some st <-> o = OStmt st) /\ (o_is_statement o = true <-> exists st, o = OStmt st) /\
  (forall l, o_as_collection o = Some l <-> o = OColl l) /\ (o_is_collection o = true <-> exists l, o = OColl l).
Proof. exact variants. Qed.
Print Assumptions C19_variants.

Example C19_example :
  to_subject (OStmt ex_st) = Some (SStmt ex_st) /\ to_subject (OColl []) = None /\
  to_object (SBlank $"b") = OBlank $"b".
Proof. vm_compute. repeat split. Qed.

(** C38: [label_ok] is the label grammar of [NameParser::BlankNode], which is not part of
    the repository; the text is kept, with its prefix if it has one. *)
Theorem C38_from_str : forall (label_ok : str -> bool) s b,
  bn_from_str label_ok s = Some b <->
  b = s /\ ((exists r, s = $"_:" ++ r /\ label_ok r = true) \/
            ((forall r, s <> $"_:" ++ r) /\ label_ok s = true)).
Proof. exact bn_from_str_spec. Qed.
Print Assumptions C38_from_str.

(** C38: "_:x" and "x" name the same node but give different blank nodes. *)
Theorem C38_prefix_refuted : forall label_ok : str -> bool, label_ok $"x" = true ->
  exists a b, bn_from_str label_ok $"_:x" = Some a /\ bn_from_str label_ok $"x" = Some b /\
    subj_eqb (SBlank a) (SBlank b) = false /\ subj_show Bare (SBlank a) = $"_:_:x".
Proof. exact bn_prefix_refuted. Qed.
Print Assumptions C38_prefix_refuted.

(** C38: generated labels are pairwise distinct, and are "B" followed by digits. *)
Theorem C38_generated :
  (forall n m, gen_label n = gen_label m -> n = m) /\
  (forall n, exists ds, gen_label n = $"B" ++ ds /\ ds <> [] /\ Forall (fun c => is_digit c = true) ds).
Proof. exact (conj gen_label_inj gen_label_form). Qed.
Print Assumptions C38_generated.

Example C38_example :
  bn_from_str (fun s => forallb is_digit s) $"_:12" = Some $"_:12" /\
  bn_from_str (fun s => forallb is_digit s) $"12" = Some $"12" /\
  bn_from_str (fun s => forallb is_digit s) $"a" = None /\ gen_label 41 = $"B41".
Proof. vm_compute. repeat split. Qed.
