(** Property theorems C45 (indentation).  Statements only; proofs in IndenterProofs.v. *)
From Coq Require Import ZArith Lia.
From Verif Require Import IndenterSpec IndenterProofs.

(** C45: any balanced sequence of steps, of any size and nesting, brings an indenter back to
    where it was, with and without overflow checks, if the steps are not empty and the
    deepest column is a [usize]. *)
Theorem C45_balanced : forall modulus mode ops depth i,
  balanced (width i) ops depth -> offset i < modulus -> current i + depth < modulus ->
  ind_run modulus mode i ops = Ret i.
Proof. exact c45_balanced. Qed.
Print Assumptions C45_balanced.

(** C45: the column is the sum of the moves since the last reset, and that many spaces are
    printed; the calls panic exactly if the column would leave the page, or is at the left
    edge and asked to move further left. *)
Theorem C45_column : forall modulus ops i, current i < modulus -> offset i < modulus ->
  (on_page modulus (offset i) (width i) (Z.of_N (current i)) ops ->
   exists j, (forall mode, ind_run modulus mode i ops = Ret j) /\ offset j = offset i /\ width j = width i /\
     Z.of_N (N.of_nat (length (ind_show j))) = column_run (offset i) (width i) (Z.of_N (current i)) ops /\
     Forall (eq 32) (ind_show j)) /\
  (~ on_page modulus (offset i) (width i) (Z.of_N (current i)) ops -> ind_run modulus Checked i ops = Panic).
Proof. exact c45_column. Qed.
Print Assumptions C45_column.

(** C45: without overflow checks the column is counted modulo the size of [usize], and the
    calls panic exactly if one asks to move left at a column that is counted as 0. *)
Theorem C45_wrapping : forall modulus ops i, Forall (sized modulus) ops ->
  width i < modulus -> offset i < modulus -> current i < modulus ->
  (forall j, ind_run modulus Wrapping i ops = Ret j ->
     offset j = offset i /\ width j = width i /\
     Z.of_N (current j) = (column_run (offset i) (width i) (Z.of_N (current i)) ops mod Z.of_N modulus)%Z) /\
  (ind_run modulus Wrapping i ops = Panic <->
   exists before op after, ops = before ++ op :: after /\ leftwards op = true /\
     (column_run (offset i) (width i) (Z.of_N (current i)) before mod Z.of_N modulus = 0)%Z).
Proof. exact c45_wrapping. Qed.
Print Assumptions C45_wrapping.

(** C45: the constructors and the test for being at the offset. *)
Theorem C45_offset : forall i o w,
  is_not_indented (with_initial_offset i o) = true /\ current (with_initial_offset i o) = o /\
  offset (with_initial_offset i o) = o /\ width (with_initial_offset i o) = width i /\
  width (with_default_indent_width i w) = w /\ current (with_default_indent_width i w) = current i /\
  offset (with_default_indent_width i w) = offset i /\
  (is_not_indented i = true <-> length (ind_show i) = N.to_nat (offset i)) /\
  offset ind_default = 0 /\ width ind_default = 2 /\ ind_show ind_default = [].
Proof. exact c45_offset. Qed.
Print Assumptions C45_offset.

(** C45 is false with an empty step: indenting by nothing and back panics at the left edge;
    and without overflow checks moving beyond the left edge does not panic. *)
Theorem C45_balanced_refuted :
  (forall modulus mode, 0 < modulus ->
     ind_run modulus mode (with_default_indent_width ind_default 0) [Indent; Outdent] = Panic) /\
  (forall modulus, 3 < modulus ->
     exists j, ind_run modulus Wrapping ind_default [IndentBy 1; OutdentBy 2] = Ret j /\ current j = modulus - 1).
Proof. exact c45_refuted. Qed.
Print Assumptions C45_balanced_refuted.

Example C45_example :
  let ops := [Indent; IndentBy 3; OutdentFor 3; Indent; Outdent; Outdent] in
  let i := with_initial_offset ind_default 4 in
  balanced (width i) ops 5 /\ on_page 18446744073709551616 (offset i) (width i) (Z.of_N (current i)) ops /\
  ind_run 18446744073709551616 Checked i (Indent :: ops) = Ret (Indenter 4 2 6) /\
  ind_run 256 Wrapping i [IndentBy 251; Indent; Outdent; IndentBy 255] = Ret (Indenter 4 2 254) /\
  ind_run 256 Wrapping i [IndentBy 252; Outdent] = Panic.
Proof.
  cbv zeta. split; [|split; [|split; [|split]; vm_compute; reflexivity]].
  - replace 5 with (2 + N.max 3 2) by reflexivity. apply (bal_wrap 2 [IndentBy 3; OutdentFor 3; Indent; Outdent] _ Indent Outdent); try reflexivity.
    apply (bal_seq 2 [IndentBy 3; OutdentFor 3] [Indent; Outdent] (3 + 0) (2 + 0)).
    + apply (bal_wrap 2 [] 0 (IndentBy 3) (OutdentFor 3)); try reflexivity. constructor.
    + apply (bal_wrap 2 [] 0 Indent Outdent); try reflexivity. constructor.
  - cbn. repeat split; try lia; discriminate.
Qed.
