(** What indentation is meant to be: a column moved to the right and to the left. *)
From Coq Require Export ZArith.
From Verif Require Export Indenter.

(** The move an operation asks for; [None] is a return to the offset. *)
Definition move (width : N) (op : ind_op) : option Z :=
  match op with
  | Indent => Some (Z.of_N width)
  | IndentBy k | IndentFor k => Some (Z.of_N k)
  | Outdent => Some (- Z.of_N width)
  | OutdentBy k | OutdentFor k => Some (- Z.of_N k)
  | ResetDepth => None
  end%Z.
Definition leftwards (op : ind_op) : bool :=
  match op with Outdent | OutdentBy _ | OutdentFor _ => true | _ => false end.

(** The column after each operation, starting from column [c]. *)
Definition column (offset width : N) (c : Z) (op : ind_op) : Z :=
  match move width op with Some d => c + d | None => Z.of_N offset end%Z.
Fixpoint column_run (offset width : N) (c : Z) (ops : list ind_op) : Z :=
  match ops with [] => c | op :: r => column_run offset width (column offset width c op) r end.

(** All columns passed lie in the page, and the left edge is only left to the right. *)
Fixpoint on_page (modulus offset width : N) (c : Z) (ops : list ind_op) : Prop :=
  match ops with
  | [] => True
  | op :: r =>
      (leftwards op = true -> c <> 0)%Z /\
      (0 <= column offset width c op < Z.of_N modulus)%Z /\
      on_page modulus offset width (column offset width c op) r
  end.

(** The sizes given are [usize]. *)
Definition sized (modulus : N) (op : ind_op) : Prop :=
  match op with IndentBy k | IndentFor k | OutdentBy k | OutdentFor k => k < modulus | _ => True end.

(** Balanced sequences of steps to the right and back, in any nesting; [depth] is how far
    to the right they go. *)
Inductive balanced (width : N) : list ind_op -> N -> Prop :=
| bal_nil : balanced width [] 0
| bal_seq : forall a b x y, balanced width a x -> balanced width b y -> balanced width (a ++ b) (N.max x y)
| bal_wrap : forall l x op1 op2 k, balanced width l x -> 0 < k ->
    leftwards op1 = false -> leftwards op2 = true ->
    move width op1 = Some (Z.of_N k) -> move width op2 = Some (- Z.of_N k)%Z ->
    balanced width ([op1] ++ l ++ [op2]) (k + x).
