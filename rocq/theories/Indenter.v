(** Model of rdftk_io/src/common/indenter.rs.  No proofs here.

    [usize] is a number below [modulus].  Overflow panics when the crate is compiled with
    overflow checks and wraps around otherwise. *)
From Verif Require Export Str.

Inductive overflow : Type := Checked | Wrapping.

Section Indenter.
Variable modulus : N.
Variable mode : overflow.

(** [usize + usize], [usize - usize] (std). *)
Definition usize_add (x y : N) : outcome N :=
  if x + y <? modulus then Ret (x + y)
  else match mode with Checked => Panic | Wrapping => Ret ((x + y) mod modulus) end.
Definition usize_sub (x y : N) : outcome N :=
  if y <=? x then Ret (x - y)
  else match mode with Checked => Panic | Wrapping => Ret (x + modulus - y) end.

(** indenter.rs:9-13 [struct Indenter]; the [RefCell] is part of the value. *)
Record indenter : Type := Indenter { offset : N; width : N; current : N }.

(** indenter.rs:19-27 [Default]. *)
Definition ind_default : indenter := Indenter 0 2 0.

(** indenter.rs:29-33 [Display]: the empty string, padded. *)
Definition ind_show (i : indenter) : str := repeat 32 (N.to_nat (current i)).

(** indenter.rs:39-53 [with_default_indent_width], [with_initial_offset]. *)
Definition with_default_indent_width (i : indenter) (w : N) : indenter := Indenter (offset i) w (current i).
Definition with_initial_offset (i : indenter) (o : N) : indenter := Indenter o (width i) o.

(** indenter.rs:55-74 [current_indentation], [initial_offset], [is_not_indented],
    [default_width]. *)
Definition is_not_indented (i : indenter) : bool := N.eqb (current i) (offset i).

(** indenter.rs:76-79 [reset_depth]. *)
Definition reset_depth (i : indenter) : indenter := Indenter (offset i) (width i) (offset i).

Definition set_current (i : indenter) (c : N) : indenter := Indenter (offset i) (width i) c.
Definition on_current (i : indenter) (x : outcome N) : outcome indenter :=
  match x with Ret c => Ret (set_current i c) | Panic => Panic end.

(** indenter.rs:81-95 [indent], [indent_by], [indent_for]. *)
Definition indent_by (i : indenter) (k : N) : outcome indenter := on_current i (usize_add (current i) k).
Definition indent (i : indenter) : outcome indenter := indent_by i (width i).
Definition indent_for (i : indenter) (k : N) : outcome indenter := indent_by i k.

(** indenter.rs:97-121 [outdent], [outdent_by], [outdent_for]. *)
Definition outdent_by (i : indenter) (k : N) : outcome indenter :=
  if N.eqb (current i) 0 then Panic else on_current i (usize_sub (current i) k).
Definition outdent (i : indenter) : outcome indenter :=
  if N.eqb (current i) 0 then Panic else outdent_by i (width i).
Definition outdent_for (i : indenter) (k : N) : outcome indenter :=
  if N.eqb (current i) 0 then Panic else outdent_by i k.

(** Sequences of calls. *)
Inductive ind_op : Type :=
| Indent | IndentBy (k : N) | IndentFor (k : N)
| Outdent | OutdentBy (k : N) | OutdentFor (k : N)
| ResetDepth.
Definition ind_step (i : indenter) (op : ind_op) : outcome indenter :=
  match op with
  | Indent => indent i
  | IndentBy k => indent_by i k
  | IndentFor k => indent_for i k
  | Outdent => outdent i
  | OutdentBy k => outdent_by i k
  | OutdentFor k => outdent_for i k
  | ResetDepth => Ret (reset_depth i)
  end.
Fixpoint ind_run (i : indenter) (ops : list ind_op) : outcome indenter :=
  match ops with
  | [] => Ret i
  | op :: r => match ind_step i op with Ret j => ind_run j r | Panic => Panic end
  end.
End Indenter.
