(** Specification of an indexed graph: a bag of statements, and the keys that have ever been
    used.  No proofs here. *)
From Coq Require Import Permutation.
From Verif Require Export Indexed GraphSpec TermProofs.

Definition count (st : statement) (l : list statement) : nat := count_occ st_eq_dec l st.

Definition multiset : Type := statement -> nat.
Definition ix_bag_step (b : multiset) (op : ix_op) : multiset :=
  match op with
  | IxInsert st => fun x => if st_eq_dec x st then S (b x) else b x
  | IxMerge other => fun x => (b x + count x (ix_statements other))%nat
  | IxDedup _ => fun x => Nat.min 1 (b x)
  | IxRemove st => fun x => if st_eq_dec x st then Nat.pred (b x) else b x
  | IxRemoveAllFor s => fun x => if subj_eqb (st_subject x) s then O else b x
  | IxClear => fun _ => O
  | IxSetName _ | IxSetMappings _ => b
  end.
Definition ix_bag (h : list ix_op) : multiset := fold_left ix_bag_step h (fun _ => O).

(** The orders in a history are orders of hash sets. *)
Definition ix_op_ok (op : ix_op) : Prop := match op with IxDedup ho => hash_order ho | _ => True end.

(** An index finds, for each key, the statements with that key and as often as they are in
    the graph. *)
Definition finds {K} (keqb : K -> K -> bool) (key : statement -> K) (m : list (K * list statement))
    (sts : list statement) : Prop :=
  NoDup (map fst m) /\
  forall k x, count x (match ix_get keqb k m with Some l => l | None => [] end) =
              if keqb (key x) k then count x sts else O.
Definition well_indexed (g : indexed) : Prop :=
  finds subj_eqb st_subject (s_index g) (ix_statements g) /\
  finds str_eqb st_predicate (p_index g) (ix_statements g) /\
  finds obj_eqb st_object (o_index g) (ix_statements g).

(** The statements that have been inserted since the graph was last cleared. *)
Definition seen_step (l : list statement) (op : ix_op) : list statement :=
  match op with
  | IxInsert st => l ++ [st]
  | IxMerge other => l ++ ix_statements other
  | IxClear => []
  | _ => l
  end.
Definition seen (h : list ix_op) : list statement := fold_left seen_step h [].

(** A graph a caller can have, [statements_mut] and construction from statements apart. *)
Definition reachable (h : list ix_op) (g : indexed) : Prop :=
  Forall ix_op_ok h /\ exists name, g = ix_run (ix_named_graph name) h.

(** The name and the mappings after a history. *)
Definition ix_name_run (h : list ix_op) (n : option graph_name) : option graph_name :=
  fold_left (fun n op => match op with IxSetName m => m | _ => n end) h n.
Definition ix_mappings_run (h : list ix_op) (m : list (str * str)) : list (str * str) :=
  fold_left (fun m op => match op with IxSetMappings m' => m' | _ => m end) h m.
