(** What a data set is meant to be: a partial function from names to graphs. *)
From Coq Require Export Permutation.
From Verif Require Export DataSet.

Definition catalogue : Type := option graph_name -> option graph.

Definition file (c : catalogue) (k : option graph_name) (g : option graph) : catalogue :=
  fun k' => if key_eqb k k' then g else c k'.

Definition cat_step (c : catalogue) (op : ds_op) : catalogue :=
  match op with
  | DsInsert g => file c (g_name g) (Some g)
  | DsExtend l => fold_left (fun c g => file c (g_name g) (Some g)) l c
  | DsRemove k => file c k None
  | DsClear => fun _ => None
  | DsMutate k ops => file c k (option_map (fun g => g_run g ops) (c k))
  end.
Definition cat_run (c : catalogue) (ops : list ds_op) : catalogue := fold_left cat_step ops c.

(** The last graph in a list with a given name. *)
Definition latest (l : list graph) (k : option graph_name) : option graph :=
  find (fun g => key_eqb (g_name g) k) (rev l).

(** A call that does not rename a graph inside the data set. *)
Definition renames (op : g_op) : bool :=
  match op with OpSetName _ | OpUnsetName => true | _ => false end.
Definition keeps_names (op : ds_op) : Prop :=
  match op with DsMutate _ ops => Forall (fun o => renames o = false) ops | _ => True end.

(** Where a data set can come from, apart from a ready-made map. *)
Definition ds_start (d : data_set) : Prop := d = ds_default \/ exists l, d = ds_from_iter l.
