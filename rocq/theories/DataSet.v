(** Model of rdftk_core/src/model/data_set.rs.  No proofs here.

    The [HashMap] is an association list with distinct keys; [graphs] returns its values
    in an unspecified order [ho]. *)
From Verif Require Export Graph.

(** The equality on [Option<GraphName>] (graph.rs:36 derived [PartialEq]). *)
Definition key_eqb (a b : option graph_name) : bool :=
  match a, b with
  | None, None => true
  | Some x, Some y => gn_eqb x y
  | _, _ => false
  end.

(** data_set.rs:57-59 [struct DataSet]. *)
Definition data_set : Type := list (option graph_name * graph).

(** data_set.rs:56 derived [Default]. *)
Definition ds_default : data_set := [].

(** [HashMap::get], [insert] (replaces the value of an existing key), [remove]. *)
Fixpoint hm_get (d : data_set) (k : option graph_name) : option graph :=
  match d with
  | [] => None
  | (k', g) :: r => if key_eqb k' k then Some g else hm_get r k
  end.
Fixpoint hm_insert (d : data_set) (k : option graph_name) (g : graph) : data_set :=
  match d with
  | [] => [(k, g)]
  | (k', g') :: r => if key_eqb k' k then (k', g) :: r else (k', g') :: hm_insert r k g
  end.
Fixpoint hm_remove (d : data_set) (k : option graph_name) : data_set :=
  match d with
  | [] => []
  | (k', g') :: r => if key_eqb k' k then r else (k', g') :: hm_remove r k
  end.

(** data_set.rs:80-82 [From<HashMap>]: any map, the keys are not compared with the names. *)
Definition ds_from_map (d : data_set) : data_set := d.

(** data_set.rs:84-92 [FromIterator]: [collect] inserts one after the other. *)
Definition ds_from_iter (l : list graph) : data_set :=
  fold_left (fun d kg => hm_insert d (fst kg) (snd kg)) (map (fun g => (g_name g, g)) l) [].
(** data_set.rs:68-78 [From<Graph>], [From<Vec<Graph>>]. *)
Definition ds_from_graph (g : graph) : data_set := ds_from_iter [g].
Definition ds_from_vec (l : list graph) : data_set := ds_from_iter l.

(** data_set.rs:94-98 [supports_feature]. *)
Definition ds_supports_feature (d : data_set) (f : str) : bool := false.

(** data_set.rs:100-112 [is_empty], [len]. *)
Definition ds_is_empty (d : data_set) : bool := match d with [] => true | _ => false end.
Definition ds_len (d : data_set) : nat := length d.

(** data_set.rs:118-134 [contains_graph], [has_default_graph], [has_graph_named]. *)
Definition ds_contains_graph (d : data_set) (k : option graph_name) : bool :=
  match hm_get d k with Some _ => true | None => false end.
Definition ds_has_default_graph (d : data_set) : bool := ds_contains_graph d None.
Definition ds_has_graph_named (d : data_set) (n : graph_name) : bool := ds_contains_graph d (Some n).

(** data_set.rs:140-165 [graph], [default_graph], [graph_named], [graphs]. *)
Definition ds_graph (d : data_set) (k : option graph_name) : option graph := hm_get d k.
Definition ds_default_graph (d : data_set) : option graph := ds_graph d None.
Definition ds_graph_named (d : data_set) (n : graph_name) : option graph := ds_graph d (Some n).
Definition ds_graphs (ho : list graph -> list graph) (d : data_set) : list graph := ho (map snd d).

(** data_set.rs:144-146 [graph_mut]: the caller may change the graph found in place; the
    key stays. *)
Fixpoint ds_graph_mut (d : data_set) (k : option graph_name) (f : graph -> graph) : data_set :=
  match d with
  | [] => []
  | (k', g) :: r => if key_eqb k' k then (k', f g) :: r else (k', g) :: ds_graph_mut r k f
  end.

(** data_set.rs:174-202 [insert], [extend], [remove], [clear]. *)
Definition ds_insert (d : data_set) (g : graph) : data_set := hm_insert d (g_name g) g.
Definition ds_extend (d : data_set) (l : list graph) : data_set := fold_left ds_insert l d.
Definition ds_remove (d : data_set) (k : option graph_name) : data_set := hm_remove d k.
Definition ds_clear (d : data_set) : data_set := [].

(** The calls a user can make. *)
Inductive ds_op : Type :=
| DsInsert (g : graph)
| DsExtend (l : list graph)
| DsRemove (k : option graph_name)
| DsClear
| DsMutate (k : option graph_name) (ops : list g_op).

Definition ds_step (d : data_set) (op : ds_op) : data_set :=
  match op with
  | DsInsert g => ds_insert d g
  | DsExtend l => ds_extend d l
  | DsRemove k => ds_remove d k
  | DsClear => ds_clear d
  | DsMutate k ops => ds_graph_mut d k (fun g => g_run g ops)
  end.
Definition ds_run (d : data_set) (ops : list ds_op) : data_set := fold_left ds_step ops d.
