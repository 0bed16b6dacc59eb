(** The layout of Turtle documents: every character of the text, white space included.

    Graphs are flat: no object is written over several lines. *)
From Verif Require Export Turtle TurtleSpec.

Section Layout.
Variable c : setting.
Variable g : graph.

(** The text of an object on its own.  Blank nodes have none if they are nested and have
    statements, and collections have none if they have items. *)
Inductive flat_as : object -> str -> Prop :=
| Flat_iri i w : iri_word c i = Some w -> flat_as (ORes i) w
| Flat_lit l w : lit_word c l = Some w -> flat_as (OLit l) w
| Flat_blank b : nest_blank_nodes (t_opts c) = false -> flat_as (OBlank b) ($"_:" ++ b)
| Flat_lone b : nest_blank_nodes (t_opts c) = true -> (forall p o, ~ In (MkStmt (SBlank b) p o) (g_list g)) ->
    flat_as (OBlank b) $"[]"
| Flat_empty : flat_as (OColl []) $"()".
Definition flat_graph : Prop := forall s p o, In (MkStmt s p o) (g_list g) -> exists w, flat_as o w.

Definition spaces (n : nat) : str := repeat 32 n.
Definition step : nat := N.to_nat (indent_width (t_opts c)).

(** Objects one after the other, with [gap] after the comma unless a blank node is next. *)
Fixpoint objects_laid (gap : str) (os : list object) (t : str) : Prop :=
  match os with
  | [] => False
  | [o] => flat_as o t
  | o :: (OBlank _ :: _) as r => exists w t', flat_as o w /\ objects_laid gap r t' /\ t = w ++ $"," ++ t'
  | o :: r => exists w t', flat_as o w /\ objects_laid gap r t' /\ t = w ++ $"," ++ gap ++ t'
  end.

(** A predicate and its objects, [k] being the width of the column of predicates.  Further
    objects are on lines of their own, one step further than the predicate and after an empty
    column. *)
Definition entry_laid (k : nat) (e : str * list object) (t : str) : Prop :=
  exists v t', verb c (fst e) = Some v /\
    objects_laid ([10] ++ spaces (2 * step) ++ if predicate_padding (t_opts c) then [] else spaces k) (snd e) t' /\
    ((type_like (fst e) /\ place_type_on_subject_line (t_opts c) = true /\ t = $" " ++ v ++ $" " ++ t') \/
     (~ (type_like (fst e) /\ place_type_on_subject_line (t_opts c) = true) /\
      t = [10] ++ spaces step ++ v ++ (if predicate_padding (t_opts c) then $" " else spaces (k - length v)) ++ t')).

(** The width of the column: one more than the longest of the names, in bytes. *)
Definition longest (ps : list str) (n : nat) : Prop :=
  (forall p w, In p ps -> iri_word c p = Some w -> (length (flat_map utf8 w) <= n)%nat) /\
  exists p w, In p ps /\ iri_word c p = Some w /\ length (flat_map utf8 w) = n.

Fixpoint joined (sep : str) (l : list str) : str :=
  match l with
  | [] => []
  | [x] => x
  | x :: r => x ++ sep ++ joined sep r
  end.
Definition block_laid (b : subject * list (str * list object)) (t : str) : Prop :=
  exists w n ts, subject_w (iri_word c) (fst b) = Some w /\ longest (map fst (snd b)) n /\
    Forall2 (entry_laid (S n)) (snd b) ts /\
    t = (if s_is_blank (fst b) then [10] else []) ++ w ++ joined $" ;" ts ++ $" ." ++ [10; 10].

(** All of the graph, every statement in its place. *)
Definition arranged (l : list (subject * list (str * list object))) : Prop :=
  NoDup (map fst l) /\ Forall (fun b => NoDup (map fst (snd b)) /\ Forall (fun e => NoDup (snd e)) (snd b)) l /\
  forall s p o, In (MkStmt s p o) (g_list g) <-> exists es os, In (s, es) l /\ In (p, os) es /\ In o os.
End Layout.

(** The directives. *)
Definition line_of (c : setting) (turtle sparql : str) (words : list str) : str :=
  if use_sparql_style (t_opts c) && negb (use_intellij_style (t_opts c))
  then joined $" " (sparql :: words) ++ [10]
  else joined $" " (turtle :: words) ++ $" ." ++ [10].
Definition angle (i : str) : str := $"<" ++ i ++ $">".
Definition head_text (c : setting) (mappings : list (str * str)) : str :=
  match id_base (t_opts c) with
  | Some b => line_of c $"@base" $"BASE" [angle (show_iri (t_iri c) b)] ++
      if use_intellij_style (t_opts c) then [] else [10]
  | None => []
  end ++
  match mappings with
  | [] => []
  | _ => flat_map (fun e => line_of c $"@prefix" $"PREFIX"
           [fst e ++ $":"; angle (convert_first (t_iri c) (convert_base (t_opts c)) (show_iri (t_iri c) (snd e)))]) mappings ++ [10]
  end.
