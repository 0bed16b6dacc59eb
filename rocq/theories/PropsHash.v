(** Property theorems C110 (hashing).  Statements only; proofs in HashProofs.v. *)
From Verif Require Import HashSpec HashProofs.

(** C110: what is fed to a hasher tells any two terms from each other, whatever is fed after
    them: no fed bytes are a prefix of another's.  The size and the byte order of [usize] are
    arbitrary, and so is what the language tag crate adds to the text of a tag. *)
Theorem C110_prefix_free : forall w big ends, (1 <= w)%nat ->
  prefix_free (sized_statement w) (feed_statement w big ends) /\ prefix_free (sized_subject w) (feed_subject w big ends) /\
  prefix_free (sized_object w) (feed_object w big ends) /\ prefix_free sized_literal (feed_literal w big ends) /\
  prefix_free sized_name (feed_graph_name w big) /\ prefix_free is_text feed_str.
Proof. exact c110_prefix_free. Qed.
Print Assumptions C110_prefix_free.

(** C110: the same bytes are fed exactly for values that are equal by [==], so [Hash] agrees
    with [Eq], and no two values of different content are fed alike. *)
Theorem C110_equal : forall w big ends, (1 <= w)%nat ->
  (forall a b, sized_statement w a -> sized_statement w b -> (feed_statement w big ends a = feed_statement w big ends b <-> st_eqb a b = true)) /\
  (forall a b, sized_subject w a -> sized_subject w b -> (feed_subject w big ends a = feed_subject w big ends b <-> subj_eqb a b = true)) /\
  (forall a b, sized_object w a -> sized_object w b -> (feed_object w big ends a = feed_object w big ends b <-> obj_eqb a b = true)) /\
  (forall a b, sized_literal a -> sized_literal b -> (feed_literal w big ends a = feed_literal w big ends b <-> lit_eqb a b = true)) /\
  (forall a b, sized_name a -> sized_name b -> (feed_graph_name w big a = feed_graph_name w big b <-> gn_eqb a b = true)).
Proof. exact c110_equal. Qed.
Print Assumptions C110_equal.

(** C110: a hash table of terms, whatever hasher is used and however its hashes collide, works
    as a set through any sequence of calls. *)
Theorem C110_set : forall w big ends finish,
  works_as_set (fun st => finish (feed_statement w big ends st)) st_eqb /\
  works_as_set (fun s => finish (feed_subject w big ends s)) subj_eqb /\
  works_as_set (fun o => finish (feed_object w big ends o)) obj_eqb /\
  works_as_set (fun p => finish (feed_str p)) str_eqb /\
  works_as_set (fun k => finish (feed_option w big (feed_graph_name w big) k)) key_eqb.
Proof. exact c110_set. Qed.
Print Assumptions C110_set.

(** C110: and collecting into such a table gives the sets that the model of graphs uses. *)
Theorem C110_collect : forall w big ends finish,
  (forall l, map snd (fold_left (tb_insert (fun st => finish (feed_statement w big ends st)) st_eqb) l []) = hs_from_iter st_eqb l) /\
  (forall l, map snd (fold_left (tb_insert (fun s => finish (feed_subject w big ends s)) subj_eqb) l []) = hs_from_iter subj_eqb l) /\
  (forall l, map snd (fold_left (tb_insert (fun o => finish (feed_object w big ends o)) obj_eqb) l []) = hs_from_iter obj_eqb l) /\
  (forall l, map snd (fold_left (tb_insert (fun p => finish (feed_str p)) str_eqb) l []) = hs_from_iter str_eqb l).
Proof. exact c110_collect. Qed.
Print Assumptions C110_collect.

(** Two literals whose texts run together alike, a collection and a quoted statement; and a
    table all of whose entries have the same hash. *)
Example C110_example :
  let a := OLit (Lit ($"ab") None (Some ($"en"))) in
  let b := OLit (Lit ($"abe") None (Some ($"n"))) in
  let st := MkStmt (SStmt (MkStmt (SBlank ($"x")) ($"http://a/p") a)) ($"http://a/q") (OColl [b; OColl []; a]) in
  sized_statement 8 st /\
  feed_object 8 false (fun _ => [2; 2]) a <> feed_object 8 false (fun _ => [2; 2]) b /\
  snd (tb_run (fun _ => 7) obj_eqb [] [TInsert a; TInsert b; TInsert a; TRemove a; TContains a; TContains b])
    = [true; true; false; true; false; true].
Proof.
  assert (T : forall s, forallb (fun c => c <? 55296) s = true -> is_text s).
  { intros s H. apply Forall_forall. intros c C. left. apply N.ltb_lt. apply (proj1 (forallb_forall _ _) H c C). }
  cbv zeta. split; [|split; [vm_compute; discriminate|vm_compute; reflexivity]].
  cbn [sized_statement sized_subject sized_object].
  repeat match goal with
  | |- _ /\ _ => split
  | |- sized_literal _ => split; [|split; intros z E; [discriminate E|injection E as <-]]
  | |- is_text _ => apply T; vm_compute; reflexivity
  | |- True => exact I
  | |- _ < _ => vm_compute; reflexivity
  end.
Qed.
