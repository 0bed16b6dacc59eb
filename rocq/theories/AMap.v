(** Model of [std::collections::BTreeMap] as a list of pairs in increasing key order, and of
    [bimap::BiBTreeMap] (bimap 0.6, src/btree.rs) as the two maps it is made of.
    Simplification: the tree shape is not modelled, only the ordered content. *)
From Verif Require Import Str.

Section AMap.
  Context {K V : Type}.
  Variable cmp : K -> K -> comparison.

  (** [BTreeMap::get] *)
  Fixpoint am_get (k : K) (m : list (K * V)) : option V :=
    match m with
    | [] => None
    | (k', v) :: r => match cmp k k' with
                      | Eq => Some v
                      | Lt => None
                      | Gt => am_get k r
                      end
    end.

  (** [BTreeMap::insert]; on an equal key the old key is kept and the value replaced. *)
  Fixpoint am_insert (k : K) (v : V) (m : list (K * V)) : list (K * V) :=
    match m with
    | [] => [(k, v)]
    | (k', v') :: r => match cmp k k' with
                       | Eq => (k', v) :: r
                       | Lt => (k, v) :: m
                       | Gt => (k', v') :: am_insert k v r
                       end
    end.

  (** [BTreeMap::remove] (the map afterwards) *)
  Fixpoint am_remove (k : K) (m : list (K * V)) : list (K * V) :=
    match m with
    | [] => []
    | (k', v') :: r => match cmp k k' with
                       | Eq => r
                       | Lt => m
                       | Gt => (k', v') :: am_remove k r
                       end
    end.
End AMap.

(** bimap btree.rs [struct BiBTreeMap { left2right, right2left }] *)
Record bimap (L R : Type) := MkBimap { left2right : list (L * R); right2left : list (R * L) }.
Arguments MkBimap {L R}. Arguments left2right {L R}. Arguments right2left {L R}.

Section Bimap.
  Context {L R : Type}.
  Variable cmpL : L -> L -> comparison.
  Variable cmpR : R -> R -> comparison.

  Definition bi_empty : bimap L R := MkBimap [] [].

  (** [get_by_left], [get_by_right], [len] *)
  Definition bi_get_by_left (l : L) (m : bimap L R) : option R := am_get cmpL l (left2right m).
  Definition bi_get_by_right (r : R) (m : bimap L R) : option L := am_get cmpR r (right2left m).
  Definition bi_len (m : bimap L R) : nat := length (left2right m).

  (** [remove_by_left]: [left2right.remove(l).map(|r| { right2left.remove(&r).unwrap(); .. })];
      the [unwrap] panics when the reverse entry is missing. *)
  Definition bi_remove_by_left (l : L) (m : bimap L R) : outcome (bimap L R) :=
    match am_get cmpL l (left2right m) with
    | None => Ret m
    | Some r =>
        match am_get cmpR r (right2left m) with
        | None => Panic
        | Some _ => Ret (MkBimap (am_remove cmpL l (left2right m)) (am_remove cmpR r (right2left m)))
        end
    end.

  (** [remove_by_right] *)
  Definition bi_remove_by_right (r : R) (m : bimap L R) : outcome (bimap L R) :=
    match am_get cmpR r (right2left m) with
    | None => Ret m
    | Some l =>
        match am_get cmpL l (left2right m) with
        | None => Panic
        | Some _ => Ret (MkBimap (am_remove cmpL l (left2right m)) (am_remove cmpR r (right2left m)))
        end
    end.

  (** [insert] = [remove_by_left], [remove_by_right], [insert_unchecked] *)
  Definition bi_insert (l : L) (r : R) (m : bimap L R) : outcome (bimap L R) :=
    match bi_remove_by_left l m with
    | Panic => Panic
    | Ret m1 =>
        match bi_remove_by_right r m1 with
        | Panic => Panic
        | Ret m2 => Ret (MkBimap (am_insert cmpL l r (left2right m2)) (am_insert cmpR r l (right2left m2)))
        end
    end.
End Bimap.
