(** C116: the layout of Turtle documents. *)
From Verif Require Import LayoutProofs.
From Coq Require Import Permutation Lia.

(** ** C116 *)

(** C116: every character of the document of a flat graph is given by the options, the words of
    the terms and the order they come in. *)
Theorem C116_layout : forall c g mappings f, can_be_written c g f -> flat_graph c g ->
  exists out bs ts, doc_of c g mappings f = Done out /\ arranged g bs /\ Forall2 (block_laid c g) bs ts /\
    pieces_text out = head_text c mappings ++ concat ts.
Proof. exact c116_layout. Qed.
Print Assumptions C116_layout.

Definition lx_parse (s : str) : option str := Some s.
Definition lx_compress (i : str) : outcome (option str) :=
  Ret (match strip_prefix $"http://e/" i with
       | Some r => Some ($"e:" ++ r)
       | None => match strip_prefix (rdf []) i with Some r => Some ($"rdfsyntax:" ++ r) | None =>
                   match strip_prefix (rdfs []) i with Some r => Some ($"s:" ++ r) | None => None end end
       end).
Definition lx (padding line : bool) : setting :=
  Setting 18446744073709551616 Checked Bare lx_parse (fun _ => false) (fun c => N.leb 32 c) lx_compress
    (TtlOptions (Some $"http://b/") false false false false true false line None [] 3 padding) (fun _ l => l) (fun _ l => l) (fun _ l => l).
Definition lx_e (s : str) : str := $"http://e/" ++ s.
Definition lx_g : graph := g_from_iter
  [MkStmt (SRes (lx_e $"a")) (lx_e $"p") (ORes (lx_e $"x")); MkStmt (SRes (lx_e $"a")) (lx_e $"p") (ORes (lx_e $"y"));
   MkStmt (SRes (lx_e $"a")) (lx_e $"p") (OBlank $"z"); MkStmt (SRes (lx_e $"a")) (lx_e $"longer") (OColl []);
   MkStmt (SRes (lx_e $"a")) (rdf $"type") (ORes (lx_e $"C")); MkStmt (SBlank $"z") (lx_e $"p") (ORes (lx_e $"x"))].
Definition lx_text (r : wres (list piece)) : str := match r with Done l => pieces_text l | _ => [] end.
Definition lx_lines (l : list str) : str := flat_map (fun x => x ++ [10]) l.

(** C116 fails for predicate padding, which does the opposite of what is asked: with it each
    predicate is followed by one space, without it (the default) by as many as align the
    objects; further objects are a step to the right of the first in either case. *)
Theorem C116_padding_refuted :
  lx_text (doc_of (lx true false) lx_g [] 20) = lx_lines
    [$"BASE <http://b/>"; []; $"e:a"; $"   rdfsyntax:type e:C ;"; $"   e:longer () ;"; $"   e:p _:z,"; $"      e:x,"; $"      e:y ."; [];
     []; $"_:z"; $"   e:p e:x ."; []] /\
  lx_text (doc_of (lx false false) lx_g [] 20) = lx_lines
    [$"BASE <http://b/>"; []; $"e:a"; $"   rdfsyntax:type e:C ;"; $"   e:longer       () ;"; $"   e:p            _:z,";
     $"                     e:x,"; $"                     e:y ."; []; []; $"_:z"; $"   e:p e:x ."; []].
Proof. split; vm_compute; reflexivity. Qed.
Print Assumptions C116_padding_refuted.

(** C116 fails for the spaces between words: the column is as wide as the predicates of the
    subject ask for, but some of them are written as rdf:type (C49); if its name is longer, it
    runs into the object. *)
Theorem C116_space_refuted :
  let g := g_from_iter [MkStmt (SRes (lx_e $"a")) (rdfs $"subClassOf") (ORes (lx_e $"C"))] in
  can_be_written (lx false false) g 20 /\ flat_graph (lx false false) g /\
  lx_text (doc_of (lx false false) g [] 20) = lx_lines [$"BASE <http://b/>"; []; $"e:a"; $"   rdfsyntax:typee:C ."; []].
Proof.
  cbv zeta. split; [split; [split; [|split]; intros t l; apply Permutation_refl|]|split].
  - split; [|split; [|split; [|left; reflexivity]]].
    + intros s p o [E|[]]; injection E as <- <- <-; repeat match goal with |- _ /\ _ => split end; vm_compute; discriminate.
    + split; vm_compute; reflexivity.
    + cbn. lia.
  - intros s p o [E|[]]; injection E as <- <- <-. eexists. constructor. vm_compute. reflexivity.
  - vm_compute. reflexivity.
Qed.
Print Assumptions C116_space_refuted.

Example C116_example : can_be_written (lx false true) lx_g 20 /\ flat_graph (lx false true) lx_g /\
  lx_text (doc_of (lx false true) lx_g [($"e", $"http://e/")] 20) = lx_lines
    [$"BASE <http://b/>"; []; $"PREFIX e: <http://e/>"; []; $"e:a rdfsyntax:type e:C ;"; $"   e:longer       () ;"; $"   e:p            _:z,";
     $"                     e:x,"; $"                     e:y ."; []; []; $"_:z"; $"   e:p e:x ."; []].
Proof.
  split; [split; [split; [|split]; intros t l; apply Permutation_refl|]|split].
  - split; [|split; [|split; [|left; reflexivity]]].
    + intros s p o I. repeat (destruct I as [E|I]; [injection E as <- <- <-|]); [..|destruct I];
        repeat match goal with |- _ /\ _ => split end; try exact I; try (vm_compute; discriminate).
    + split; vm_compute; reflexivity.
    + cbn. lia.
  - intros s p o I. repeat (destruct I as [E|I]; [injection E as <- <- <-|]); [..|destruct I]; eexists; first
      [apply Flat_empty|apply Flat_blank; reflexivity|apply Flat_iri; vm_compute; reflexivity].
  - vm_compute. reflexivity.
Qed.
