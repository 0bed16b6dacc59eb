(** What a resource is meant to say, independent of how the statements are produced. *)
From Coq Require Export Permutation.
From Verif Require Export Resource.

(** The property/value pairs of a resource. *)
Definition pairs (r : resource) : list (str * robject) :=
  flat_map (fun e => map (pair (fst e)) (snd e)) (r_preds r).

(** The pairs a call asks for. *)
Definition asked_p (c : p_call) : robject :=
  match c with
  | PProperty l => RLit l
  | PPropertyAlternatives vs => RLits KAlt vs
  | PPropertyBag vs => RLits KBag vs
  | PPropertySequence vs => RLits KSeq vs
  | PPropertyContainer vs kind => RLits (KOther kind) vs
  | PResourceBlankNamed b => RRes (MkResource (SBlank b) [])
  | PResourceNamed iri => RRes (MkResource (SRes iri) [])
  | PResource r => RRes r
  | PResourceAlternatives rs => RResources KAlt rs
  | PResourceBag rs => RResources KBag rs
  | PResourceSequence rs => RResources KSeq rs
  | PResourceContainer rs kind => RResources (KOther kind) rs
  end.
Definition asked (gext printable : chr -> bool) (c : r_call) : list (str * robject) :=
  match c with
  | CLiteral p l => [(p, RLit l)]
  | CLiteralStr p v => [(p, RLit (Lit (escape_string gext printable v) None None))]
  | CLiteralTypedStr p v d => [(p, RLit (Lit (escape_string gext printable v) (Some d) None))]
  | CLiteralLanguageStr p v lang => [(p, RLit (Lit (escape_string gext printable v) None (Some lang)))]
  | CPropertyAlternatives p vs => [(p, RLits KAlt vs)]
  | CPropertyBag p vs => [(p, RLits KBag vs)]
  | CPropertySequence p vs => [(p, RLits KSeq vs)]
  | CPropertyContainer p vs kind => [(p, RLits (KOther kind) vs)]
  | CResourceBlankNamed p b => [(p, RRes (MkResource (SBlank b) []))]
  | CResourceNamed p iri => [(p, RRes (MkResource (SRes iri) []))]
  | CResource p r' => [(p, RRes r')]
  | CResourceAlternatives p rs => [(p, RResources KAlt rs)]
  | CResourceBag p rs => [(p, RResources KBag rs)]
  | CResourceSequence p rs => [(p, RResources KSeq rs)]
  | CResourceContainer p rs kind => [(p, RResources (KOther kind) rs)]
  | CInstanceOf iri => [(rdf $"type", RRes (MkResource (SRes iri) []))]
  | CPredicate name cs => map (fun c => (name, asked_p c)) cs
  end.

(** The same resource with the entries of every map in some other order. *)
Inductive reordered : resource -> resource -> Prop :=
| Reordered s m m1 m2 : Permutation m m1 ->
    Forall2 (fun a b => fst a = fst b /\ Forall2 reordered_object (snd a) (snd b)) m1 m2 ->
    reordered (MkResource s m) (MkResource s m2)
with reordered_object : robject -> robject -> Prop :=
| RoRes r r' : reordered r r' -> reordered_object (RRes r) (RRes r')
| RoResources k rs rs' : Forall2 reordered rs rs' -> reordered_object (RResources k rs) (RResources k rs')
| RoLit l : reordered_object (RLit l) (RLit l)
| RoLits k ls : reordered_object (RLits k ls) (RLits k ls).

(** The class of a container. *)
Definition container_class (k : container_kind) : str :=
  match k with
  | KAlt => $"http://www.w3.org/1999/02/22-rdf-syntax-ns#Alt"
  | KBag => $"http://www.w3.org/1999/02/22-rdf-syntax-ns#Bag"
  | KSeq => $"http://www.w3.org/1999/02/22-rdf-syntax-ns#Seq"
  | KOther iri => iri
  end.

(** Statements that number the members of a container from [first]. *)
Fixpoint numbered (first : N) (b : str) (os : list object) : list statement :=
  match os with
  | [] => []
  | o :: r => MkStmt (SBlank b) (rdf ($"_" ++ dec_N first)) o :: numbered (first + 1) b r
  end.

(** [written r labels sts]: [sts] are, in any order, the statements for resource [r] when
    its containers are the blank nodes [labels], a nested resource [c] of a resource with
    subject [s] is referred to as [link s (subject of c)], and members are numbered from [first]. *)
Section Written.
Variable link : subject -> subject -> object.
Variable first : N.

Inductive written : resource -> list str -> list statement -> Prop :=
| Written r ps labels sts sts' : Permutation (pairs r) ps ->
    written_all (r_subject r) ps labels sts -> Permutation sts sts' ->
    written r labels sts'
with written_all : subject -> list (str * robject) -> list str -> list statement -> Prop :=
| WNil s : written_all s [] [] []
| WCons s p o ps l1 l2 st1 st2 : written_one s p o l1 st1 -> written_all s ps l2 st2 ->
    written_all s ((p, o) :: ps) (l1 ++ l2) (st1 ++ st2)
with written_one : subject -> str -> robject -> list str -> list statement -> Prop :=
| WLit s p l : written_one s p (RLit l) [] [MkStmt s p (OLit l)]
| WRes s p r ls sts : written r ls sts ->
    written_one s p (RRes r) ls (MkStmt s p (link s (r_subject r)) :: sts)
| WLits s p k vs b :
    written_one s p (RLits k vs) [b]
      (MkStmt s p (OBlank b) :: MkStmt (SBlank b) (rdf $"type") (ORes (container_class k)) :: numbered first b (map OLit vs))
| WResources s p k rs b ls sts : written_each rs ls sts ->
    written_one s p (RResources k rs) (b :: ls)
      (MkStmt s p (OBlank b) :: MkStmt (SBlank b) (rdf $"type") (ORes (container_class k))
        :: numbered first b (map (fun r => to_object (r_subject r)) rs) ++ sts)
with written_each : list resource -> list str -> list statement -> Prop :=
| WeNil : written_each [] [] []
| WeCons r rs l1 l2 st1 st2 : written r l1 st1 -> written_each rs l2 st2 ->
    written_each (r :: rs) (l1 ++ l2) (st1 ++ st2).
End Written.

(** The meaning given in the documentation: nested resources are referred to by their own
    subject, members are numbered from 1. *)
Definition intended : resource -> list str -> list statement -> Prop :=
  written (fun _ c => to_object c) 1.

(** Literal values only. *)
Definition literals_only (r : resource) : Prop :=
  Forall (fun po => exists l, snd po = RLit l) (pairs r).
