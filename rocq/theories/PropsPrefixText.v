(** C17: the text of a prefix map. *)
From Verif Require Import PName PrefixMapText.
From Verif Require Import Str Url Iri PrefixMap PrefixMapSpec PropsPrefixMap.

(** C17: the text has one line for each mapping, in the order of the listing, between two lines
    of its own, if all prefixes were parsed. *)
Theorem C17_display : forall parse, parser_ok parse -> forall s h m, Forall op_ok h -> pm_run parse s h = Ret m ->
  (forall p, In p (pm_prefixes m) -> exists t, namespace_from_str t = Ok p) ->
  split_on (N.eqb 10) (pm_display m) =
  [$"Prefixes("] ++ map (fun x => $"    " ++ ns_text (fst x) ++ $"  <" ++ url_ser (snd x) ++ $"> ,") (pm_mappings m) ++ [$")"; []].
Proof. exact c17_display. Qed.
Print Assumptions C17_display.

(** C17: the texts are equal exactly if the maps are. *)
Theorem C17_readable : forall parse, parser_ok parse -> forall s1 h1 m1 s2 h2 m2, Forall op_ok h1 -> Forall op_ok h2 ->
  pm_run parse s1 h1 = Ret m1 -> pm_run parse s2 h2 = Ret m2 ->
  (forall p, In p (pm_prefixes m1) -> exists t, namespace_from_str t = Ok p) ->
  (forall p, In p (pm_prefixes m2) -> exists t, namespace_from_str t = Ok p) ->
  pm_display m1 = pm_display m2 <-> pm_eq m1 m2.
Proof. exact c17_readable. Qed.
Print Assumptions C17_readable.

Example C17_display_example : exists m,
  pm_run url_reparse StartEmpty [OpInsert (ex_p $"b") ex_ns; OpInsert (ex_p $"a") ex_ns2] = Ret m /\
  (forall p, In p (pm_prefixes m) -> exists t, namespace_from_str t = Ok p) /\
  split_on (N.eqb 10) (pm_display m) =
    [$"Prefixes("; $"    a:  <https://example.org/ns2#> ,"; $"    b:  <https://example.org/ns/> ,"; $")"; []].
Proof.
  eexists. split; [vm_compute; reflexivity|]. split; [|vm_compute; reflexivity].
  intros p I. vm_compute in I. destruct I as [<-|[<-|[]]]; [exists $"a:"|exists $"b:"]; vm_compute; reflexivity.
Qed.
