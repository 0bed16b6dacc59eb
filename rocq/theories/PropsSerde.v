(** C108: what is read from JSON and written as JSON. *)
From Verif Require Import SerdeProofs PropsPrefixMap.
From Verif Require IriProofs.

(** C108: every value is read back from what is written for it, an [IriPrefixMap] after any
    history of calls. *)
Theorem C108_round_trip : forall parse, url_parser parse ->
  (forall n, de_namespace (ser_namespace n) = Some n) /\ (forall n, de_name (ser_name n) = Some n) /\
  (forall l, de_local_name (ser_local_name l) = Some l) /\ (forall p, de_prefixed_name (ser_prefixed_name p) = Some p) /\
  (forall i, wf_url i = true -> de_iri parse (ser_iri i) = Some i) /\
  (forall i, wf_url i = true -> de_iri_ref parse (ser_iri_ref (RIri i)) = Some (RIri i)) /\
  (forall p, de_iri_ref parse (ser_iri_ref (RPrefixed p)) = Some (RPrefixed p)) /\
  (forall s h m, Forall op_ok h -> pm_run parse s h = Ret m -> de_prefix_map parse (ser_prefix_map m) = Ret (Some m)).
Proof. exact c108_round_trip. Qed.
Print Assumptions C108_round_trip.

(** So is a map that was itself read. *)
Theorem C108_again : forall parse, url_parser parse ->
  forall v m, de_prefix_map parse v = Ret (Some m) -> de_prefix_map parse (ser_prefix_map m) = Ret (Some m).
Proof. exact c108_again. Qed.
Print Assumptions C108_again.

(** C108: exactly what is read, and as what. *)
Theorem C108_accepts : forall parse,
  (forall v n, de_namespace v = Some n <-> v = JString (ns_text n)) /\ (forall v n, de_name v = Some n <-> v = JString (name_text n)) /\
  (forall v l, de_local_name v = Some l <-> local_name_json v l) /\ (forall v p, de_prefixed_name v = Some p <-> prefixed_name_json v p) /\
  (forall v i, de_iri parse v = Some i <-> iri_json parse v i) /\ (forall v r, de_iri_ref parse v = Some r <-> iri_ref_json parse v r).
Proof. exact c108_accepts. Qed.
Print Assumptions C108_accepts.

(** C108: a map that is read is a bijection, even if prefixes or IRIs are repeated in the text:
    the last one counts. *)
Theorem C108_maps : forall parse, url_parser parse -> forall v,
  de_prefix_map parse v <> Panic /\
  (de_prefix_map parse v = Ret None <-> forall pairs, ~ prefix_map_json parse v pairs) /\
  (forall pairs, prefix_map_json parse v pairs ->
     exists m, de_prefix_map parse v = Ret (Some m) /\ (forall p i, In (p, i) (pm_mappings m) <-> stays pairs p i) /\
       (forall p i, pm_get_namespace m p = Some i <-> stays pairs p i) /\
       (forall p i, wf_url i = true -> (pm_get_prefix m i = Some p <-> stays pairs p i))).
Proof. exact c108_maps. Qed.
Print Assumptions C108_maps.

(** C108 fails for names: any text is read as a name and as a prefix, also those that no other
    function accepts.  [name_string] panics on prefixes without a colon. *)
Theorem C108_unchecked_refuted : forall s,
  de_namespace (JString s) = Some (MkNamespace s) /\ de_name (JString s) = Some (MkName s) /\
  (namespace_obtained (MkNamespace s) <-> exists p, s = p ++ $":") /\
  (namespace_name_string (MkNamespace s) = Panic <-> ~ exists p, s = p ++ $":") /\
  ((exists n, name_from_str (name_display (MkName s)) = Ok n) <-> PN_LOCAL s).
Proof. exact c108_unchecked. Qed.
Print Assumptions C108_unchecked_refuted.

(** C108 fails for local names: different names are shown alike (see C03). *)
Theorem C108_display_refuted : exists v v' l l', de_local_name v = Some l /\ de_local_name v' = Some l' /\ l <> l' /\
  local_name_display l = local_name_display l' /\ local_name_from_str (local_name_display l) = Ok l.
Proof.
  exists (JArray [JString $"a:"; JString $"b"]), (JArray [JString $"a"; JString $":b"]). do 2 eexists.
  split; [reflexivity|]. split; [reflexivity|]. split; [discriminate|]. split; vm_compute; reflexivity.
Qed.
Print Assumptions C108_display_refuted.

(** A parser that can be used. *)
Definition sx_parse (s : str) : option url := match url_reparse s with Some u => if wf_url u then Some u else None | None => None end.
Example C108_example :
  url_parser sx_parse /\ (exists m, pm_run sx_parse StartDefault ex_history = Ret m /\ de_prefix_map sx_parse (ser_prefix_map m) = Ret (Some m)) /\
  (let v := JObject [($"also", JNull); ($"map", JObject [($"a:", JString $"https://example.org/ns/"); ($"b:", JString $"https://example.org/ns2#");
      ($"a:", JString $"https://example.org/ns2#"); ($"c", JString $"https://example.org/ns/")])] in
   prefix_map_json sx_parse v [(ex_p $"a", ex_ns); (ex_p $"b", ex_ns2); (ex_p $"a", ex_ns2); (MkNamespace $"c", ex_ns)] /\
   exists m, de_prefix_map sx_parse v = Ret (Some m) /\ pm_mappings m = [(ex_p $"a", ex_ns2); (MkNamespace $"c", ex_ns)] /\
     option_map (fun n => namespace_name_string n) (pm_get_prefix m ex_ns) = Some Panic) /\
  ser_prefixed_name (PLocal (MkLocalName (ex_p $"a") (MkName $"b"))) =
    JObject [($"Local", JObject [($"namespace", JString $"a:"); ($"name", JString $"b")])] /\
  ser_iri ex_ns = JString $"https://example.org/ns/".
Proof.
  split; [|split; [|split; [|split; vm_compute; reflexivity]]].
  - split.
    + intros u W. unfold sx_parse. rewrite (IriProofs.url_reparse_ser u W), W. reflexivity.
    + intros s u. unfold sx_parse. destruct (url_reparse s) as [w|]; [|discriminate]. destruct (wf_url w) eqn:E; [|discriminate]. intros X. injection X as <-. exact E.
  - eexists. split; vm_compute; reflexivity.
  - cbv zeta. split.
    + econstructor.
      * exists [($"also", JNull)], []. split; [reflexivity|]. split; cbn; [intuition discriminate|tauto].
      * repeat (constructor; [split; [reflexivity|constructor; vm_compute; reflexivity]|]). constructor.
    + eexists. split; [vm_compute; reflexivity|]. split; vm_compute; reflexivity.
Qed.
