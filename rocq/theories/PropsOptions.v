(** C115: the options of the writers. *)
From Verif Require Import OptionsProofs.

(** ** C115 *)

(** C115: every setting of the Turtle writer is what the last call that concerns it says, and
    what it is by default if there is none. *)
Theorem C115_turtle : forall l o, ttl_made l o ->
  last_said says_base None l (id_base o) /\ last_said says_nest true l (nest_blank_nodes o) /\
  last_said says_sparql false l (use_sparql_style o) /\ last_said says_intellij false l (use_intellij_style o) /\
  last_said says_type_line false l (place_type_on_subject_line o) /\ last_said says_convert None l (convert_to_id_base o) /\
  last_said says_padding false l (predicate_padding o) /\ last_said says_width_or_style 4 l (indent_width o).
Proof. exact c115_turtle. Qed.
Print Assumptions C115_turtle.

(** C115 fails for the width of an indent: [with_intellij_style] changes it too. *)
Theorem C115_style_refuted : exists l o, ttl_made l o /\ ~ last_said says_width 4 l (indent_width o).
Proof. exact c115_style_refuted. Qed.
Print Assumptions C115_style_refuted.

(** C115: the only call that panics is [set_indent_width(0)] ... *)
Theorem C115_panic : forall l, (exists o, ttl_made l o) <-> ~ In (TSetIndentWidth 0) l.
Proof. exact c115_panic. Qed.
Print Assumptions C115_panic.

(** ... so options with a width of zero, with which writing panics (C62), come from
    [with_indent_width(0)], which does not check. *)
Theorem C115_width : forall l o, ttl_made l o -> indent_width o = 0 -> In (TWithIndentWidth 0) l.
Proof. exact c115_width. Qed.
Print Assumptions C115_width.

(** C115 fails for four settings of the Turtle writer, which no call can change ... *)
Theorem C115_unset_refuted : forall l o, ttl_made l o ->
  use_rdf_type_a o = false /\ convert_base o = [] /\ outdent_blank_node_end o = false /\ outdent_collection_end o = false.
Proof. exact c115_unset. Qed.
Print Assumptions C115_unset_refuted.

(** ... so no program can have rdf:type written as [a]: it is written as other predicates are. *)
Theorem C115_type : forall l c p, ttl_made l (t_opts c) ->
  verb c p = iri_word c (if type_like_dec p then rdf $"type" else p).
Proof. exact c115_verb. Qed.
Print Assumptions C115_type.

(** C115 for the TriG writer: the options of its Turtle writer are those it is made from. *)
Theorem C115_trig : forall t l, tg_turtle (fold_left (fun o b => trig_put_omit b o) l (trig_from t)) = t /\
  last_said Some false l (tg_omit (fold_left (fun o b => trig_put_omit b o) l (trig_from t))).
Proof. exact c115_trig. Qed.
Print Assumptions C115_trig.

(** C115 for the DOT writer. *)
Theorem C115_dot : forall l, let o := dot_calls_on l dot_default_options in
  last_said says_blank_shape $"circle" l (blank_shape o) /\ last_said says_blank_color $"green" l (blank_color o) /\
  last_said says_blank_labels false l (blank_labels o) /\ last_said says_iri_shape $"ellipse" l (iri_shape o) /\
  last_said says_iri_color $"blue" l (iri_color o) /\ last_said says_literal_shape $"record" l (literal_shape o) /\
  last_said says_literal_color $"black" l (literal_color o) /\ last_said says_node_prefix $"node_" l (node_prefix o).
Proof. exact c115_dot. Qed.
Print Assumptions C115_dot.

(** C115 for the XML writer. *)
Theorem C115_xml : forall l, let o := xml_calls_on l xml_default_options in
  last_said says_style XFlat l (xo_style o) /\ last_said says_pretty false l (xo_pretty o) /\
  last_said says_encoding $"utf-8" l (xo_encoding o).
Proof. exact c115_xml. Qed.
Print Assumptions C115_xml.

(** Options made with seven calls; a width of zero from the call that does not check, and the
    panic of the one that does; a style and a node prefix that stay whatever else is said. *)
Example C115_example :
  (exists o, ttl_made [TWithIdBase $"http://e/"; TWithoutNested; TSetIndentWidth 2; TSetIntellij true; TWithSparql;
      TUnsetIdBase; TSetSparql false] o /\
    id_base o = None /\ nest_blank_nodes o = false /\ indent_width o = 2 /\ use_intellij_style o = true /\ use_sparql_style o = false) /\
  (exists o, ttl_made [TWithIndentWidth 0; TWithPadding true] o /\ indent_width o = 0) /\
  ttl_calls_on [TWithPadding true; TSetIndentWidth 0] ttl_default_options = Panic /\
  node_prefix (dot_calls_on [DNodePrefix $"n"; DBlankLabels true; DIriColor $"red"] dot_default_options) = $"n" /\
  xo_style (xml_calls_on [XCallStriped; XCallPretty; XCallEncoding $"latin1"] xml_default_options) = XStriped.
Proof.
  split; [eexists; split; [reflexivity|repeat split]|]. split; [eexists; split; reflexivity|]. repeat split.
Qed.
