(** Proofs about OptionsSpec.v. *)
From Coq Require Import Lia.
From Verif Require Export OptionsSpec.

Section Last.
Context {C A : Type}.
Variable says : C -> option A.

Lemma last_snoc d l c v : (says c = None /\ last_said says d l v) \/ says c = Some v -> last_said says d (l ++ [c]) v.
Proof.
  intros [[E [(b & x & a & -> & S & H)|[H ->]]]|E].
  - left. exists b, x, (a ++ [c]). split; [rewrite <- app_assoc; reflexivity|]. split; [exact S|].
    intros c' [I|[<-|[]]]%in_app_iff; auto.
  - right. split; [|reflexivity]. intros c' [I|[<-|[]]]%in_app_iff; auto.
  - left. exists l, c, []. split; [reflexivity|]. split; [exact E|]. intros c' [].
Qed.
End Last.

Lemma ttl_calls_app l o l' : ttl_calls_on (l ++ l') o =
  match ttl_calls_on l o with Ret o' => ttl_calls_on l' o' | Panic => Panic end.
Proof.
  revert o. induction l as [|c l IH]; intros o; [reflexivity|]. cbn [app ttl_calls_on].
  destruct (ttl_call_on c o); [apply IH|reflexivity].
Qed.

Lemma ttl_made_snoc l c o : ttl_made (l ++ [c]) o -> exists o', ttl_made l o' /\ ttl_call_on c o' = Ret o.
Proof.
  unfold ttl_made. rewrite ttl_calls_app. destruct (ttl_calls_on l ttl_default_options) as [o'|]; [|discriminate].
  intros H. exists o'. split; [reflexivity|]. cbn [ttl_calls_on] in H. destruct (ttl_call_on c o'); congruence.
Qed.

(** One induction for all settings: what a call says is what it leaves, and a call that says
    nothing leaves what there was. *)
Lemma ttl_last {A} (says : ttl_call -> option A) (get : ttl_options -> A) :
  (forall c o o', ttl_call_on c o = Ret o' -> get o' = match says c with Some v => v | None => get o end) ->
  forall l o, ttl_made l o -> last_said says (get ttl_default_options) l (get o).
Proof.
  intros S l. induction l as [|c l IH] using rev_ind; intros o H.
  - injection H as <-. right. split; [intros c []|reflexivity].
  - apply ttl_made_snoc in H as (o' & H & E). apply last_snoc. rewrite (S _ _ _ E).
    destruct (says c); [right; reflexivity|]. left. split; [reflexivity|apply IH, H].
Qed.

Lemma ttl_kept {A} (get : ttl_options -> A) :
  (forall c o o', ttl_call_on c o = Ret o' -> get o' = get o) -> forall l o, ttl_made l o -> get o = get ttl_default_options.
Proof.
  intros S l. induction l as [|c l IH] using rev_ind; intros o H.
  - injection H as <-. reflexivity.
  - apply ttl_made_snoc in H as (o' & H & E). rewrite (S _ _ _ E). apply IH, H.
Qed.

Ltac by_call := intros c o1 o2 E; destruct c; cbn [ttl_call_on] in E;
  try match type of E with (if ?b then _ else _) = _ => destruct b; [|discriminate E] end; injection E as <-; reflexivity.

Lemma c115_turtle l o : ttl_made l o ->
  last_said says_base None l (id_base o) /\ last_said says_nest true l (nest_blank_nodes o) /\
  last_said says_sparql false l (use_sparql_style o) /\ last_said says_intellij false l (use_intellij_style o) /\
  last_said says_type_line false l (place_type_on_subject_line o) /\ last_said says_convert None l (convert_to_id_base o) /\
  last_said says_padding false l (predicate_padding o) /\ last_said says_width_or_style 4 l (indent_width o).
Proof.
  intros H. repeat split.
  - refine (ttl_last says_base id_base _ l o H). by_call.
  - refine (ttl_last says_nest nest_blank_nodes _ l o H). by_call.
  - refine (ttl_last says_sparql use_sparql_style _ l o H). by_call.
  - refine (ttl_last says_intellij use_intellij_style _ l o H). by_call.
  - refine (ttl_last says_type_line place_type_on_subject_line _ l o H). by_call.
  - refine (ttl_last says_convert convert_to_id_base _ l o H). by_call.
  - refine (ttl_last says_padding predicate_padding _ l o H). by_call.
  - refine (ttl_last says_width_or_style indent_width _ l o H). by_call.
Qed.

Lemma c115_unset l o : ttl_made l o ->
  use_rdf_type_a o = false /\ convert_base o = [] /\ outdent_blank_node_end o = false /\ outdent_collection_end o = false.
Proof.
  intros H. repeat split.
  - refine (ttl_kept use_rdf_type_a _ l o H). by_call.
  - refine (ttl_kept convert_base _ l o H). by_call.
  - refine (ttl_kept outdent_blank_node_end _ l o H). by_call.
  - refine (ttl_kept outdent_collection_end _ l o H). by_call.
Qed.

Lemma c115_verb l c p : ttl_made l (t_opts c) -> verb c p = iri_word c (if type_like_dec p then rdf $"type" else p).
Proof.
  intros H. apply c115_unset in H as (E & _). unfold verb, verb_word. rewrite E. destruct (type_like_dec p); reflexivity.
Qed.

Lemma c115_panic l : (exists o, ttl_made l o) <-> ~ In (TSetIndentWidth 0) l.
Proof.
  induction l as [|c l IH] using rev_ind.
  - split; [intros _ []|]. intros _. exists ttl_default_options. reflexivity.
  - split.
    + intros (o & H) I. apply ttl_made_snoc in H as (o' & H & E). apply in_app_iff in I as [I|[J|[]]].
      * apply IH in I; [exact I|]. exists o'. exact H.
      * subst c. discriminate E.
    + intros I. destruct IH as [_ IH]. destruct IH as (o & H); [intros J; apply I, in_app_iff; left; exact J|].
      unfold ttl_made in *. setoid_rewrite ttl_calls_app. rewrite H. cbn [ttl_calls_on].
      destruct c; cbn [ttl_call_on]; eauto. destruct (0 <? n) eqn:E; [eauto|].
      exfalso. apply I, in_app_iff. right. left. f_equal. apply N.ltb_ge in E. lia.
Qed.

Lemma last_said_In {C A} (says : C -> option A) d l v : last_said says d l v ->
  v = d \/ exists c, In c l /\ says c = Some v.
Proof.
  intros [(b & c & a & -> & S & _)|[_ E]]; [right|left; exact E]. exists c. split; [apply in_app_iff; right; left; reflexivity|exact S].
Qed.

Lemma c115_width l o : ttl_made l o -> indent_width o = 0 -> In (TWithIndentWidth 0) l.
Proof.
  intros H E. assert (P : ~ In (TSetIndentWidth 0) l) by (apply c115_panic; eauto).
  apply c115_turtle in H as (_ & _ & _ & _ & _ & _ & _ & H). rewrite E in H.
  apply last_said_In in H as [H|(c & I & H)]; [discriminate|]. destruct c; try discriminate H; injection H as ->; tauto.
Qed.

Lemma c115_style_refuted : exists l o, ttl_made l o /\ ~ last_said says_width 4 l (indent_width o).
Proof.
  exists [TWithIndentWidth 2; TWithIntellij]. eexists. split; [reflexivity|]. cbn [indent_width ttl_put_width].
  intros [(b & c & a & E & S & H)|[H _]].
  - destruct b as [|x b]; [injection E as <- <-; discriminate S|]. destruct b as [|y b]; [injection E as <- <- <-; discriminate S|].
    destruct b; discriminate E.
  - specialize (H (TWithIndentWidth 2)). discriminate H. left. reflexivity.
Qed.

Lemma c115_trig t l : tg_turtle (fold_left (fun o b => trig_put_omit b o) l (trig_from t)) = t /\
  last_said Some false l (tg_omit (fold_left (fun o b => trig_put_omit b o) l (trig_from t))).
Proof.
  induction l as [|b l IH] using rev_ind; [split; [reflexivity|]; right; split; [intros c []|reflexivity]|].
  rewrite fold_left_app. cbn [fold_left trig_put_omit tg_turtle tg_omit]. split; [apply IH|].
  apply last_snoc. right. reflexivity.
Qed.

Lemma fold_last {C O A} (with_ : C -> O -> O) (o : O) (says : C -> option A) (get : O -> A) :
  (forall c o, get (with_ c o) = match says c with Some v => v | None => get o end) ->
  forall l, last_said says (get o) l (get (fold_left (fun o c => with_ c o) l o)).
Proof.
  intros S l. induction l as [|c l IH] using rev_ind; [right; split; [intros c []|reflexivity]|].
  rewrite fold_left_app. cbn [fold_left]. apply last_snoc. rewrite S.
  destruct (says c); [right; reflexivity|left; split; [reflexivity|exact IH]].
Qed.

Lemma c115_dot l : let o := dot_calls_on l dot_default_options in
  last_said says_blank_shape $"circle" l (blank_shape o) /\ last_said says_blank_color $"green" l (blank_color o) /\
  last_said says_blank_labels false l (blank_labels o) /\ last_said says_iri_shape $"ellipse" l (iri_shape o) /\
  last_said says_iri_color $"blue" l (iri_color o) /\ last_said says_literal_shape $"record" l (literal_shape o) /\
  last_said says_literal_color $"black" l (literal_color o) /\ last_said says_node_prefix $"node_" l (node_prefix o).
Proof.
  cbv zeta. repeat split.
  - refine (fold_last dot_with dot_default_options says_blank_shape blank_shape _ l). intros [] ?; reflexivity.
  - refine (fold_last dot_with dot_default_options says_blank_color blank_color _ l). intros [] ?; reflexivity.
  - refine (fold_last dot_with dot_default_options says_blank_labels blank_labels _ l). intros [] ?; reflexivity.
  - refine (fold_last dot_with dot_default_options says_iri_shape iri_shape _ l). intros [] ?; reflexivity.
  - refine (fold_last dot_with dot_default_options says_iri_color iri_color _ l). intros [] ?; reflexivity.
  - refine (fold_last dot_with dot_default_options says_literal_shape literal_shape _ l). intros [] ?; reflexivity.
  - refine (fold_last dot_with dot_default_options says_literal_color literal_color _ l). intros [] ?; reflexivity.
  - refine (fold_last dot_with dot_default_options says_node_prefix node_prefix _ l). intros [] ?; reflexivity.
Qed.

Lemma c115_xml l : let o := xml_calls_on l xml_default_options in
  last_said says_style XFlat l (xo_style o) /\ last_said says_pretty false l (xo_pretty o) /\
  last_said says_encoding $"utf-8" l (xo_encoding o).
Proof.
  cbv zeta. repeat split.
  - refine (fold_last xml_with xml_default_options says_style xo_style _ l). intros [] ?; reflexivity.
  - refine (fold_last xml_with xml_default_options says_pretty xo_pretty _ l). intros [] ?; reflexivity.
  - refine (fold_last xml_with xml_default_options says_encoding xo_encoding _ l). intros [] ?; reflexivity.
Qed.
