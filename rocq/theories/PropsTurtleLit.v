(** Property theorem C72 (literals in Turtle documents).  Statements only; proofs in
    TurtleLitProofs.v.  [denotes base expand w v]: a reader takes the word [w] for [v]. *)
From Verif Require Import Turtle TurtleSpec LiteralSpec LiteralProofs TurtleLitSpec TurtleLitProofs.
From Coq Require Import Lia ZArith.
From Verif Require Url.

(** ** Examples used below *)
Definition lx_compress (i : str) : outcome (option str) :=
  Ret (match strip_prefix $"http://www.w3.org/2001/XMLSchema#" i with
       | Some r => Some ($"xsd:" ++ r)
       | None => None
       end).
Definition lx_expand (q : str) : option str :=
  option_map (fun r => $"http://www.w3.org/2001/XMLSchema#" ++ r) (strip_prefix $"xsd:" q).
Definition lx : setting :=
  Setting 18446744073709551616 Checked Bare (fun s => Some s) (fun _ => false) (fun c => N.leb 32 c && negb (N.eqb c 127))
    lx_compress (TtlOptions None true false false false false false false None [] 4 false)
    (fun _ l => l) (fun _ l => l) (fun _ l => l).
Lemma lx_names : names_expand lx lx_expand.
Proof.
  intros i q H. change (lx_compress i = Ret (Some q)) in H. unfold lx_compress in H. destruct (strip_prefix _ i) as [r|] eqn:E; [|discriminate]. injection H as <-.
  split; [discriminate|]. apply StrFacts.strip_prefix_Some in E. rewrite E. reflexivity.
Qed.
Lemma lx_name_like j q : t_compress lx j = Ret (Some q) -> name_like q.
Proof.
  intros H. change (lx_compress j = Ret (Some q)) in H. unfold lx_compress in H. destruct (strip_prefix _ j) as [r|]; [|discriminate]. injection H as <-.
  split; [cbn; auto 10|split; [cbn; intuition discriminate|reflexivity]].
Qed.
Lemma lx_ascii : ascii_tables (t_gext lx) (t_printable lx).
Proof. intros x Hx. split; [reflexivity|]. apply andb_true_iff. split; [apply N.leb_le|apply negb_true_iff, N.eqb_neq]; lia. Qed.

(** C72: the word for a literal in quotes is read as the stored lexical form, with the same
    data type and language, and as nothing else; it can be read exactly if [Debug] escapes
    no character in Rust's own notation. *)
Theorem C72_quoted : forall c base expand l w v, no_conversion c -> names_expand c expand ->
  id_base (t_opts c) = option_map Url.url_ser base -> type_words_ok c base l ->
  quoted_literal l -> lit_word c l = Some w ->
  denotes base expand w v <-> Forall (turtle_char c) (lexical_form l) /\ v = literal_value l.
Proof. exact c72_quoted. Qed.
Print Assumptions C72_quoted.

(** C72: the text a literal was made from is read exactly if none of its characters is
    escaped. *)
Theorem C72_text : forall c base expand t w, no_conversion c -> names_expand c expand ->
  id_base (t_opts c) = option_map Url.url_ser base ->
  lit_word c (lit_plain (t_gext c) (t_printable c) t) = Some w ->
  denotes base expand w (VText t (xsd_type $"string") None) <-> Forall (prints_as_itself (t_gext c) (t_printable c)) t.
Proof. exact c72_text. Qed.
Print Assumptions C72_text.

(** C72: of the literals without quotes, only booleans, decimals with a point and doubles
    with an exponent keep their data type. *)
Theorem C72_bare : forall c base expand l d w, lit_data_type l = Some d -> unquoted d -> lit_word c l = Some w ->
  denotes base expand w (literal_value l) <->
  (d = DtBoolean /\ boolean_text w) \/ (d = DtDecimal /\ decimal_text w) \/ (d = DtDouble /\ double_text w).
Proof. exact c72_bare. Qed.
Print Assumptions C72_bare.

(** C72 is false for the integers: whatever their type, they are read as xsd:integer. *)
Theorem C72_integer_refuted : forall c base expand t z w v, ascii_tables (t_gext c) (t_printable c) ->
  lit_word c (lit_from_int (t_gext c) (t_printable c) t z) = Some w ->
  (denotes base expand w v <-> v = VText (dec_Z z) (xsd_type $"integer") None) /\
  xsd_type $"integer" <> dt_as_iri (int_data_type t).
Proof. exact (fun c b e t z w v A H => conj (c72_integer c b e t z w v A H) (c72_integer_type t)). Qed.
Print Assumptions C72_integer_refuted.

(** C72 is false for literals of type xsd:anyURI: they are read as resources. *)
Theorem C72_iri_refuted : forall c base expand l i w v, no_conversion c -> names_expand c expand ->
  (forall j q, t_compress c j = Ret (Some q) -> name_like q) ->
  id_base (t_opts c) = option_map Url.url_ser base ->
  lit_data_type l = Some DtIri -> t_parse c (lexical_form l) = Some i -> iri_words_ok c base i ->
  lit_word c l = Some w -> denotes base expand w v <-> v = VIri i.
Proof. exact c72_iri. Qed.
Print Assumptions C72_iri_refuted.

Example C72_example :
  no_conversion lx /\ names_expand lx lx_expand /\ ascii_tables (t_gext lx) (t_printable lx) /\
  (forall j q, t_compress lx j = Ret (Some q) -> name_like q) /\
  (let l := Lit $"a-b" (Some DtDate) None in
   quoted_literal l /\ type_words_ok lx None l /\ lit_word lx l = Some ([34] ++ $"a-b" ++ [34] ++ $"^^xsd:date") /\
   Forall (turtle_char lx) (lexical_form l)) /\
  (let l := Lit $"chat" None (Some $"fr") in
   quoted_literal l /\ lit_word lx l = Some ([34] ++ $"chat" ++ [34] ++ $"@fr")) /\
  ~ turtle_char lx 127 /\
  lit_word lx (lit_plain (t_gext lx) (t_printable lx) [34]) = Some ([34] ++ [92; 92; 92; 34] ++ [34]) /\
  lit_word lx (lit_from_int (t_gext lx) (t_printable lx) I8 (-5)) = Some $"-5" /\
  lit_word lx (Lit $"http://e/" (Some DtIri) None) = Some $"<http://e/>" /\ iri_words_ok lx None $"http://e/" /\
  decimal_text $"-1.5" /\ double_text $"1e9" /\ ~ double_text $"1".
Proof.
  split; [repeat split|]. split; [exact lx_names|]. split; [exact lx_ascii|]. split; [exact lx_name_like|].
  split; [|split; [|split; [|split; [reflexivity|split; [reflexivity|split; [reflexivity|split; [|split; [|split]]]]]]]].
  - cbv zeta. split; [split; [discriminate|cbn; intuition discriminate]|]. split; [|split; [reflexivity|]].
    + split; [reflexivity|split; [|exact I]]. exists $"http", $"//www.w3.org/2001/XMLSchema#date". reflexivity.
    + repeat (constructor; [left; split; [cbn; intuition discriminate|split; reflexivity]|]). constructor.
  - cbv zeta. split; [|reflexivity]. exists $"fr", []. split; [reflexivity|split; [discriminate|split; [reflexivity|constructor]]].
  - intros [(_ & _ & H)|H]; [discriminate|cbn in H; intuition discriminate].
  - split; [reflexivity|split; [|exact I]]. exists $"http", $"//e/". reflexivity.
  - exists $"-", $"1", $"5". split; [reflexivity|split; [right; right; reflexivity|]]. repeat split; try discriminate; repeat constructor.
  - exists [], $"1", [], $"e9". split; [reflexivity|split; [left; reflexivity|split; [repeat constructor|split; [|left; split; [reflexivity|discriminate]]]]].
    exists 101, [], $"9". split; [reflexivity|split; [cbn; auto|split; [left; reflexivity|split; [repeat constructor|discriminate]]]].
  - intros (sg & a & b & x & E & _ & _ & (e & sg' & ds & -> & He & _) & _).
    assert (K : In e $"1") by (rewrite E; apply in_or_app; right; apply in_or_app; right; apply in_or_app; right; cbn; auto).
    cbn in K, He. intuition congruence.
Qed.
