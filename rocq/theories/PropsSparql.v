(** Property theorems C101-C105 (the tokens and declarations of SPARQL).  Statements only;
    proofs in SparqlProofs.v and SparqlNames.v.

    [al] is [char::is_alphanumeric], a table of the compiler. *)
From Verif Require Import SparqlSpec SparqlProofs SparqlNames.

Ltac whites := repeat (apply Forall_cons; [cbn; tauto|]); apply Forall_nil.
Ltac not_white := cbn; intuition discriminate.
Lemma ex_iri_chars : Forall iri_char $"http://e/".
Proof. repeat (apply Forall_cons; [split; [reflexivity|cbn; intuition discriminate]|]). apply Forall_nil. Qed.
Lemma ex_words k w : Forall2 (fun a b => eq_ignore_ascii_case a b = true) k w -> Forall2 caseless k w.
Proof. intros F. induction F; constructor; auto. apply caseless_iff. assumption. Qed.
Ltac words := apply ex_words; repeat (apply Forall2_cons; [reflexivity|]); apply Forall2_nil.

(** ** C101 *)

(** C101: a keyword is read if the text begins with it, in capitals or small letters, and goes
    on with something that is not alphanumeric; otherwise nothing is consumed, so that another
    keyword can be tried. *)
Theorem C101_keywords : forall al k s, k <> [] ->
  (forall r, keyword_at al k s r -> keyword al k s = Good true tt r) /\
  ((forall r, ~ keyword_at al k s r) -> keyword al k s = Bad false).
Proof. exact keyword_exact. Qed.
Print Assumptions C101_keywords.

(** C101 for truth values: exactly the texts that begin with [true] or [false] in small letters;
    unlike keywords they need not be whole words. *)
Theorem C101_booleans : forall s,
  (forall r, s = $"true" ++ r -> boolean_literal s = Good true true r) /\
  (forall r, s = $"false" ++ r -> boolean_literal s = Good true false r) /\
  ((forall r, s <> $"true" ++ r) -> (forall r, s <> $"false" ++ r) -> boolean_literal s = Bad false).
Proof. exact c101_booleans. Qed.
Print Assumptions C101_booleans.
Example C101_booleans_example : boolean_literal $"falsehood" = Good true false $"hood" /\ boolean_literal $"True" = Bad false.
Proof. split; reflexivity. Qed.

Example C101_example :
  keyword_at is_alnum $"select" $"seLEct *" $" *" /\ keyword is_alnum $"select" $"seLEct *" = Good true tt $" *" /\
  keyword is_alnum $"select" $"selectme" = Bad false /\ keyword is_alnum $"select" $"sel" = Bad false.
Proof.
  split; [|repeat split]. exists $"seLEct". split; [reflexivity|]. split; [words|discriminate].
Qed.

(** ** C102 *)

(** C102: declarations one after the other are read to the end of the last one, whatever the
    white space between their tokens. *)
Theorem C102_prologue : forall al s ds r, decls_at al ds s r -> no_keyword al [$"base"; $"prefix"] r ->
  prologue al s = Good (match ds with [] => false | _ => true end) tt r.
Proof. exact prologue_reads. Qed.
Print Assumptions C102_prologue.

(** C102: that is the case of every text, unless one of the two keywords is followed by
    something that is not such a declaration: then the prologue cannot be read. *)
Theorem C102_rejects : forall al s,
  (exists ds r, decls_at al ds s r /\ no_keyword al [$"base"; $"prefix"] r) \/
  (prologue al s = Bad true /\ exists ds r k t, decls_at al ds s r /\ In k [$"base"; $"prefix"] /\
     keyword_at al k r t /\ forall d u, ~ decl_at al d r u).
Proof. exact prologue_exact. Qed.
Print Assumptions C102_rejects.

(** C102: the prefix and the IRI handed on are those of the text. *)
Theorem C102_declarations : forall al s r,
  (forall i, decl_at al (DBase i) s r <-> exists c, base_decl al s = Good c i r) /\
  (forall p i, decl_at al (DPrefix p i) s r <-> exists c, prefix_decl al s = Good c (p, i) r).
Proof. exact decl_exact. Qed.
Print Assumptions C102_declarations.

(** C102: the clauses FROM and FROM NAMED. *)
Theorem C102_from : forall al s r,
  (exists c, dataset_clause al s = Good c tt r) <-> exists named i, dataset_at al named i s r.
Proof. exact dataset_exact. Qed.
Print Assumptions C102_from.

(** C102 is not the grammar of SPARQL: white space is needed after BASE, and a prefix may end
    with a full stop. *)
Theorem C102_grammar_refuted :
  (forall al i, Forall iri_char i -> al 60 = false -> prologue al ($"BASE<" ++ i ++ $">") = Bad true) /\
  (exists p, ~ prefix_legal p /\ prefix_decl is_alnum ($"PREFIX " ++ p ++ $":<http://e/>") = Good true (Some p, $"http://e/") []).
Proof.
  split.
  - intros al i F A. destruct (prologue_exact al ($"BASE<" ++ i ++ $">")) as [(ds & r & D & N)|(E & _)]; [exfalso|exact E].
    assert (K : keyword_at al $"base" ($"BASE<" ++ i ++ $">") (60 :: i ++ $">")).
    { exists $"BASE". split; [reflexivity|]. split; [words|]. cbn. congruence. }
    destruct D as [s|d l s t r D _].
    + eapply N; [left; reflexivity|exact K].
    + destruct d as [j|p j]; cbn [decl_at] in D.
      * destruct D as (u & v & K' & W & _). rewrite (keyword_unique al _ _ _ _ K' K) in W. revert W. cbn. intuition discriminate.
      * destruct D as (u & v & w & K' & _). eapply keywords_differ; eauto.
  - exists $"a.". split; [|reflexivity]. intros (_ & N). apply N. reflexivity.
Qed.
Print Assumptions C102_grammar_refuted.

Example C102_example :
  let s := $"base <http://e/> PREFIX ex.a:<http://e/>" ++ [10] ++ $"prefix : <http://e/> SELECT" in
  decls_at is_alnum [DBase $"http://e/"; DPrefix (Some $"ex.a") $"http://e/"; DPrefix None $"http://e/"] s $"SELECT" /\
  no_keyword is_alnum [$"base"; $"prefix"] $"SELECT" /\
  prologue is_alnum s = Good true tt $"SELECT" /\ prologue is_alnum $"SELECT" = Good false tt $"SELECT" /\
  prologue is_alnum $"base <http://e/> prefix <http://e/>" = Bad true /\
  dataset_clause is_alnum $"from named <http://e/> where" = Good true tt $"where".
Proof.
  cbv zeta. split; [|split; [|repeat split]].
  - assert (I : forall t r, layout_at t r -> iri_at $"http://e/" ($"<http://e/>" ++ t) r).
    { intros t r L. split; [exact ex_iri_chars|]. exists t. split; [reflexivity|exact L]. }
    assert (L0 : forall c r, ~ white c -> layout_at (c :: r) (c :: r)).
    { intros c r N. exists []. split; [reflexivity|]. split; [constructor|exact N]. }
    assert (L1 : forall w c r, white w -> ~ white c -> layout_at (w :: c :: r) (c :: r)).
    { intros w c r W N. exists [w]. split; [reflexivity|]. split; [constructor; auto|exact N]. }
    eapply more_decls with (t := $"PREFIX ex.a:<http://e/>" ++ [10] ++ $"prefix : <http://e/> SELECT").
    { eexists ($" <http://e/> PREFIX ex.a:<http://e/>" ++ [10] ++ $"prefix : <http://e/> SELECT"), _.
      split; [|split; [|split]].
      - exists $"base". split; [reflexivity|]. split; [words|]. cbn. discriminate.
      - cbn. tauto.
      - apply L1; [cbn; tauto|not_white].
      - apply (I ($" PREFIX ex.a:<http://e/>" ++ [10] ++ $"prefix : <http://e/> SELECT")). apply L1; [cbn; tauto|not_white]. }
    eapply more_decls with (t := $"prefix : <http://e/> SELECT").
    { eexists ($" ex.a:<http://e/>" ++ [10] ++ $"prefix : <http://e/> SELECT"), _, ($"<http://e/>" ++ [10] ++ $"prefix : <http://e/> SELECT").
      split; [|split; [|split]].
      - exists $"PREFIX". split; [reflexivity|]. split; [words|]. cbn. discriminate.
      - apply L1; [cbn; tauto|not_white].
      - split.
        + split; [apply base_iff; reflexivity|]. repeat (apply Forall_cons; [first [right; reflexivity|left; apply chars_iff; reflexivity]|]). apply Forall_nil.
        + exists ($"<http://e/>" ++ [10] ++ $"prefix : <http://e/> SELECT"). split; [reflexivity|]. apply L0. not_white.
      - apply (I ([10] ++ $"prefix : <http://e/> SELECT")). apply L1; [cbn; tauto|not_white]. }
    eapply more_decls; [|apply no_decls].
    eexists $" : <http://e/> SELECT", _, $"<http://e/> SELECT". split; [|split; [|split]].
    + exists $"prefix". split; [reflexivity|]. split; [words|]. cbn. discriminate.
    + apply L1; [cbn; tauto|not_white].
    + split; [constructor|]. exists $" <http://e/> SELECT". split; [reflexivity|]. apply L1; [cbn; tauto|not_white].
    + apply (I $" SELECT"). apply L1; [cbn; tauto|not_white].
  - intros k r K (w & E & F & _). destruct K as [<-|[<-|[]]]; inversion F as [|? b ? ? B]; subst; injection E as <- _;
      apply caseless_iff in B; discriminate B.
Qed.

(** ** C103 *)

(** C103: what is read as a variable. *)
Theorem C103_variables : forall s v r, variable_at v s r <-> exists c, variable s = Good c v r.
Proof. exact variable_exact. Qed.
Print Assumptions C103_variables.

(** C103 is not the grammar of SPARQL: a name with a low line is cut or not read at all, and
    the mark is not needed. *)
Theorem C103_grammar_refuted :
  (exists v a b, var_legal v /\ v = a ++ 95 :: b /\ variable (63 :: v) = Good true a (95 :: b)) /\
  (forall t, variable (63 :: 95 :: t) = Bad true) /\
  (exists v r, variable (v ++ r) = Good true v r).
Proof.
  split; [|split].
  - exists $"first_name", $"first", $"name". split; [|split; reflexivity].
    split; [left; apply base_iff; reflexivity|].
    repeat (apply Forall_cons; [first [right; left; reflexivity|left; apply base_iff; reflexivity]|]). apply Forall_nil.
  - intros t. reflexivity.
  - exists $"name", $" ". reflexivity.
Qed.
Print Assumptions C103_grammar_refuted.

Example C103_example :
  variable_at $"a1" $"?a1 ." $" ." /\ variable $"$a1" = Good true $"a1" [] /\ variable $"? a" = Bad true /\ variable $"-" = Bad false.
Proof.
  split; [|repeat split]. split; [|split; [|right; left; reflexivity]].
  - split; [apply head_iff; reflexivity|]. constructor; [apply tail_iff; reflexivity|constructor].
  - cbn. intros T. apply tail_iff in T. discriminate T.
Qed.

(** ** C104 *)

(** C104: the local names that are read consist of one character, and white space (other than
    U+1680, which is taken for a letter) has to follow. *)
Theorem C104_exact : forall s p v r, (exists c, prefixed_name_local_name s = Good c (p, v) r) <->
  exists x t u, v = [x] /\ namespace_at p s t /\ local_char_at x t u /\ starts white u /\ ~ starts (eq 0x1680) u /\ layout_at u r.
Proof.
  intros s p v r. rewrite local_name_exact. split.
  - intros (t & N & L). apply local_exact in L as (x & u & -> & C & W & O & L). exists x, t, u. auto 8.
  - intros (x & t & u & -> & N & C & W & O & L). exists t. split; [exact N|]. apply local_exact. exists x, u. auto.
Qed.
Print Assumptions C104_exact.

(** C104 is false of every local name of two or more characters. *)
Theorem C104_names_refuted : forall c1 c2 s, local_head c1 -> (name_char c2 \/ c2 = 46 \/ c2 = 58) ->
  forall c v r, prefixed_name_local (c1 :: c2 :: s) <> Good c v r.
Proof. exact long_names_unread. Qed.
Print Assumptions C104_names_refuted.

(** C104: a prefixed name without local part is not read, although there is an alternative for
    it: an IRI is an IRIREF or a name that the first alternative reads. *)
Theorem C104_iri : forall s r, (exists c, sparql_iri s = Good c tt r) <->
  (exists i, iri_at i s r) \/ (exists p v c, prefixed_name_local_name s = Good c (p, v) r).
Proof.
  intros s r. rewrite iri_or_name. split.
  - intros [H|(p & t & v & N & L)]; [left; exact H|right]. exists p, v. apply local_name_exact. eauto.
  - intros [H|(p & v & H)]; [left; exact H|right]. apply local_name_exact in H as (t & N & L). eauto.
Qed.
Print Assumptions C104_iri.

(** C104: where the reader panics: at a percent sign that is not followed by decimal digits. *)
Theorem C104_percent : forall s, percent_escape s = Boom <-> percent_trap s.
Proof. exact percent_exact. Qed.
Print Assumptions C104_percent.

Example C104_example :
  prefixed_name_local_name $"ex: b ." = Good true (Some $"ex", $"b") $"." /\
  prefixed_name_local_name $"ex:name ." = Bad true /\ prefixed_name_local_name $"ex:a" = Bad true /\
  prefixed_name $"ex: " = Bad true /\
  (** The escape of the letter A is read as a closing parenthesis. *)
  prefixed_name_local_name $"ex:%41 ." = Good true (Some $"ex", $")") $"." /\
  percent_trap $"%C3" /\ prefixed_name_local_name $"ex:%C3 " = Boom /\
  local_char_at 46 $"\. " $" ".
Proof.
  split; [reflexivity|]. split; [reflexivity|]. split; [reflexivity|]. split; [reflexivity|]. split; [reflexivity|].
  split; [apply percent_exact; reflexivity|]. split; [reflexivity|]. constructor. cbn. tauto.
Qed.

(** ** C105 *)

(** C105: the language tags that are read are those of the grammar, to their end. *)
Theorem C105_language_tags : forall s t r,
  (exists m l, t = tag_text m l /\ lang_tag_at m l s r) <-> exists c, lang_tag s = Good c t r.
Proof. exact lang_exact. Qed.
Print Assumptions C105_language_tags.

(** C105: every other text is an error and never a panic. *)
Theorem C105_no_panic : forall s, lang_tag s <> Boom.
Proof. exact lang_no_panic. Qed.
Print Assumptions C105_no_panic.

Example C105_example :
  lang_tag_at $"en" [$"GB"; $"x1"] $"@en-GB-x1 ." $" ." /\ lang_tag $"@en-GB-x1 ." = Good true $"en-GB-x1" $" ." /\
  lang_tag $"@en-" = Bad true /\ lang_tag $"@1" = Bad true /\ lang_tag $"en" = Bad false.
Proof.
  split; [|repeat split]. split; [discriminate|].
  split; [repeat (apply Forall_cons; [apply alpha_iff; reflexivity|]); apply Forall_nil|].
  split; [repeat (apply Forall_cons; [split; [discriminate|repeat (apply Forall_cons; [apply alnum_iff; reflexivity|]); apply Forall_nil]|]); apply Forall_nil|].
  split; [reflexivity|]. split; cbn; [intros H; apply alnum_iff in H; discriminate H|discriminate].
Qed.

(** The tests of the crate (common.rs:672-818), which fix the behaviour of the combinators
    that are used. *)
Example C101_C103_tests :
  keyword is_alnum $"select" $"select " = Good true tt $" " /\ keyword is_alnum $"select" $"SELECT" = Good true tt [] /\
  keyword is_alnum $"select" [] = Bad false /\ keyword is_alnum $"select" $" select" = Bad false /\
  variable $"?a" = Good true $"a" [] /\
  iri_ref $"<http://example.com/>  " = Good true $"http://example.com/" [] /\
  iri_ref $"<../index.htm>" = Good true $"../index.htm" [] /\
  base_decl is_alnum $"base <http://example.com/base>" = Good true $"http://example.com/base" [] /\
  prefix_decl is_alnum $"prefix base: <http://example.com/base>" = Good true (Some $"base", $"http://example.com/base") [] /\
  prefix_decl is_alnum $"prefix : <http://example.com/base>" = Good true (None, $"http://example.com/base") [] /\
  prefixed_name_prefix $"base " = Good true $"base" $" " /\ prefixed_name_prefix $"b.a.s.e" = Good true $"b.a.s.e" [] /\
  prefixed_name_namespace $"base: " = Good true (Some $"base") [] /\ prefixed_name_namespace $": " = Good true None [].
Proof. repeat split. Qed.
