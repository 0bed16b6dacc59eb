(** Lemmas about the parts of the document of a scheme. *)
From Verif Require Import Str StrFacts LiteralProofs Skos SkosSpec SkosProofs SkosMain SkosMore Turtle TurtleProofs SkosDoc SkosDocSpec SkosDocProofs.
From Coq Require Import Arith Lia Relations.

Lemma lk_total : total_order lk_cmp.
Proof.
  constructor.
  - intros [| | |a] [| | |b]; cbn; try (split; congruence). rewrite (to_eq _ str_total). split; congruence.
  - intros [| | |a] [| | |b]; cbn; try reflexivity. apply (to_opp _ str_total).
  - intros [| | |a] [| | |b] [| | |c]; cbn; try congruence. apply (to_trans _ str_total).
Qed.

Lemma lk_before a b : lk_cmp a b = Lt -> kind_before a b.
Proof. destruct a, b; cbn; intros E; try discriminate E; constructor; try discriminate; exact E. Qed.

Section Parts.
Variable anchor : str -> str -> str.
Variable short : str -> option str.
Variable lang : option str.

Lemma shown_iff i t : shows_iri short i t <-> t = shown short i.
Proof.
  unfold shown. split.
  - intros [q E|E]; rewrite E; reflexivity.
  - intros ->. destruct (short i) as [q|] eqn:E; [apply si_short, E|apply si_long, E].
Qed.
Lemma language_iff g c : shows_language lang g c <-> c = language_cell lang g.
Proof.
  unfold language_cell. split.
  - intros [|g' E|g' E]; [reflexivity| |].
    + rewrite E. rewrite (proj2 (lang_eqb_eq (Some g') (Some g')) eq_refl). reflexivity.
    + destruct (lang_eqb (Some g') lang) eqn:Q; [|reflexivity]. apply lang_eqb_eq in Q. congruence.
  - intros ->. destruct g as [g|]; [|constructor]. destruct (lang_eqb (Some g) lang) eqn:Q.
    + apply lang_eqb_eq in Q. constructor. congruence.
    + constructor. intros E. rewrite (proj2 (lang_eqb_eq (Some g) lang) (eq_sym E)) in Q. discriminate.
Qed.

(** ** Labels *)
Definition label_row (l : slabel) : str * list (list inline) :=
  (shown short (lk_uri (sl_kind l)), [[IText Normal (sl_text l)]; language_cell lang (sl_language l)]).
Lemma label_row_shows l : shows_label short lang l (label_row l).
Proof.
  exists (language_cell lang (sl_language l)). rewrite <- lk_uri_is. split; [apply shown_iff; reflexivity|]. split; [apply language_iff|]; reflexivity.
Qed.
Definition flushed (table : option (list (list (list inline)))) : list block :=
  match table with Some rows => [DTable label_columns rows] | None => [] end.
Lemma label_columns_eqb : list_eqb str_eqb label_columns [$"Label text"; $"Language"] = true.
Proof. vm_compute. reflexivity. Qed.
Local Opaque label_columns.
Definition cols : list str := [$"Label text"; $"Language"].
Lemma rows_under_table title rows r : rows_under cols title (DTable label_columns rows :: r) = map (Datatypes.pair title) rows ++ rows_under cols title r.
Proof. cbn [rows_under]. unfold cols. rewrite label_columns_eqb. reflexivity. Qed.
Lemma label_tables_rows ls : forall k rows,
  rows_under cols (shown short (lk_uri k)) (label_tables short lang (Some k) (Some rows) ls) =
  map (Datatypes.pair (shown short (lk_uri k))) rows ++ map label_row ls.
Proof.
  induction ls as [|l ls IH]; intros k rows; cbn [label_tables].
  - rewrite rows_under_table. reflexivity.
  - destruct (lk_eqb (sl_kind l) k) eqn:E.
    + apply lk_eqb_eq in E. cbn [option_map]. rewrite IH, map_app, <- app_assoc. f_equal. cbn [map app]. unfold label_row. rewrite E. reflexivity.
    + cbn [app]. rewrite rows_under_table. f_equal. cbn [rows_under]. rewrite IH. reflexivity.
Qed.
Fixpoint kinds (cur : option label_kind) (ls : list slabel) : list label_kind :=
  match ls with
  | [] => []
  | l :: r => if match cur with Some k => lk_eqb (sl_kind l) k | None => false end then kinds cur r
              else sl_kind l :: kinds (Some (sl_kind l)) r
  end.
Lemma label_tables_titles ls : forall cur table,
  titles (label_tables short lang cur table ls) = map (fun k => shown short (lk_uri k)) (kinds cur ls).
Proof.
  induction ls as [|l ls IH]; intros cur table; cbn [label_tables kinds].
  - destruct table; reflexivity.
  - destruct (match cur with Some k => lk_eqb (sl_kind l) k | None => false end); [apply IH|].
    unfold titles in *. rewrite flat_map_app. cbn [flat_map app map]. rewrite IH. destruct table; reflexivity.
Qed.
Lemma kinds_in ls : forall cur k, In k (kinds cur ls) \/ cur = Some k <-> (exists l, In l ls /\ sl_kind l = k) \/ cur = Some k.
Proof.
  induction ls as [|l ls IH]; intros cur k; cbn [kinds].
  - split; (intros [H|H]; [|auto]); [destruct H|destruct H as (l & [] & _)].
  - destruct cur as [c|].
    + destruct (lk_eqb (sl_kind l) c) eqn:E.
      * apply lk_eqb_eq in E. rewrite IH. split; (intros [(l' & I & K)|H]; [|auto]).
        -- left. exists l'. cbn. auto.
        -- destruct I as [<-|I]; [right; congruence|left; eauto].
      * pose proof (IH (Some (sl_kind l)) k) as G. split.
        -- intros [[H|H]|H]; [left; exists l; cbn; auto| |auto]. destruct (proj1 G (or_introl H)) as [(l' & I & K)|K]; left.
           ++ exists l'. cbn. auto.
           ++ exists l. cbn. split; [auto|congruence].
        -- intros [(l' & [<-|I] & K)|H]; [left; left; exact K| |auto]. destruct (proj2 G) as [H|H]; [left; eauto|left; right; exact H|].
           left. left. congruence.
    + pose proof (IH (Some (sl_kind l)) k) as G. split.
      * intros [[H|H]|H]; [left; exists l; cbn; auto| |discriminate]. destruct (proj1 G (or_introl H)) as [(l' & I & K)|K]; left.
        -- exists l'. cbn. auto.
        -- exists l. cbn. split; [auto|congruence].
      * intros [(l' & [<-|I] & K)|H]; [left; left; exact K| |discriminate]. destruct (proj2 G) as [H|H]; [left; eauto|left; right; exact H|].
        left. left. congruence.
Qed.
Lemma kinds_sorted ls : StronglySorted (fun a b => lk_cmp (sl_kind a) (sl_kind b) <> Gt) ls ->
  forall cur, (forall k, cur = Some k -> Forall (fun l => lk_cmp k (sl_kind l) <> Gt) ls) ->
  StronglySorted (fun a b => lk_cmp a b = Lt) (kinds cur ls) /\
  (forall k, cur = Some k -> Forall (fun k' => lk_cmp k k' = Lt) (kinds cur ls)).
Proof.
  induction 1 as [|l ls S IH F]; intros cur C; cbn [kinds]; [split; [constructor|intros; constructor]|].
  assert (G : StronglySorted (fun a b => lk_cmp a b = Lt) (sl_kind l :: kinds (Some (sl_kind l)) ls)).
  { destruct (IH (Some (sl_kind l))) as (A & B); [intros k E; injection E as <-; exact F|]. constructor; [exact A|]. apply B. reflexivity. }
  destruct cur as [c|].
  - specialize (C c eq_refl). inversion_clear C as [|? ? C1 C2]. destruct (lk_eqb (sl_kind l) c) eqn:E.
    + apply IH. intros k H. injection H as <-. exact C2.
    + split; [exact G|]. intros k H. injection H as <-. inversion_clear G as [|? ? G1 G2].
      assert (L : lk_cmp c (sl_kind l) = Lt).
      { destruct (lk_cmp c (sl_kind l)) eqn:X; [|reflexivity|congruence]. apply (to_eq _ lk_total) in X. subst c.
        rewrite (proj2 (lk_eqb_eq _ _) eq_refl) in E. discriminate. }
      constructor; [exact L|]. eapply Forall_impl; [|exact G2]. intros k. apply (to_trans _ lk_total), L.
  - split; [exact G|]. intros k H. discriminate.
Qed.
Lemma kinds_nodup ls : StronglySorted (fun a b => lk_cmp (sl_kind a) (sl_kind b) <> Gt) ls -> NoDup (kinds None ls).
Proof.
  intros S. destruct (kinds_sorted ls S None) as (A & _); [intros k H; discriminate|].
  induction A as [|a r A IH F]; constructor; [|exact IH]. intros J. rewrite Forall_forall in F. apply F in J.
  apply (to_lt_irrefl _ lk_total) in J. exact J.
Qed.
Lemma label_tables_level ls : forall cur table n, Forall (below_heading n) (label_tables short lang cur table ls).
Proof.
  induction ls as [|l ls IH]; intros cur table n; cbn [label_tables].
  - destruct table; repeat constructor.
  - destruct (match cur with Some k => lk_eqb (sl_kind l) k | None => false end); [apply IH|].
    apply Forall_app. split; [destruct table; repeat constructor|]. constructor; [exact I|]. apply IH.
Qed.

Lemma Forall2_map_r {A B C} (R : A -> C -> Prop) (f : B -> C) la : forall lb, Forall2 (fun a b => R a (f b)) la lb -> Forall2 R la (map f lb).
Proof. induction 1; constructor; assumption. Qed.
Lemma Forall2_same {A} (R : A -> A -> Prop) l : (forall x, R x x) -> Forall2 R l l.
Proof. intros H. induction l; constructor; auto. Qed.

Lemma write_labels_shows ls : ls <> [] -> exists rows ks,
  Permutation ls rows /\ Forall2 (shows_label short lang) rows (rows_under cols [] (write_labels short lang ls)) /\
  Forall2 (fun k t => shows_iri short (kind_name k) t) ks (titles (write_labels short lang ls)) /\ NoDup ks /\ StronglySorted kind_before ks /\
  (forall k, In k ks <-> exists l, In l ls /\ sl_kind l = k).
Proof.
  intros _. exists (sort_by_key lk_cmp sl_kind ls), (kinds None (sort_by_key lk_cmp sl_kind ls)).
  assert (R : rows_under cols [] (write_labels short lang ls) = map label_row (sort_by_key lk_cmp sl_kind ls)).
  { unfold write_labels. destruct (sort_by_key lk_cmp sl_kind ls) as [|l r]; [reflexivity|]. cbn [label_tables app rows_under].
    rewrite label_tables_rows. reflexivity. }
  split; [apply Permutation_sym, sort_by_key_perm|]. split; [|split; [|split; [|split]]].
  - rewrite R. apply Forall2_map_r, Forall2_same, label_row_shows.
  - unfold write_labels. rewrite label_tables_titles. apply Forall2_map_r, Forall2_same. intros k. apply shown_iff. rewrite lk_uri_is. reflexivity.
  - apply kinds_nodup. apply sort_by_key_sorted, lk_total.
  - destruct (kinds_sorted (sort_by_key lk_cmp sl_kind ls) (sort_by_key_sorted _ _ _ lk_total) None) as (A & _); [intros k H; discriminate|].
    clear - A. induction A as [|a r A IH F]; constructor; [exact IH|]. eapply Forall_impl; [|exact F]. apply lk_before.
  - intros k. pose proof (kinds_in (sort_by_key lk_cmp sl_kind ls) None k) as H. split.
    + intros I. destruct (proj1 H (or_introl I)) as [(l & J & K)|]; [|discriminate]. exists l. split; [|exact K]. apply sort_by_key_in in J. exact J.
    + intros (l & J & K). destruct (proj2 H) as [X|]; [|exact X|discriminate]. left. exists l. split; [|exact K]. apply sort_by_key_in. exact J.
Qed.

(** ** Properties *)
Lemma property_row_shows p : shows_property short lang (shows_type_or_predicate short) p (property_row short lang p).
Proof.
  unfold property_row. eexists _, _, _. split; [apply shown_iff; reflexivity|]. split; [|split; [apply language_iff; reflexivity|reflexivity]].
  unfold shows_type_or_predicate. destruct (lp_data_type p) as [d|]; [|reflexivity].
  destruct (short (dt_as_iri d)); auto.
Qed.
Lemma property_columns_eqb : list_eqb str_eqb property_columns [$"Predicate"; $"Literal Form"; $"Data Type"; $"Language"] = true.
Proof. vm_compute. reflexivity. Qed.
Lemma write_properties_shows ps : exists rows,
  Permutation ps rows /\ StronglySorted (fun p q => str_cmp (lp_predicate p) (lp_predicate q) <> Gt) rows /\
  Forall2 (shows_property short lang (shows_type_or_predicate short)) rows
    (map snd (rows_under [$"Predicate"; $"Literal Form"; $"Data Type"; $"Language"] [] (write_other_properties short lang ps))).
Proof.
  exists (sort_by_key str_cmp lp_predicate ps). split; [apply Permutation_sym, sort_by_key_perm|].
  split; [apply sort_by_key_sorted, str_total|]. unfold write_other_properties. cbn [rows_under].
  rewrite property_columns_eqb, app_nil_r, map_map. cbn [snd]. rewrite map_id. apply Forall2_map_r, Forall2_same, property_row_shows.
Qed.

(** ** Headers *)
Definition stops (level : nat) (d : list block) : Prop := match d with [] => True | b :: _ => ~ below_heading level b end.
Lemma section_here before level t a body after : Forall (below_heading level) body -> stops level after ->
  section_of (before ++ DHeading level t a :: body ++ after) level t a body.
Proof. intros F S. exists before, after. auto. Qed.

Definition definition_part (ps : list lprop) : list block :=
  match find (fun p => str_eqb (lp_predicate p) (ns_term tb_sk $"definition") && lang_eqb (lp_language p) lang) ps with
  | Some p => [DPara [IText Italic (lp_form p)]]
  | None => []
  end.
Definition labels_part (ls : list slabel) (depth : nat) : list block :=
  match ls with [] => [] | _ => [DHeading (S depth) $"Labels" None] ++ write_labels short lang ls end.
Definition properties_part (ps : list lprop) (depth : nat) : list block :=
  match ps with [] => [] | _ => [DHeading (S depth) $"Other Properties" None] ++ write_other_properties short lang ps end.
Definition header_body (u : str) (ls : list slabel) (ps : list lprop) (depth : nat) : list block :=
  definition_part ps ++ [DPara [IExternal u None]] ++ labels_part ls depth ++ properties_part ps depth.
Lemma header_is u ls ps text prefix depth : write_entity_header anchor short lang u ls ps text prefix depth =
  DHeading depth (text ++ $": " ++ preferred_label_for u ls lang) (Some (anchor (preferred_label_for u ls lang) prefix)) ::
  header_body u ls ps depth.
Proof. reflexivity. Qed.

Lemma definition_term : ns_term tb_sk $"definition" = skos $"definition".
Proof. vm_compute. reflexivity. Qed.
Lemma definition_found ps p : In p ps -> lp_predicate p = skos $"definition" -> lp_language p = lang ->
  exists before p' after, ps = before ++ p' :: after /\ lp_predicate p' = skos $"definition" /\ lp_language p' = lang /\
    (forall q, In q before -> lp_predicate q = skos $"definition" -> lp_language q <> lang) /\
    In (DPara [IText Italic (lp_form p')]) (definition_part ps).
Proof.
  unfold definition_part. rewrite definition_term. induction ps as [|q ps IH]; intros I P L; [destruct I|]. cbn [find].
  destruct (str_eqb (lp_predicate q) (skos $"definition") && lang_eqb (lp_language q) lang) eqn:E.
  - apply andb_prop in E as [E1 E2]. apply str_eqb_eq in E1. apply lang_eqb_eq in E2. exists [], q, ps.
    split; [reflexivity|]. split; [exact E1|]. split; [exact E2|]. split; [intros r []|left; reflexivity].
  - assert (N : lp_predicate q = skos $"definition" -> lp_language q <> lang).
    { intros A B. rewrite A, B, str_eqb_refl, (proj2 (lang_eqb_eq lang lang) eq_refl) in E. discriminate. }
    destruct I as [->|I]; [destruct (N P L)|]. destruct (IH I P L) as (b & p' & a & -> & Q1 & Q2 & Q3 & Q4).
    exists (q :: b), p', a. split; [reflexivity|]. split; [exact Q1|]. split; [exact Q2|]. split; [|exact Q4].
    intros r [<-|J]; [exact N|apply Q3, J].
Qed.

Definition no_heading (level : nat) (t : str) (d : list block) : Prop := ~ In t (headings level d).
Lemma headings_app level a b : headings level (a ++ b) = headings level a ++ headings level b.
Proof. apply flat_map_app. Qed.
Lemma headings_none d : (forall n, Forall (below_heading n) d) -> forall level, headings level d = [].
Proof.
  intros H level. specialize (H level). induction H as [|b d B _ IH]; [reflexivity|]. cbn. change (headings level d = []) in IH.
  unfold headings in IH. rewrite IH. destruct b; try reflexivity. cbn in B. replace (Nat.eqb level0 level) with false by (symmetry; apply Nat.eqb_neq; lia). reflexivity.
Qed.
Lemma headings_definition level ps : headings level (definition_part ps) = [].
Proof. unfold definition_part. destruct (find _ ps); reflexivity. Qed.
Lemma headings_labels level ls depth : headings level (labels_part ls depth) =
  match ls with [] => [] | _ => if Nat.eqb (S depth) level then [$"Labels"] else [] end.
Proof.
  destruct ls as [|l ls]; [reflexivity|]. unfold labels_part. rewrite headings_app.
  rewrite (headings_none (write_labels short lang (l :: ls))) by (intros n; apply label_tables_level). rewrite app_nil_r.
  cbn [headings flat_map]. rewrite app_nil_r. reflexivity.
Qed.
Lemma headings_properties level ps depth : headings level (properties_part ps depth) =
  match ps with [] => [] | _ => if Nat.eqb (S depth) level then [$"Other Properties"] else [] end.
Proof.
  destruct ps as [|p ps]; [reflexivity|]. unfold properties_part. rewrite headings_app. cbn [write_other_properties headings flat_map].
  rewrite !app_nil_r. reflexivity.
Qed.
Lemma headings_body level u ls ps depth : headings level (header_body u ls ps depth) =
  headings level (labels_part ls depth) ++ headings level (properties_part ps depth).
Proof. unfold header_body. rewrite !headings_app, headings_definition. reflexivity. Qed.

Lemma stops_heading level t a d : stops level (DHeading level t a :: d).
Proof. apply Nat.lt_irrefl. Qed.

(** The links to the parts of the document come after the header of the scheme. *)
Definition jump_only (extra : list block) : Prop := extra = [] \/ exists b, extra = [jump_links b].
Lemma rows_under_jump columns d : forall title extra, jump_only extra -> rows_under columns title (d ++ extra) = rows_under columns title d.
Proof.
  induction d as [|b d IH]; intros title extra J.
  - destruct J as [-> | (b & ->)]; reflexivity.
  - cbn [app]. destruct b as [| i | c rows | |]; cbn [rows_under]; try (apply IH, J).
    + destruct i as [|x i]; [apply IH, J|]. destruct x as [y s| |]; try (apply IH, J). destruct y; try (apply IH, J).
      destruct i; apply IH, J.
    + rewrite IH by exact J. reflexivity.
Qed.
Lemma titles_jump d extra : jump_only extra -> titles (d ++ extra) = titles d.
Proof. intros J. unfold titles. rewrite flat_map_app. destruct J as [-> | (b & ->)]; apply app_nil_r. Qed.
Lemma jump_level extra n : jump_only extra -> Forall (below_heading n) extra.
Proof. intros [-> | (b & ->)]; repeat constructor. Qed.
Lemma headings_jump n extra : jump_only extra -> headings n extra = [].
Proof. intros [-> | (b & ->)]; reflexivity. Qed.

Lemma lead_app a b : (forall n, Forall (below_heading n) a) -> lead (a ++ b) = a ++ lead b.
Proof.
  intros H. induction a as [|x a IH]; [reflexivity|]. assert (Hx : forall n, below_heading n x) by (intros n; specialize (H n); inversion H; assumption).
  cbn [app lead]. rewrite IH by (intros n; specialize (H n); inversion H; assumption). destruct x as [l t o| | | |]; try reflexivity.
  specialize (Hx l). cbn in Hx. lia.
Qed.
Lemma definition_only ps t : In (DPara [IText Italic t]) (definition_part ps) ->
  exists p, In p ps /\ lp_predicate p = skos $"definition" /\ lp_language p = lang /\ lp_form p = t.
Proof.
  unfold definition_part. rewrite definition_term. destruct (find _ ps) as [p|] eqn:E; [|intros []]. intros [J|[]]. injection J as J.
  apply find_some in E as (I & E). apply andb_prop in E as [E1 E2]. apply str_eqb_eq in E1. apply lang_eqb_eq in E2. exists p. auto.
Qed.
Lemma lead_header u ls ps depth extra rest : jump_only extra -> stops (S depth) rest ->
  exists more, jump_only more /\ lead (header_body u ls ps depth ++ extra ++ rest) = definition_part ps ++ [DPara [IExternal u None]] ++ more.
Proof.
  intros J S. unfold header_body. rewrite <- !app_assoc. rewrite lead_app by (intros n; unfold definition_part; destruct (find _ ps); repeat constructor).
  rewrite lead_app by (intros n; repeat constructor).
  destruct ls as [|l ls]; [|exists []; split; [left; reflexivity|reflexivity]].
  destruct ps as [|p ps]; [|exists []; split; [left; reflexivity|reflexivity]].
  exists extra. split; [exact J|]. cbn [labels_part properties_part app]. do 2 f_equal. rewrite lead_app by (intros n; apply jump_level, J).
  destruct rest as [|b rest]; [apply app_nil_r|]. cbn in S. destruct b; [apply app_nil_r|destruct (S I)..].
Qed.
Lemma entity_shows depth u ls ps extra rest : jump_only extra -> stops (S depth) rest -> no_heading (S depth) $"Labels" rest ->
  no_heading (S depth) $"Other Properties" rest ->
  shows_resource short lang depth u ls ps (header_body u ls ps depth ++ extra ++ rest).
Proof.
  intros J S NL NP. unfold shows_resource. destruct (lead_header u ls ps depth extra rest J S) as (lead_more & LJ & LE).
  split; [|split; [|split; [|split; [|split; [|split]]]]].
  - rewrite LE. apply in_or_app. right. left. reflexivity.
  - intros p I P L. destruct (definition_found ps p I P L) as (b & p' & a & Q0 & Q1 & Q2 & Q3 & Q4).
    exists b, p', a. repeat (split; [assumption|]). rewrite LE. apply in_or_app. left. exact Q4.
  - intros t I. rewrite LE in I. apply in_app_or in I as [I|I]; [exact (definition_only ps t I)|].
    destruct I as [I|I]; [discriminate I|]. destruct LJ as [-> | (b & ->)]; [destruct I|]. destruct I as [I|[]]. discriminate I.
  - intros N. destruct (write_labels_shows ls N) as (rows & ks & A & B & C & D & E). unfold header_body, labels_part. destruct ls as [|l ls]; [congruence|].
    destruct ps as [|p ps].
    + exists (write_labels short lang (l :: ls) ++ extra), rows, ks. fold cols. rewrite rows_under_jump, titles_jump by exact J.
      split; [|auto]. cbn [properties_part]. rewrite app_nil_r, <- !app_assoc. rewrite (app_assoc (definition_part [])).
      change ([DHeading (Datatypes.S depth) $"Labels" None] ++ ?x) with (DHeading (Datatypes.S depth) $"Labels" None :: x).
      rewrite (app_assoc (write_labels short lang (l :: ls))).
      apply section_here; [|exact S]. apply Forall_app. split; [apply label_tables_level|apply jump_level, J].
    + exists (write_labels short lang (l :: ls)), rows, ks. split; [|auto].
      rewrite <- !app_assoc. rewrite (app_assoc (definition_part _)).
      change ([DHeading (Datatypes.S depth) $"Labels" None] ++ ?x) with (DHeading (Datatypes.S depth) $"Labels" None :: x).
      apply section_here; [apply label_tables_level|]. unfold properties_part. apply stops_heading.
  - intros ->. rewrite !headings_app, headings_body, headings_labels, headings_properties, headings_jump by exact J. intros I.
    apply in_app_or in I as [I|I]; [|exact (NL I)].
    cbn [app] in I. rewrite Nat.eqb_refl in I. destruct ps; [destruct I|]. destruct I as [I|[]]. discriminate I.
  - intros N. destruct (write_properties_shows ps) as (rows & A & B & C).
    exists (write_other_properties short lang ps ++ extra), rows. rewrite rows_under_jump by exact J.
    split; [|auto]. unfold header_body, properties_part. destruct ps as [|p ps]; [congruence|].
    rewrite <- !app_assoc. rewrite (app_assoc (definition_part _)). rewrite (app_assoc (definition_part _ ++ _)).
    change ([DHeading (Datatypes.S depth) $"Other Properties" None] ++ ?x) with (DHeading (Datatypes.S depth) $"Other Properties" None :: x).
    rewrite (app_assoc (write_other_properties short lang (p :: ps))).
    apply section_here; [|exact S]. apply Forall_app. split; [repeat constructor|apply jump_level, J].
  - intros ->. rewrite !headings_app, headings_body, headings_labels, headings_properties, headings_jump by exact J. intros I.
    apply in_app_or in I as [I|I]; [|exact (NP I)].
    rewrite app_nil_r, Nat.eqb_refl in I. destruct ls; [destruct I|]. destruct I as [I|[]]. discriminate I.
Qed.
Lemma header_body_level u ls ps depth : Forall (below_heading depth) (header_body u ls ps depth).
Proof.
  unfold header_body, definition_part, labels_part, properties_part.
  apply Forall_app. split; [|apply Forall_app; split; [|apply Forall_app; split]].
  - destruct (find _ ps); repeat constructor.
  - repeat constructor.
  - destruct ls; [constructor|]. constructor; [cbn; lia|]. apply label_tables_level.
  - destruct ps; [constructor|]. constructor; [cbn; lia|]. repeat constructor.
Qed.

(** ** Sections of concepts and collections *)
Definition concept_body (w : world) (ls : list nat) (c : concept) : list block :=
  header_body (kc_uri c) (kc_labels c) (kc_properties c) 3 ++
  match kc_concepts c with [] => [] | _ => write_concept_relations anchor short lang w c end ++
  write_collection_membership anchor lang w ls (kc_uri c).
Definition collection_body (w : world) (ls : list nat) (c : collection) : list block :=
  header_body (kl_uri c) (kl_labels c) (kl_properties c) 3 ++
  match kl_members c with [] => [] | ms => write_collection_members anchor lang w ms end ++
  write_collection_membership anchor lang w ls (kl_uri c).
Lemma write_concept_is w ls k c : nth_error (w_concepts w) k = Some c -> write_concept anchor short lang w ls k =
  DHeading 3 ($"Concept: " ++ label_of lang w k) (Some (anchor (label_of lang w k) $"concept")) :: concept_body w ls c.
Proof. intros E. unfold write_concept, label_of. rewrite E. reflexivity. Qed.
Lemma write_collection_is w ls k c : nth_error (w_collections w) k = Some c -> write_collection anchor short lang w ls k =
  DHeading 3 ($"Collection: " ++ label_of_collection lang w k) (Some (anchor (label_of_collection lang w k) $"collection")) ::
  collection_body w ls c.
Proof. intros E. unfold write_collection, label_of_collection. rewrite E. reflexivity. Qed.
Lemma membership_level w ls u : Forall (below_heading 3) (write_collection_membership anchor lang w ls u).
Proof. unfold write_collection_membership. destruct (in_collections w ls u); [constructor|]. constructor; [cbn; lia|]. repeat constructor. Qed.
Lemma concept_body_level w ls c : Forall (below_heading 3) (concept_body w ls c).
Proof.
  unfold concept_body. apply Forall_app. split; [apply header_body_level|]. apply Forall_app. split; [|apply membership_level].
  destruct (kc_concepts c); [constructor|]. constructor; [cbn; lia|]. repeat constructor.
Qed.
Lemma collection_body_level w ls c : Forall (below_heading 3) (collection_body w ls c).
Proof.
  unfold collection_body. apply Forall_app. split; [apply header_body_level|]. apply Forall_app. split; [|apply membership_level].
  destruct (kl_members c); [constructor|]. constructor; [cbn; lia|]. constructor; [exact I|constructor].
Qed.
Lemma membership_stops w ls u : stops 4 (write_collection_membership anchor lang w ls u).
Proof. unfold write_collection_membership. destruct (in_collections w ls u); [exact I|apply stops_heading]. Qed.
Lemma membership_headings w ls u : headings 4 (write_collection_membership anchor lang w ls u) =
  match in_collections w ls u with [] => [] | _ => [$"In Collections"] end.
Proof. unfold write_collection_membership. destruct (in_collections w ls u); reflexivity. Qed.
Lemma concept_body_shows w ls c : shows_resource short lang 3 (kc_uri c) (kc_labels c) (kc_properties c) (concept_body w ls c).
Proof.
  apply (entity_shows 3 _ _ _ []); [left; reflexivity| | |].
  - destruct (kc_concepts c); [apply membership_stops|apply stops_heading].
  - unfold no_heading. rewrite headings_app, membership_headings. intros J. apply in_app_or in J as [J|J].
    + destruct (kc_concepts c); [destruct J|]. destruct J as [J|[]]. discriminate J.
    + destruct (in_collections w ls (kc_uri c)); [destruct J|]. destruct J as [J|[]]. discriminate J.
  - unfold no_heading. rewrite headings_app, membership_headings. intros J. apply in_app_or in J as [J|J].
    + destruct (kc_concepts c); [destruct J|]. destruct J as [J|[]]. discriminate J.
    + destruct (in_collections w ls (kc_uri c)); [destruct J|]. destruct J as [J|[]]. discriminate J.
Qed.
Lemma collection_body_shows w ls c : shows_resource short lang 3 (kl_uri c) (kl_labels c) (kl_properties c) (collection_body w ls c).
Proof.
  apply (entity_shows 3 _ _ _ []); [left; reflexivity| | |].
  - destruct (kl_members c); [apply membership_stops|apply stops_heading].
  - unfold no_heading. rewrite headings_app, membership_headings. intros J. apply in_app_or in J as [J|J].
    + destruct (kl_members c); [destruct J|]. destruct J as [J|[]]. discriminate J.
    + destruct (in_collections w ls (kl_uri c)); [destruct J|]. destruct J as [J|[]]. discriminate J.
  - unfold no_heading. rewrite headings_app, membership_headings. intros J. apply in_app_or in J as [J|J].
    + destruct (kl_members c); [destruct J|]. destruct J as [J|[]]. discriminate J.
    + destruct (in_collections w ls (kl_uri c)); [destruct J|]. destruct J as [J|[]]. discriminate J.
Qed.

(** A list of sections one after another. *)
Lemma sections_in {A} (f : A -> list block) (h : A -> str) (a : A -> option str) (body : A -> list block) before xs after level :
  (forall x, In x xs -> f x = DHeading level (h x) (a x) :: body x) ->
  (forall x, In x xs -> Forall (below_heading level) (body x)) -> stops level after ->
  forall x, In x xs -> section_of (before ++ flat_map f xs ++ after) level (h x) (a x) (body x).
Proof.
  intros F B S x I. apply in_split in I as (xs1 & xs2 & ->). rewrite flat_map_app. cbn [flat_map].
  rewrite (F x) by (apply in_or_app; cbn; auto).
  replace (before ++ (flat_map f xs1 ++ (DHeading level (h x) (a x) :: body x) ++ flat_map f xs2) ++ after)
    with ((before ++ flat_map f xs1) ++ DHeading level (h x) (a x) :: body x ++ (flat_map f xs2 ++ after)).
  - apply section_here; [apply B, in_or_app; cbn; auto|]. destruct xs2 as [|y xs2]; [exact S|]. cbn [flat_map].
    rewrite (F y) by (apply in_or_app; cbn; auto). apply stops_heading.
  - rewrite <- !app_assoc. cbn [app]. rewrite ?app_assoc. reflexivity.
Qed.
Lemma sections_headings {A} (f : A -> list block) (h : A -> str) (a : A -> option str) (body : A -> list block) xs level :
  (forall x, In x xs -> f x = DHeading level (h x) (a x) :: body x) ->
  (forall x, In x xs -> Forall (below_heading level) (body x)) -> headings level (flat_map f xs) = map h xs.
Proof.
  intros F B. induction xs as [|x xs IH]; [reflexivity|]. cbn [flat_map map]. rewrite headings_app, IH.
  - rewrite (F x) by (left; reflexivity). unfold headings at 1. cbn [flat_map]. rewrite Nat.eqb_refl.
    assert (E : headings level (body x) = []).
    { specialize (B x (or_introl eq_refl)). induction B as [|b d L _ IHB]; [reflexivity|]. cbn. unfold headings in IHB. rewrite IHB.
      destruct b; try reflexivity. cbn in L. replace (Nat.eqb level0 level) with false by (symmetry; apply Nat.eqb_neq; lia). reflexivity. }
    unfold headings in E. rewrite E. reflexivity.
  - intros y I. apply F. right. exact I.
  - intros y I. apply B. right. exact I.
Qed.
End Parts.
