(** Proofs for C80 and C81. *)
From Coq Require Import Lia.
From Verif Require Import Str StrFacts PName PNameSpec PNameProofs Url Iri IriSpec IriProofs.
From Verif Require Export IriEditSpec.

(** ** Fragments *)
Definition whole (i : url) : url := MkUrl (u_scheme i) (u_auth i) (u_path i) (u_query i) None.
Lemma ser_split i : url_ser i = url_ser (whole i) ++ opt_pre $"#" (u_frag i).
Proof. unfold url_ser, whole. cbn [u_scheme u_auth u_path u_query u_frag opt_pre]. rewrite <- !app_assoc. reflexivity. Qed.
Lemma whole_no_hash i : wf_url i = true -> ~ In 35 (url_ser (whole i)).
Proof.
  intros W. pose proof (wf_url_inv i W) as (S & Q & _ & _). unfold url_ser, whole. cbn [u_scheme u_auth u_path u_query u_frag opt_pre].
  rewrite !in_app_iff. intros [H|[H|[H|[H|[H|[]]]]]].
  - unfold wf_scheme in S. destruct (u_scheme i) as [|c r]; [discriminate|]. rewrite !andb_true_iff in S. destruct S as [[S1 S2] _].
    destruct H as [->|H]; [discriminate|]. exact (not_in_forallb _ 35 _ S2 eq_refl H).
  - cbn in H. destruct H as [H|[]]; discriminate.
  - destruct (u_auth i) as [a|] eqn:E; cbn [opt_pre] in H; [|destruct H]. rewrite in_app_iff in H. destruct H as [H|H].
    + cbn in H. destruct H as [H|[H|[]]]; discriminate.
    + exact (wf_auth_not_in i a 35 W E (or_introl eq_refl) H).
  - exact (wf_path_not_in i 35 W (or_introl eq_refl) H).
  - destruct (u_query i) as [q|]; cbn [opt_pre opt_all] in *; [|destruct H]. rewrite in_app_iff in H. destruct H as [H|H].
    + cbn in H. destruct H as [H|[]]; discriminate.
    + exact (not_in_forallb _ 35 _ Q eq_refl H).
Qed.
Lemma before_hash_app a b : ~ In 35 a -> before_hash (a ++ opt_pre $"#" b) = a.
Proof.
  induction a as [|c a IH]; intros H; cbn [app before_hash].
  - destruct b; reflexivity.
  - destruct (N.eqb_spec c 35) as [->|_]; [destruct H; left; reflexivity|]. rewrite IH; auto. intros I. apply H. right. exact I.
Qed.
Lemma before_hash_ser i : wf_url i = true -> before_hash (url_ser i) = url_ser (whole i).
Proof. intros W. rewrite ser_split. apply before_hash_app, whole_no_hash, W. Qed.
Lemma fragment_chars f : forallb is_scalar f = true -> forallb frag_char (pct_encode enc_fragment (skip_tabs f)) = true.
Proof.
  intros H. apply pct_encode_chars.
  - unfold skip_tabs. apply forallb_forall. intros c I. apply filter_In in I as [I _]. rewrite forallb_forall in H. auto.
  - intros c A E _. unfold frag_char. rewrite E. rewrite andb_true_r. unfold printable, in_range, enc_fragment, enc_controls in *.
    apply is_ascii_lt in A. cbn [existsb] in E. lia.
  - intros c H'. unfold frag_char, printable, in_range, enc_fragment, enc_controls. cbn [existsb].
    unfold is_alnum, is_alpha, is_upper, is_lower, is_digit, in_range in H'. lia.
  - reflexivity.
Qed.
Lemma fragment_id f : forallb frag_char f = true -> pct_encode enc_fragment (skip_tabs f) = f.
Proof.
  intros H. rewrite skip_tabs_id.
  - induction f as [|c f IH]; [reflexivity|]. cbn [forallb] in H. apply andb_true_iff in H as [H1 H2].
    cbn [pct_encode flat_map]. unfold pct_encode in IH. rewrite (IH H2). unfold pct_chr. rewrite (proj1 (frag_char_plain c H1)). reflexivity.
  - revert H. apply forallb_imp. intros c H. apply frag_char_plain, H.
Qed.
Lemma c80_fragment i f : wf_url i = true -> forallb is_scalar f = true ->
  wf_url (with_new_fragment i f) = true /\
  exists f', url_ser (with_new_fragment i f) = before_hash (url_ser i) ++ $"#" ++ f' /\
    forallb frag_char f' = true /\ (forallb frag_char f = true -> f' = f).
Proof.
  intros W Sc. pose proof (fragment_chars f Sc) as F. split; [apply wf_url_intro_frag; auto|].
  exists (pct_encode enc_fragment (skip_tabs f)). rewrite before_hash_ser by exact W. split; [|split; [exact F|apply fragment_id]].
  unfold with_new_fragment, url_set_fragment. rewrite ser_split. reflexivity.
Qed.
Lemma classic_end (s : str) : (exists p, s = p ++ $" ") \/ ~ (exists p, s = p ++ $" ").
Proof.
  destruct (ends_with_chr 32 s) eqn:E.
  - left. apply ends_with_chr_iff in E. exact E.
  - right. intros (p & ->). rewrite ends_with_chr_app in E. discriminate.
Qed.
Lemma strip_trailing_iff s : strip_trailing_spaces s = s <-> ~ exists p, s = p ++ $" ".
Proof.
  induction s as [|c s IH]; cbn [strip_trailing_spaces].
  - split; [|reflexivity]. intros _ (p & H). destruct p; discriminate.
  - destruct s as [|d s].
    + cbn [strip_trailing_spaces]. destruct (N.eqb_spec c 32) as [->|H].
      * split; [discriminate|]. intros H. destruct H. exists []. reflexivity.
      * split; [|reflexivity]. intros _ (p & E). destruct p as [|x [|y p]]; cbn in E; [injection E as E; contradiction|discriminate|discriminate].
    + destruct (strip_trailing_spaces (d :: s)) as [|x r] eqn:E.
      * split.
        -- intros H. destruct (N.eqb c 32); discriminate.
        -- intros H. exfalso. apply H. destruct IH as [_ IH]. destruct (classic_end (d :: s)) as [P|P].
           ++ destruct P as (p & P). exists (c :: p). rewrite P. reflexivity.
           ++ specialize (IH P). discriminate.
      * split.
        -- intros H (p & P). injection H as H1 H2. subst x r. destruct IH as [IH _]. apply IH; [reflexivity|].
           destruct p as [|y p]; [discriminate|]. injection P as -> P. exists p. exact P.
        -- intros H. f_equal. apply IH. intros (p & P). apply H. exists (c :: p). rewrite P. reflexivity.
Qed.
Lemma strip_trailing_sub s f : forallb f s = true -> forallb f (strip_trailing_spaces s) = true.
Proof.
  induction s as [|c s IH]; [auto|]. cbn [forallb strip_trailing_spaces]. rewrite andb_true_iff. intros [A B]. specialize (IH B).
  destruct (strip_trailing_spaces s) as [|d r]; [destruct (N.eqb c 32); cbn [forallb]; [reflexivity|rewrite A; reflexivity]|].
  cbn [forallb] in *. rewrite A. exact IH.
Qed.
Lemma strip_trailing_first s : starts_with_chr 47 s = false -> starts_with_chr 47 (strip_trailing_spaces s) = false.
Proof.
  destruct s as [|c s]; [auto|]. cbn [strip_trailing_spaces]. intros H.
  destruct (strip_trailing_spaces s) as [|d r]; [destruct (N.eqb c 32); auto|exact H].
Qed.
Lemma strip_trailing_end s : ~ exists p, strip_trailing_spaces s = p ++ $" ".
Proof.
  apply strip_trailing_iff. induction s as [|c s IH]; [reflexivity|]. cbn [strip_trailing_spaces].
  destruct (strip_trailing_spaces s) as [|d r] eqn:E.
  - destruct (N.eqb c 32) eqn:C; [reflexivity|]. cbn [strip_trailing_spaces]. rewrite C. reflexivity.
  - change (match strip_trailing_spaces (d :: r) with [] => if N.eqb c 32 then [] else [c] | r' => c :: r' end = c :: d :: r).
    rewrite IH. reflexivity.
Qed.
Lemma cleared i : ~ space_before_fragment i -> with_no_fragment i = whole i.
Proof.
  intros H. unfold with_no_fragment, url_clear_fragment, whole. f_equal. unfold space_before_fragment in H.
  destruct (cannot_be_a_base i); [|reflexivity]. destruct (u_query i) as [q|]; [reflexivity|]. cbn [andb].
  apply strip_trailing_iff. intros P. apply H. auto.
Qed.
Lemma wf_whole i : wf_url i = true -> wf_url (whole i) = true.
Proof. unfold wf_url, whole. cbn [u_scheme u_auth u_path u_query u_frag opt_all]. rewrite !andb_true_iff. tauto. Qed.
Lemma wf_cleared i : wf_url i = true -> wf_url (with_no_fragment i) = true.
Proof.
  intros W. pose proof (wf_whole i W) as W'. unfold with_no_fragment, url_clear_fragment.
  destruct (cannot_be_a_base i) eqn:C; [|exact W']. destruct (u_query i) as [q|] eqn:Q; cbn [andb].
  - unfold whole in W'. rewrite Q in W'. exact W'.
  - unfold cannot_be_a_base in C. unfold wf_url in *. cbn [u_scheme u_auth u_path u_query u_frag opt_all]. rewrite !andb_true_iff in *.
    destruct (u_auth i) as [a|]; [discriminate|]. destruct W as [[[A B] _] D]. apply negb_true_iff in C. rewrite C in D.
    rewrite (strip_trailing_first _ C). apply andb_true_iff in D as [D1 D2]. rewrite D1, (strip_trailing_sub _ _ D2). auto.
Qed.
Lemma c80_no_fragment i : wf_url i = true ->
  wf_url (with_no_fragment i) = true /\ u_frag (with_no_fragment i) = None /\
  with_no_fragment (with_no_fragment i) = with_no_fragment i /\
  (forall f, with_no_fragment (with_new_fragment i f) = with_no_fragment i) /\
  (url_ser (with_no_fragment i) = before_hash (url_ser i) <-> ~ space_before_fragment i).
Proof.
  intros W. split; [apply wf_cleared, W|]. split; [reflexivity|]. split; [|split].
  - apply cleared. intros (C & Q & P). unfold with_no_fragment, url_clear_fragment in *. cbn [u_path u_query] in *.
    rewrite Q in *. unfold cannot_be_a_base in C. cbn [u_auth u_path] in C. rewrite andb_true_r in *.
    destruct (cannot_be_a_base i) eqn:C'; [exact (strip_trailing_end _ P)|]. unfold cannot_be_a_base in C'. destruct (u_auth i); [discriminate|]. rewrite C' in C. congruence.
  - intros f. reflexivity.
  - rewrite before_hash_ser by exact W. split.
    + intros E (C & Q & P). apply url_ser_inj in E; [|apply wf_cleared, W|apply wf_whole, W].
      unfold with_no_fragment, url_clear_fragment, whole in E. rewrite C, Q in E. cbn [andb] in E. injection E as E.
      apply strip_trailing_iff in E. contradiction.
    + intros H. rewrite (cleared i H). reflexivity.
Qed.

(** ** Paths *)
Definition seg_chars (sp : bool) (w : str) : bool := forallb (fun c => path_char sp c && negb (N.eqb 47 c)) w.
Lemma norm_segs_ok sp segs : forall acc, forallb (seg_chars sp) segs = true ->
  forallb (fun w => seg_ok sp w && seg_chars sp w) acc = true ->
  forallb (fun w => seg_ok sp w && seg_chars sp w) (norm_segs acc segs) = true.
Proof.
  assert (E : seg_ok sp [] = true) by reflexivity.
  assert (T : forall (f : str -> bool) acc, forallb f acc = true -> forallb f (tl acc) = true).
  { intros f [|a acc]; [auto|]. cbn. intros H. apply andb_true_iff in H. tauto. }
  assert (Rv : forall (f : str -> bool) acc, forallb f acc = true -> forallb f (rev acc) = true).
  { intros f acc H. apply forallb_forall. intros x I. apply in_rev in I. rewrite forallb_forall in H. auto. }
  assert (OK : forall w, seg_chars sp w = true -> is_double_dot w = false -> is_single_dot w = false -> seg_ok sp w && seg_chars sp w = true).
  { intros w C D1 D2. unfold seg_ok. rewrite D1, D2, C, !andb_true_r. revert C. apply forallb_imp. intros c H. apply andb_true_iff in H. tauto. }
  induction segs as [|w [|w' r] IH]; intros acc H A.
  - apply Rv, A.
  - cbn [forallb] in H. rewrite andb_true_r in H. cbn [norm_segs]. destruct (is_double_dot w) eqn:D1; [|destruct (is_single_dot w) eqn:D2].
    + apply Rv. cbn [forallb]. rewrite E, (T _ _ A). reflexivity.
    + apply Rv. cbn [forallb]. rewrite E, A. reflexivity.
    + apply Rv. cbn [forallb]. rewrite (OK w H D1 D2). exact A.
  - cbn [forallb] in H. apply andb_true_iff in H as [H1 H2]. change (norm_segs acc (w :: w' :: r)) with
      (if is_double_dot w then norm_segs (tl acc) (w' :: r) else if is_single_dot w then norm_segs acc (w' :: r) else norm_segs (w :: acc) (w' :: r)).
    destruct (is_double_dot w) eqn:D1; [|destruct (is_single_dot w) eqn:D2].
    + apply IH; [exact H2|apply T, A].
    + apply IH; assumption.
    + apply IH; [exact H2|]. cbn [forallb]. rewrite (OK w H1 D1 D2). exact A.
Qed.
Lemma norm_segs_nonnil segs : forall acc, segs <> [] -> norm_segs acc segs <> [].
Proof.
  assert (R : forall (x : str) l, rev (x :: l) <> []) by (intros x l E; cbn [rev] in E; destruct (rev l); discriminate).
  induction segs as [|w [|w' r] IH]; intros acc H; [congruence| |].
  - cbn [norm_segs]. destruct (is_double_dot w); [apply R|]. destruct (is_single_dot w); apply R.
  - change (norm_segs acc (w :: w' :: r)) with
      (if is_double_dot w then norm_segs (tl acc) (w' :: r) else if is_single_dot w then norm_segs acc (w' :: r) else norm_segs (w :: acc) (w' :: r)).
    destruct (is_double_dot w); [apply IH; discriminate|]. destruct (is_single_dot w); apply IH; discriminate.
Qed.
Lemma split_join segs : segs <> [] -> forallb (fun w => forallb (fun c => negb (N.eqb 47 c)) w) segs = true ->
  split_on (N.eqb 47) (join $"/" segs) = segs.
Proof.
  induction segs as [|w segs IH]; intros N H; [congruence|]. cbn [forallb] in H. apply andb_true_iff in H as [H1 H2].
  destruct segs as [|w' r]; [cbn [join]; apply split_on_nosep, H1|]. rewrite join_cons by discriminate.
  change $"/" with [47] in *. cbn [app]. rewrite split_on_app_sep by (reflexivity || exact H1). rewrite IH; [reflexivity|discriminate|exact H2].
Qed.
Lemma parse_path_wf sp p : forallb is_scalar p = true -> ~ In 94 p ->
  wf_hpath sp (parse_path sp p) = true \/ sp = false /\ parse_path sp p = [].
Proof.
  intros Sc Ca. unfold parse_path. destruct (skip_tabs p) as [|c r] eqn:E; [destruct sp; [left; reflexivity|right; auto]|].
  destruct (negb sp && ((c =? 63) || (c =? 35))) eqn:Q; [right; destruct sp; [discriminate|auto]|]. left.
  set (body := if is_slash sp c then r else c :: r).
  assert (Sub : forall d, In d body -> is_scalar d = true /\ d <> 94).
  { intros d I. assert (I' : In d (skip_tabs p)) by (rewrite E; unfold body in I; destruct (is_slash sp c); [right|]; exact I).
    apply filter_In in I' as [I' _]. rewrite forallb_forall in Sc. split; [auto|]. intros ->. contradiction. }
  clearbody body. clear E Q c r Sc Ca p. unfold wf_hpath. change ($"/" ++ ?x) with (47 :: x). cbn [strip_prefix_chr N.eqb Pos.eqb app].
  assert (C : forallb (seg_chars sp) (map (pct_encode enc_path) (split_on (is_slash sp) body)) = true).
  { apply forallb_forall. intros w I. apply in_map_iff in I as (v & <- & I).
    pose proof (split_on_pieces (is_slash sp) body) as P. rewrite Forall_forall in P. specialize (P v I). cbv beta in P.
    assert (V : forall d, In d v -> In d body).
    { intros d D. clear -I D. revert v I D. induction body as [|x s IH]; intros v I D.
      - destruct I as [<-|[]]. destruct D.
      - cbn [split_on] in I. destruct (is_slash sp x); [destruct I as [<-|I]; [destruct D|right; eauto]|].
        destruct (split_on (is_slash sp) s) as [|w ws] eqn:Es; [destruct I as [<-|[]]; destruct D as [<-|[]]; left; reflexivity|].
        destruct I as [<-|I].
        + destruct D as [<-|D]; [left; reflexivity|right]. apply (IH w); [left; reflexivity|exact D].
        + right. apply (IH v); [right; exact I|exact D]. }
    unfold seg_chars. apply pct_encode_chars.
    - apply forallb_forall. intros d D. apply Sub, V, D.
    - intros d A Ed D. rewrite forallb_forall in P. specialize (P d D). unfold is_slash in P. apply negb_true_iff, orb_false_iff in P as [P1 P2].
      destruct (Sub d (V d D)) as [_ N94]. rewrite (N.eqb_sym 47), P1, andb_true_r. unfold path_char. rewrite Ed, P2. cbn [negb andb].
      rewrite !andb_true_r. apply andb_true_iff. split.
      + apply is_ascii_lt in A. unfold printable, in_range. unfold enc_path, enc_fragment, enc_controls in Ed. cbn [existsb] in Ed. lia.
      + apply negb_true_iff, N.eqb_neq, N94.
    - intros d H. unfold path_char, printable, in_range, enc_path, enc_fragment, enc_controls. cbn [existsb].
      unfold is_alnum, is_alpha, is_upper, is_lower, is_digit, in_range in H. destruct sp; cbn [andb]; lia.
    - destruct sp; reflexivity. }
  pose proof (norm_segs_ok sp _ [] C eq_refl) as K. rewrite split_join.
  - revert K. apply forallb_imp. intros w H. apply andb_true_iff in H. tauto.
  - apply norm_segs_nonnil. intros M. apply map_eq_nil in M. exact (split_on_nonnil _ _ M).
  - revert K. apply forallb_imp. intros w H. apply andb_true_iff in H as [_ H]. revert H. apply forallb_imp. intros d H. apply andb_true_iff in H. tauto.
Qed.
Lemma c80_path i p : wf_url i = true -> u_auth i <> None -> forallb is_scalar p = true -> ~ In 94 p ->
  wf_url (with_new_path i p) = true /\
  exists before after p', url_ser i = before ++ u_path i ++ after /\ url_ser (with_new_path i p) = before ++ p' ++ after /\
    u_path (with_new_path i p) = p' /\ (wf_hpath (is_special (u_scheme i)) p = true -> p' = p).
Proof.
  intros W A Sc Ca. assert (C : cannot_be_a_base i = false) by (unfold cannot_be_a_base; destruct (u_auth i); congruence).
  unfold with_new_path, url_set_path. rewrite C. split.
  - destruct (parse_path_wf (is_special (u_scheme i)) p Sc Ca) as [H|[S H]]; [apply wf_url_intro_path_auth; auto|].
    rewrite H. unfold wf_url in *. cbn [u_scheme u_auth u_path u_query u_frag]. rewrite !andb_true_iff in *. destruct W as [W1 W2]. split; [exact W1|].
    destruct (u_auth i) as [a|]; [|congruence]. apply andb_true_iff in W2 as [W2 _]. rewrite W2, S. cbn. reflexivity.
  - exists (u_scheme i ++ $":" ++ opt_pre $"//" (u_auth i)), (opt_pre $"?" (u_query i) ++ opt_pre $"#" (u_frag i)), (parse_path (is_special (u_scheme i)) p).
    unfold url_ser. cbn [u_scheme u_auth u_path u_query u_frag]. rewrite <- !app_assoc. split; [reflexivity|]. split; [reflexivity|]. split; [reflexivity|].
    apply parse_path_id.
Qed.

(** ** References *)
Lemma ns_first s n : namespace_from_str s = Ok n -> exists c r, ns_text n = c :: r /\ c <> 60.
Proof.
  intros H. apply namespace_from_str_ok in H as [L ->]. destruct (lax_sep _ L) as (p & -> & _). destruct p as [|c p]; [exists 58, []; split; [reflexivity|discriminate]|].
  exists c, (p ++ [58]). split; [reflexivity|]. destruct (lax_snoc c p L) as [B _]. intros ->. apply is_pn_chars_base_iff in B. discriminate.
Qed.
Lemma ns_end s n : namespace_from_str s = Ok n -> exists p, ns_text n = p ++ [58] /\ ~ In 58 p.
Proof. intros H. apply namespace_from_str_ok in H as [L ->]. apply lax_sep, L. Qed.
Lemma name_no_colon s n : name_from_str s = Ok n -> forall c, In c [47; 58; 63; 35; 93] -> ~ In c (name_text n).
Proof.
  intros H c I. destruct (valid_name s n H) as (-> & d & r & E & _ & F & _). rewrite E. apply (not_in_forallb _ _ _ F).
  destruct I as [<-|[<-|[<-|[<-|[<-|[]]]]]]; reflexivity.
Qed.
Lemma name_nonempty s n : name_from_str s = Ok n -> name_text n <> [].
Proof. intros H. destruct (valid_name s n H) as (-> & d & r & -> & _). discriminate. Qed.
Lemma local_parts s l : local_name_from_str s = Ok l ->
  namespace_from_str (ns_text (ln_namespace l)) = Ok (ln_namespace l) /\ name_from_str (name_text (ln_name l)) = Ok (ln_name l).
Proof. intros H. apply (local_name_display_from s l H). Qed.
Lemma ns_not_local s n t l : namespace_from_str s = Ok n -> local_name_from_str t = Ok l -> namespace_display n <> local_name_display l.
Proof.
  intros A B E. destruct (local_parts t l B) as [C D]. destruct (ns_end _ _ A) as (p & Ep & _).
  unfold namespace_display, local_name_display, name_display in E. pose proof (name_no_colon _ _ D 58) as NC.
  destruct (exists_last (name_nonempty _ _ D)) as (q & x & Q). rewrite Ep, Q, app_assoc in E. apply app_inj_tail in E as [_ <-].
  apply NC; [right; left; reflexivity|]. rewrite Q. apply in_or_app. right. left. reflexivity.
Qed.
Lemma prefixed_first p : ref_ok (RPrefixed p) -> exists c r, prefixed_name_display p = c :: r /\ c <> 60.
Proof.
  destruct p as [n|l]; intros [s H]; [exact (ns_first s n H)|]. destruct (local_parts s l H) as [C _]. destruct (ns_first _ _ C) as (c & r & E & Nc).
  exists c, (r ++ name_text (ln_name l)). split; [|exact Nc]. cbn [prefixed_name_display]. unfold local_name_display, namespace_display, name_display. rewrite E. reflexivity.
Qed.
Lemma prefixed_inj p q : ref_ok (RPrefixed p) -> ref_ok (RPrefixed q) -> prefixed_name_display p = prefixed_name_display q -> p = q.
Proof.
  destruct p as [n|l], q as [n'|l']; intros [s A] [t B] E; cbn [prefixed_name_display] in E.
  - f_equal. destruct n, n'. cbn in E. congruence.
  - destruct (ns_not_local _ _ _ _ A B E).
  - destruct (ns_not_local _ _ _ _ B A (eq_sym E)).
  - f_equal. exact (local_name_display_inj _ _ _ _ A B E).
Qed.
Lemma c81_display r r' : ref_ok r -> ref_ok r' -> iri_ref_display false r = iri_ref_display false r' -> r = r'.
Proof.
  intros A B E. destruct r as [i|p], r' as [j|q]; cbn [iri_ref_display iri_display] in E.
  - cbn in E. injection E as E. apply app_inv_tail in E. f_equal. apply url_ser_inj; assumption.
  - destruct (prefixed_first q B) as (c & r & F & N). rewrite F in E. injection E as <-. destruct N. reflexivity.
  - destruct (prefixed_first p A) as (c & r & F & N). rewrite F in E. injection E as ->. destruct N. reflexivity.
  - f_equal. apply prefixed_inj; assumption.
Qed.
Lemma first_colon a b c d : ~ In 58 a -> ~ In 58 c -> a ++ 58 :: b = c ++ 58 :: d -> a = c /\ b = d.
Proof.
  revert c. induction a as [|x a IH]; intros c A C E; destruct c as [|y c]; cbn in E.
  - injection E as <-. auto.
  - injection E as <- _. destruct C. left. reflexivity.
  - injection E as -> _. destruct A. left. reflexivity.
  - injection E as <- E. destruct (IH c) as [-> ->]; auto; intros I; [apply A|apply C]; right; exact I.
Qed.
Lemma ser_colon i : url_ser i = u_scheme i ++ 58 :: (opt_pre $"//" (u_auth i) ++ u_path i ++ opt_pre $"?" (u_query i) ++ opt_pre $"#" (u_frag i)).
Proof. reflexivity. Qed.
Lemma c81_alternate r r' : ref_ok r -> ref_ok r' -> iri_ref_display true r = iri_ref_display true r' ->
  r = r' \/
  exists i p, (r = RIri i /\ r' = RPrefixed p \/ r = RPrefixed p /\ r' = RIri i) /\
    u_auth i = None /\ u_query i = None /\ u_frag i = None /\
    match p with
    | PNamespace n => ns_text n = u_scheme i ++ $":" /\ u_path i = []
    | PLocal l => ns_text (ln_namespace l) = u_scheme i ++ $":" /\ u_path i = name_text (ln_name l)
    end.
Proof.
  assert (M : forall i p, ref_ok (RIri i) -> ref_ok (RPrefixed p) -> url_ser i = prefixed_name_display p ->
    u_auth i = None /\ u_query i = None /\ u_frag i = None /\
    match p with
    | PNamespace n => ns_text n = u_scheme i ++ $":" /\ u_path i = []
    | PLocal l => ns_text (ln_namespace l) = u_scheme i ++ $":" /\ u_path i = name_text (ln_name l)
    end).
  { intros i p W R E. cbn [ref_ok] in W. pose proof (wf_url_inv i W) as (S & _). apply wf_scheme_chars in S. rewrite ser_colon in E.
    assert (K : exists a n, prefixed_name_display p = a ++ 58 :: n /\ ~ In 58 a /\ (forall c, In c [47; 58; 63; 35; 93] -> ~ In c n) /\
                 match p with PNamespace x => ns_text x = a ++ $":" /\ n = [] | PLocal l => ns_text (ln_namespace l) = a ++ $":" /\ n = name_text (ln_name l) end).
    { destruct p as [x|l]; destruct R as [s R].
      - destruct (ns_end _ _ R) as (a & Ea & Na). exists a, []. split; [exact Ea|]. split; [exact Na|]. split; [intros c _ []|auto].
      - destruct (local_parts _ _ R) as [R1 R2]. destruct (ns_end _ _ R1) as (a & Ea & Na). exists a, (name_text (ln_name l)). split.
        + cbn [prefixed_name_display]. unfold local_name_display, namespace_display, name_display. rewrite Ea, <- app_assoc. reflexivity.
        + split; [exact Na|]. split; [exact (name_no_colon _ _ R2)|auto]. }
    destruct K as (a & n & Ep & Na & Nn & K). rewrite Ep in E. apply first_colon in E as [Ea En]; [|exact S|exact Na].
    assert (A : u_auth i = None).
    { destruct (u_auth i) as [x|]; [|reflexivity]. exfalso. apply (Nn 47); [left; reflexivity|]. rewrite <- En. left. reflexivity. }
    assert (Q : u_query i = None).
    { destruct (u_query i) as [x|]; [|reflexivity]. exfalso. apply (Nn 63); [right; right; left; reflexivity|]. rewrite <- En.
      apply in_or_app. right. apply in_or_app. right. apply in_or_app. left. left. reflexivity. }
    assert (F : u_frag i = None).
    { destruct (u_frag i) as [x|]; [|reflexivity]. exfalso. apply (Nn 35); [right; right; right; left; reflexivity|]. rewrite <- En.
      do 3 (apply in_or_app; right). left. reflexivity. }
    rewrite A, Q, F in *. cbn [opt_pre] in En. rewrite !app_nil_r in En. cbn [app] in En. split; [reflexivity|]. split; [reflexivity|]. split; [reflexivity|].
    rewrite Ea, En. destruct p; destruct K as [K1 K2]; split; congruence. }
  intros A B E. destruct r as [i|p], r' as [j|q]; cbn [iri_ref_display iri_display] in E.
  - left. f_equal. apply url_ser_inj; assumption.
  - right. exists i, q. split; [left; auto|]. apply M; assumption.
  - right. exists j, p. split; [right; auto|]. apply M; auto.
  - left. f_equal. apply prefixed_inj; assumption.
Qed.
Lemma c81_curie l l' s s' : local_name_from_str s = Ok l -> local_name_from_str s' = Ok l' ->
  local_name_as_curie l = $"[" ++ s ++ $"]" /\ (local_name_as_curie l = local_name_as_curie l' -> l = l').
Proof.
  intros A B. assert (C : forall l s, local_name_from_str s = Ok l -> local_name_as_curie l = $"[" ++ s ++ $"]").
  { intros x t H. apply local_name_display_from in H as [H _]. unfold local_name_as_curie. rewrite <- H. unfold local_name_display. rewrite <- app_assoc. reflexivity. }
  split; [apply C, A|]. rewrite (C _ _ A), (C _ _ B). intros E. cbn in E. injection E as E. apply app_inv_tail in E. congruence.
Qed.
Lemma c81_constructors n s : name_from_str s = Ok n ->
  local_name_from_str ($":" ++ s) = Ok (local_name_new_in_default n) /\ local_name_is_namespace_default (local_name_new_in_default n) = true /\
  (forall t ns, namespace_from_str t = Ok ns ->
    local_name_from_str (t ++ s) = Ok (namespace_qualify ns n) /\ name_qualify n ns = namespace_qualify ns n /\
    (local_name_is_namespace_default (namespace_qualify ns n) = true <-> t = $":")).
Proof.
  intros H. assert (T : name_text n = s) by (apply name_from_str_ok in H; tauto).
  assert (Q : forall t ns, namespace_from_str t = Ok ns -> local_name_from_str (t ++ s) = Ok (MkLocalName ns n) /\ ns_text ns = t).
  { intros t ns K. assert (X : ns_text ns = t) by (apply namespace_from_str_ok in K; tauto). split; [|exact X].
    rewrite <- (local_name_from_display ns n t s K H). unfold local_name_display, namespace_display, name_display. cbn [ln_namespace ln_name]. rewrite T, X. reflexivity. }
  split; [apply (Q $":" namespace_new_default); reflexivity|]. split; [reflexivity|].
  intros t ns K. destruct (Q t ns K) as [Q1 Q2]. split; [exact Q1|]. split; [reflexivity|].
  unfold local_name_is_namespace_default, namespace_is_default, namespace_qualify. cbn [ln_namespace]. rewrite Q2, str_eqb_eq. reflexivity.
Qed.
Lemma c81_unchecked ns n :
  local_name_from_str (local_name_display (local_name_new_unchecked ns n)) = Ok (local_name_new_unchecked ns n) <->
  (exists x, namespace_new_named ns = Ok x) /\ (exists x, name_from_str n = Ok x).
Proof.
  split.
  - intros H. apply local_parts in H as [A B]. cbn in A, B. split; eexists; [exact A|exact B].
  - intros [[x A] [y B]]. pose proof (c04_unchecked_agrees ns x A) as U.
    assert (Y : y = MkName n) by (apply name_from_str_ok in B as [_ B]; destruct y; cbn in B; congruence). subst y.
    unfold local_name_new_unchecked, name_new_unchecked. rewrite U. exact (local_name_from_display _ _ _ _ A B).
Qed.

(** ** What the escapes stand for *)
Lemma hex_val_upper d : d < 16 -> hex_val (hex_upper d) = Some d.
Proof.
  intros H. unfold hex_val, hex_upper, is_digit, in_range. destruct (N.ltb_spec d 10).
  - replace ((48 <=? 48 + d) && (48 + d <=? 57)) with true by lia. f_equal. lia.
  - replace ((48 <=? 55 + d) && (55 + d <=? 57)) with false by lia. replace ((65 <=? 55 + d) && (55 + d <=? 70)) with true by lia. f_equal. lia.
Qed.
Lemma unescape_plain c r : c <> 37 -> unescape (c :: r) = c :: unescape r.
Proof. intros H. cbn [unescape]. destruct (N.eqb_spec c 37); [contradiction|reflexivity]. Qed.
Lemma unescape_byte b r : b < 256 -> unescape (pct_byte b ++ r) = b :: unescape r.
Proof.
  intros H. unfold pct_byte. cbn [app unescape]. rewrite N.eqb_refl, !hex_val_upper by lia. f_equal. lia.
Qed.
Lemma unescape_bytes l r : Forall (fun b => b < 256) l -> unescape (flat_map pct_byte l ++ r) = l ++ unescape r.
Proof. induction 1 as [|b l H _ IH]; [reflexivity|]. cbn [flat_map]. rewrite <- app_assoc, unescape_byte, IH by exact H. reflexivity. Qed.
Lemma unescape_raw l r : ~ In 37 l -> unescape (l ++ r) = l ++ unescape r.
Proof. induction l as [|b l IH]; intros H; [reflexivity|]. cbn [app]. rewrite unescape_plain, IH; [reflexivity| |]; intros K; apply H; [right; exact K|left; exact K]. Qed.
Lemma utf8_not_37 c : c <> 37 -> ~ In 37 (utf8 c).
Proof.
  intros H. unfold utf8. destruct (N.ltb_spec c 128); [intros [E|[]]; congruence|].
  destruct (N.ltb_spec c 2048); [cbn [In]; lia|]. destruct (N.ltb_spec c 65536); cbn [In]; lia.
Qed.
Lemma hex_high b : 128 <= b -> hex_val b = None.
Proof.
  intros H. unfold hex_val, is_digit, in_range. replace ((48 <=? b) && (b <=? 57)) with false by lia.
  replace ((65 <=? b) && (b <=? 70)) with false by lia. replace ((97 <=? b) && (b <=? 102)) with false by lia. reflexivity.
Qed.
Lemma hex_low c x : hex_val c = Some x -> c < 128.
Proof. intros H. destruct (N.ltb_spec c 128); [assumption|]. rewrite hex_high in H by assumption. discriminate. Qed.
Lemma utf8_head c : hex_val c = None -> exists x t, utf8 c = x :: t /\ hex_val x = None.
Proof.
  intros H. unfold utf8. destruct (N.ltb_spec c 128); [eauto|].
  destruct (N.ltb_spec c 2048); [|destruct (N.ltb_spec c 65536)]; eexists _, _; (split; [reflexivity|apply hex_high; lia]).
Qed.
Lemma pct_head enc c : hex_val c = None -> exists x t, pct_chr enc c = x :: t /\ hex_val x = None.
Proof.
  intros H. unfold pct_chr. destruct (is_ascii c && negb (enc c)); [eauto|]. destruct (utf8_head c H) as (x & t & -> & _). cbn [flat_map pct_byte app]. eauto.
Qed.
Lemma unescape_37_no x r : hex_val x = None -> unescape (37 :: x :: r) = 37 :: unescape (x :: r).
Proof. intros H. destruct r as [|b r]; [reflexivity|]. cbn [unescape]. rewrite N.eqb_refl, H. reflexivity. Qed.
Lemma unescape_37_no2 a x r : hex_val x = None -> unescape (37 :: a :: x :: r) = 37 :: unescape (a :: x :: r).
Proof. intros H. change (unescape (37 :: a :: x :: r)) with (match hex_val a, hex_val x with Some y, Some z => (16 * y + z) :: unescape r | _, _ => 37 :: unescape (a :: x :: r) end). rewrite H. destruct (hex_val a); reflexivity. Qed.
Lemma unescape_pct enc f : (forall c, enc c = true -> c <> 37 /\ hex_val c = None) -> forallb is_scalar f = true ->
  unescape (pct_encode enc f) = unescape (flat_map utf8 f).
Proof.
  intros He. remember (length f) as k eqn:Ek. revert f Ek. induction k as [k IH] using (well_founded_induction Wf_nat.lt_wf). intros f -> Hs.
  destruct f as [|c f]; [reflexivity|]. cbn [forallb] in Hs. apply andb_true_iff in Hs as [Hc Hs].
  assert (IH' : unescape (pct_encode enc f) = unescape (flat_map utf8 f)) by (apply (IH (length f)); [cbn [length]; lia|reflexivity|exact Hs]).
  assert (Hx : forall a x, hex_val a = Some x -> pct_chr enc a = [a] /\ utf8 a = [a]).
  { intros a x Ha. pose proof (hex_low a x Ha) as L. unfold pct_chr, utf8, is_ascii. apply N.ltb_lt in L. rewrite L. split; [|reflexivity].
    destruct (enc a) eqn:E; [|reflexivity]. apply He in E as [_ E]. congruence. }
  change (pct_encode enc (c :: f)) with (pct_chr enc c ++ pct_encode enc f). cbn [flat_map].
  destruct (N.eq_dec c 37) as [->|Hne].
  - assert (E37 : enc 37 = false) by (destruct (enc 37) eqn:E; [destruct (He _ E); congruence|reflexivity]).
    unfold pct_chr at 1. rewrite E37. cbn [is_ascii N.ltb N.compare Pos.compare Pos.compare_cont andb negb]. change (utf8 37) with [37]. cbn [app].
    change (is_ascii 37 && true) with true. cbn [app].
    destruct f as [|a f]; [reflexivity|]. cbn [forallb] in Hs. apply andb_true_iff in Hs as [Ha Hs].
    destruct (hex_val a) as [x|] eqn:Xa.
    + destruct (Hx a x Xa) as [Pa Ua].
      change (pct_encode enc (a :: f)) with (pct_chr enc a ++ pct_encode enc f) in *. cbn [flat_map] in *. rewrite Pa, Ua in *. cbn [app] in *.
      destruct f as [|b f]; [reflexivity|]. cbn [forallb] in Hs. apply andb_true_iff in Hs as [Hb Hs].
      destruct (hex_val b) as [y|] eqn:Xb.
      * destruct (Hx b y Xb) as [Pb Ub]. change (pct_encode enc (b :: f)) with (pct_chr enc b ++ pct_encode enc f). cbn [flat_map]. rewrite Pb, Ub. cbn [app unescape].
        rewrite N.eqb_refl, Xa, Xb. f_equal. apply (IH (length f)); [cbn [length]; lia|reflexivity|exact Hs].
      * change (pct_encode enc (b :: f)) with (pct_chr enc b ++ pct_encode enc f) in *. cbn [flat_map] in *.
        destruct (pct_head enc b Xb) as (p & t & Ep & Hp). destruct (utf8_head b Xb) as (q & u & Eq & Hq). rewrite Ep, Eq in *. cbn [app] in *.
        rewrite !unescape_37_no2 by assumption. f_equal. exact IH'.
    + change (pct_encode enc (a :: f)) with (pct_chr enc a ++ pct_encode enc f) in *. cbn [flat_map] in *.
      destruct (pct_head enc a Xa) as (p & t & Ep & Hp). destruct (utf8_head a Xa) as (q & u & Eq & Hq). rewrite Ep, Eq in *. cbn [app] in *.
      rewrite !unescape_37_no by assumption. f_equal. exact IH'.
  - assert (Hlt : c < 1114112) by (unfold is_scalar, in_range in Hc; lia).
    rewrite (unescape_raw (utf8 c)) by (apply utf8_not_37; exact Hne). unfold pct_chr.
    destruct (is_ascii c && negb (enc c)) eqn:E.
    + apply andb_true_iff in E as [E _]. cbn [app]. rewrite unescape_plain, IH' by exact Hne.
      unfold utf8. unfold is_ascii in E. rewrite E. reflexivity.
    + rewrite unescape_bytes by (apply utf8_bytes; exact Hlt). rewrite IH'. reflexivity.
Qed.
Lemma not_blank_filter f : skip_tabs f = filter not_blank f.
Proof. unfold skip_tabs, not_blank. apply filter_ext. intros c. cbn [existsb]. rewrite orb_false_r, orb_assoc. reflexivity. Qed.
Lemma scalar_filter g f : forallb is_scalar f = true -> forallb is_scalar (filter g f) = true.
Proof. intros H. apply forallb_forall. intros c I. apply filter_In in I as [I _]. rewrite forallb_forall in H. auto. Qed.
Lemma c80_fragment_bytes i f : forallb is_scalar f = true ->
  exists f', u_frag (with_new_fragment i f) = Some f' /\ unescape f' = unescape (flat_map utf8 (filter not_blank f)).
Proof.
  intros H. eexists. split; [reflexivity|]. rewrite not_blank_filter. apply unescape_pct; [|apply scalar_filter, H].
  intros c E. unfold enc_fragment, enc_controls in E. cbn [existsb] in E. unfold hex_val, is_digit, in_range.
  replace ((48 <=? c) && (c <=? 57)) with false by lia. replace ((65 <=? c) && (c <=? 70)) with false by lia. replace ((97 <=? c) && (c <=? 102)) with false by lia. split; [lia|reflexivity].
Qed.
Lemma c80_opaque i p : wf_url i = true -> cannot_be_a_base i = true -> forallb is_scalar p = true -> forallb not_blank p = true ->
  u_auth (with_new_path i p) = None /\ starts_with $"/" (u_path (with_new_path i p)) = false /\
  unescape (u_path (with_new_path i p)) = unescape (flat_map utf8 p).
Proof.
  intros W C Sc Nb.
  assert (Sk : forall q, forallb not_blank q = true -> skip_tabs q = q).
  { intros q H. rewrite not_blank_filter. induction q as [|c q IH]; [reflexivity|]. cbn [forallb filter] in *. apply andb_true_iff in H as [H1 H2]. rewrite H1, IH by exact H2. reflexivity. }
  assert (He : forall c, enc_controls c = true -> c <> 37 /\ hex_val c = None).
  { intros c E. unfold enc_controls in E. unfold hex_val, is_digit, in_range.
    replace ((48 <=? c) && (c <=? 57)) with false by lia. replace ((65 <=? c) && (c <=? 70)) with false by lia. replace ((97 <=? c) && (c <=? 102)) with false by lia. split; [lia|reflexivity]. }
  unfold with_new_path, url_set_path. rewrite C. cbn [u_auth u_path]. split; [unfold cannot_be_a_base in C; destruct (u_auth i); [discriminate|reflexivity]|].
  destruct p as [|c p]; [split; reflexivity|]. destruct (N.eq_dec c 47) as [->|Hn].
  - cbn [forallb] in Sc, Nb. apply andb_true_iff in Sc as [_ Sc], Nb as [_ Nb]. cbn [parse_opaque_path]. rewrite (Sk _ Nb). split; [reflexivity|].
    change ($"%2F" ++ pct_encode enc_controls p) with (pct_byte 47 ++ pct_encode enc_controls p). rewrite unescape_byte by lia.
    rewrite (unescape_pct _ _ He Sc). reflexivity.
  - assert (E : parse_opaque_path (c :: p) = pct_encode enc_controls (skip_tabs (c :: p))).
    { unfold parse_opaque_path. destruct c as [|q]; [reflexivity|]. do 6 (destruct q as [q|q|]; try reflexivity). congruence. }
    rewrite E, (Sk _ Nb). split; [|apply unescape_pct; auto].
    change (pct_encode enc_controls (c :: p)) with (pct_chr enc_controls c ++ pct_encode enc_controls p). unfold pct_chr. destruct (is_ascii c && negb (enc_controls c)).
    + change ($"/") with [47]. cbn [app starts_with]. destruct (N.eqb_spec 47 c); [congruence|reflexivity].
    + unfold utf8. destruct (N.ltb c 128); [reflexivity|]. destruct (N.ltb c 2048); [reflexivity|]. destruct (N.ltb c 65536); reflexivity.
Qed.

Lemma hex_2 a : hex_val a = Some 2 -> a = 50.
Proof. unfold hex_val, is_digit, in_range. destruct ((48 <=? a) && (a <=? 57)) eqn:A; [|destruct ((65 <=? a) && (a <=? 70)) eqn:B; [|destruct ((97 <=? a) && (a <=? 102)) eqn:C; [|discriminate]]]; intros [= E]; lia. Qed.
Lemma hex_14 a : hex_val a = Some 14 -> a = 69 \/ a = 101.
Proof. unfold hex_val, is_digit, in_range. destruct ((48 <=? a) && (a <=? 57)) eqn:A; [|destruct ((65 <=? a) && (a <=? 70)) eqn:B; [|destruct ((97 <=? a) && (a <=? 102)) eqn:C; [|discriminate]]]; intros [= E]; lia. Qed.
Lemma hex_lt a x : hex_val a = Some x -> x < 16.
Proof. unfold hex_val, is_digit, in_range. destruct ((48 <=? a) && (a <=? 57)) eqn:A; [|destruct ((65 <=? a) && (a <=? 70)) eqn:B; [|destruct ((97 <=? a) && (a <=? 102)) eqn:C; [|discriminate]]]; intros [= E]; lia. Qed.
Lemma unescape_nil w : unescape w = [] -> w = [].
Proof.
  destruct w as [|c r]; [reflexivity|]. cbn [unescape]. destruct (N.eqb c 37); [|discriminate]. destruct r as [|a [|b r]]; try discriminate.
  destruct (hex_val a), (hex_val b); discriminate.
Qed.
Lemma cons_inv {A} (x y : A) l m : x :: l = y :: m -> x = y /\ l = m.
Proof. intros E. injection E. auto. Qed.
Lemma unescape_dot w t : unescape w = 46 :: t ->
  exists r, unescape r = t /\ (w = 46 :: r \/ w = [37; 50; 69] ++ r \/ w = [37; 50; 101] ++ r).
Proof.
  destruct w as [|c r]; [discriminate|]. cbn [unescape]. destruct (N.eqb_spec c 37) as [->|Hc].
  - destruct r as [|a [|b r]]; try discriminate. destruct (hex_val a) as [x|] eqn:A; [|discriminate]. destruct (hex_val b) as [y|] eqn:B; [|discriminate].
    intros E. apply cons_inv in E as [E <-]. pose proof (hex_lt _ _ A). pose proof (hex_lt _ _ B). assert (x = 2) by lia. assert (y = 14) by lia. subst x y.
    apply hex_2 in A as ->. apply hex_14 in B. exists r. split; [reflexivity|]. right. destruct B as [-> | ->]; auto.
  - intros E. apply cons_inv in E as [-> <-]. exists r. auto.
Qed.
Lemma dots_seen w : dots w -> is_single_dot w = true \/ is_double_dot w = true.
Proof.
  intros [H|H].
  - left. apply unescape_dot in H as (r & E & H). apply unescape_nil in E as ->. destruct H as [-> |[-> | ->]]; reflexivity.
  - right. apply unescape_dot in H as (r & E & H). apply unescape_dot in E as (r' & E & K). apply unescape_nil in E as ->.
    destruct H as [-> |[-> | ->]], K as [-> |[-> | ->]]; reflexivity.
Qed.
Lemma c80_dots i p w : wf_url i = true -> u_auth i <> None -> forallb is_scalar p = true -> ~ In 94 p ->
  In w (split_on (N.eqb 47) (u_path (with_new_path i p))) -> ~ dots w.
Proof.
  intros W A Sc Ca I D. assert (C : cannot_be_a_base i = false) by (unfold cannot_be_a_base; destruct (u_auth i); congruence).
  unfold with_new_path, url_set_path in I. rewrite C in I. cbn [u_path] in I.
  destruct (parse_path_wf (is_special (u_scheme i)) p Sc Ca) as [H|[S H]].
  - unfold wf_hpath in H. destruct (parse_path (is_special (u_scheme i)) p) as [|c r]; [discriminate|]. unfold strip_prefix_chr in H.
    destruct (N.eqb_spec c 47) as [->|]; [|discriminate]. cbn [split_on] in I. rewrite N.eqb_refl in I.
    destruct I as [<-|I]; [destruct D as [D|D]; discriminate D|].
    rewrite forallb_forall in H. apply H in I. unfold seg_ok in I. rewrite !andb_true_iff, !negb_true_iff in I. destruct (dots_seen w D) as [K|K]; destruct I as [[_ I1] I2]; congruence.
  - rewrite H in I. destruct I as [<-|[]]. destruct D as [D|D]; discriminate D.
Qed.
