From Verif Require Import StrFacts PName PNameSpec PNameProofs Url Iri IriSpec.

(** ** Finite sweeps over small code points *)

Lemma N_sweep (k : nat) (f : N -> bool) :
  forallb f (map N.of_nat (seq 0 k)) = true -> forall c, c < N.of_nat k -> f c = true.
Proof.
  intros H c Hc. rewrite forallb_forall in H. apply H.
  apply in_map_iff. exists (N.to_nat c). split; [lia|]. apply in_seq. lia.
Qed.

Lemma is_ascii_lt c : is_ascii c = true <-> c < 128.
Proof. unfold is_ascii. apply N.ltb_lt. Qed.

(** For ASCII characters, a decidable implication can be checked by enumeration. *)
Lemma ascii_imp (p q : chr -> bool) :
  forallb (fun c => implb (p c) (q c)) (map N.of_nat (seq 0 128)) = true ->
  forall c, is_ascii c = true -> p c = true -> q c = true.
Proof.
  intros H c Ha Hp. apply is_ascii_lt in Ha.
  pose proof (N_sweep 128 _ H c Ha) as E. cbv beta in E. rewrite Hp in E. exact E.
Qed.

Lemma forallb_imp {A} (p q : A -> bool) l :
  (forall x, p x = true -> q x = true) -> forallb p l = true -> forallb q l = true.
Proof. rewrite !forallb_forall. firstorder. Qed.

Lemma forallb_imp_in {A} (p q : A -> bool) l :
  (forall x, In x l -> p x = true -> q x = true) -> forallb p l = true -> forallb q l = true.
Proof. rewrite !forallb_forall. firstorder. Qed.

(** ** Characters *)

Lemma printable_ascii c : printable c = true -> is_ascii c = true.
Proof. unfold printable, in_range, is_ascii. lia. Qed.

Ltac ascii_sweep :=
  match goal with
  | H : ?p ?c = true |- ?q = true =>
      let Ha := fresh in
      assert (Ha : is_ascii c = true);
      [ | revert c Ha H; apply ascii_imp; vm_compute; reflexivity ]
  end.

Lemma path_char_ascii sp c : path_char sp c = true -> is_ascii c = true.
Proof. unfold path_char. rewrite !andb_true_iff. intros [[[H _] _] _]. apply printable_ascii, H. Qed.

Lemma path_char_plain sp c : path_char sp c = true ->
  is_ascii c && negb (enc_path c) = true /\ negb (existsb (N.eqb c) [9; 10; 13]) = true.
Proof.
  intros H. pose proof (path_char_ascii _ _ H) as Ha. unfold path_char in H.
  rewrite !andb_true_iff in H. destruct H as [[[H1 H2] _] _]. rewrite Ha, H2. split; [reflexivity|].
  unfold printable, in_range in H1. simpl. lia.
Qed.

Lemma path_char_not_slash sp c : path_char sp c = true -> N.eqb 47 c = false -> is_slash sp c = false.
Proof.
  unfold path_char, is_slash. rewrite !andb_true_iff, !negb_true_iff. intros [_ H] H47.
  rewrite N.eqb_sym in H47. rewrite H47, H. reflexivity.
Qed.

Lemma frag_char_plain c : frag_char c = true ->
  is_ascii c && negb (enc_fragment c) = true /\ negb (existsb (N.eqb c) [9; 10; 13]) = true.
Proof.
  unfold frag_char. rewrite andb_true_iff. intros [H1 H2]. rewrite (printable_ascii _ H1), H2.
  split; [reflexivity|]. unfold printable, in_range in H1. simpl. lia.
Qed.

(** Characters of valid names. *)

Lemma rest_not (k : N) : is_pn_prefix_local_rest k = false ->
  forall c, is_pn_prefix_local_rest c = true -> N.eqb c k = false.
Proof. intros Hk c Hc. apply N.eqb_neq. intros ->. congruence. Qed.

Lemma rest_notab c : is_pn_prefix_local_rest c = true -> negb (existsb (N.eqb c) [9; 10; 13]) = true.
Proof. intros H. simpl. rewrite !(fun k Hk => rest_not k Hk c H) by reflexivity. reflexivity. Qed.

Lemma rest_noslash sp c : is_pn_prefix_local_rest c = true -> is_slash sp c = false.
Proof.
  intros H. unfold is_slash. rewrite !(fun k Hk => rest_not k Hk c H) by reflexivity.
  destruct sp; reflexivity.
Qed.

Lemma rest_path_char sp c : is_pn_prefix_local_rest c = true -> is_ascii c = true -> path_char sp c = true.
Proof.
  intros H Ha. revert c Ha H. apply ascii_imp. destruct sp; vm_compute; reflexivity.
Qed.

Lemma rest_frag_char c : is_pn_prefix_local_rest c = true -> is_ascii c = true -> frag_char c = true.
Proof. intros H Ha. revert c Ha H. apply ascii_imp. vm_compute; reflexivity. Qed.

Lemma rest_opaque_char c : is_pn_prefix_local_rest c = true -> is_ascii c = true -> opaque_char c = true.
Proof. intros H Ha. revert c Ha H. apply ascii_imp. vm_compute; reflexivity. Qed.

Lemma first_is_rest c : is_pn_local_first c = true -> is_pn_prefix_local_rest c = true.
Proof.
  unfold is_pn_local_first, is_pn_prefix_local_rest, is_pn_chars. rewrite !orb_true_iff. tauto.
Qed.

(** A valid name, as boolean facts. *)
Lemma valid_name s n : name_from_str s = Ok n ->
  name_text n = s /\ exists c r, s = c :: r /\ is_pn_local_first c = true
    /\ forallb is_pn_prefix_local_rest (c :: r) = true /\ ends_with_chr 46 s = false.
Proof.
  intros H. pose proof H as H'. apply name_from_str_ok in H' as [Hl Ht]. split; [exact Ht|].
  destruct s as [|c r]; [inversion Hl|]. exists c, r. split; [reflexivity|].
  unfold name_from_str in H. destruct (ends_with_chr 46 (c :: r)) eqn:E1; [discriminate|].
  destruct (is_pn_local_first c) eqn:E2; [|discriminate].
  destruct (forallb is_pn_prefix_local_rest r) eqn:E3; [|discriminate].
  split; [reflexivity|]. split; [|reflexivity]. simpl. rewrite E3, (first_is_rest _ E2). reflexivity.
Qed.

Lemma name_percent s : In 37 s -> forall n, name_from_str s <> Ok n.
Proof.
  intros Hin n H. apply valid_name in H as (_ & c & r & -> & _ & Hall & _).
  rewrite forallb_forall in Hall. specialize (Hall 37 Hin). vm_compute in Hall. discriminate.
Qed.

(** ** Percent-encoding of names *)

Lemma skip_tabs_id s : forallb (fun c => negb (existsb (N.eqb c) [9; 10; 13])) s = true -> skip_tabs s = s.
Proof.
  unfold skip_tabs. induction s as [|c s IH]; [reflexivity|].
  cbn [forallb filter]. rewrite andb_true_iff. intros [Hc Hs]. rewrite Hc, IH by exact Hs. reflexivity.
Qed.

Lemma skip_tabs_app a b : skip_tabs (a ++ b) = skip_tabs a ++ skip_tabs b.
Proof. apply filter_app. Qed.

Lemma utf8_multi c : 128 <= c -> exists b t, utf8 c = b :: t /\ 192 <= b.
Proof.
  intros H. unfold utf8. destruct (N.ltb_spec c 128); [lia|].
  destruct (N.ltb c 2048); [eexists _, _; split; [reflexivity|lia]|].
  destruct (N.ltb c 65536); eexists _, _; (split; [reflexivity|lia]).
Qed.

Lemma pct_chr_nonascii enc c : is_ascii c = false ->
  exists b t, pct_chr enc c = 37 :: hex_upper (b / 16) :: t /\ 192 <= b.
Proof.
  intros H. assert (Hc : 128 <= c) by (unfold is_ascii in H; lia).
  unfold pct_chr. rewrite H. cbn [andb].
  destruct (utf8_multi c Hc) as (b & t & -> & Hb). cbn [flat_map pct_byte app].
  exists b. eexists. split; [reflexivity|exact Hb].
Qed.

Lemma pct_has_percent enc s : forallb is_ascii s = false -> In 37 (pct_encode enc s).
Proof.
  induction s as [|c s IH]; [discriminate|]. cbn [forallb pct_encode flat_map]. intros H.
  apply in_or_app. destruct (is_ascii c) eqn:Ec.
  - right. apply IH. exact H.
  - left. destruct (pct_chr_nonascii enc c Ec) as (b & t & -> & _). left; reflexivity.
Qed.

Lemma first_ascii_not_dot c : is_pn_local_first c = true -> c <> 46 /\ c <> 37.
Proof.
  intros H. split; intros ->; vm_compute in H; discriminate.
Qed.

Lemma lower_ge c k : k < 65 -> 65 <= c -> lower c <> k.
Proof. unfold lower. destruct (is_upper c); lia. Qed.

Lemma lower_small c k : (k < 65 \/ 90 < k /\ k < 97 \/ 122 < k) -> lower c = k -> c = k.
Proof. unfold lower, is_upper, in_range. intros Hk. destruct (N.leb_spec 65 c), (N.leb_spec c 90); simpl; lia. Qed.

Lemma not_dot_first c w : lower c <> 46 -> lower c <> 37 -> is_single_dot (c :: w) = false /\ is_double_dot (c :: w) = false.
Proof.
  intros H1 H2. unfold is_single_dot, is_double_dot. cbn [map existsb lit str_eqb].
  change (N_of_ascii ".") with 46. change (N_of_ascii "%") with 37.
  apply N.eqb_neq in H1, H2. rewrite H1, H2. cbn. auto.
Qed.

Lemma not_dot_pct d w : lower d <> 50 -> is_single_dot (37 :: d :: w) = false /\ is_double_dot (37 :: d :: w) = false.
Proof.
  intros H. apply N.eqb_neq in H. unfold is_single_dot, is_double_dot. cbn [map existsb lit str_eqb].
  change (N_of_ascii "2") with 50. change (N_of_ascii ".") with 46.
  rewrite H. cbn. auto.
Qed.

Lemma pct_name_not_dot enc c r :
  is_pn_local_first c = true -> (is_ascii c = true -> enc c = false) ->
  is_single_dot (pct_encode enc (c :: r)) = false /\ is_double_dot (pct_encode enc (c :: r)) = false.
Proof.
  intros Hf He. cbn [pct_encode flat_map]. destruct (is_ascii c) eqn:Ea.
  - unfold pct_chr. rewrite Ea, (He eq_refl). cbn [andb negb app].
    destruct (first_ascii_not_dot c Hf) as [H1 H2].
    apply not_dot_first; intros E; apply lower_small in E; lia.
  - destruct (pct_chr_nonascii enc c Ea) as (b & t & -> & Hb). cbn [app].
    apply not_dot_pct. apply lower_ge; [lia|]. unfold hex_upper.
    destruct (N.ltb_spec (b / 16) 10); lia.
Qed.

Lemma pct_nonempty enc c s : pct_encode enc (c :: s) <> [].
Proof.
  cbn [pct_encode flat_map]. unfold pct_chr. destruct (is_ascii c && negb (enc c)); [discriminate|].
  unfold utf8. destruct (N.ltb c 128); [discriminate|]. destruct (N.ltb c 2048); [discriminate|].
  destruct (N.ltb c 65536); discriminate.
Qed.

(** Characters produced by percent-encoding. *)
Lemma hex_upper_alnum d : d < 16 -> is_alnum (hex_upper d) = true.
Proof.
  intros H. revert d H. apply (N_sweep 16). vm_compute. reflexivity.
Qed.

Lemma utf8_bytes c : c < 1114112 -> Forall (fun b => b < 256) (utf8 c).
Proof.
  intros H. unfold utf8. destruct (N.ltb_spec c 128); [repeat constructor; lia|].
  destruct (N.ltb_spec c 2048); [repeat constructor; lia|].
  destruct (N.ltb_spec c 65536); repeat constructor; lia.
Qed.

Lemma pct_byte_chars b (f : chr -> bool) : b < 256 ->
  (forall c, is_alnum c = true -> f c = true) -> f 37 = true -> forallb f (pct_byte b) = true.
Proof.
  intros Hb Ha Hp. unfold pct_byte. cbn [forallb].
  rewrite Hp, !Ha; [reflexivity| |]; apply hex_upper_alnum; lia.
Qed.

Lemma pct_encode_chars enc (f : chr -> bool) s :
  forallb is_scalar s = true ->
  (forall c, is_ascii c = true -> enc c = false -> In c s -> f c = true) ->
  (forall c, is_alnum c = true -> f c = true) -> f 37 = true ->
  forallb f (pct_encode enc s) = true.
Proof.
  intros Hs Hf Ha Hp. induction s as [|c s IH]; [reflexivity|].
  cbn [forallb] in Hs. apply andb_true_iff in Hs as [Hc Hs].
  cbn [pct_encode flat_map]. apply forallb_app_iff. split.
  - unfold pct_chr. destruct (is_ascii c && negb (enc c)) eqn:E.
    + apply andb_true_iff in E as [E1 E2]. apply negb_true_iff in E2.
      cbn [forallb]. rewrite (Hf c E1 E2 (or_introl eq_refl)). reflexivity.
    + assert (Hlt : c < 1114112) by (unfold is_scalar, in_range in Hc; lia).
      pose proof (utf8_bytes c Hlt) as Hb. induction Hb as [|b l Hb _ IHl]; [reflexivity|].
      cbn [flat_map]. apply forallb_app_iff. split; [apply pct_byte_chars; assumption|exact IHl].
  - apply IH; [exact Hs|]. intros d H1 H2 Hin. apply Hf; [exact H1|exact H2|right; exact Hin].
Qed.

(** ** Paths *)

Lemma norm_segs_plain segs : forall acc,
  forallb (fun w => negb (is_single_dot w) && negb (is_double_dot w)) segs = true ->
  norm_segs acc segs = rev acc ++ segs.
Proof.
  induction segs as [|w r IH]; intros acc H; [cbn; rewrite app_nil_r; reflexivity|].
  cbn [forallb] in H. apply andb_true_iff in H as [Hw Hr]. apply andb_true_iff in Hw as [H1 H2].
  apply negb_true_iff in H1, H2. cbn [norm_segs]. rewrite H1, H2.
  destruct r as [|v r]; [cbn; reflexivity|]. rewrite IH by exact Hr. cbn [rev]. rewrite <- app_assoc. reflexivity.
Qed.

(** [split_on] only looks at the separator predicate on the characters of the string. *)
Lemma split_on_ext (p q : chr -> bool) s : (forall c, In c s -> p c = q c) -> split_on p s = split_on q s.
Proof.
  induction s as [|c s IH]; intros H; [reflexivity|]. cbn [split_on].
  rewrite (H c (or_introl eq_refl)), IH; [reflexivity|]. intros d Hd. apply H. right; exact Hd.
Qed.

Lemma parse_path_plain sp r :
  forallb (fun c => negb (existsb (N.eqb c) [9; 10; 13])) r = true ->
  forallb (fun w => negb (is_single_dot w) && negb (is_double_dot w))
          (map (pct_encode enc_path) (split_on (is_slash sp) r)) = true ->
  parse_path sp (47 :: r) = 47 :: join $"/" (map (pct_encode enc_path) (split_on (is_slash sp) r)).
Proof.
  intros Ht Hd. unfold parse_path. rewrite skip_tabs_id by (cbn [forallb]; rewrite Ht; reflexivity).
  cbn [N.eqb Pos.eqb orb]. rewrite andb_false_r. cbn [is_slash N.eqb Pos.eqb orb].
  rewrite norm_segs_plain by exact Hd. reflexivity.
Qed.

Lemma wf_hpath_cases sp p : wf_hpath sp p = true ->
  exists r, p = 47 :: r /\ forallb (seg_ok sp) (split_on (N.eqb 47) r) = true.
Proof.
  unfold wf_hpath. destruct p as [|c r]; [discriminate|]. cbn [strip_prefix_chr].
  destruct (N.eqb_spec c 47) as [->|]; [|discriminate]. eauto.
Qed.

Lemma split_on_chars (p f : chr -> bool) s :
  (forall w, In w (split_on p s) -> forallb f w = true) ->
  (forall c, p c = true -> f c = true) -> forallb f s = true.
Proof.
  intros H Hp. induction s as [|c s IH]; [reflexivity|].
  cbn [split_on] in H. cbn [forallb]. destruct (p c) eqn:E.
  - rewrite (Hp c E). apply IH. intros w Hw. apply H. right; exact Hw.
  - pose proof (split_on_nonnil p s) as Hnn. destruct (split_on p s) as [|v vs]; [congruence|].
    assert (Hv : forallb f (c :: v) = true) by (apply H; left; reflexivity).
    cbn [forallb] in Hv. apply andb_true_iff in Hv as [Hc Hv]. rewrite Hc. apply IH.
    intros w [<-|Hw]; [exact Hv|apply H; right; exact Hw].
Qed.

Lemma seg_ok_chars sp w : seg_ok sp w = true -> forallb (path_char sp) w = true.
Proof. unfold seg_ok. rewrite !andb_true_iff. tauto. Qed.

Lemma wf_hpath_chars sp r : forallb (seg_ok sp) (split_on (N.eqb 47) r) = true ->
  forallb (fun c => N.eqb 47 c || path_char sp c) r = true.
Proof.
  intros H. rewrite forallb_forall in H. apply (split_on_chars (N.eqb 47)).
  - intros w Hw. apply H, seg_ok_chars in Hw. revert Hw. apply forallb_imp.
    intros c ->. apply orb_true_r.
  - intros c ->. reflexivity.
Qed.

Lemma wf_hpath_notab sp r : forallb (seg_ok sp) (split_on (N.eqb 47) r) = true ->
  forallb (fun c => negb (existsb (N.eqb c) [9; 10; 13])) r = true.
Proof.
  intros H. apply wf_hpath_chars in H. revert H. apply forallb_imp.
  intros c Hc. apply orb_true_iff in Hc as [Hc|Hc].
  - apply N.eqb_eq in Hc. subst. reflexivity.
  - eapply path_char_plain; eauto.
Qed.

Lemma wf_hpath_split sp r : forallb (seg_ok sp) (split_on (N.eqb 47) r) = true ->
  split_on (is_slash sp) r = split_on (N.eqb 47) r.
Proof.
  intros H. apply wf_hpath_chars in H. rewrite forallb_forall in H. apply split_on_ext.
  intros c Hc. specialize (H c Hc). destruct (N.eqb 47 c) eqn:E.
  - unfold is_slash. rewrite N.eqb_sym, E. reflexivity.
  - cbn [orb] in H. eapply path_char_not_slash; eauto.
Qed.

Lemma seg_ok_pct sp w : seg_ok sp w = true -> pct_encode enc_path w = w.
Proof.
  intros H. apply pct_encode_id. apply seg_ok_chars in H. revert H. apply forallb_imp.
  intros c Hc. eapply path_char_plain; eauto.
Qed.

Lemma map_seg_ok sp segs : forallb (seg_ok sp) segs = true -> map (pct_encode enc_path) segs = segs.
Proof.
  induction segs as [|w segs IH]; [reflexivity|]. cbn [forallb map]. rewrite andb_true_iff.
  intros [Hw Hs]. rewrite (seg_ok_pct _ _ Hw), IH by exact Hs. reflexivity.
Qed.

Lemma seg_ok_nodot sp segs : forallb (seg_ok sp) segs = true ->
  forallb (fun w => negb (is_single_dot w) && negb (is_double_dot w)) segs = true.
Proof. apply forallb_imp. intros w. unfold seg_ok. rewrite !andb_true_iff. tauto. Qed.

(** A normalised path is a fixed point of the path setter. *)
Lemma parse_path_id sp p : wf_hpath sp p = true -> parse_path sp p = p.
Proof.
  intros H. destruct (wf_hpath_cases _ _ H) as (r & -> & Hr).
  rewrite parse_path_plain.
  - rewrite (wf_hpath_split _ _ Hr), (map_seg_ok _ _ Hr).
    change $"/" with [47]. rewrite join_split_on. reflexivity.
  - eapply wf_hpath_notab; eauto.
  - rewrite (wf_hpath_split _ _ Hr), (map_seg_ok _ _ Hr). eapply seg_ok_nodot; eauto.
Qed.

(** Splitting a string whose tail contains no separator. *)
Lemma split_on_snoc p s t :
  forallb (fun c => negb (p c)) t = true ->
  split_on p (s ++ t) = removelast (split_on p s) ++ [last (split_on p s) [] ++ t].
Proof.
  intros Ht. induction s as [|c s IH].
  - cbn. apply split_on_nosep. exact Ht.
  - cbn [app split_on]. pose proof (split_on_nonnil p s) as Hnn. destruct (p c).
    + rewrite IH. destruct (split_on p s); [congruence|reflexivity].
    + rewrite IH. destruct (split_on p s) as [|w ws]; [congruence|].
      destruct ws as [|v ws]; reflexivity.
Qed.

Lemma last_split_nosep p s : forallb (fun c => negb (p c)) (last (split_on p s) []) = true.
Proof.
  pose proof (split_on_pieces p s) as H. pose proof (split_on_nonnil p s) as Hn.
  destruct (split_on p s) as [|w ws] using rev_ind; [congruence|].
  rewrite last_last. rewrite Forall_app in H. destruct H as [_ H]. inversion H; assumption.
Qed.

Lemma ends_slash_last s : ends_with_chr 47 (47 :: s) = true -> last (split_on (N.eqb 47) s) [] = [].
Proof.
  destruct s as [|c s _] using rev_ind; [reflexivity|].
  change (47 :: s ++ [c]) with ((47 :: s) ++ [c]). rewrite ends_with_chr_snoc, N.eqb_eq. intros ->.
  assert (E : forall l, split_on (N.eqb 47) (l ++ [47]) = split_on (N.eqb 47) l ++ [[]]).
  { clear. induction l as [|c l IH]; [reflexivity|]. cbn [app split_on]. rewrite IH.
    pose proof (split_on_nonnil (N.eqb 47) l). destruct (N.eqb 47 c); [reflexivity|].
    destruct (split_on (N.eqb 47) l); [congruence|reflexivity]. }
  rewrite E, last_last. reflexivity.
Qed.

Lemma last_not_ends s : last (split_on (N.eqb 47) s) [] <> [] -> ends_with_chr 47 (47 :: s) = false.
Proof.
  intros H. destruct (ends_with_chr 47 (47 :: s)) eqn:E; [|reflexivity].
  apply ends_slash_last in E. congruence.
Qed.

Lemma name_noslash sp t : forallb is_pn_prefix_local_rest t = true -> forallb (fun c => negb (is_slash sp c)) t = true.
Proof. apply forallb_imp. intros c Hc. rewrite (rest_noslash sp c Hc). reflexivity. Qed.

Lemma name_notab t : forallb is_pn_prefix_local_rest t = true ->
  forallb (fun c => negb (existsb (N.eqb c) [9; 10; 13])) t = true.
Proof. apply forallb_imp. intros c Hc. apply rest_notab, Hc. Qed.

Lemma rest_scalar c : is_pn_prefix_local_rest c = true -> is_scalar c = true.
Proof.
  unfold is_pn_prefix_local_rest, is_pn_chars, is_pn_chars_u, is_pn_chars_base, is_digit, is_scalar, in_range. lia.
Qed.

Lemma enc_path_name c : is_pn_prefix_local_rest c = true -> is_ascii c = true -> enc_path c = false.
Proof.
  intros H Ha. pose proof (rest_path_char false c H Ha) as Hp. unfold path_char in Hp.
  rewrite !andb_true_iff, !negb_true_iff in Hp. tauto.
Qed.

Lemma enc_fragment_name c : is_pn_prefix_local_rest c = true -> is_ascii c = true -> enc_fragment c = false.
Proof.
  intros H Ha. pose proof (rest_frag_char c H Ha) as Hp. unfold frag_char in Hp.
  rewrite !andb_true_iff, !negb_true_iff in Hp. tauto.
Qed.

Lemma pct_name_seg_ok sp c r :
  is_pn_local_first c = true -> forallb is_pn_prefix_local_rest (c :: r) = true ->
  seg_ok sp (pct_encode enc_path (c :: r)) = true.
Proof.
  intros Hf Hall. unfold seg_ok.
  destruct (pct_name_not_dot enc_path c r Hf) as [-> ->].
  { intros Ha. apply enc_path_name; [apply first_is_rest, Hf|exact Ha]. }
  rewrite !andb_true_r. apply pct_encode_chars.
  - revert Hall. apply forallb_imp. apply rest_scalar.
  - intros d Ha _ Hin. rewrite forallb_forall in Hall. apply rest_path_char; [apply Hall, Hin|exact Ha].
  - intros d Hd. assert (Ha : is_ascii d = true) by (unfold is_alnum, is_alpha, is_upper, is_lower, is_digit, in_range, is_ascii in *; lia).
    revert d Ha Hd. apply ascii_imp. destruct sp; vm_compute; reflexivity.
  - destruct sp; reflexivity.
Qed.

Lemma split_tail_sp sp r : forallb (seg_ok sp) (split_on (N.eqb 47) r) = true ->
  forall t, forallb is_pn_prefix_local_rest t = true ->
  split_on (is_slash sp) (r ++ t) = split_on (N.eqb 47) (r ++ t).
Proof.
  intros H t Ht. apply wf_hpath_chars in H. rewrite forallb_forall in H, Ht. apply split_on_ext.
  intros c Hc. apply in_app_or in Hc as [Hc|Hc].
  - specialize (H c Hc). destruct (N.eqb 47 c) eqn:E.
    + unfold is_slash. rewrite N.eqb_sym, E. reflexivity.
    + cbn [orb] in H. eapply path_char_not_slash; eauto.
  - specialize (Ht c Hc). pose proof (rest_noslash sp c Ht) as Hs. rewrite Hs.
    unfold is_slash in Hs. apply orb_false_iff in Hs as [Hs _]. rewrite N.eqb_sym. symmetry. exact Hs.
Qed.

(** Appending a name to a normalised path that ends in '/'. *)
Lemma parse_path_append sp p c r :
  wf_hpath sp p = true -> ends_with_chr 47 p = true ->
  is_pn_local_first c = true -> forallb is_pn_prefix_local_rest (c :: r) = true ->
  parse_path sp (p ++ c :: r) = p ++ pct_encode enc_path (c :: r) /\
  wf_hpath sp (p ++ pct_encode enc_path (c :: r)) = true.
Proof.
  intros Hp He Hf Hall. destruct (wf_hpath_cases _ _ Hp) as (q & -> & Hq).
  pose proof (ends_slash_last _ He) as Hl.
  pose proof (pct_name_seg_ok sp c r Hf Hall) as Hseg.
  set (n := c :: r) in *.
  assert (Hno : forallb (fun c => negb (N.eqb 47 c)) n = true).
  { revert Hall. apply forallb_imp. intros d Hd. pose proof (rest_noslash false d Hd) as E.
    unfold is_slash in E. apply orb_false_iff in E as [E _]. rewrite N.eqb_sym, E. reflexivity. }
  assert (Hsplit : forall t, forallb (fun c => negb (N.eqb 47 c)) t = true ->
     split_on (N.eqb 47) (q ++ t) = removelast (split_on (N.eqb 47) q) ++ [t]).
  { intros t Ht. rewrite split_on_snoc by exact Ht. rewrite Hl. reflexivity. }
  assert (Hrl : forallb (seg_ok sp) (removelast (split_on (N.eqb 47) q)) = true).
  { pose proof (split_on_nonnil (N.eqb 47) q) as Hnn.
    rewrite (app_removelast_last [] Hnn) in Hq. apply forallb_app_iff in Hq. tauto. }
  assert (Hmap : map (pct_encode enc_path) (split_on (is_slash sp) (q ++ n))
                 = removelast (split_on (N.eqb 47) q) ++ [pct_encode enc_path n]).
  { rewrite (split_tail_sp sp q Hq n Hall), (Hsplit n Hno), map_app, (map_seg_ok sp) by exact Hrl. reflexivity. }
  assert (Hpno : forallb (fun c => negb (N.eqb 47 c)) (pct_encode enc_path n) = true).
  { apply pct_encode_chars.
    - revert Hall. apply forallb_imp. apply rest_scalar.
    - intros d _ _ Hin. rewrite forallb_forall in Hno. apply Hno, Hin.
    - intros d Hd. unfold is_alnum, is_alpha, is_upper, is_lower, is_digit, in_range in Hd. lia.
    - reflexivity. }
  assert (Hjoin : join $"/" (removelast (split_on (N.eqb 47) q) ++ [pct_encode enc_path n]) = q ++ pct_encode enc_path n).
  { rewrite <- (Hsplit _ Hpno). change $"/" with [47]. apply join_split_on. }
  split.
  - change ((47 :: q) ++ n) with (47 :: (q ++ n)). rewrite parse_path_plain.
    + rewrite Hmap, Hjoin. reflexivity.
    + apply forallb_app_iff. split; [eapply wf_hpath_notab; eauto|apply name_notab, Hall].
    + rewrite Hmap. apply forallb_app_iff. split; [eapply seg_ok_nodot; eauto|].
      apply (seg_ok_nodot sp). cbn [forallb]. rewrite Hseg. reflexivity.
  - unfold wf_hpath. cbn [app strip_prefix_chr N.eqb Pos.eqb]. rewrite (Hsplit _ Hpno).
    apply forallb_app_iff. split; [exact Hrl|]. cbn [forallb]. rewrite Hseg. reflexivity.
Qed.

(** Cutting the last segment off a normalised path leaves a normalised path ending in '/'. *)
Lemma wf_hpath_cut sp p n r :
  wf_hpath sp p = true -> strip_prefix_chr 47 p = Some r -> last (split_on (N.eqb 47) r) [] = n -> n <> [] ->
  exists q, p = q ++ n /\ wf_hpath sp q = true /\ ends_with_chr 47 q = true.
Proof.
  intros Hp Hr Hn Hne. destruct (wf_hpath_cases _ _ Hp) as (r' & -> & Hq).
  cbn [strip_prefix_chr N.eqb Pos.eqb] in Hr. injection Hr as ->.
  pose proof (split_on_nonnil (N.eqb 47) r) as Hnn.
  pose proof (app_removelast_last [] Hnn) as E. rewrite Hn in E.
  rewrite E in Hq. apply forallb_app_iff in Hq as [Hq1 Hq2].
  pose proof (join_split_on 47 r) as J.
  destruct (removelast (split_on (N.eqb 47) r)) as [|w ws] eqn:Erl.
  - rewrite E in J. cbn in J. subst r. exists [47]. repeat split.
  - rewrite E in J. rewrite join_app in J by discriminate. cbn [join] in J.
    set (b := join [47] (w :: ws)) in *. exists (47 :: b ++ [47]).
    assert (Hsp : split_on (N.eqb 47) (b ++ [47]) = (w :: ws) ++ [[]]).
    { assert (Hnos : Forall (fun w => forallb (fun c => negb (N.eqb 47 c)) w = true) (w :: ws)).
      { pose proof (split_on_pieces (N.eqb 47) r) as Hall. rewrite E in Hall. apply Forall_app in Hall. tauto. }
      subst b. clear - Hnos. revert w Hnos. induction ws as [|v ws IH]; intros w H.
      - cbn [join]. inversion H; subst. rewrite split_on_app_sep by auto. reflexivity.
      - inversion H; subst. rewrite join_cons by discriminate. rewrite <- !app_assoc. cbn [app].
        rewrite split_on_app_sep by auto. rewrite IH by assumption. reflexivity. }
    split; [|split].
    + rewrite <- J. cbn [app]. rewrite <- app_assoc. reflexivity.
    + unfold wf_hpath. cbn [strip_prefix_chr N.eqb Pos.eqb]. rewrite Hsp.
      apply forallb_app_iff. split; [exact Hq1|]. destruct sp; reflexivity.
    + change (47 :: b ++ [47]) with ((47 :: b) ++ [47]). apply ends_with_chr_app.
Qed.

(** ** Well-formed URLs *)

Lemma wf_url_inv u : wf_url u = true ->
  wf_scheme (u_scheme u) = true /\ opt_all query_char (u_query u) = true /\
  opt_all frag_char (u_frag u) = true /\
  ((cannot_be_a_base u = false /\
    (wf_hpath (is_special (u_scheme u)) (u_path u) = true \/
     (u_auth u <> None /\ is_special (u_scheme u) = false /\ u_path u = []))) \/
   (cannot_be_a_base u = true /\ u_auth u = None /\ is_special (u_scheme u) = false
    /\ forallb opaque_char (u_path u) = true)).
Proof.
  unfold wf_url, cannot_be_a_base. rewrite !andb_true_iff. intros [[[H1 H2] H3] H4].
  split; [exact H1|]. split; [exact H2|]. split; [exact H3|].
  destruct (u_auth u) as [a|].
  - left. split; [reflexivity|]. apply andb_true_iff in H4 as [_ H4].
    apply orb_true_iff in H4 as [H4|H4]; [left; exact H4|right].
    apply andb_true_iff in H4 as [Ha Hb]. apply negb_true_iff in Ha. apply str_eqb_eq in Hb.
    split; [discriminate|auto].
  - apply andb_true_iff in H4 as [Hs H4]. apply negb_true_iff in Hs. rewrite Hs.
    destruct (starts_with_chr 47 (u_path u)); cbn [negb].
    + left. split; [reflexivity|]. left. apply andb_true_iff in H4. tauto.
    + right. auto.
Qed.

Lemma wf_url_intro_frag u f : wf_url u = true -> forallb frag_char f = true ->
  wf_url (MkUrl (u_scheme u) (u_auth u) (u_path u) (u_query u) (Some f)) = true.
Proof.
  unfold wf_url. cbn [u_scheme u_auth u_path u_query u_frag opt_all].
  rewrite !andb_true_iff. intros [[[H1 H2] H3] H4] Hf. auto.
Qed.

(** Replacing the path of a hierarchical URL by another normalised one. *)
Lemma wf_url_intro_path u p : wf_url u = true -> cannot_be_a_base u = false ->
  wf_hpath (is_special (u_scheme u)) p = true -> starts_with $"//" p = false ->
  wf_url (MkUrl (u_scheme u) (u_auth u) p (u_query u) (u_frag u)) = true.
Proof.
  unfold wf_url, cannot_be_a_base. cbn [u_scheme u_auth u_path u_query u_frag].
  rewrite !andb_true_iff. intros [[[H1 H2] H3] H4] Hc Hp Hss.
  split; [auto|]. destruct (u_auth u) as [a|].
  - apply andb_true_iff in H4 as [Ha _]. rewrite Ha, Hp. reflexivity.
  - apply andb_true_iff in H4 as [Hs _]. rewrite Hs. apply negb_true_iff in Hs. rewrite Hs in Hp.
    destruct (wf_hpath_cases _ _ Hp) as (r & -> & _). cbn [starts_with_chr N.eqb Pos.eqb].
    rewrite Hp, Hss. reflexivity.
Qed.

(** The same when the authority is present, with any normalised path. *)
Lemma wf_url_intro_path_auth u p : wf_url u = true -> u_auth u <> None ->
  wf_hpath (is_special (u_scheme u)) p = true ->
  wf_url (MkUrl (u_scheme u) (u_auth u) p (u_query u) (u_frag u)) = true.
Proof.
  unfold wf_url. cbn [u_scheme u_auth u_path u_query u_frag].
  rewrite !andb_true_iff. intros [[[H1 H2] H3] H4] Hc Hp.
  split; [auto|]. destruct (u_auth u) as [a|]; [|congruence].
  apply andb_true_iff in H4 as [Ha _]. rewrite Ha, Hp. reflexivity.
Qed.

(** ** C06 *)

Lemma opt_pre_None c : opt_pre c None = [].
Proof. reflexivity. Qed.

Lemma split_first_pre c a b : ~ In c a -> split_first c (a ++ c :: b) = Some (a, b).
Proof. intros H. apply split_first_Some. auto. Qed.

Lemma not_in_forallb (f : chr -> bool) c s : forallb f s = true -> f c = false -> ~ In c s.
Proof. rewrite forallb_forall. intros H Hc Hin. rewrite (H c Hin) in Hc. discriminate. Qed.

Lemma wf_scheme_chars s : wf_scheme s = true -> ~ In 58 s.
Proof.
  unfold wf_scheme. destruct s as [|c r]; [discriminate|]. rewrite !andb_true_iff. intros [[H1 H2] _] [->|Hin].
  - vm_compute in H1. discriminate.
  - revert Hin. apply (not_in_forallb scheme_char); [exact H2|reflexivity].
Qed.

Lemma wf_hpath_not_in sp p c : wf_hpath sp p = true -> c <> 47 -> path_char sp c = false -> ~ In c p.
Proof.
  intros H Hc Hpc. destruct (wf_hpath_cases _ _ H) as (r & -> & Hr). apply wf_hpath_chars in Hr.
  intros [E|Hin]; [congruence|]. revert Hin. apply (not_in_forallb _ _ _ Hr).
  rewrite Hpc. apply N.eqb_neq in Hc. rewrite N.eqb_sym, Hc. reflexivity.
Qed.

Lemma wf_path_not_in u c : wf_url u = true -> (c = 35 \/ c = 63) -> ~ In c (u_path u).
Proof.
  intros H Hc. destruct (wf_url_inv u H) as (_ & _ & _ & [[_ [Hp|(_ & _ & ->)]]|(_ & _ & _ & Hp)]).
  - eapply wf_hpath_not_in; [exact Hp|lia|]. destruct Hc as [->| ->]; destruct (is_special (u_scheme u)); reflexivity.
  - intros [].
  - apply (not_in_forallb _ _ _ Hp). destruct Hc as [->| ->]; reflexivity.
Qed.

Lemma wf_auth_not_in u a c : wf_url u = true -> u_auth u = Some a -> (c = 35 \/ c = 63 \/ c = 47) -> ~ In c a.
Proof.
  unfold wf_url. rewrite !andb_true_iff. intros [_ H] E Hc. rewrite E in H.
  apply andb_true_iff in H as [H _]. apply (not_in_forallb _ _ _ H). destruct Hc as [->|[->| ->]]; reflexivity.
Qed.

Lemma url_reparse_ser u : wf_url u = true -> url_reparse (url_ser u) = Some u.
Proof.
  intros Hwf. destruct (wf_url_inv u Hwf) as (Hs & Hq & _ & Hp).
  unfold url_reparse, url_ser.
  change ($":" ++ opt_pre $"//" (u_auth u) ++ u_path u ++ opt_pre $"?" (u_query u) ++ opt_pre $"#" (u_frag u))
    with (58 :: opt_pre $"//" (u_auth u) ++ u_path u ++ opt_pre $"?" (u_query u) ++ opt_pre $"#" (u_frag u)).
  rewrite (split_first_pre 58 (u_scheme u)) by (apply wf_scheme_chars, Hs).
  set (base := opt_pre $"//" (u_auth u) ++ u_path u).
  assert (Hb : forall c, (c = 35 \/ c = 63) -> ~ In c base).
  { intros c Hc Hin. unfold base in Hin. apply in_app_or in Hin as [Hin|Hin].
    - destruct (u_auth u) as [a|] eqn:Ea; [|destruct Hin].
      cbn [opt_pre lit app] in Hin. destruct Hin as [Hin|[Hin|Hin]].
      + vm_compute in Hin. lia.
      + vm_compute in Hin. lia.
      + revert Hin. eapply wf_auth_not_in; [exact Hwf|exact Ea|tauto].
    - revert Hin. eapply wf_path_not_in; eauto. }
  replace (opt_pre $"//" (u_auth u) ++ u_path u ++ opt_pre $"?" (u_query u) ++ opt_pre $"#" (u_frag u))
    with ((base ++ opt_pre $"?" (u_query u)) ++ opt_pre $"#" (u_frag u))
    by (unfold base; rewrite <- !app_assoc; reflexivity).
  assert (Hbq : ~ In 35 (base ++ opt_pre $"?" (u_query u))).
  { intros Hin. apply in_app_or in Hin as [Hin|Hin]; [exact (Hb 35 (or_introl eq_refl) Hin)|].
    destruct (u_query u) as [q|]; [|destruct Hin]. cbn [opt_pre lit app] in Hin.
    destruct Hin as [Hin|Hin]; [vm_compute in Hin; discriminate|].
    revert Hin. apply (not_in_forallb query_char); [exact Hq|reflexivity]. }
  assert (Hfr : split_first 35 ((base ++ opt_pre $"?" (u_query u)) ++ opt_pre $"#" (u_frag u))
     = match u_frag u with None => None | Some f => Some (base ++ opt_pre $"?" (u_query u), f) end).
  { destruct (u_frag u) as [f|]; cbn [opt_pre].
    - apply split_first_pre. exact Hbq.
    - rewrite app_nil_r. apply split_first_None. exact Hbq. }
  rewrite Hfr.
  assert (Hqq : split_first 63 (base ++ opt_pre $"?" (u_query u))
     = match u_query u with None => None | Some q => Some (base, q) end).
  { destruct (u_query u) as [q|]; cbn [opt_pre].
    - apply split_first_pre. apply Hb; auto.
    - rewrite app_nil_r. apply split_first_None. apply Hb; auto. }
  assert (Hend : match strip_prefix $"//" base with
      | None => Some (MkUrl (u_scheme u) None base (u_query u) (u_frag u))
      | Some r3 =>
          match split_first 47 r3 with
          | None => Some (MkUrl (u_scheme u) (Some r3) [] (u_query u) (u_frag u))
          | Some (a, p) => Some (MkUrl (u_scheme u) (Some a) (47 :: p) (u_query u) (u_frag u))
          end
      end = Some u).
  { unfold base. destruct u as [sch auth path query frag]. cbn [u_scheme u_auth u_path u_query u_frag] in *.
    destruct auth as [a|]; cbn [opt_pre].
    - rewrite <- app_assoc, strip_prefix_app.
      assert (Ha : ~ In 47 a) by (eapply wf_auth_not_in; [exact Hwf|reflexivity|tauto]).
      destruct Hp as [[_ [Hp|(_ & _ & ->)]]|(Hc & _)].
      + destruct (wf_hpath_cases _ _ Hp) as (r & -> & _). rewrite split_first_pre by exact Ha. reflexivity.
      + rewrite app_nil_r. rewrite (proj2 (split_first_None 47 a) Ha). reflexivity.
      + discriminate Hc.
    - cbn [app]. destruct (strip_prefix $"//" path) as [r|] eqn:E; [|reflexivity]. exfalso.
      apply strip_prefix_Some in E. subst path.
      unfold wf_url in Hwf. cbn [u_scheme u_auth u_path u_query u_frag] in Hwf.
      rewrite !andb_true_iff in Hwf. destruct Hwf as [_ [_ Hwf]].
      cbn in Hwf. rewrite andb_false_r in Hwf. discriminate. }
  destruct (u_frag u) as [f|] eqn:Ef; rewrite ?app_nil_r; rewrite ?Hqq.
  - destruct (u_query u) as [q|] eqn:Eq; cbn [opt_pre]; rewrite ?app_nil_r; exact Hend.
  - destruct (u_query u) as [q|] eqn:Eq; cbn [opt_pre]; rewrite ?app_nil_r; exact Hend.
Qed.

Lemma url_ser_inj u v : wf_url u = true -> wf_url v = true -> url_ser u = url_ser v -> u = v.
Proof.
  intros Hu Hv E. apply url_reparse_ser in Hu, Hv. rewrite E in Hu. congruence.
Qed.

Lemma url_ser_first u : wf_url u = true -> starts_with_chr 60 (url_ser u) = false.
Proof.
  intros H. destruct (wf_url_inv u H) as (Hs & _). unfold url_ser. unfold wf_scheme in Hs.
  destruct (u_scheme u) as [|c r]; [discriminate|]. cbn [app starts_with_chr].
  rewrite !andb_true_iff in Hs. destruct Hs as [[Hc _] _]. unfold is_lower, in_range in Hc. lia.
Qed.

Lemma c06_iri_roundtrip (parse : str -> option url) :
  (forall u, wf_url u = true -> parse (url_ser u) = Some u) ->
  forall i, wf_url i = true -> forall alternate, iri_from_str parse (iri_display alternate i) = Some i.
Proof.
  intros Hparse i Hi [|]; unfold iri_display, iri_from_str.
  - rewrite url_ser_first by exact Hi. cbn [andb]. apply Hparse, Hi.
  - cbn [lit app starts_with_chr strip_prefix_chr].
    change (N_of_ascii "<") with 60. change (N_of_ascii ">") with 62. rewrite !N.eqb_refl. cbn [andb].
    change (60 :: url_ser i ++ [62]) with ((60 :: url_ser i) ++ [62]).
    rewrite ends_with_chr_app, strip_suffix_chr_app. apply Hparse, Hi.
Qed.

(** ** Setters on well-formed IRIs *)

Lemma set_empty_fragment i : with_empty_fragment i = MkUrl (u_scheme i) (u_auth i) (u_path i) (u_query i) (Some []).
Proof. reflexivity. Qed.

Lemma set_path_id i p : cannot_be_a_base i = false -> wf_hpath (is_special (u_scheme i)) p = true ->
  with_new_path i p = MkUrl (u_scheme i) (u_auth i) p (u_query i) (u_frag i).
Proof.
  intros Hc Hp. unfold with_new_path, url_set_path. rewrite Hc, parse_path_id by exact Hp. reflexivity.
Qed.

Lemma pct_fragment_name s : forallb is_pn_prefix_local_rest s = true -> forallb is_ascii s = true ->
  pct_encode enc_fragment (skip_tabs s) = s.
Proof.
  intros Hr Ha. rewrite skip_tabs_id by (apply name_notab, Hr). apply pct_encode_id.
  rewrite forallb_forall in *. intros c Hc. rewrite (Ha c Hc), enc_fragment_name; auto.
Qed.

Lemma wf_frag_ascii i f : wf_url i = true -> u_frag i = Some f -> forallb is_ascii f = true.
Proof.
  intros H E. destruct (wf_url_inv i H) as (_ & _ & Hf & _). rewrite E in Hf. cbn [opt_all] in Hf.
  revert Hf. apply forallb_imp. intros c Hc. apply frag_char_plain in Hc as [Hc _].
  apply andb_true_iff in Hc. tauto.
Qed.

(** ** The two ways a split succeeds *)

Inductive split_shape (i : iri) : iri -> name -> Prop :=
| split_by_fragment f n :
    u_frag i = Some f -> f <> [] -> name_from_str f = Ok n ->
    split_shape i (MkUrl (u_scheme i) (u_auth i) (u_path i) (u_query i) (Some [])) n
| split_by_path q s n :
    (u_frag i = None \/ u_frag i = Some []) -> u_query i = None -> cannot_be_a_base i = false ->
    u_path i = q ++ s -> ends_with_chr 47 q = true -> wf_hpath (is_special (u_scheme i)) q = true ->
    name_from_str s = Ok n ->
    split_shape i (MkUrl (u_scheme i) (u_auth i) q None (u_frag i)) n.

Lemma opaque_no_slash i : wf_url i = true -> cannot_be_a_base i = true -> starts_with_chr 47 (u_path i) = false.
Proof.
  intros _. unfold cannot_be_a_base. destruct (u_auth i); [discriminate|].
  destruct (starts_with_chr 47 (u_path i)); [discriminate|reflexivity].
Qed.

Lemma firstn_app_len {A} (q s : list A) : firstn (length (q ++ s) - length s) (q ++ s) = q.
Proof.
  rewrite app_length. replace (length q + length s - length s)%nat with (length q) by lia.
  rewrite firstn_app, firstn_all, Nat.sub_diag. cbn. apply app_nil_r.
Qed.

Lemma url_eta i a b c d e : u_scheme i = a -> u_auth i = b -> u_path i = c -> u_query i = d -> u_frag i = e ->
  MkUrl a b c d e = i.
Proof. destruct i; cbn; intros; subst; reflexivity. Qed.

(** The path branch of [split]. *)
Definition split_path (i : iri) : outcome (option (iri * name)) :=
  if negb (ends_with_chr 47 (u_path i)) && is_none (u_query i) then
    match url_path_segments i with
    | None => Panic
    | Some segs =>
        match name_from_str (last segs []) with
        | Ok n => Ret (Some (with_new_path i (firstn (length (u_path i) - length (name_text n)) (u_path i)), n))
        | Err _ => Ret None
        end
    end
  else Ret None.

Lemma split_eq i : split i =
  match u_frag i with
  | Some (c :: f) =>
      match name_from_str (c :: f) with
      | Ok n => Ret (Some (with_empty_fragment i, n))
      | Err _ => Ret None
      end
  | _ => match u_path i with [] => Ret None | _ => split_path i end
  end.
Proof. unfold split, split_path. destruct (u_frag i) as [[|c f]|]; destruct (u_path i); reflexivity. Qed.

Lemma split_path_shape i ns n : wf_url i = true -> (u_frag i = None \/ u_frag i = Some []) ->
  u_path i <> [] -> split_path i = Ret (Some (ns, n)) -> split_shape i ns n.
Proof.
  intros Hwf Ef Ep H. unfold split_path in H.
  destruct (negb (ends_with_chr 47 (u_path i)) && is_none (u_query i)) eqn:E; [|discriminate].
  apply andb_true_iff in E as [E1 E2]. apply negb_true_iff in E1.
  assert (Hq : u_query i = None) by (destruct (u_query i); [discriminate|reflexivity]).
  unfold url_path_segments in H. destruct (strip_prefix_chr 47 (u_path i)) as [r|] eqn:Er; [|discriminate].
  destruct (name_from_str (last (split_on (N.eqb 47) r) [])) as [m|] eqn:En; [|discriminate].
  assert (Hne : last (split_on (N.eqb 47) r) [] <> []) by (intros E; rewrite E in En; discriminate).
  assert (Hnt : name_text m = last (split_on (N.eqb 47) r) []) by (apply name_from_str_ok in En; tauto).
  assert (Hpath : cannot_be_a_base i = false /\ wf_hpath (is_special (u_scheme i)) (u_path i) = true).
  { destruct (wf_url_inv i Hwf) as (_ & _ & _ & [[Hc [Hp|(_ & _ & Hp)]]|(Hc & _)]).
    - auto.
    - congruence.
    - pose proof (opaque_no_slash i Hwf Hc) as Hs. destruct (u_path i) as [|x p]; [congruence|].
      cbn in Hs, Er. rewrite Hs in Er. discriminate. }
  destruct Hpath as [Hc Hp].
  destruct (wf_hpath_cut _ _ _ _ Hp Er eq_refl Hne) as (q & Hpq & Hwq & Heq).
  assert (Hcut : firstn (length (u_path i) - length (name_text m)) (u_path i) = q).
  { rewrite Hnt, Hpq at 1. rewrite Hpq. apply firstn_app_len. }
  rewrite Hcut, (set_path_id i q Hc Hwq), Hq in H. injection H as <- <-.
  eapply split_by_path; eauto.
Qed.

Lemma split_shape_intro i ns n : wf_url i = true -> split i = Ret (Some (ns, n)) -> split_shape i ns n.
Proof.
  intros Hwf H. rewrite split_eq in H. destruct (u_frag i) as [[|c f]|] eqn:Ef.
  - destruct (u_path i) eqn:Ep; [discriminate|]. apply split_path_shape; auto. congruence.
  - destruct (name_from_str (c :: f)) as [m|] eqn:En; [|discriminate].
    injection H as <- <-. rewrite set_empty_fragment. eapply split_by_fragment; eauto. discriminate.
  - destruct (u_path i) eqn:Ep; [discriminate|]. apply split_path_shape; auto. congruence.
Qed.

(** Conversely each shape is what [split] computes. *)
Lemma name_first_not_slash s n : name_from_str s = Ok n -> ends_with_chr 47 s = false /\ s <> []
   /\ forallb (fun c => negb (N.eqb 47 c)) s = true.
Proof.
  intros H. apply valid_name in H as (_ & c & r & -> & _ & Hall & _).
  assert (Hno : forallb (fun c => negb (N.eqb 47 c)) (c :: r) = true).
  { revert Hall. apply forallb_imp. intros d Hd. pose proof (rest_noslash false d Hd) as E.
    unfold is_slash in E. apply orb_false_iff in E as [E _]. rewrite N.eqb_sym, E. reflexivity. }
  split; [|split; [discriminate|exact Hno]].
  destruct (ends_with_chr 47 (c :: r)) eqn:E; [|reflexivity].
  apply ends_with_chr_iff in E as [p Hp]. rewrite Hp in Hno. apply forallb_app_iff in Hno as [_ Hno].
  discriminate.
Qed.

Lemma starts_slash_segments q s : ends_with_chr 47 q = true -> forall sp, wf_hpath sp q = true ->
  forallb (fun c => negb (N.eqb 47 c)) s = true ->
  exists r, q ++ s = 47 :: r /\ last (split_on (N.eqb 47) r) [] = s.
Proof.
  intros He sp Hq Hs. destruct (wf_hpath_cases _ _ Hq) as (r & -> & _). exists (r ++ s). split; [reflexivity|].
  rewrite split_on_snoc by exact Hs. rewrite last_last, (ends_slash_last _ He). reflexivity.
Qed.

Lemma split_path_computes i q s :
  (u_frag i = None \/ u_frag i = Some []) -> u_query i = None -> cannot_be_a_base i = false ->
  u_path i = q ++ s -> s <> [] -> forallb (fun c => negb (N.eqb 47 c)) s = true ->
  ends_with_chr 47 q = true -> wf_hpath (is_special (u_scheme i)) q = true ->
  split i = match name_from_str s with
            | Ok n => Ret (Some (MkUrl (u_scheme i) (u_auth i) q None (u_frag i), n))
            | Err _ => Ret None
            end.
Proof.
  intros Hf Hq Hc Hp Hne Hs He Hwq.
  assert (Hnp : u_path i <> []) by (rewrite Hp; destruct q; [discriminate He|discriminate]).
  assert (Hsp : split i = split_path i).
  { rewrite split_eq. destruct Hf as [->| ->]; destruct (u_path i); congruence. }
  rewrite Hsp. unfold split_path. rewrite Hp, ends_with_chr_app_r by exact Hne.
  assert (Hns : ends_with_chr 47 s = false).
  { destruct (ends_with_chr 47 s) eqn:E; [|reflexivity].
    apply ends_with_chr_iff in E as [p ->]. apply forallb_app_iff in Hs as [_ Hs]. discriminate. }
  rewrite Hns, Hq. cbn [negb andb is_none].
  destruct (starts_slash_segments q s He _ Hwq Hs) as (r & Hr & Hl).
  unfold url_path_segments. rewrite Hp, Hr. cbn [strip_prefix_chr N.eqb Pos.eqb]. rewrite Hl, <- Hr.
  destruct (name_from_str s) as [n|] eqn:En; [|reflexivity].
  assert (Hnt : name_text n = s) by (apply name_from_str_ok in En; tauto).
  rewrite Hnt, firstn_app_len, (set_path_id i q Hc Hwq), Hq. reflexivity.
Qed.

(** ** C07 *)

Lemma make_name_path i q n s :
  u_frag i = None -> u_query i = None -> cannot_be_a_base i = false ->
  ends_with_chr 47 q = true -> wf_hpath (is_special (u_scheme i)) q = true -> u_path i = q ->
  name_from_str s = Ok n ->
  make_name i n = Some (MkUrl (u_scheme i) (u_auth i) (q ++ pct_encode enc_path s) None None) /\
  wf_hpath (is_special (u_scheme i)) (q ++ pct_encode enc_path s) = true.
Proof.
  intros Hf Hq Hc He Hwq Hp Hn. destruct (valid_name _ _ Hn) as (Ht & c & r & -> & Hfirst & Hall & _).
  destruct (parse_path_append _ q c r Hwq He Hfirst Hall) as [E1 E2]. split; [|exact E2].
  unfold make_name. rewrite Hf, Hp, He, Hq. cbn [is_none andb].
  unfold with_new_path, url_set_path. rewrite Hc, Ht, E1, Hq, Hf. reflexivity.
Qed.

Lemma pct_path_name_id s : forallb is_pn_prefix_local_rest s = true -> forallb is_ascii s = true -> pct_encode enc_path s = s.
Proof.
  intros Hr Ha. apply pct_encode_id. rewrite forallb_forall in *. intros c Hc.
  rewrite (Ha c Hc), enc_path_name; auto.
Qed.

Lemma wf_hpath_ascii sp p : wf_hpath sp p = true -> forallb is_ascii p = true.
Proof.
  intros H. destruct (wf_hpath_cases _ _ H) as (r & -> & Hr). apply wf_hpath_chars in Hr.
  cbn [forallb]. change (is_ascii 47) with true. cbn [andb]. revert Hr. apply forallb_imp.
  intros c Hc. apply orb_true_iff in Hc as [Hc|Hc].
  - apply N.eqb_eq in Hc. subst. reflexivity.
  - eapply path_char_ascii; eauto.
Qed.

Lemma wf_path_ascii i : wf_url i = true -> forallb is_ascii (u_path i) = true.
Proof.
  intros H. destruct (wf_url_inv i H) as (_ & _ & _ & [[_ [Hp|(_ & _ & ->)]]|(_ & _ & _ & Hp)]).
  - eapply wf_hpath_ascii; eauto.
  - reflexivity.
  - revert Hp. apply forallb_imp. intros c Hc. unfold opaque_char, in_range in Hc. unfold is_ascii. lia.
Qed.

Lemma c07_split_make i ns n :
  wf_url i = true -> split i = Ret (Some (ns, n)) -> (make_name ns n = Some i <-> u_frag i <> Some []).
Proof.
  intros Hwf H. pose proof (split_shape_intro _ _ _ Hwf H) as Hs.
  destruct Hs as [f n Hf Hne Hn|q s n Hf Hq Hc Hp He Hwq Hn].
  - destruct (valid_name _ _ Hn) as (Ht & c & r & E & _ & Hall & _).
    split; [congruence|]. intros _. unfold make_name. cbn [u_frag].
    unfold with_new_fragment, url_set_fragment. cbn [u_scheme u_auth u_path u_query]. rewrite Ht.
    rewrite pct_fragment_name; [|rewrite E; exact Hall|eapply wf_frag_ascii; eauto].
    f_equal. apply url_eta; congruence.
  - destruct (valid_name _ _ Hn) as (Ht & c & r & E & _ & Hall & _).
    destruct Hf as [Hf|Hf].
    + split; [congruence|]. intros _.
      set (i' := MkUrl (u_scheme i) (u_auth i) q None (u_frag i)).
      assert (Hc' : cannot_be_a_base i' = false).
      { unfold i', cannot_be_a_base. cbn [u_auth u_path]. destruct (u_auth i); [reflexivity|].
        destruct (wf_hpath_cases _ _ Hwq) as (t & -> & _). reflexivity. }
      destruct (make_name_path i' q n s Hf eq_refl Hc' He Hwq eq_refl Hn) as [-> _].
      unfold i'. cbn [u_scheme u_auth].
      pose proof (wf_path_ascii i Hwf) as Ha. rewrite Hp in Ha. apply forallb_app_iff in Ha as [_ Ha].
      rewrite pct_path_name_id; [|rewrite E; exact Hall|exact Ha].
      do 2 f_equal; [..|f_equal]; apply url_eta; congruence.
    + split; [|congruence]. unfold make_name. cbn [u_frag]. rewrite Hf.
      unfold with_new_fragment, url_set_fragment. cbn [u_scheme u_auth u_path u_query].
      intros Heq. exfalso. injection Heq as Heq.
      assert (Hpath : q = u_path i) by (rewrite <- Heq; reflexivity).
      rewrite Hp in Hpath. rewrite <- (app_nil_r q) in Hpath at 1. apply app_inv_head in Hpath.
      rewrite <- Hpath in E. discriminate.
Qed.

(** What happens in the failing case: the name moves into the fragment. *)
Lemma c07_empty_fragment i ns n :
  wf_url i = true -> u_frag i = Some [] -> split i = Ret (Some (ns, n)) ->
  exists j, make_name ns n = Some j /\ url_ser j <> url_ser i /\ u_frag j = Some (name_text n).
Proof.
  intros Hwf Hf H. pose proof (split_shape_intro _ _ _ Hwf H) as Hs.
  destruct Hs as [f n Hf' Hne Hn|q s n Hf' Hq Hc Hp He Hwq Hn]; [congruence|].
  destruct (valid_name _ _ Hn) as (Ht & c & r & E & _ & Hall & _).
  pose proof (wf_path_ascii i Hwf) as Ha. rewrite Hp in Ha. apply forallb_app_iff in Ha as [_ Ha].
  unfold make_name. cbn [u_frag]. rewrite Hf. eexists. split; [reflexivity|].
  unfold with_new_fragment, url_set_fragment. cbn [u_scheme u_auth u_path u_query u_frag].
  rewrite Ht, pct_fragment_name; [|rewrite E; exact Hall|exact Ha]. split; [|reflexivity].
  unfold url_ser. cbn [u_scheme u_auth u_path u_query u_frag opt_pre app]. rewrite Hq, Hf, Hp. cbn [opt_pre app].
  intros Heq. apply app_inv_head in Heq. injection Heq as Heq. apply app_inv_head in Heq.
  rewrite <- app_assoc in Heq. apply app_inv_head in Heq.
  rewrite E in Heq. cbn [lit app] in Heq. injection Heq as Hc0 _.
  rewrite E in Hn. destruct (valid_name _ _ Hn) as (_ & c' & r' & E' & Hfirst & _). injection E' as -> ->.
  rewrite <- Hc0 in Hfirst. vm_compute in Hfirst. discriminate.
Qed.

(** ** C08 *)

Lemma ss_app_name q t : starts_with $"//" q = false -> starts_with_chr 47 q = true -> starts_with_chr 47 t = false ->
  starts_with $"//" (q ++ t) = false.
Proof.
  intros H1 H2 H3. destruct q as [|a [|b q]]; [discriminate| |exact H1].
  destruct (starts_with $"//" ([a] ++ t)) eqn:E; [|reflexivity].
  apply starts_with_iff in E as [r E]. injection E as _ E. rewrite E in H3. discriminate.
Qed.

Lemma wf_noss i : wf_url i = true -> u_auth i = None -> starts_with $"//" (u_path i) = false.
Proof.
  unfold wf_url. rewrite !andb_true_iff. intros [_ H] E. rewrite E in H.
  apply andb_true_iff in H as [_ H]. destruct (starts_with_chr 47 (u_path i)) eqn:Es.
  - apply andb_true_iff in H as [_ H]. apply negb_true_iff, H.
  - destruct (starts_with $"//" (u_path i)) eqn:E2; [|reflexivity].
    apply starts_with_iff in E2 as [r E2]. rewrite E2 in Es. discriminate.
Qed.

Lemma pct_no_slash enc s : forallb is_pn_prefix_local_rest s = true ->
  forallb (fun c => negb (N.eqb 47 c)) (pct_encode enc s) = true.
Proof.
  intros Hall. apply pct_encode_chars.
  - revert Hall. apply forallb_imp. apply rest_scalar.
  - intros d _ _ Hin. rewrite forallb_forall in Hall. pose proof (rest_noslash false d (Hall d Hin)) as E.
    unfold is_slash in E. apply orb_false_iff in E as [E _]. rewrite N.eqb_sym, E. reflexivity.
  - intros d Hd. unfold is_alnum, is_alpha, is_upper, is_lower, is_digit, in_range in Hd. lia.
  - reflexivity.
Qed.

Lemma make_name_wf i n s v : wf_url i = true -> namespace_like i -> name_from_str s = Ok n ->
  make_name i n = Some v -> wf_url v = true.
Proof.
  intros Hwf Hns Hn Hm. destruct (valid_name _ _ Hn) as (Ht & c & r & E & Hfirst & Hall & _).
  destruct Hns as [Hf|(Hf & Hq & He & Hc)].
  - unfold make_name in Hm. rewrite Hf in Hm. injection Hm as <-.
    unfold with_new_fragment, url_set_fragment. rewrite Ht. apply wf_url_intro_frag; [exact Hwf|].
    rewrite E in *. rewrite skip_tabs_id by (apply name_notab, Hall). apply pct_encode_chars.
    + revert Hall. apply forallb_imp. apply rest_scalar.
    + intros d Ha _ Hin. rewrite forallb_forall in Hall. apply rest_frag_char; auto.
    + intros d Hd. assert (Ha : is_ascii d = true) by (unfold is_alnum, is_alpha, is_upper, is_lower, is_digit, in_range, is_ascii in *; lia).
      revert d Ha Hd. apply ascii_imp. vm_compute; reflexivity.
    + reflexivity.
  - assert (Hwq : wf_hpath (is_special (u_scheme i)) (u_path i) = true).
    { destruct (wf_url_inv i Hwf) as (_ & _ & _ & [[_ [Hp|(_ & _ & Hp)]]|(Hc' & _)]); [exact Hp| |congruence].
      rewrite Hp in He. discriminate. }
    destruct (make_name_path i _ n s Hf Hq Hc He Hwq eq_refl Hn) as [E1 E2]. rewrite E1 in Hm. injection Hm as <-.
    rewrite <- Hq at 1. rewrite <- Hf. destruct (u_auth i) as [a|] eqn:Ea.
    + rewrite <- Ea. apply wf_url_intro_path_auth; [exact Hwf|congruence|exact E2].
    + rewrite <- Ea. apply wf_url_intro_path; [exact Hwf|exact Hc|exact E2|].
      apply ss_app_name; [apply wf_noss; assumption| |].
      * destruct (wf_hpath_cases _ _ Hwq) as (t & -> & _). reflexivity.
      * pose proof (pct_no_slash enc_path s) as Hps. rewrite E in *. specialize (Hps Hall).
        pose proof (pct_nonempty enc_path c r) as Hne.
        destruct (pct_encode enc_path (c :: r)) as [|d t]; [congruence|].
        cbn in *. apply andb_true_iff in Hps as [Hps _]. apply negb_true_iff in Hps.
        rewrite N.eqb_sym. exact Hps.
Qed.

Lemma c08_make_split i n s :
  wf_url i = true -> namespace_like i -> name_from_str s = Ok n ->
  exists v, make_name i n = Some v /\ wf_url v = true /\
    (forallb is_ascii s = true -> split v = Ret (Some (i, n))) /\
    (forallb is_ascii s = false -> split v = Ret None).
Proof.
  intros Hwf Hns Hn. destruct (valid_name _ _ Hn) as (Ht & c & r & E & Hfirst & Hall & _).
  assert (Hex : exists v, make_name i n = Some v).
  { unfold make_name. destruct Hns as [->|(-> & -> & -> & _)]; eexists; reflexivity. }
  destruct Hex as [v Hv]. exists v. split; [exact Hv|]. split; [eapply make_name_wf; eauto|].
  destruct Hns as [Hf|(Hf & Hq & He & Hc)].
  - unfold make_name in Hv. rewrite Hf in Hv. injection Hv as <-. rewrite Ht.
    rewrite split_eq. unfold with_new_fragment, url_set_fragment. cbn [u_frag u_path].
    rewrite E in *. rewrite skip_tabs_id by (apply name_notab, Hall).
    pose proof (pct_nonempty enc_fragment c r) as Hne. split.
    + intros Ha. rewrite pct_encode_id.
      * rewrite Hn. rewrite set_empty_fragment. cbn [u_scheme u_auth u_path u_query].
        do 2 f_equal; [..|f_equal]; apply url_eta; congruence.
      * rewrite forallb_forall in *. intros d Hd. rewrite (Ha d Hd), enc_fragment_name; auto.
    + intros Ha. apply (pct_has_percent enc_fragment) in Ha.
      destruct (pct_encode enc_fragment (c :: r)) as [|d t] eqn:Ep; [congruence|].
      destruct (name_from_str (d :: t)) as [m|] eqn:Em; [|reflexivity].
      exfalso. exact (name_percent _ Ha m Em).
  - assert (Hwq : wf_hpath (is_special (u_scheme i)) (u_path i) = true).
    { destruct (wf_url_inv i Hwf) as (_ & _ & _ & [[_ [Hp|(_ & _ & Hp)]]|(Hc' & _)]); [exact Hp| |congruence].
      rewrite Hp in He. discriminate. }
    destruct (make_name_path i _ n s Hf Hq Hc He Hwq eq_refl Hn) as [E1 E2]. rewrite E1 in Hv. injection Hv as <-.
    set (v := MkUrl (u_scheme i) (u_auth i) (u_path i ++ pct_encode enc_path s) None None).
    assert (Hcv : cannot_be_a_base v = false).
    { unfold v, cannot_be_a_base. cbn [u_auth u_path]. destruct (u_auth i); [reflexivity|].
      destruct (wf_hpath_cases _ _ Hwq) as (t & -> & _). reflexivity. }
    assert (Hne : pct_encode enc_path s <> []) by (rewrite E; apply pct_nonempty).
    assert (Hno : forallb (fun c => negb (N.eqb 47 c)) (pct_encode enc_path s) = true).
    { apply pct_no_slash. rewrite E. exact Hall. }
    pose proof (split_path_computes v (u_path i) (pct_encode enc_path s)
       (or_introl eq_refl) eq_refl Hcv eq_refl Hne Hno He Hwq) as Hsp.
    rewrite Hsp. unfold v. cbn [u_scheme u_auth u_frag]. split.
    + intros Ha. rewrite pct_path_name_id; [|rewrite E; exact Hall|exact Ha]. rewrite Hn.
      do 2 f_equal; [..|f_equal]; apply url_eta; congruence.
    + intros Ha. apply (pct_has_percent enc_path) in Ha.
      destruct (name_from_str (pct_encode enc_path s)) as [m|] eqn:Em; [|reflexivity].
      exfalso. exact (name_percent _ Ha m Em).
Qed.

(** ** C09 *)

Lemma c09_split_panics i : wf_url i = true ->
  (split i = Panic <->
   (u_frag i = None \/ u_frag i = Some []) /\ u_query i = None /\ u_path i <> [] /\
   ends_with_chr 47 (u_path i) = false /\ cannot_be_a_base i = true).
Proof.
  intros Hwf. split.
  - intros H. rewrite split_eq in H.
    assert (Hs : (u_frag i = None \/ u_frag i = Some []) /\ u_path i <> [] /\ split_path i = Panic).
    { destruct (u_frag i) as [[|c f]|].
      - destruct (u_path i); [discriminate|]. auto. split; [auto|]. split; [discriminate|exact H].
      - destruct (name_from_str (c :: f)); discriminate.
      - destruct (u_path i); [discriminate|]. split; [auto|]. split; [discriminate|exact H]. }
    destruct Hs as (Hf & Hp & Hs). unfold split_path in Hs.
    destruct (negb (ends_with_chr 47 (u_path i)) && is_none (u_query i)) eqn:E; [|discriminate].
    apply andb_true_iff in E as [E1 E2]. apply negb_true_iff in E1.
    split; [exact Hf|]. split; [destruct (u_query i); [discriminate|reflexivity]|].
    split; [exact Hp|]. split; [exact E1|].
    unfold url_path_segments in Hs. destruct (strip_prefix_chr 47 (u_path i)) as [r|] eqn:Er.
    { destruct (name_from_str (last (split_on (N.eqb 47) r) [])); discriminate. }
    destruct (wf_url_inv i Hwf) as (_ & _ & _ & [[_ [Hw|(_ & _ & Hw)]]|(Hc & _)]); [| |exact Hc].
    + destruct (wf_hpath_cases _ _ Hw) as (t & Et & _). rewrite Et in Er. discriminate.
    + congruence.
  - intros (Hf & Hq & Hp & He & Hc). rewrite split_eq.
    assert (Hs : split_path i = Panic).
    { unfold split_path. rewrite He, Hq. cbn [negb andb is_none]. unfold url_path_segments.
      pose proof (opaque_no_slash i Hwf Hc) as Hn. destruct (u_path i) as [|x p]; [congruence|].
      cbn in Hn |- *. rewrite Hn. reflexivity. }
    rewrite Hs. destruct Hf as [->| ->]; destruct (u_path i); congruence.
Qed.

(** ** C10 *)

Lemma c10_split_namespace i ns n : wf_url i = true -> split i = Ret (Some (ns, n)) ->
  looks_like_namespace ns = true /\ wf_url ns = true.
Proof.
  intros Hwf H. pose proof (split_shape_intro _ _ _ Hwf H) as Hs.
  destruct Hs as [f n Hf Hne Hn|q s n Hf Hq Hc Hp He Hwq Hn].
  - split; [reflexivity|]. apply wf_url_intro_frag; [exact Hwf|reflexivity].
  - split.
    + unfold looks_like_namespace. cbn [u_frag u_path u_query is_none]. rewrite He. apply orb_true_r.
    + rewrite <- Hq. destruct (u_auth i) as [a|] eqn:Ea.
      * rewrite <- Ea. apply wf_url_intro_path_auth; [exact Hwf|congruence|exact Hwq].
      * rewrite <- Ea. apply wf_url_intro_path; [exact Hwf|exact Hc|exact Hwq|].
        pose proof (wf_noss i Hwf Ea) as Hss. rewrite Hp in Hss.
        destruct q as [|a [|b q]]; [reflexivity|apply andb_false_r|]. exact Hss.
Qed.

Lemma c10_make_name i n : looks_like_namespace i = true -> exists v, make_name i n = Some v.
Proof.
  unfold looks_like_namespace, make_name. destruct (u_frag i) as [[|c f]|]; eauto.
  cbn [orb]. intros ->. eauto.
Qed.

Lemma c10_empty_fragment i : looks_like_namespace (with_empty_fragment i) = true.
Proof. reflexivity. Qed.

Lemma c10_namespace_does_not_split i :
  looks_like_namespace i = true -> u_frag i = None -> split i = Ret None.
Proof.
  intros H Hf. rewrite split_eq, Hf. unfold looks_like_namespace in H. rewrite Hf in H. cbn [orb] in H.
  destruct (u_path i) eqn:Ep; [reflexivity|]. rewrite <- Ep in H. apply andb_true_iff in H as [H1 H2].
  unfold split_path. rewrite H1. reflexivity.
Qed.

(** ** genid *)

Lemma genid_ok i uuid : wf_url i = true ->
  uuid <> [] -> forallb (fun c => is_digit c || in_range 97 102 c) uuid = true ->
  (cannot_be_a_base i = true -> genid i uuid = None) /\
  (cannot_be_a_base i = false ->
     exists v, genid i uuid = Some v /\ wf_url v = true /\
       v = MkUrl (u_scheme i) (u_auth i) ($"/.well-known/genid/" ++ uuid) None None).
Proof.
  intros Hwf Hne Hu. unfold genid, url_join_abs_path. split; intros Hc; rewrite Hc; [reflexivity|].
  assert (Hwg : forall sp, wf_hpath sp $"/.well-known/genid/" = true) by (intros [|]; vm_compute; reflexivity).
  destruct uuid as [|c r]; [congruence|].
  assert (Hrest : forallb is_pn_prefix_local_rest (c :: r) = true /\ forallb is_ascii (c :: r) = true).
  { assert (A : forall d, is_digit d || in_range 97 102 d = true -> is_ascii d = true)
      by (intros d; unfold is_digit, in_range, is_ascii; lia).
    split; revert Hu; apply forallb_imp; intros d Hd; [|auto].
    pose proof (A d Hd) as Ha. revert d Ha Hd.
    apply (ascii_imp (fun d => is_digit d || in_range 97 102 d)). vm_compute. reflexivity. }
  destruct Hrest as [Hrest Hascii].
  assert (Hfirst : is_pn_local_first c = true).
  { cbn [forallb] in Hu. apply andb_true_iff in Hu as [Hu _].
    assert (Ha : is_ascii c = true) by (revert Hu; unfold is_digit, in_range, is_ascii; lia).
    revert c Ha Hu Hne Hrest Hascii. intros c Ha Hu _ _ _. revert c Ha Hu.
    apply (ascii_imp (fun d => is_digit d || in_range 97 102 d)). vm_compute. reflexivity. }
  destruct (parse_path_append (is_special (u_scheme i)) $"/.well-known/genid/" c r (Hwg _) eq_refl Hfirst Hrest) as [E1 E2].
  rewrite E1. rewrite pct_path_name_id in * by assumption.
  eexists. split; [reflexivity|]. split; [|reflexivity].
  assert (Hclean : wf_url (MkUrl (u_scheme i) (u_auth i) (u_path i) None None) = true).
  { revert Hwf. unfold wf_url. cbn [u_scheme u_auth u_path u_query u_frag opt_all].
    rewrite !andb_true_iff. intros [[[H1 _] _] H4]. auto. }
  destruct (u_auth i) as [a|] eqn:Ea.
  - apply (wf_url_intro_path_auth _ _ Hclean); [discriminate|exact E2].
  - apply (wf_url_intro_path _ _ Hclean); [|exact E2|].
    + unfold cannot_be_a_base in *. cbn [u_auth u_path]. rewrite Ea in Hc. exact Hc.
    + reflexivity.
Qed.

(** ** Remaining statements *)

Lemma c06_angle (parse : str -> option url) s :
  (forall r, s = $"<" ++ r ++ $">" -> iri_from_str parse s = parse r) /\
  ((forall r, s <> $"<" ++ r ++ $">") -> iri_from_str parse s = parse s).
Proof.
  unfold iri_from_str. split.
  - intros r ->. change ($"<" ++ r ++ $">") with (60 :: (r ++ [62])).
    assert (E : ends_with_chr 62 (60 :: r ++ [62]) = true) by (apply (ends_with_chr_snoc 62 62 (60 :: r))).
    rewrite E. cbn [starts_with_chr strip_prefix_chr N.eqb Pos.eqb andb].
    rewrite strip_suffix_chr_app. reflexivity.
  - intros Hno. destruct (starts_with_chr 60 s && ends_with_chr 62 s) eqn:E; [|reflexivity].
    apply andb_true_iff in E as [E1 E2]. exfalso.
    destruct s as [|c r]; [discriminate|]. cbn in E1. apply N.eqb_eq in E1. subst c.
    apply ends_with_chr_iff in E2 as [p Hp]. destruct p as [|d p].
    + discriminate.
    + injection Hp as <- Hp. apply (Hno p). rewrite Hp. reflexivity.
Qed.

Lemma iri_eqb_eq a b : wf_url a = true -> wf_url b = true -> (iri_eqb a b = true <-> a = b).
Proof.
  intros Ha Hb. unfold iri_eqb. rewrite str_eqb_eq. split; [|congruence]. apply url_ser_inj; assumption.
Qed.

Lemma c53_genid i uuid : wf_url i = true -> hex_text uuid ->
  (genid i uuid = None <-> cannot_be_a_base i = true) /\
  (forall v, genid i uuid = Some v ->
     wf_url v = true /\ u_scheme v = u_scheme i /\ u_auth v = u_auth i /\
     u_path v = $"/.well-known/genid/" ++ uuid /\ u_query v = None /\ u_frag v = None).
Proof.
  intros Hwf [Hne Hu]. destruct (genid_ok i uuid Hwf Hne Hu) as [H1 H2]. split.
  - split; [|exact H1]. intros H. destruct (cannot_be_a_base i); [reflexivity|].
    destruct (H2 eq_refl) as (v & E & _). congruence.
  - intros v Hv. destruct (cannot_be_a_base i); [rewrite H1 in Hv by reflexivity; discriminate|].
    destruct (H2 eq_refl) as (v' & E & Hwv & ->). rewrite E in Hv. injection Hv as <-. tauto.
Qed.

Lemma c53_genid_inj i a b v : wf_url i = true -> hex_text a -> hex_text b ->
  genid i a = Some v -> genid i b = Some v -> a = b.
Proof.
  intros Hi Ha Hb H1 H2. destruct (c53_genid i a Hi Ha) as [_ K1]. destruct (c53_genid i b Hi Hb) as [_ K2].
  destruct (K1 v H1) as (_ & _ & _ & P1 & _). destruct (K2 v H2) as (_ & _ & _ & P2 & _).
  rewrite P1 in P2. exact (app_inv_head _ _ _ P2).
Qed.

Lemma c08_ascii i n s : wf_url i = true -> namespace_like i -> name_from_str s = Ok n ->
  exists v, make_name i n = Some v /\ wf_url v = true /\
            (split v = Ret (Some (i, n)) <-> forallb is_ascii s = true) /\
            (forallb is_ascii s = false -> split v = Ret None).
Proof.
  intros H1 H2 H3. destruct (c08_make_split i n s H1 H2 H3) as (v & A & B & C & D).
  exists v. split; [exact A|]. split; [exact B|]. split; [|exact D]. split; [|exact C].
  intros Hs. destruct (forallb is_ascii s); [reflexivity|]. rewrite D in Hs by reflexivity. discriminate.
Qed.

Lemma c09_exact i : wf_url i = true ->
  (split i = Panic <-> opaque_with_last_segment i) /\
  (iri_namespace i = Panic <-> opaque_with_last_segment i) /\
  (iri_name i = Panic <-> opaque_with_last_segment i).
Proof.
  intros H. pose proof (c09_split_panics i H) as K. split; [exact K|].
  unfold iri_namespace, iri_name. split; rewrite <- K; destruct (split i); cbn; split; congruence.
Qed.

Lemma c10_halves i :
  (forall ns n, split i = Ret (Some (ns, n)) <-> iri_namespace i = Ret (Some ns) /\ iri_name i = Ret (Some n)) /\
  (split i = Ret None <-> iri_namespace i = Ret None) /\ (split i = Ret None <-> iri_name i = Ret None).
Proof.
  unfold iri_namespace, iri_name. destruct (split i) as [[[a b]|]|]; cbn [outcome_map option_map fst snd]; repeat split; try discriminate; try tauto.
  - congruence.
  - congruence.
  - intros [E F]. congruence.
  - intros [E F]. congruence.
  - intros [E F]. congruence.
Qed.
