(** Proofs about rdftk_names (C73, C74). *)
From Coq Require Import Lia.
From Verif Require Import StrFacts PNameProofs IriProofs PrefixMap PrefixMapProofs LiteralProofs Literal.
From Verif Require Export NamesSpec.

Lemma assoc_In {A} k (v : A) l : assoc k l = Some v -> In (k, v) l.
Proof.
  induction l as [|[k' v'] l IH]; cbn; [discriminate|]. destruct (str_eqb k' k) eqn:E.
  - apply str_eqb_eq in E. intros H. injection H as ->. subst. auto.
  - auto.
Qed.
Lemma In_assoc {A} k (v : A) l : NoDup (map fst l) -> In (k, v) l -> assoc k l = Some v.
Proof.
  induction l as [|[k' v'] l IH]; cbn; [tauto|]. intros N [H|H]; inversion N as [|? ? NI N']; subst.
  - injection H as -> ->. rewrite (proj2 (str_eqb_eq k k) eq_refl). reflexivity.
  - destruct (str_eqb k' k) eqn:E; [|auto]. apply str_eqb_eq in E. subst. exfalso. apply NI. apply in_map_iff. exists (k, v). auto.
Qed.
Lemma assoc_insert_same {A} k (v : A) l : assoc k (assoc_insert k v l) = Some v.
Proof.
  induction l as [|[k' v'] l IH]; cbn; [rewrite (proj2 (str_eqb_eq k k) eq_refl); reflexivity|].
  destruct (str_eqb k' k) eqn:E; cbn; rewrite E; auto.
Qed.
Lemma assoc_insert_other {A} k k' (v : A) l : k' <> k -> assoc k (assoc_insert k' v l) = assoc k l.
Proof.
  intros N. induction l as [|[k1 v1] l IH]; cbn.
  - destruct (str_eqb k' k) eqn:E; [apply str_eqb_eq in E; contradiction|reflexivity].
  - destruct (str_eqb k1 k') eqn:E; cbn.
    + apply str_eqb_eq in E. subst k1. destruct (str_eqb k' k) eqn:E2; [apply str_eqb_eq in E2; contradiction|reflexivity].
    + destruct (str_eqb k1 k); auto.
Qed.

Section Facts.
Variable parse : str -> option url.

(** What the cache holds, once it is made. *)
Definition cached (t : table) (nm : str) : option (iri * str) :=
  match member_iri parse t nm with Ret i => Some (i, tb_prefix t ++ $":" ++ nm) | Panic => None end.
Lemma cache_spec t l : forall cache c, cache_from parse t l cache = Ret c ->
  (forall f nm, In (f, nm) l -> member_iri parse t nm <> Panic) /\
  forall nm, assoc nm c = if existsb (fun e => str_eqb (snd e) nm) l then cached t nm else assoc nm cache.
Proof.
  induction l as [|[f n] l IH]; cbn [cache_from existsb snd]; intros cache c H.
  - injection H as <-. split; [intros ? ? []|reflexivity].
  - destruct (member_iri parse t n) as [i|] eqn:M; [|discriminate]. cbn [and_then] in H. destruct (IH _ _ H) as [A B].
    split.
    + intros f' nm [E|K]; [injection E as <- <-; congruence|eauto].
    + intros nm. rewrite B. destruct (existsb _ l); [rewrite orb_true_r; reflexivity|]. rewrite orb_false_r.
      destruct (str_eqb n nm) eqn:E.
      * apply str_eqb_eq in E. subst nm. rewrite assoc_insert_same. unfold cached. rewrite M. reflexivity.
      * apply assoc_insert_other. intros ->. rewrite (proj2 (str_eqb_eq nm nm) eq_refl) in E. discriminate.
Qed.
Lemma cache_panics t l : forall cache, cache_from parse t l cache = Panic <-> exists f nm, In (f, nm) l /\ member_iri parse t nm = Panic.
Proof.
  induction l as [|[f n] l IH]; cbn [cache_from]; intros cache.
  - split; [discriminate|intros (? & ? & [] & _)].
  - destruct (member_iri parse t n) as [i|] eqn:M; cbn [and_then].
    + rewrite IH. split; [intros (f' & nm & I & K); exists f', nm; cbn; auto|].
      intros (f' & nm & [E|I] & K); [injection E as <- <-; congruence|eauto].
    + split; [intros _; exists f, n; cbn; auto|reflexivity].
Qed.
Lemma from_cache_spec {A} (g : iri * str -> A) t f nm : In (f, nm) (tb_members t) ->
  from_cache parse g t nm =
  match make_cache parse t, member_iri parse t nm with
  | Ret _, Ret i => Ret (g (i, tb_prefix t ++ $":" ++ nm))
  | _, _ => Panic
  end.
Proof.
  intros I. unfold from_cache. destruct (make_cache parse t) as [c|] eqn:E; [|reflexivity]. cbn [and_then].
  destruct (cache_spec t (tb_members t) [] c E) as [_ B]. rewrite B.
  replace (existsb _ (tb_members t)) with true.
  2:{ symmetry. apply existsb_exists. exists (f, nm). split; [exact I|]. apply str_eqb_eq. reflexivity. }
  unfold cached. destruct (member_iri parse t nm); reflexivity.
Qed.
Lemma member_panics t nm : member_iri parse t nm = Panic <->
  iri_from_str parse (tb_ns t) = None \/ (forall n, name_from_str nm <> Ok n) \/
  exists u, iri_from_str parse (tb_ns t) = Some u /\ closed_namespace u.
Proof.
  unfold member_iri, ns_iri. destruct (iri_from_str parse (tb_ns t)) as [u|]; cbn [unwrap and_then]; [|intuition].
  destruct (name_from_str nm) as [n|e] eqn:En; cbn [unwrap_ok and_then].
  - unfold closed_namespace. assert (K : make_name u n = None <->
      u_frag u = None /\ (ends_with_chr 47 (u_path u) = false \/ u_query u <> None)).
    { unfold make_name. destruct (u_frag u); [split; [discriminate|intros [H _]; discriminate]|].
      destruct (ends_with_chr 47 (u_path u)), (u_query u); cbn; split; intros H; try discriminate; auto;
        try (split; auto; right; discriminate); destruct H as [_ [H|H]]; congruence. }
    destruct (make_name u n) as [i|]; cbn [unwrap].
    + split; [intros H; discriminate H|]. intros [H|[H|(u' & E & H)]]; [discriminate H|destruct (H n eq_refl)|].
      assert (u' = u) as -> by congruence. apply K in H. discriminate H.
    + split; [intros _|reflexivity]. right. right. exists u. split; [reflexivity|]. apply K. reflexivity.
  - split; [intros _|reflexivity]. right. left. intros n H. discriminate H.
Qed.

Lemma c73_panics t f nm : assoc f (tb_members t) = Some nm ->
  call parse t f = Some Panic <->
  iri_from_str parse (tb_ns t) = None \/
  (exists f' nm', In (f', nm') (tb_members t) /\ forall n, name_from_str nm' <> Ok n) \/
  (exists u, iri_from_str parse (tb_ns t) = Some u /\ closed_namespace u).
Proof.
  intros E. unfold call. rewrite E. cbn [option_map]. pose proof (assoc_In _ _ _ E) as I. rewrite (from_cache_spec _ _ _ _ I).
  assert (K : (make_cache parse t = Panic) <-> exists f nm, In (f, nm) (tb_members t) /\ member_iri parse t nm = Panic) by apply cache_panics.
  split.
  - intros H. assert (P : exists f nm, In (f, nm) (tb_members t) /\ member_iri parse t nm = Panic).
    { destruct (make_cache parse t); [|apply K; reflexivity]. exists f, nm. split; [exact I|].
      destruct (member_iri parse t nm); [discriminate|reflexivity]. }
    destruct P as (f' & nm' & I' & M). apply member_panics in M as [M|[M|M]]; auto. right. left. eauto.
  - intros H. replace (make_cache parse t) with (@Panic (list (str * (iri * str)))); [reflexivity|].
    symmetry. apply K. destruct H as [H|[(f' & nm' & I' & H)|H]].
    + exists f, nm. split; [exact I|]. apply member_panics. auto.
    + exists f', nm'. split; [exact I'|]. apply member_panics. auto.
    + exists f, nm. split; [exact I|]. apply member_panics. auto.
Qed.

Hypothesis P : parser_ok parse.

Lemma from_ser u : wf_url u = true -> iri_from_str parse (url_ser u) = Some u.
Proof. intros W. exact (c06_iri_roundtrip parse P u W true). Qed.

Lemma make_name_ser u nm n : wf_url u = true -> namespace_like u -> name_from_str nm = Ok n -> forallb is_ascii nm = true ->
  exists i, make_name u n = Some i /\ url_ser i = url_ser u ++ nm /\ wf_url i = true.
Proof.
  intros W NL Hn Ha. destruct (valid_name _ _ Hn) as (Ht & c & r & E & Hfirst & Hall & _).
  destruct (c08_make_split u n nm W NL Hn) as (v & Hv & Wv & _). exists v. split; [exact Hv|]. split; [|exact Wv].
  destruct NL as [Hf|(Hf & Hq & He & Hc)].
  - unfold make_name in Hv. rewrite Hf in Hv. injection Hv as <-. unfold with_new_fragment, url_set_fragment, url_ser.
    cbn [u_scheme u_auth u_path u_query u_frag]. rewrite Hf, Ht. rewrite skip_tabs_id by (rewrite E; apply name_notab, Hall).
    rewrite pct_encode_id; [cbn [opt_pre]; rewrite <- !app_assoc, app_nil_l; reflexivity|].
    rewrite E in *. rewrite forallb_forall in *. intros d Hd. rewrite (Ha d Hd), enc_fragment_name; auto.
  - assert (Hwq : wf_hpath (is_special (u_scheme u)) (u_path u) = true).
    { destruct (wf_url_inv u W) as (_ & _ & _ & [[_ [Hp|(_ & _ & Hp)]]|(Hc' & _)]); [exact Hp| |congruence].
      rewrite Hp in He. discriminate. }
    destruct (make_name_path u _ n nm Hf Hq Hc He Hwq eq_refl Hn) as [E1 _]. rewrite E1 in Hv. injection Hv as <-.
    rewrite pct_path_name_id; [|rewrite E; exact Hall|exact Ha]. unfold url_ser. cbn [u_scheme u_auth u_path u_query u_frag].
    rewrite Hf, Hq. cbn [opt_pre]. rewrite !app_nil_r, <- !app_assoc. reflexivity.
Qed.

Lemma sound_member t f nm : sound t -> In (f, nm) (tb_members t) ->
  exists i, member_iri parse t nm = Ret i /\ url_ser i = tb_ns t ++ nm /\ wf_url i = true.
Proof.
  intros ((u & W & NL & E) & M) I. destruct (M _ _ I) as [V A].
  destruct (make_name_ser u nm _ W NL V A) as (i & Hm & Hs & Wi). exists i. rewrite <- E.
  unfold member_iri, ns_iri. rewrite <- E, from_ser by exact W. cbn [unwrap and_then]. rewrite V. cbn [unwrap_ok and_then]. rewrite Hm. auto.
Qed.
Lemma sound_cache t : sound t -> exists c, make_cache parse t = Ret c.
Proof.
  intros S. destruct (make_cache parse t) as [c|] eqn:E; [eauto|]. exfalso. apply cache_panics in E as (f & nm & I & H).
  destruct (sound_member t f nm S I) as (i & Hi & _). congruence.
Qed.
Lemma c73_member t f nm : sound t -> assoc f (tb_members t) = Some nm ->
  call_str t f = Some nm /\ call_qname parse t f = Some (Ret (tb_prefix t ++ $":" ++ nm)) /\
  exists i, call parse t f = Some (Ret i) /\ url_ser i = tb_ns t ++ nm /\ wf_url i = true.
Proof.
  intros S E. pose proof (assoc_In _ _ _ E) as I. unfold call, call_qname, call_str. rewrite E. cbn [option_map].
  rewrite !(from_cache_spec _ _ _ _ I). destruct (sound_cache t S) as (c & ->). destruct (sound_member t f nm S I) as (i & -> & Hs & W).
  split; [reflexivity|]. split; [reflexivity|]. exists i. auto.
Qed.
Lemma c73_distinct t f f' i j : sound t -> call parse t f = Some (Ret i) -> call parse t f' = Some (Ret j) ->
  i = j <-> call_str t f = call_str t f'.
Proof.
  intros S H K. assert (X : exists n n', call_str t f = Some n /\ call_str t f' = Some n').
  { unfold call in H, K. unfold call_str. destruct (assoc f (tb_members t)), (assoc f' (tb_members t)); try discriminate; eauto. }
  destruct X as (n & n' & A & B). destruct (c73_member t f n S A) as (_ & _ & i' & Hi & Si & Wi).
  destruct (c73_member t f' n' S B) as (_ & _ & j' & Hj & Sj & Wj). rewrite A, B.
  assert (i' = i) by congruence. assert (j' = j) by congruence. subst i' j'. split.
  - intros ->. f_equal. apply (app_inv_head (tb_ns t)). congruence.
  - intros E. assert (url_ser i = url_ser j) by congruence. apply P in Wi, Wj. congruence.
Qed.

Lemma c73_namespace t : sound t -> exists ns, namespace_fn parse t = Ret ns /\ url_ser ns = namespace_str t /\ looks_like_namespace ns = true /\
  forall f i, call parse t f = Some (Ret i) -> exists nm, call_str t f = Some nm /\ url_ser i = url_ser ns ++ nm.
Proof.
  intros S. destruct S as ((u & W & NL & E) & M). exists u. unfold namespace_fn, ns_iri, namespace_str. rewrite <- E, from_ser by exact W.
  split; [reflexivity|]. split; [reflexivity|]. split; [unfold looks_like_namespace; destruct NL as [-> | (-> & -> & -> & _)]; reflexivity|].
  intros f i C. destruct (assoc f (tb_members t)) as [nm|] eqn:A; [|unfold call in C; rewrite A in C; discriminate].
  destruct (c73_member t f nm) as (S1 & _ & j & Hj & Sj & _); [split; [exists u; auto|exact M]|exact A|]. exists nm. split; [exact S1|].
  rewrite E. congruence.
Qed.

(** ** Names in a prefix map *)
Lemma c73_map t f nm s h m u : sound t -> assoc f (tb_members t) = Some nm ->
  namespace_from_str (tb_prefix t ++ $":") = Ok (MkNamespace (tb_prefix t ++ $":")) ->
  Forall op_ok h -> pm_run parse s h = Ret m ->
  In (MkNamespace (tb_prefix t ++ $":"), u) (pm_mappings m) -> url_ser u = tb_ns t ->
  exists q l i, call_qname parse t f = Some (Ret q) /\ local_name_from_str q = Ok l /\
    call parse t f = Some (Ret i) /\ pm_expand m l = Some i /\ pm_compress m i = Ret (Some l).
Proof.
  intros S E Hp Ho Hr Hin Hu. destruct (c73_member t f nm S E) as (_ & Q & i & Hc & Si & Wi).
  destruct S as ((u' & W & NL & Eu) & M). destruct (M _ _ (assoc_In _ _ _ E)) as [V A].
  set (l := MkLocalName (MkNamespace (tb_prefix t ++ $":")) (MkName nm)).
  exists (tb_prefix t ++ $":" ++ nm), l, i. split; [exact Q|]. split.
  { replace (tb_prefix t ++ $":" ++ nm) with (local_name_display l).
    - exact (local_name_from_display _ _ _ _ Hp V).
    - unfold local_name_display, namespace_display, name_display. cbn [ln_namespace ln_name ns_text name_text l]. rewrite <- app_assoc. reflexivity. }
  split; [exact Hc|]. destruct (pm_run_inv parse P s h m Ho Hr) as [Hi _].
  assert (Hb := proj2 (pm_get_ns m (ln_namespace l) u Hi) Hin).
  assert (Wu : wf_url u = true) by (eapply pm_in_wf; [exact Hi|exact Hin]).
  assert (u' = u) as ->. { assert (H := P _ Wu). rewrite Hu, <- Eu, (P _ W) in H. congruence. }
  destruct (c14_expand_compress parse P s h m l u nm Ho Hr V Hb NL) as (v & Ev & Hcm & _).
  assert (v = i) as ->; [|tauto].
  unfold pm_expand in Ev. rewrite Hb in Ev. change (make_name u (MkName nm) = Some v) in Ev.
  destruct (make_name_ser u nm _ W NL V A) as (v' & Ev' & Sv & Wv). assert (v' = v) by congruence. subst v'.
  assert (H := P _ Wv). rewrite Sv, Hu, <- Si, (P _ Wi) in H. congruence.
Qed.
End Facts.

(** ** The shipped vocabularies *)
Definition sound_b (t : table) : bool :=
  match url_reparse (tb_ns t) with
  | Some u => wf_url u && str_eqb (url_ser u) (tb_ns t) &&
      match u_frag u with
      | Some [] => true
      | Some _ => false
      | None => is_none (u_query u) && ends_with_chr 47 (u_path u) && negb (cannot_be_a_base u)
      end
  | None => false
  end &&
  forallb (fun e => match name_from_str (snd e) with
                    | Ok n => str_eqb (name_text n) (snd e) && forallb is_ascii (snd e)
                    | Err _ => false end) (tb_members t).
Lemma sound_b_ok t : sound_b t = true -> sound t.
Proof.
  unfold sound_b. intros H. apply andb_true_iff in H as [H1 H2]. split.
  - destruct (url_reparse (tb_ns t)) as [u|]; [|discriminate]. apply andb_true_iff in H1 as [H1 H3].
    apply andb_true_iff in H1 as [W E]. apply str_eqb_eq in E. exists u. split; [exact W|]. split; [|exact E].
    unfold namespace_like. destruct (u_frag u) as [[|c r]|]; [auto|discriminate|]. right.
    apply andb_true_iff in H3 as [H3 C]. apply andb_true_iff in H3 as [Q Ed]. apply negb_true_iff in C.
    destruct (u_query u); [discriminate|]. auto.
  - intros f nm I. rewrite forallb_forall in H2. specialize (H2 _ I). cbn [snd] in H2. unfold valid_member.
    destruct (name_from_str nm) as [[x]|]; [|discriminate]. apply andb_true_iff in H2 as [E A]. apply str_eqb_eq in E. cbn in E.
    subst x. auto.
Qed.
Fixpoint nodup_b (l : list str) : bool :=
  match l with [] => true | x :: r => negb (existsb (str_eqb x) r) && nodup_b r end.
Lemma nodup_b_ok l : nodup_b l = true -> NoDup l.
Proof.
  induction l as [|x r IH]; cbn; intros H; [constructor|]. apply andb_true_iff in H as [H1 H2]. constructor; [|auto].
  intros I. apply negb_true_iff in H1. assert (existsb (str_eqb x) r = true); [|congruence].
  apply existsb_exists. exists x. split; [exact I|]. apply str_eqb_eq. reflexivity.
Qed.
Lemma shipped_all (b : table -> bool) t : forallb b shipped = true -> In t shipped -> b t = true.
Proof. rewrite forallb_forall. auto. Qed.
Lemma c73_shipped t : In t shipped -> sound t /\ distinct_functions t /\
  default_prefix_fn t = Ret (MkName (tb_prefix t)) /\
  namespace_from_str (tb_prefix t ++ $":") = Ok (MkNamespace (tb_prefix t ++ $":")).
Proof.
  intros I. split; [|split; [|split]].
  - apply sound_b_ok. apply (shipped_all sound_b); [vm_compute; reflexivity|exact I].
  - apply nodup_b_ok. apply (shipped_all (fun t => nodup_b (map fst (tb_members t)))); [vm_compute; reflexivity|exact I].
  - assert (H : (match default_prefix_fn t with Ret n => str_eqb (name_text n) (tb_prefix t) | Panic => false end) = true).
    { apply (shipped_all (fun t => match default_prefix_fn t with Ret n => str_eqb (name_text n) (tb_prefix t) | Panic => false end)); [vm_compute; reflexivity|exact I]. }
    destruct (default_prefix_fn t) as [[x]|]; [|discriminate]. apply str_eqb_eq in H. cbn in H. congruence.
  - assert (H : (match namespace_from_str (tb_prefix t ++ $":") with Ok n => str_eqb (ns_text n) (tb_prefix t ++ $":") | Err _ => false end) = true).
    { apply (shipped_all (fun t => match namespace_from_str (tb_prefix t ++ $":") with Ok n => str_eqb (ns_text n) (tb_prefix t ++ $":") | Err _ => false end)); [vm_compute; reflexivity|exact I]. }
    destruct (namespace_from_str _) as [[x]|]; [|discriminate]. apply str_eqb_eq in H. cbn [ns_text] in H. congruence.
Qed.
(** Every shipped function, and its name in any prefix map that knows the namespace. *)
Lemma c73_functions parse t f nm : parser_ok parse -> In t shipped -> In (f, nm) (tb_members t) ->
  call_str t f = Some nm /\ call_qname parse t f = Some (Ret (tb_prefix t ++ $":" ++ nm)) /\
  exists i, call parse t f = Some (Ret i) /\ url_ser i = tb_ns t ++ nm /\ wf_url i = true.
Proof.
  intros P I M. destruct (c73_shipped t I) as (S & D & _). apply c73_member; [exact P|exact S|]. apply In_assoc; [exact D|exact M].
Qed.
Lemma c73_prefix_map parse t f nm s h m u : parser_ok parse -> In t shipped -> In (f, nm) (tb_members t) ->
  Forall op_ok h -> pm_run parse s h = Ret m ->
  In (MkNamespace (tb_prefix t ++ $":"), u) (pm_mappings m) -> url_ser u = tb_ns t ->
  exists q l i, call_qname parse t f = Some (Ret q) /\ local_name_from_str q = Ok l /\
    call parse t f = Some (Ret i) /\ pm_expand m l = Some i /\ pm_compress m i = Ret (Some l).
Proof.
  intros P I M. destruct (c73_shipped t I) as (S & D & _ & N). apply c73_map with (nm := nm); auto. apply In_assoc; [exact D|exact M].
Qed.

(** ** Container membership properties *)
Lemma digit_rest c : is_digit c = true -> is_pn_prefix_local_rest c = true /\ is_ascii c = true.
Proof.
  intros H. split.
  - unfold is_pn_prefix_local_rest, is_pn_chars. rewrite H, !orb_true_r. reflexivity.
  - unfold is_ascii. unfold is_digit, in_range in H. apply andb_true_iff in H as [_ H]. apply N.leb_le in H. apply N.ltb_lt. lia.
Qed.
Lemma index_name n : valid_member ($"_" ++ dec_N n).
Proof.
  assert (K : Forall (fun c => is_digit c = true) (dec_N n)) by apply dec_N_digits.
  split.
  - change ($"_" ++ dec_N n) with (95 :: dec_N n). unfold name_from_str.
    replace (ends_with_chr 46 (95 :: dec_N n)) with false.
    + replace (forallb is_pn_prefix_local_rest (dec_N n)) with true; [reflexivity|]. symmetry. apply forallb_forall.
      rewrite Forall_forall in K. intros c Hc. apply digit_rest, K, Hc.
    + symmetry. apply not_true_iff_false. intros H. apply ends_with_chr_iff in H as (p & E).
      destruct p as [|x p]; [discriminate|]. injection E as _ E. rewrite Forall_forall in K.
      assert (X : is_digit 46 = true) by (apply K; rewrite E; apply in_or_app; right; left; reflexivity). discriminate.
  - change ($"_" ++ dec_N n) with (95 :: dec_N n). cbn [forallb]. apply forallb_forall. rewrite Forall_forall in K.
    intros c Hc. apply digit_rest, K, Hc.
Qed.
Lemma c73_container parse n : parser_ok parse ->
  exists i, member_fn parse tb_rdf (dec_N n) = Ret i /\
    url_ser i = $"http://www.w3.org/1999/02/22-rdf-syntax-ns#_" ++ dec_N n /\
    member_qname tb_rdf (dec_N n) = $"rdf:_" ++ dec_N n.
Proof.
  intros P. destruct (c73_shipped tb_rdf) as (((u & W & NL & E) & _) & _); [cbn; tauto|].
  destruct (index_name n) as [V A]. destruct (make_name_ser u _ _ W NL V A) as (i & _ & Hs & Wi). exists i.
  rewrite E in Hs. split.
  - unfold member_fn. rewrite <- Hs, (from_ser parse P i Wi). reflexivity.
  - split; [exact Hs|reflexivity].
Qed.
Lemma c73_container_distinct parse n m i : parser_ok parse ->
  member_fn parse tb_rdf (dec_N n) = Ret i -> member_fn parse tb_rdf (dec_N m) = Ret i -> n = m.
Proof.
  intros P H K. destruct (c73_container parse n P) as (i' & H' & Hs & _). destruct (c73_container parse m P) as (j & K' & Ks & _).
  assert (i' = i) by congruence. assert (j = i) by congruence. subst i' j. rewrite Hs in Ks. apply app_inv_head in Ks. apply dec_N_inj, Ks.
Qed.

(** ** C74 *)
Definition mem_b (l : list str) (x : str) : bool := existsb (str_eqb x) l.
Lemma mem_b_iff l x : mem_b l x = true <-> In x l.
Proof.
  unfold mem_b. rewrite existsb_exists. split.
  - intros (y & I & E). apply str_eqb_eq in E. subst. exact I.
  - intros I. exists x. split; [exact I|]. apply str_eqb_eq. reflexivity.
Qed.
Lemma diff_spec names terms d : filter (fun x => negb (mem_b terms x)) names = d ->
  forall x, In x names /\ ~ In x terms <-> In x d.
Proof.
  intros <- x. rewrite filter_In, negb_true_iff, <- not_true_iff_false, (mem_b_iff terms). reflexivity.
Qed.
Lemma same_spec names terms : forallb (mem_b terms) names && forallb (mem_b names) terms = true ->
  forall x, In x names <-> In x terms.
Proof.
  intros H x. apply andb_true_iff in H as [H K]. rewrite forallb_forall in H, K. split; intros I.
  - apply mem_b_iff, H, I.
  - apply mem_b_iff, K, I.
Qed.
Lemma c74_rdf nm : In nm (map snd (tb_members tb_rdf)) <-> In nm rdf_terms.
Proof. apply same_spec. vm_compute. reflexivity. Qed.
Lemma c74_skos nm : In nm (map snd (tb_members tb_skos)) <-> In nm skos_terms.
Proof. apply same_spec. vm_compute. reflexivity. Qed.
Lemma c74_rdfs nm : In nm (map snd (tb_members tb_rdfs)) /\ ~ In nm rdfs_terms <->
  In nm [$"langString"; $"HTML"; $"XMLLiteral"; $"Property"; $"value"].
Proof. apply diff_spec. vm_compute. reflexivity. Qed.
Lemma c74_rdfs_complete nm : In nm rdfs_terms -> In nm (map snd (tb_members tb_rdfs)).
Proof. intros I. apply mem_b_iff. revert nm I. apply forallb_forall. vm_compute. reflexivity. Qed.
Lemma c74_xsd nm : In nm (map snd (tb_members tb_xsd)) /\ ~ In nm xsd_terms <-> In nm [$"entity"; $"NS"].
Proof. apply diff_spec. vm_compute. reflexivity. Qed.
Lemma c74_xsd_missing nm : In nm xsd_terms /\ ~ In nm (map snd (tb_members tb_xsd)) <->
  In nm [$"anySimpleType"; $"anyAtomicType"; $"negativeInteger"; $"ENTITY"; $"ENTITIES"].
Proof. apply diff_spec. vm_compute. reflexivity. Qed.
Lemma c74_owl nm : In nm (map snd (tb_members tb_owl)) /\ ~ In nm owl_terms <-> In nm [$"incompatible_with"; $"version"].
Proof. apply diff_spec. vm_compute. reflexivity. Qed.
Lemma c74_owl_missing nm : In nm owl_terms /\ ~ In nm (map snd (tb_members tb_owl)) <->
  In nm [$"bottomDataProperty"; $"bottomObjectProperty"; $"incompatibleWith"; $"topDataProperty"; $"topObjectProperty"; $"Annotation";
         $"DataRange"; $"onDataRange"; $"onProperties"; $"versionIRI"].
Proof. apply diff_spec. vm_compute. reflexivity. Qed.
(** Prefixes and namespaces agree between the two crates. *)
Lemma c74_agree t v : In t shipped -> In v all_vocabularies ->
  (tb_prefix t = voc_prefix v <-> tb_ns t = voc_iri v).
Proof.
  intros It Iv.
  assert (K : forallb (fun t => forallb (fun v => Bool.eqb (str_eqb (tb_prefix t) (voc_prefix v)) (str_eqb (tb_ns t) (voc_iri v)))
                all_vocabularies) shipped = true) by (vm_compute; reflexivity).
  rewrite forallb_forall in K. specialize (K t It). rewrite forallb_forall in K. specialize (K v Iv). apply eqb_prop in K.
  rewrite <- !str_eqb_eq, K. reflexivity.
Qed.

(** ** The other vocabularies *)
Lemma c74_dc nm : (In nm (map snd (tb_members tb_dc_elements)) <-> In nm dc_elements_terms) /\
  (In nm (map snd (tb_members tb_dcmi_type)) <-> In nm dcmi_type_terms) /\
  (In nm (map snd (tb_members tb_dcam)) <-> In nm dcam_terms) /\
  (In nm (map snd (tb_members tb_dc_terms)) -> In nm dc_terms_terms).
Proof.
  split; [|split; [|split]]; [apply same_spec; vm_compute; reflexivity|apply same_spec; vm_compute; reflexivity|apply same_spec; vm_compute; reflexivity|].
  intros I. apply mem_b_iff. revert nm I. apply forallb_forall. vm_compute. reflexivity.
Qed.
Lemma c74_dc_missing nm : In nm dc_terms_terms /\ ~ In nm (map snd (tb_members tb_dc_terms)) <->
  In nm [$"tableOfContents"; $"ProvenanceStatement"].
Proof. apply diff_spec. vm_compute. reflexivity. Qed.
Lemma c74_prefixes t : In t shipped -> In (tb_prefix t, tb_ns t) customary_prefixes.
Proof.
  intros I. assert (K : forallb (fun t => existsb (fun p => str_eqb (fst p) (tb_prefix t) && str_eqb (snd p) (tb_ns t)) customary_prefixes) shipped = true)
    by (vm_compute; reflexivity).
  rewrite forallb_forall in K. apply K, existsb_exists in I as ([p n] & J & E). cbn [fst snd] in E. apply andb_true_iff in E as [A B].
  apply str_eqb_eq in A, B. congruence.
Qed.
Lemma c74_geo nm : In nm (map snd (tb_members tb_geo)) -> In nm geo_terms.
Proof. intros I. apply mem_b_iff. revert nm I. apply forallb_forall. vm_compute. reflexivity. Qed.
Lemma c74_foaf nm : In nm (map snd (tb_members tb_foaf)) /\ ~ In nm foaf_terms <-> In nm [$"primaryTopicOf"].
Proof. apply diff_spec. vm_compute. reflexivity. Qed.

(** ** Functions and names *)
Definition spelled_b (f nm : str) : bool :=
  existsb (fun '(b, a) => str_eqb (letters f) (b ++ letters nm ++ a)) [([], []); ($"a", []); ($"an", []); ([], $"classify"); ([], $"literal")].
Lemma c74_spelled t f nm : In t shipped -> In (f, nm) (tb_members t) -> spelled_like f nm.
Proof.
  intros T I.
  assert (B : forallb (fun p => spelled_b (fst p) (snd p)) (tb_members t) = true).
  { apply (shipped_all (fun t => forallb (fun p => spelled_b (fst p) (snd p)) (tb_members t))); [vm_compute; reflexivity|exact T]. }
  rewrite forallb_forall in B. specialize (B _ I). unfold spelled_b in B. apply existsb_exists in B as ([b a] & J & E).
  cbn [fst snd] in E. apply str_eqb_eq in E. exists b, a. auto.
Qed.
Lemma nodup_snd (l : list (str * str)) f f' n : NoDup (map snd l) -> In (f, n) l -> In (f', n) l -> f = f'.
Proof.
  induction l as [|[k v] l IH]; cbn; [intros _ []|]. intros N A B. inversion N as [|? ? NI N']; subst.
  assert (X : forall g, In (g, n) l -> In n (map snd l)) by (intros g J; apply in_map_iff; exists (g, n); auto).
  destruct A as [A|A], B as [B|B]; try congruence.
  - injection A as -> ->. exfalso. apply NI. eapply X. exact B.
  - injection B as -> ->. exfalso. apply NI. eapply X. exact A.
  - eapply IH; eassumption.
Qed.
Lemma c73_one_each parse t f f' i : parser_ok parse -> In t shipped ->
  call parse t f = Some (Ret i) -> call parse t f' = Some (Ret i) -> f = f'.
Proof.
  intros P T A B. assert (C : call_str t f = call_str t f').
  { apply (c73_distinct parse P t f f' i i); [apply c73_shipped, T|exact A|exact B|reflexivity]. }
  unfold call_str in C. unfold call in A, B. destruct (assoc f (tb_members t)) as [n|] eqn:E; [|discriminate A]. symmetry in C.
  assert (N : nodup_b (map snd (tb_members t)) = true).
  { apply (shipped_all (fun t => nodup_b (map snd (tb_members t)))); [vm_compute; reflexivity|exact T]. }
  apply nodup_b_ok in N. eapply nodup_snd; [exact N|apply assoc_In, E|apply assoc_In, C].
Qed.
