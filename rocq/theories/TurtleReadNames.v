(** The names written with a prefix map expand with what is declared (C100). *)
From Coq Require Import Sorting.Permutation.
From Verif Require Import StrFacts PName PNameSpec PNameProofs Url Iri IriSpec IriProofs AMap AMapFacts PrefixMap PrefixMapSpec PrefixMapProofs.
From Verif Require Import TurtleSpec TurtleReadSpec.

Lemma split_text i ns n : wf_url i = true -> split i = Ret (Some (ns, n)) -> u_frag i <> Some [] ->
  url_ser i = url_ser ns ++ name_text n /\ PN_LOCAL (name_text n).
Proof.
  intros W S F. destruct (split_shape_intro _ _ _ W S) as [f n Hf Hne Hn|q s n Hf Hq Hc Hp He Hwq Hn].
  - apply (proj1 (c01_name_grammar f)) in Hn as [L E]. rewrite E. split; [|exact L]. unfold url_ser. cbn [u_scheme u_auth u_path u_query u_frag].
    rewrite Hf. cbn [opt_pre]. rewrite <- !app_assoc. reflexivity.
  - destruct Hf as [Hf|Hf]; [|congruence]. apply (proj1 (c01_name_grammar s)) in Hn as [L E]. rewrite E. split; [|exact L].
    unfold url_ser. cbn [u_scheme u_auth u_path u_query u_frag]. rewrite Hf, Hq, Hp. cbn [opt_pre].
    rewrite <- !app_assoc, !app_nil_r. reflexivity.
Qed.
Lemma url_absolute u : absolute (url_ser u).
Proof. unfold url_ser. eexists. eexists. reflexivity. Qed.

Section Names.
Variable parse : str -> option url.
Hypothesis P : PrefixMapSpec.parser_ok parse.
Lemma c100_names s h m compress mappings : Forall op_ok h -> pm_run parse s h = Ret m -> names_from m compress -> declares m mappings ->
  (forall p ns, In (p, ns) (pm_mappings m) -> PNAME_NS (ns_text p)) ->
  NoDup (map fst mappings) /\ (forall p ns, In (p, ns) mappings -> PNAME_NS (p ++ $":") /\ absolute ns) /\
  forall u, wf_url u = true -> u_frag u <> Some [] -> ~ opaque_with_last_segment u ->
    compress (url_ser u) = Ret None \/
    exists p ns l, compress (url_ser u) = Ret (Some (p ++ $":" ++ l)) /\ In (p, ns) mappings /\ PN_LOCAL l /\ url_ser u = ns ++ l.
Proof.
  intros O R C D V.
  assert (K : forall p ns, In (p, ns) mappings -> exists q u, In (q, u) (pm_mappings m) /\ ns_text q = p ++ $":" /\ url_ser u = ns).
  { intros p ns I. apply (in_map (fun e => (fst e ++ $":", snd e))) in I. apply (Permutation_in _ D) in I.
    apply in_map_iff in I as ([q u] & E & I). injection E as E1 E2. exists q, u. auto. }
  assert (K' : forall q u, In (q, u) (pm_mappings m) -> exists p, ns_text q = p ++ $":" /\ In (p, url_ser u) mappings).
  { intros q u I. apply (in_map (fun e => (ns_text (fst e), url_ser (snd e)))) in I. apply (Permutation_in _ (Permutation_sym D)) in I.
    apply in_map_iff in I as ([p ns] & E & I). injection E as E1 E2. cbn [fst snd] in *. subst ns. exists p. auto. }
  split; [|split].
  - destruct (c11_bijection parse P s h m O R) as (_ & _ & _ & E & _ & N & _). rewrite E in N.
    assert (N' : NoDup (map ns_text (map fst (pm_mappings m)))).
    { apply FinFun.Injective_map_NoDup; [|exact N]. intros [a] [b]. cbn. congruence. }
    apply (Permutation_map fst) in D. rewrite !map_map in D. cbn [fst] in D. rewrite map_map in N'.
    apply (Permutation_NoDup (Permutation_sym D)) in N'. apply (NoDup_map_inv (fun p => p ++ $":")). rewrite map_map. exact N'.
  - intros p ns I. destruct (K _ _ I) as (q & u & J & E & <-). rewrite <- E. split; [eapply V; eauto|apply url_absolute].
  - intros u W F Op. rewrite (C u W). destruct (pm_compress m u) as [[[q n]|]|] eqn:E; [right| |].
    + apply (c57_compress parse P s h m u q n O R W) in E as (ns & S & I). destruct (K' _ _ I) as (p & Ep & J).
      destruct (split_text u ns n W S F) as [T L]. exists p, (url_ser ns), (name_text n). split; [|split; [exact J|split; [exact L|exact T]]].
      cbn [option_map]. unfold local_name_display, namespace_display, name_display. cbn [ln_namespace ln_name]. rewrite Ep, <- app_assoc. reflexivity.
    + left. reflexivity.
    + exfalso. apply Op. unfold pm_compress in E. destruct (split u) as [[[ns n]|]|] eqn:S; [destruct (pm_get_prefix m ns); discriminate|discriminate|].
      apply (c09_split_panics u W). exact S.
Qed.
End Names.
