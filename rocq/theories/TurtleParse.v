(** The reference parser finds the document that was written, unless it has a collection of
    more than one item. *)
From Verif Require Import Turtle TurtleSpec TurtleReadSpec TurtleTop.
From Coq Require Import Lia.

Notation comma := [Sign [44]].
Notation tp := (tree_pieces comma).
(** Trees without empty lists of objects. *)
Inductive good : tree -> Prop :=
| Gd_leaf w : good (Leaf w)
| Gd_props po : (forall e, In e po -> snd e <> []) -> (forall e t, In e po -> In t (snd e) -> good t) -> good (Props po)
| Gd_items l : (forall t, In t l -> good t) -> good (Items l).
Definition good_entry (e : str * list tree) : Prop := snd e <> [] /\ forall t, In t (snd e) -> good t.
Definition short (t : tree) : Prop := long_items t = 0%nat.
Definition not_sign (k : chr) (l : list piece) : Prop := match l with Sign [x] :: _ => x <> k | _ => True end.

Lemma tree_first t : good t -> exists p r, tp t = p :: r /\ (p = Sign [91] \/ p = Sign [40] \/ exists w, p = Word w).
Proof. intros [w|po _ _|l _]; cbn [tree_pieces]; eexists; eexists; (split; [reflexivity|]); eauto. Qed.
Lemma joinp_cons sep (x : list piece) y l : joinp sep (x :: y :: l) = x ++ sep ++ joinp sep (y :: l).
Proof. reflexivity. Qed.
Lemma props_pieces po : tp (Props po) = Sign [91] :: entries_pieces comma po ++ [Sign [93]].
Proof. reflexivity. Qed.
Lemma items_pieces l : tp (Items l) = Sign [40] :: joinp comma (map tp l) ++ [Sign [41]].
Proof. reflexivity. Qed.
Lemma entries_cons e e' po : entries_pieces comma (e :: e' :: po) = entry_pieces comma e ++ [Sign [59]] ++ entries_pieces comma (e' :: po).
Proof. reflexivity. Qed.
Lemma entry_word e : entry_pieces comma e = Word (fst e) :: joinp comma (map tp (snd e)).
Proof. reflexivity. Qed.

Definition obj_ok (f : nat) : Prop := forall t rest r, good t -> p_object f (tp t ++ rest) = Some r -> r = (t, rest) /\ short t.
Definition objs_ok (f : nat) : Prop := forall ts rest r, ts <> [] -> (forall t, In t ts -> good t) -> not_sign 44 rest ->
  p_objects f (joinp comma (map tp ts) ++ rest) = Some r -> r = (ts, rest) /\ forall t, In t ts -> short t.
Definition ents_ok (f : nat) : Prop := forall po rest r, po <> [] -> (forall e, In e po -> good_entry e) ->
  not_sign 44 rest -> not_sign 59 rest ->
  p_entries f (entries_pieces comma po ++ rest) = Some r -> r = (po, rest) /\ forall e t, In e po -> In t (snd e) -> short t.
Definition items_ok (f : nat) : Prop := forall ts rest r, (forall t, In t ts -> good t) ->
  p_items f (joinp comma (map tp ts) ++ Sign [41] :: rest) = Some r ->
  r = (ts, rest) /\ (length ts <= 1)%nat /\ forall t, In t ts -> short t.

Lemma not_sign_head k l (X : Type) (a : list piece -> X) (b : X) :
  not_sign k l -> (match l with Sign [x] :: r => if N.eqb x k then a r else b | _ => b end) = b.
Proof.
  destruct l as [|[w|[|x [|y s]]|s] l]; cbn; auto. intros H. apply N.eqb_neq in H. rewrite H. reflexivity.
Qed.
(** The functions, with their matches as tests. *)
Lemma p_objects_S f l : p_objects (S f) l =
  match p_object f l with
  | Some (t, r) =>
      match r with
      | Sign [x] :: r' => if N.eqb x 44 then match p_objects f r' with Some (ts, r'') => Some (t :: ts, r'') | None => None end else Some ([t], r)
      | _ => Some ([t], r)
      end
  | None => None
  end.
Proof.
  cbn [p_objects]. destruct (p_object f l) as [[t [|[w|[|x [|y s]]|s] r]]|]; try reflexivity.
  - destruct x as [|x]; [reflexivity|]. do 6 (destruct x as [x|x|]; try reflexivity).
  - destruct x as [|x]; [reflexivity|]. do 6 (destruct x as [x|x|]; try reflexivity).
Qed.
Lemma p_entries_S f l : p_entries (S f) l =
  match l with
  | Word v :: r =>
      match p_objects f r with
      | Some (ts, r') =>
          match r' with
          | Sign [x] :: r'' => if N.eqb x 59 then match p_entries f r'' with Some (po, k) => Some ((v, ts) :: po, k) | None => None end else Some ([(v, ts)], r')
          | _ => Some ([(v, ts)], r')
          end
      | None => None
      end
  | _ => None
  end.
Proof.
  cbn [p_entries]. destruct l as [|[v|s|s] l]; try reflexivity.
  destruct (p_objects f l) as [[ts [|[w|[|x [|y s]]|s] r]]|]; try reflexivity.
  - destruct x as [|x]; [reflexivity|]. do 6 (destruct x as [x|x|]; try reflexivity).
  - destruct x as [|x]; [reflexivity|]. do 6 (destruct x as [x|x|]; try reflexivity).
Qed.
Lemma p_items_item f t rest : good t -> p_items (S f) (tp t ++ rest) =
  match p_object f (tp t ++ rest) with
  | Some (t', r) => match p_items f r with Some (ts, r') => Some (t' :: ts, r') | None => None end
  | None => None
  end.
Proof. intros G. destruct (tree_first t G) as (p & r & E & H). rewrite E. cbn [app p_items]. destruct H as [->|[->|(w & ->)]]; reflexivity. Qed.
Lemma p_object_comma f rest : p_object f (Sign [44] :: rest) = None.
Proof. destruct f; reflexivity. Qed.
Lemma p_items_comma f rest : p_items f (Sign [44] :: rest) = None.
Proof. destruct f; [reflexivity|]. cbn [p_items]. rewrite p_object_comma. reflexivity. Qed.

Lemma parser_ok : forall f, obj_ok f /\ objs_ok f /\ ents_ok f /\ items_ok f.
Proof.
  induction f as [|f (Io & Is & Ie & Ii)]; [repeat split; intros; discriminate|]. split; [|split; [|split]].
  - intros t rest r G H. destruct G as [w|po Ne Gd|l Gd].
    + injection H as <-. split; reflexivity.
    + rewrite props_pieces in H. destruct po as [|e po]; [injection H as <-; split; reflexivity|].
      assert (E : entries_pieces comma (e :: po) = Word (fst e) :: tl (entries_pieces comma (e :: po))) by (destruct po; reflexivity).
      cbn [app] in H. rewrite <- app_assoc in H. cbn [app] in H. cbn [p_object] in H. rewrite E in H. cbn [app] in H.
      change (Word (fst e) :: tl (entries_pieces comma (e :: po)) ++ Sign [93] :: rest) with ((Word (fst e) :: tl (entries_pieces comma (e :: po))) ++ Sign [93] :: rest) in H.
      rewrite <- E in H. destruct (p_entries f (entries_pieces comma (e :: po) ++ Sign [93] :: rest)) as [x|] eqn:X; [|discriminate].
      apply Ie in X as [-> Sh]; [|discriminate| |discriminate|discriminate].
      * injection H as <-. split; [reflexivity|]. unfold short. cbn [long_items]. apply list_sum_0. intros y I. apply list_sum_0. intros t J.
        exact (Sh y t I J).
      * intros y I. split; [apply Ne, I|]. intros t J. eapply Gd; eauto.
    + rewrite items_pieces in H. cbn [app] in H. rewrite <- app_assoc in H. cbn [app p_object] in H.
      destruct (p_items f (joinp comma (map tp l) ++ Sign [41] :: rest)) as [x|] eqn:X; [|discriminate].
      apply Ii in X as (-> & L & Sh); [|exact Gd]. injection H as <-. split; [reflexivity|]. unfold short. cbn [long_items].
      rewrite (list_sum_0 long_items l Sh). destruct l as [|a [|b l]]; cbn in L |- *; try reflexivity. lia.
  - intros ts rest r Ne Gd Nc H. rewrite p_objects_S in H. destruct ts as [|t [|t' ts]]; [congruence| |].
    + cbn [map joinp] in H. destruct (p_object f (tp t ++ rest)) as [x|] eqn:X; [|discriminate].
      apply Io in X as [-> Sh]; [|apply Gd; left; reflexivity]. rewrite (not_sign_head 44 rest _ (fun r' => match p_objects f r' with Some (ts, r'') => Some (t :: ts, r'') | None => None end)) in H by exact Nc. injection H as <-.
      split; [reflexivity|]. intros y [<-|[]]. exact Sh.
    + cbn [map] in H. rewrite joinp_cons, <- app_assoc in H. cbn [app] in H.
      destruct (p_object f (tp t ++ _)) as [x|] eqn:X; [|discriminate].
      apply Io in X as [-> Sh]; [|apply Gd; left; reflexivity]. change (N.eqb 44 44) with true in H. cbn iota in H.
      change (tp t' :: map tp ts) with (map tp (t' :: ts)) in H.
      destruct (p_objects f (joinp comma (map tp (t' :: ts)) ++ rest)) as [y|] eqn:Y; [|discriminate].
      apply Is in Y as [-> Sh']; [|discriminate| |exact Nc]; [|intros z I; apply Gd; right; exact I]. injection H as <-.
      split; [reflexivity|]. intros z [<-|I]; auto.
  - intros po rest r Ne Gd Nc Ns H. rewrite p_entries_S in H. destruct po as [|e [|e' po]]; [congruence| |].
    + change (entries_pieces comma [e]) with (entry_pieces comma e) in H. rewrite entry_word in H. cbn [app] in H.
      destruct (Gd e (or_introl eq_refl)) as [Ne' Gd'].
      destruct (p_objects f (joinp comma (map tp (snd e)) ++ rest)) as [x|] eqn:X; [|discriminate].
      apply Is in X as [-> Sh]; [|exact Ne'|exact Gd'|exact Nc]. rewrite (not_sign_head 59 rest _ (fun r' => match p_entries f r' with Some (po, k) => Some ((fst e, snd e) :: po, k) | None => None end)) in H by exact Ns. injection H as <-.
      split; [destruct e; reflexivity|]. intros y t [<-|[]]. apply Sh.
    + rewrite entries_cons, entry_word, <- app_assoc in H. cbn [app] in H. destruct (Gd e (or_introl eq_refl)) as [Ne' Gd'].
      destruct (p_objects f (joinp comma (map tp (snd e)) ++ _)) as [x|] eqn:X; [|discriminate].
      apply Is in X as [-> Sh]; [|exact Ne'|exact Gd'|discriminate]. change (N.eqb 59 59) with true in H. cbn iota in H.
      destruct (p_entries f (entries_pieces comma (e' :: po) ++ rest)) as [y|] eqn:Y; [|discriminate].
      apply Ie in Y as [-> Sh']; [|discriminate| |exact Nc|exact Ns]; [|intros z I; apply Gd; right; exact I]. injection H as <-.
      split; [destruct e; reflexivity|]. intros z t [<-|I]; eauto.
  - intros ts rest r Gd H. destruct ts as [|t [|t' ts]].
    + injection H as <-. split; [reflexivity|split; [cbn; lia|intros t []]].
    + cbn [map joinp] in H. rewrite p_items_item in H by (apply Gd; left; reflexivity).
      destruct (p_object f (tp t ++ _)) as [x|] eqn:X; [|discriminate].
      apply Io in X as [-> Sh]; [|apply Gd; left; reflexivity].
      destruct (p_items f (Sign [41] :: rest)) as [y|] eqn:Y; [|discriminate].
      apply (Ii [] rest) in Y as (-> & _); [|intros z []]. injection H as <-. split; [reflexivity|split; [cbn; lia|]].
      intros z [<-|[]]. exact Sh.
    + cbn [map] in H. rewrite joinp_cons, <- app_assoc in H. rewrite p_items_item in H by (apply Gd; left; reflexivity).
      destruct (p_object f (tp t ++ _)) as [x|] eqn:X; [|discriminate].
      apply Io in X as [-> Sh]; [|apply Gd; left; reflexivity]. cbn [app] in H. rewrite p_items_comma in H. discriminate.
Qed.

(** ** With enough fuel *)
Definition obj_done (f : nat) : Prop := forall t rest, good t -> short t -> (3 * length (tp t) <= f + 2)%nat ->
  p_object f (tp t ++ rest) = Some (t, rest).
Definition objs_done (f : nat) : Prop := forall ts rest, ts <> [] -> (forall t, In t ts -> good t /\ short t) -> not_sign 44 rest ->
  (3 * length (joinp comma (map tp ts)) <= f + 1)%nat ->
  p_objects f (joinp comma (map tp ts) ++ rest) = Some (ts, rest).
Definition short_entry (e : str * list tree) : Prop := forall t, In t (snd e) -> short t.
Definition ents_done (f : nat) : Prop := forall po rest, po <> [] -> (forall e, In e po -> good_entry e /\ short_entry e) ->
  not_sign 44 rest -> not_sign 59 rest -> (3 * length (entries_pieces comma po) <= f)%nat ->
  p_entries f (entries_pieces comma po ++ rest) = Some (po, rest).
Lemma tp_length t : good t -> (1 <= length (tp t))%nat.
Proof. intros G. destruct (tree_first t G) as (p & r & -> & _). cbn. lia. Qed.
Lemma parser_done : forall f, obj_done f /\ objs_done f /\ ents_done f.
Proof.
  induction f as [f IH] using (well_founded_induction Wf_nat.lt_wf). destruct f as [|f].
  { split; [|split].
    - intros t rest G S L. pose proof (tp_length t G). lia.
    - intros [|t ts] rest Ne G N L; [congruence|]. pose proof (tp_length t (proj1 (G t (or_introl eq_refl)))) as K.
      destruct ts; cbn [map joinp] in L; rewrite ?app_length in L; lia.
    - intros [|e po] rest Ne G N1 N2 L; [congruence|]. destruct po; cbn in L; lia. }
  destruct (IH f) as (Io & Is & Ie); [lia|]. split; [|split].
  - intros t rest G Sh L. destruct G as [w|po Ne Gd|l Gd]; [reflexivity| |].
    + destruct po as [|e po]; [reflexivity|]. rewrite props_pieces in *.
      assert (E : entries_pieces comma (e :: po) = Word (fst e) :: tl (entries_pieces comma (e :: po))) by (destruct po; reflexivity).
      cbn [app]. rewrite <- app_assoc. cbn [app p_object]. rewrite E. cbn [app].
      change (Word (fst e) :: tl (entries_pieces comma (e :: po)) ++ Sign [93] :: rest) with ((Word (fst e) :: tl (entries_pieces comma (e :: po))) ++ Sign [93] :: rest).
      rewrite <- E, Ie; [reflexivity|discriminate| |discriminate|discriminate|].
      * intros y I. split; [split; [apply Ne, I|intros t J; eapply Gd; eauto]|]. intros t J. unfold short in *. cbn [long_items] in Sh.
        apply (list_sum_0_In (fun e => list_sum (map long_items (snd e)))) with (x := y) in Sh; [|exact I].
        apply (list_sum_0_In long_items) with (x := t) in Sh; auto.
      * cbn [length] in L. rewrite app_length in L. cbn [length] in L. lia.
    + rewrite items_pieces in *. cbn [app]. rewrite <- app_assoc. cbn [app p_object]. unfold short in Sh. cbn [long_items] in Sh.
      destruct l as [|t [|t' l]]; [|
        |cbn in Sh; lia].
      * destruct f as [|f]; [cbn in L; lia|]. reflexivity.
      * assert (G : good t) by (apply Gd; left; reflexivity). cbn [map joinp length] in L |- *. rewrite app_length in L. cbn [length] in L. pose proof (tp_length t G).
        destruct f as [|[|f]]; [lia|lia|]. rewrite p_items_item by exact G. destruct (IH (S f)) as (Io' & _); [lia|].
        rewrite Io'; [reflexivity|exact G| |lia]. unfold short. cbn in Sh. lia.
  - intros ts rest Ne G Nc L. rewrite p_objects_S. destruct ts as [|t [|t' ts]]; [congruence| |].
    + cbn [map joinp] in *. destruct (G t (or_introl eq_refl)) as [G1 S1]. rewrite Io; [|exact G1|exact S1|lia].
      exact (not_sign_head 44 rest _ (fun r' => match p_objects f r' with Some (ts, r'') => Some (t :: ts, r'') | None => None end) _ Nc).
    + cbn [map] in *. rewrite joinp_cons in *. rewrite !app_length in L. cbn [length] in L. rewrite <- app_assoc. cbn [app].
      destruct (G t (or_introl eq_refl)) as [G1 S1]. rewrite Io; [|exact G1|exact S1|lia]. change (N.eqb 44 44) with true. cbn iota.
      change (tp t' :: map tp ts) with (map tp (t' :: ts)) in *. rewrite Is; [reflexivity|discriminate| |exact Nc|].
      * intros z I. apply G. right. exact I.
      * lia.
  - intros po rest Ne G Nc Ns L. rewrite p_entries_S. destruct po as [|e [|e' po]]; [congruence| |].
    + change (entries_pieces comma [e]) with (entry_pieces comma e) in *. rewrite entry_word in *. cbn [app length] in *.
      destruct (G e (or_introl eq_refl)) as [[N1 G1] S1]. rewrite Is; [|exact N1| |exact Nc|lia].
      * rewrite (not_sign_head 59 rest _ (fun r' => match p_entries f r' with Some (po, k) => Some ((fst e, snd e) :: po, k) | None => None end)) by exact Ns. destruct e; reflexivity.
      * intros t I. auto.
    + rewrite entries_cons, entry_word in *. rewrite app_length in L. cbn [app length] in *. rewrite <- app_assoc. cbn [app].
      destruct (G e (or_introl eq_refl)) as [[N1 G1] S1]. rewrite Is; [|exact N1| |discriminate|lia].
      * change (N.eqb 59 59) with true. cbn iota. rewrite Ie; [destruct e; reflexivity|discriminate| |exact Nc|exact Ns|lia].
        intros z I. apply G. right. exact I.
      * intros t I. auto.
Qed.

(** ** Blocks *)
Notation doc := (list (str * list (str * list tree))).
Definition good_block (b : str * list (str * list tree)) : Prop := snd b <> [] /\ forall e, In e (snd b) -> good_entry e.
Lemma top_In (b : str * list (str * list tree)) (d : doc) e t : In b d -> In e (snd b) -> In t (snd e) -> In (fst b, fst e, t) (top_triples d).
Proof.
  intros I J K. apply in_flat_map. exists b. split; [exact I|]. apply in_flat_map. exists e. split; [exact J|].
  apply in_map_iff. exists t. auto.
Qed.
Lemma p_blocks_S f b rest : p_blocks (S f) (block_pieces comma b ++ rest) =
  match p_entries f (entries_pieces comma (snd b) ++ Sign [46] :: rest) with
  | Some (po, r) =>
      match r with
      | Sign [x] :: r' => if N.eqb x 46 then match p_blocks f r' with Some d => Some ((fst b, po) :: d) | None => None end else None
      | _ => None
      end
  | None => None
  end.
Proof.
  change (block_pieces comma b) with (Word (fst b) :: entries_pieces comma (snd b) ++ [Sign [46]]).
  cbn [app p_blocks]. rewrite <- app_assoc. cbn [app].
  destruct (p_entries f (entries_pieces comma (snd b) ++ Sign [46] :: rest)) as [[po [|[w|[|x [|y s]]|s] r]]|]; try reflexivity.
  - destruct x as [|x]; [reflexivity|]. do 6 (destruct x as [x|x|]; try reflexivity).
  - destruct x as [|x]; [reflexivity|]. do 6 (destruct x as [x|x|]; try reflexivity).
Qed.
Lemma blocks_ok d : (forall b, In b d -> good_block b) -> forall f r, p_blocks f (flat_map (block_pieces comma) d) = Some r ->
  r = d /\ no_long_items d.
Proof.
  induction d as [|b d IH]; intros G f r H.
  - destruct f; [discriminate|]. injection H as <-. split; [reflexivity|]. intros s v t [].
  - destruct f as [|f]; [discriminate|]. cbn [flat_map] in H. rewrite p_blocks_S in H. destruct (G b (or_introl eq_refl)) as [N1 G1].
    destruct (parser_ok f) as (_ & _ & Ie & _).
    destruct (p_entries f _) as [x|] eqn:X; [|discriminate]. apply Ie in X as [-> Sh]; [|exact N1|exact G1|discriminate|discriminate].
    change (N.eqb 46 46) with true in H. cbn iota in H.
    destruct (p_blocks f (flat_map (block_pieces comma) d)) as [d'|] eqn:D; [|discriminate]. injection H as <-.
    apply IH in D as [-> Nl]; [|intros y I; apply G; right; exact I]. split; [destruct b; reflexivity|].
    intros s v t I. cbn [top_triples flat_map] in I. apply in_app_or in I as [I|I]; [|exact (Nl s v t I)].
    apply in_flat_map in I as (e & I & J). apply in_map_iff in J as (t' & E & J). injection E as _ _ <-. exact (Sh e t' I J).
Qed.
Lemma blocks_done d : (forall b, In b d -> good_block b) -> no_long_items d -> forall f,
  (3 * length (flat_map (block_pieces comma) d) < f)%nat -> p_blocks f (flat_map (block_pieces comma) d) = Some d.
Proof.
  induction d as [|b d IH]; intros G Nl f L; (destruct f as [|f]; [lia|]); [reflexivity|].
  cbn [flat_map] in *. rewrite p_blocks_S. destruct (G b (or_introl eq_refl)) as [N1 G1]. destruct (parser_done f) as (_ & _ & Ie).
  rewrite app_length in L. assert (Lb : length (block_pieces comma b) = (2 + length (entries_pieces comma (snd b)))%nat).
  { unfold block_pieces. cbn [length]. rewrite app_length. cbn. lia. }
  rewrite Ie; [|exact N1| |discriminate|discriminate|lia].
  - change (N.eqb 46 46) with true. cbn iota. rewrite IH; [destruct b; reflexivity| | |lia].
    + intros y I. apply G. right. exact I.
    + intros s v t I. apply (Nl s v t). cbn [top_triples flat_map]. apply in_or_app. right. exact I.
  - intros e I. split; [apply G1, I|]. intros t J. apply (Nl (fst b) (fst e) t). apply (top_In b); [left; reflexivity|exact I|exact J].
Qed.

(** ** Headings *)
Definition keyword (w : str) : Prop := In w [$"@base"; $"BASE"; $"@prefix"; $"PREFIX"].
Definition headings (ns : str -> str) (base : option str) (prefixes : list (str * str)) : list heading :=
  match base with Some b => [HBase ([60] ++ b ++ [62])] | None => [] end
  ++ map (fun e => HPrefix (fst e ++ $":") ([60] ++ ns (snd e) ++ [62])) prefixes.
Lemma keyword_not w : ~ keyword w -> str_eqb w $"@base" = false /\ str_eqb w $"BASE" = false /\
  str_eqb w $"@prefix" = false /\ str_eqb w $"PREFIX" = false.
Proof.
  intros H. repeat split; apply Bool.not_true_iff_false; intros E; apply StrFacts.str_eqb_eq in E; subst; apply H; unfold keyword; cbn [In]; auto.
Qed.
Lemma p_headings_none l : match l with Word w :: _ => ~ keyword w | _ => True end -> p_headings l = Some ([], l).
Proof.
  destruct l as [|[w|s|s] l]; try reflexivity. intros H. destruct (keyword_not w H) as (A & B & C & D).
  cbn [p_headings]. rewrite A, B, C, D. reflexivity.
Qed.
Lemma p_heading_prefix o p w l : p_headings (directive o $"@prefix" $"PREFIX" [p; w] ++ l) =
  match p_headings l with Some (hs, k) => Some (HPrefix p w :: hs, k) | None => None end.
Proof.
  unfold directive. destruct (use_sparql_style o && negb (use_intellij_style o)); cbn [app map p_headings].
  - change (str_eqb $"PREFIX" $"@base") with false. change (str_eqb $"PREFIX" $"BASE") with false.
    change (str_eqb $"PREFIX" $"@prefix") with false. change (str_eqb $"PREFIX" $"PREFIX") with true. reflexivity.
  - change (str_eqb $"@prefix" $"@base") with false. change (str_eqb $"@prefix" $"BASE") with false.
    change (str_eqb $"@prefix" $"@prefix") with true. reflexivity.
Qed.
Lemma p_heading_base o w l : p_headings (directive o $"@base" $"BASE" [w] ++ l) =
  match p_headings l with Some (hs, k) => Some (HBase w :: hs, k) | None => None end.
Proof.
  unfold directive. destruct (use_sparql_style o && negb (use_intellij_style o)); cbn [app map p_headings].
  - change (str_eqb $"BASE" $"@base") with false. change (str_eqb $"BASE" $"BASE") with true. reflexivity.
  - change (str_eqb $"@base" $"@base") with true. reflexivity.
Qed.
Lemma p_headings_all o ns base prefixes l : match l with Word w :: _ => ~ keyword w | _ => True end ->
  p_headings (directives o ns base prefixes ++ l) = Some (headings ns base prefixes, l).
Proof.
  intros H. unfold directives, headings.
  assert (P : p_headings (flat_map (fun e => directive o $"@prefix" $"PREFIX" [fst e ++ $":"; [60] ++ ns (snd e) ++ [62]]) prefixes ++ l) =
    Some (map (fun e => HPrefix (fst e ++ $":") ([60] ++ ns (snd e) ++ [62])) prefixes, l)).
  { induction prefixes as [|e prefixes IH]; [apply p_headings_none, H|]. cbn [flat_map map]. rewrite <- app_assoc, p_heading_prefix, IH. reflexivity. }
  destruct base as [b|]; [|exact P]. rewrite <- app_assoc, p_heading_base, P. reflexivity.
Qed.
