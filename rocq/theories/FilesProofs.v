From Verif Require Import FilesSpec StrFacts HashProofs.
From Coq Require Import Lia.

Definition scalar (c : N) : Prop := c < 55296 \/ 57344 <= c < 1114112.

(** ** UTF-8 *)
Lemma in_range_true a b c : a <= c -> c <= b -> in_range a b c = true.
Proof. intros. unfold in_range. apply andb_true_iff. split; apply N.leb_le; assumption. Qed.
Lemma in_range_false a b c : c < a \/ b < c -> in_range a b c = false.
Proof. intros H. unfold in_range. apply andb_false_iff. destruct H; [left|right]; apply N.leb_gt; assumption. Qed.
Lemma in_range_inv a b c : in_range a b c = true -> a <= c /\ c <= b.
Proof. unfold in_range. rewrite andb_true_iff, !N.leb_le. auto. Qed.

Lemma mod64 c : c mod 64 < 64.
Proof. apply N.mod_lt. discriminate. Qed.
Lemma split3 c : c = c / 4096 * 4096 + (c / 64) mod 64 * 64 + c mod 64.
Proof.
  assert (E : c / 4096 = c / 64 / 64) by (rewrite N.div_div by lia; reflexivity). rewrite E.
  pose proof (N.div_mod c 64). pose proof (N.div_mod (c / 64) 64). lia.
Qed.
Lemma split4 c : c = c / 262144 * 262144 + (c / 4096) mod 64 * 4096 + (c / 64) mod 64 * 64 + c mod 64.
Proof.
  assert (E : c / 262144 = c / 4096 / 64) by (rewrite N.div_div by lia; reflexivity). rewrite E.
  pose proof (split3 c). pose proof (N.div_mod (c / 4096) 64). lia.
Qed.
Lemma decode_char c r : scalar c -> utf8_decode (utf8 c ++ r) = utf8_then c (utf8_decode r).
Proof.
  intros S. pose proof (mod64 c) as M0. pose proof (mod64 (c / 64)) as M1. pose proof (mod64 (c / 4096)) as M2.
  unfold utf8. destruct (N.ltb_spec c 128) as [L|L].
  { cbn [app utf8_decode]. destruct (N.ltb_spec c 128); [reflexivity|lia]. }
  destruct (N.ltb_spec c 2048) as [L2|L2].
  { pose proof (N.div_mod c 64 ltac:(discriminate)) as D.
    cbn [app utf8_decode]. destruct (N.ltb_spec (192 + c / 64) 128); [lia|].
    rewrite in_range_true by lia. unfold continues. rewrite in_range_true by lia.
    f_equal. unfold utf8_2. lia. }
  destruct (N.ltb_spec c 65536) as [L3|L3].
  { pose proof (split3 c) as D.
    cbn [app utf8_decode]. destruct (N.ltb_spec (224 + c / 4096) 128); [lia|].
    rewrite in_range_false by lia. rewrite in_range_true by lia. unfold continues.
    rewrite (in_range_true 128 191 (128 + c mod 64)) by lia. rewrite andb_true_r.
    rewrite in_range_true.
    - f_equal. unfold utf8_3. lia.
    - destruct (N.eqb_spec (224 + c / 4096) 224); lia.
    - unfold scalar in S. destruct (N.eqb_spec (224 + c / 4096) 237); lia. }
  pose proof (split4 c) as D.
  cbn [app utf8_decode]. unfold scalar in S. destruct (N.ltb_spec (240 + c / 262144) 128); [lia|].
  rewrite in_range_false by lia. rewrite in_range_false by lia. rewrite in_range_true by lia. unfold continues.
  rewrite (in_range_true 128 191 (128 + c mod 64)) by lia.
  rewrite (in_range_true 128 191 (128 + (c / 64) mod 64)) by lia. rewrite !andb_true_r.
  rewrite in_range_true.
  - cbn [andb]. f_equal. unfold utf8_4. lia.
  - destruct (N.eqb_spec (240 + c / 262144) 240); lia.
  - destruct (N.eqb_spec (240 + c / 262144) 244); lia.
Qed.
Lemma decode_bytes s : chars s -> utf8_decode (bytes s) = Some s.
Proof.
  induction 1 as [|c s C _ IH]; [reflexivity|]. unfold bytes in *. cbn [flat_map]. rewrite decode_char by exact C.
  rewrite IH. reflexivity.
Qed.

Lemma then_inv c x s : utf8_then c x = Some s -> exists s', x = Some s' /\ s = c :: s'.
Proof. destruct x; [|discriminate]. intros E. injection E as <-. eauto. Qed.

Lemma encode2 a b : 194 <= a <= 223 -> 128 <= b <= 191 -> scalar (utf8_2 a b) /\ utf8 (utf8_2 a b) = [a; b].
Proof.
  intros A B. set (c := utf8_2 a b). assert (E : c = 64 * (a - 192) + (b - 128)) by (unfold c, utf8_2; lia).
  assert (D : c / 64 = a - 192) by (symmetry; apply (N.div_unique c 64 _ (b - 128)); lia).
  assert (M : c mod 64 = b - 128) by (symmetry; apply (N.mod_unique c 64 (a - 192)); lia).
  split; [unfold scalar; lia|]. unfold utf8. rewrite D, M.
  destruct (N.ltb_spec c 128); [lia|]. destruct (N.ltb_spec c 2048); [|lia].
  f_equal; [lia|]. f_equal. lia.
Qed.
Lemma encode3 a b c : 224 <= a <= 239 -> 128 <= b <= 191 -> (a = 224 -> 160 <= b) -> (a = 237 -> b <= 159) ->
  128 <= c <= 191 -> scalar (utf8_3 a b c) /\ utf8 (utf8_3 a b c) = [a; b; c].
Proof.
  intros A B B1 B2 C. set (x := utf8_3 a b c).
  assert (E : x = 64 * (64 * (a - 224) + (b - 128)) + (c - 128)) by (unfold x, utf8_3; lia).
  assert (D1 : x / 64 = 64 * (a - 224) + (b - 128)) by (symmetry; apply (N.div_unique x 64 _ (c - 128)); lia).
  assert (M1 : x mod 64 = c - 128) by (symmetry; apply (N.mod_unique x 64 (64 * (a - 224) + (b - 128))); lia).
  assert (M2 : (x / 64) mod 64 = b - 128) by (rewrite D1; symmetry; apply (N.mod_unique _ 64 (a - 224)); lia).
  assert (D2 : x / 4096 = a - 224).
  { replace 4096 with (64 * 64) by reflexivity. rewrite <- N.div_div by discriminate. rewrite D1. symmetry.
    apply (N.div_unique _ 64 _ (b - 128)); lia. }
  split.
  - unfold scalar. assert (a = 237 \/ a < 237 \/ 237 < a) as [Q|[Q|Q]] by lia; [specialize (B2 Q)| |]; lia.
  - unfold utf8. rewrite D2, M1, M2.
    assert (2048 <= x) by (assert (a = 224 \/ 224 < a) as [Q|Q] by lia; [specialize (B1 Q)|]; lia).
    destruct (N.ltb_spec x 128); [lia|]. destruct (N.ltb_spec x 2048); [lia|]. destruct (N.ltb_spec x 65536); [|lia].
    f_equal; [lia|]. f_equal; [lia|]. f_equal. lia.
Qed.
Lemma encode4 a b c d : 240 <= a <= 244 -> 128 <= b <= 191 -> (a = 240 -> 144 <= b) -> (a = 244 -> b <= 143) ->
  128 <= c <= 191 -> 128 <= d <= 191 -> scalar (utf8_4 a b c d) /\ utf8 (utf8_4 a b c d) = [a; b; c; d].
Proof.
  intros A B B1 B2 C D. set (x := utf8_4 a b c d).
  assert (E : x = 64 * (64 * (64 * (a - 240) + (b - 128)) + (c - 128)) + (d - 128)) by (unfold x, utf8_4; lia).
  assert (D1 : x / 64 = 64 * (64 * (a - 240) + (b - 128)) + (c - 128)) by (symmetry; apply (N.div_unique x 64 _ (d - 128)); lia).
  assert (M1 : x mod 64 = d - 128) by (symmetry; apply (N.mod_unique x 64 (64 * (64 * (a - 240) + (b - 128)) + (c - 128))); lia).
  assert (M2 : (x / 64) mod 64 = c - 128) by (rewrite D1; symmetry; apply (N.mod_unique _ 64 (64 * (a - 240) + (b - 128))); lia).
  assert (D2 : x / 4096 = 64 * (a - 240) + (b - 128)).
  { replace 4096 with (64 * 64) by reflexivity. rewrite <- N.div_div by discriminate. rewrite D1. symmetry.
    apply (N.div_unique _ 64 _ (c - 128)); lia. }
  assert (M3 : (x / 4096) mod 64 = b - 128) by (rewrite D2; symmetry; apply (N.mod_unique _ 64 (a - 240)); lia).
  assert (D3 : x / 262144 = a - 240).
  { replace 262144 with (4096 * 64) by reflexivity. rewrite <- N.div_div by discriminate. rewrite D2. symmetry.
    apply (N.div_unique _ 64 _ (b - 128)); lia. }
  assert (65536 <= x) by (assert (a = 240 \/ 240 < a) as [Q|Q] by lia; [specialize (B1 Q)|]; lia).
  split.
  - unfold scalar. assert (a = 244 \/ a < 244) as [Q|Q] by lia; [specialize (B2 Q)|]; lia.
  - unfold utf8. rewrite D3, M1, M2, M3.
    destruct (N.ltb_spec x 128); [lia|]. destruct (N.ltb_spec x 2048); [lia|]. destruct (N.ltb_spec x 65536); [lia|].
    f_equal; [lia|]. f_equal; [lia|]. f_equal; [lia|]. f_equal. lia.
Qed.
Lemma decode_inv k : forall bs s, (length bs <= k)%nat -> utf8_decode bs = Some s -> chars s /\ bs = bytes s.
Proof.
  induction k as [|k IH]; intros bs s L E.
  { destruct bs; [|cbn in L; lia]. injection E as <-. split; [constructor|reflexivity]. }
  destruct bs as [|a r]; [injection E as <-; split; [constructor|reflexivity]|].
  assert (GO : forall w r' c s', a :: r = w ++ r' -> w <> [] -> scalar c /\ utf8 c = w -> utf8_decode r' = Some s' ->
    chars (c :: s') /\ a :: r = bytes (c :: s')).
  { intros w r' c s' Q NW [S U] D. rewrite Q. destruct (IH r' s') as [C B]; [|exact D|].
    - apply (f_equal (@length N)) in Q. rewrite app_length in Q. destruct w; [congruence|]. cbn in *. lia.
    - split; [constructor; assumption|]. unfold bytes in *. cbn [flat_map]. rewrite U, B. reflexivity. }
  cbn [utf8_decode] in E. destruct (N.ltb_spec a 128) as [A|A].
  { apply then_inv in E as (s' & E & ->). apply (GO [a] r a s'); [reflexivity|discriminate| |exact E].
    split; [unfold scalar; lia|]. unfold utf8. destruct (N.ltb_spec a 128); [reflexivity|lia]. }
  destruct r as [|b r2]; [discriminate|].
  destruct (in_range 194 223 a) eqn:RA.
  { destruct (continues b) eqn:RB; [|discriminate]. apply in_range_inv in RA, RB. apply then_inv in E as (s' & E & ->).
    apply (GO [a; b] r2); [reflexivity|discriminate| |exact E]. apply encode2; assumption. }
  clear RA. destruct r2 as [|c r3]; [discriminate|].
  destruct (in_range 224 239 a) eqn:RA.
  { destruct (in_range _ _ b && continues c) eqn:RB; [|discriminate]. apply andb_true_iff in RB as [RB RC].
    apply in_range_inv in RA, RB, RC. apply then_inv in E as (s' & E & ->).
    apply (GO [a; b; c] r3); [reflexivity|discriminate| |exact E].
    destruct (N.eqb_spec a 224), (N.eqb_spec a 237); apply encode3; lia. }
  clear RA. destruct r3 as [|d r4]; [discriminate|].
  destruct (in_range 240 244 a && _ && continues c && continues d) eqn:R; [|discriminate].
  apply andb_true_iff in R as [R RD]. apply andb_true_iff in R as [R RC]. apply andb_true_iff in R as [RA RB].
  apply in_range_inv in RA, RB, RC, RD. apply then_inv in E as (s' & E & ->).
  apply (GO [a; b; c; d] r4); [reflexivity|discriminate| |exact E].
  destruct (N.eqb_spec a 240), (N.eqb_spec a 244); apply encode4; lia.
Qed.
Lemma decode_iff bs s : utf8_decode bs = Some s <-> chars s /\ bs = bytes s.
Proof.
  split; [apply (decode_inv (length bs)); reflexivity|]. intros [C ->]. apply decode_bytes. exact C.
Qed.

(** Cutting the bytes of a text anywhere leaves the bytes of its beginning, or no text. *)
Lemma scalar_bound c : scalar c -> c < 1114112.
Proof. unfold scalar. lia. Qed.
Lemma bytes_app s t : bytes (s ++ t) = bytes s ++ bytes t.
Proof. apply flat_map_app. Qed.
Lemma bytes_prefix t : forall s q, chars s -> chars t -> bytes s = bytes t ++ q ->
  exists u, s = t ++ u /\ q = bytes u.
Proof.
  induction t as [|c t IH]; intros s q S T E; [exists s; auto|]. inversion T as [|? ? C T']; subst.
  destruct s as [|d s].
  - exfalso. unfold bytes in E. cbn [flat_map] in E. destruct (utf8_head 1 (le_n 1) c (scalar_bound c C)) as (h & w & U & _). rewrite U in E. discriminate E.
  - inversion S as [|? ? D S']; subst. unfold bytes in E. cbn [flat_map] in E. rewrite <- app_assoc in E.
    apply (utf8_free 1 (fun x => x) (le_n 1)) in E as [-> E]; [|apply scalar_bound; assumption|apply scalar_bound; assumption].
    destruct (IH s q S' T' E) as (u & -> & ->). exists u. auto.
Qed.
Lemma chars_app s t : chars (s ++ t) <-> chars s /\ chars t.
Proof. apply Forall_app. Qed.
Lemma decode_cut s bs q : chars s -> bytes s = bs ++ q ->
  utf8_decode bs = None \/ exists t u, utf8_decode bs = Some t /\ bs = bytes t /\ q = bytes u /\ s = t ++ u.
Proof.
  intros S E. destruct (utf8_decode bs) as [t|] eqn:D; [right|left; reflexivity].
  apply decode_iff in D as [T ->]. destruct (bytes_prefix t s q S T E) as (u & -> & ->). exists t, u. auto.
Qed.

(** ** Outputs *)
Lemma put_prefix out bs w w' ok : put out bs w = (w', ok) ->
  exists x y, accepted w' = accepted w ++ x /\ bs = x ++ y /\ (ok = true -> y = []).
Proof.
  unfold put. destruct (out (calls w) bs) as [j|]; intros E; injection E as <- <-; cbn [accepted].
  - exists (firstn j bs), (skipn j bs). rewrite firstn_skipn. repeat split. discriminate.
  - exists bs, []. rewrite app_nil_r. auto.
Qed.
Lemma put_parts_prefix out ps : forall w w' ok, put_parts out ps w = (w', ok) ->
  exists x y, accepted w' = accepted w ++ x /\ concat ps = x ++ y /\ (ok = true -> y = []).
Proof.
  induction ps as [|p ps IH]; intros w w' ok E; cbn [put_parts] in E.
  - injection E as <- <-. exists [], []. rewrite app_nil_r. auto.
  - destruct (put out p w) as [w1 b] eqn:P. apply put_prefix in P as (x & y & A & B & C). destruct b.
    + apply IH in E as (x2 & y2 & A2 & B2 & C2). exists (x ++ x2), y2. cbn [concat].
      rewrite A2, A, B, (C eq_refl), app_nil_r, B2, <- !app_assoc. auto.
    + injection E as <- <-. exists x, (y ++ concat ps). cbn [concat]. rewrite B, <- app_assoc. repeat split; [exact A|discriminate].
Qed.
Lemma put_lines_prefix out parts ls : divides parts -> forall w w' ok, put_lines out parts ls w = (w', ok) ->
  exists x y, accepted w' = accepted w ++ x /\ bytes (concat ls) = x ++ y /\ (ok = true -> y = []).
Proof.
  intros D. induction ls as [|l ls IH]; intros w w' ok E; cbn [put_lines] in E.
  - injection E as <- <-. exists [], []. rewrite app_nil_r. auto.
  - destruct (put_parts out (parts l) w) as [w1 b] eqn:P. apply put_parts_prefix in P as (x & y & A & B & C).
    rewrite D in B. cbn [concat]. rewrite bytes_app, B. destruct b.
    + apply IH in E as (x2 & y2 & A2 & B2 & C2). exists (x ++ x2), y2.
      rewrite A2, A, (C eq_refl), app_nil_r, B2, <- !app_assoc. auto.
    + injection E as <- <-. exists x, (y ++ bytes (concat ls)). rewrite <- app_assoc. repeat split; [exact A|discriminate].
Qed.
Lemma concat_lines {A B} (f : A -> list B) l : concat (map f l) = flat_map f l.
Proof. symmetry. apply flat_map_concat_map. Qed.
Lemma put_all_prefix out parts m h ho l : divides parts -> forall n w w' ok, nq_put_all out parts m h ho n l w = (w', ok) ->
  exists x y, accepted w' = accepted w ++ x /\ bytes (nq_write_all m h ho n l) = x ++ y /\ (ok = true -> y = []).
Proof.
  intros D. induction l as [|g l IH]; intros n w w' ok E; cbn [nq_put_all] in E.
  - injection E as <- <-. exists [], []. rewrite app_nil_r. auto.
  - destruct (nq_put_graph out parts m (h g) (ho g) n g w) as [w1 b] eqn:P.
    apply (put_lines_prefix out parts _ D) in P as (x & y & A & B & C). rewrite concat_lines in B.
    cbn [nq_write_all]. rewrite bytes_app. unfold nq_write at 1. cbv zeta. rewrite B. destruct b.
    + apply IH in E as (x2 & y2 & A2 & B2 & C2). exists (x ++ x2), y2.
      rewrite A2, A, (C eq_refl), app_nil_r, B2, <- !app_assoc. auto.
    + injection E as <- <-. exists x, (y ++ bytes (nq_write_all m h ho (snd (g_simplify (ho g) n g)) l)).
      rewrite <- app_assoc. repeat split; [exact A|discriminate].
Qed.
(** If no call fails, neither does the writer. *)
Lemma put_parts_ok out ps : (forall k bs, out k bs = None) -> forall w, snd (put_parts out ps w) = true.
Proof.
  intros N. induction ps as [|p ps IH]; intros w; [reflexivity|]. cbn [put_parts]. unfold put at 1. rewrite N. apply IH.
Qed.
Lemma put_lines_ok out parts ls : (forall k bs, out k bs = None) -> forall w, snd (put_lines out parts ls w) = true.
Proof.
  intros N. induction ls as [|l ls IH]; intros w; [reflexivity|]. cbn [put_lines].
  pose proof (put_parts_ok out (parts l) N w) as P. destruct (put_parts out (parts l) w) as [w1 b]. cbn in P. subst b. apply IH.
Qed.
Lemma put_all_ok out parts m h ho l : (forall k bs, out k bs = None) -> forall n w, snd (nq_put_all out parts m h ho n l w) = true.
Proof.
  intros N. induction l as [|g l IH]; intros n w; [reflexivity|]. cbn [nq_put_all].
  pose proof (put_lines_ok out parts (map (nq_line m (g_name (fst (g_simplify (ho g) n g)))) (write_order (h g) (fst (g_simplify (ho g) n g)))) N w) as P.
  unfold nq_put_graph. cbv zeta. destruct (put_lines _ _ _ w) as [w1 b]. cbn in P. subst b. apply IH.
Qed.
