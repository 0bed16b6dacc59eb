(** Proofs for PropsFloats.v. *)
From Coq Require Import ZArith Lia.
From Verif Require Import StrFacts FloatsSpec LiteralProofs.

Lemma all_digits_ascii s : all_digits s -> Forall (fun c => 32 <= c <= 126 /\ c <> 34 /\ c <> 92) s.
Proof. apply Forall_impl. intros c H. lia. Qed.

Lemma dec_N_all n : all_digits (dec_N n).
Proof. eapply Forall_impl; [|apply dec_N_digits]. intros c. unfold is_digit, in_range. lia. Qed.

(** ** Values *)

Lemma place_value_app a b : place_value (a ++ b) =
  match place_value a, place_value b with
  | Some x, Some y => Some (x * 10 ^ N.of_nat (length b) + y)
  | _, _ => None
  end.
Proof.
  induction a as [|c a IH]; simpl.
  - destruct (place_value b); reflexivity.
  - rewrite IH. destruct (place_value a) as [x|]; destruct (place_value b) as [y|]; auto;
      destruct ((48 <=? c) && (c <=? 57)); auto.
    f_equal. rewrite app_length, Nat2N.inj_add, N.pow_add_r. lia.
Qed.

Lemma place_value_digit d : d < 10 -> place_value [hex_lower d] = Some d.
Proof.
  intros Hd. unfold hex_lower. replace (d <? 10) with true by (symmetry; apply N.ltb_lt; lia).
  cbn [place_value length]. replace ((48 <=? 48 + d) && (48 + d <=? 57)) with true
    by (symmetry; apply andb_true_iff; split; apply N.leb_le; lia). f_equal. change (10 ^ N.of_nat 0) with 1. lia.
Qed.

Lemma place_value_dec n : place_value (dec_N n) = Some n.
Proof.
  unfold dec_N. revert n. match goal with |- forall n, @?P n => apply (radix_ind 10 P ltac:(lia)) end; [intros n Hn|intros n Hn IH].
  - rewrite radix_N_eq by lia. replace (n <? 10) with true by (symmetry; lia). apply place_value_digit, Hn.
  - rewrite radix_N_eq by lia. replace (n <? 10) with false by (symmetry; lia).
    assert (n mod 10 < 10) by (apply N.mod_lt; lia).
    rewrite place_value_app, IH, place_value_digit by assumption.
    f_equal. change (10 ^ N.of_nat (length [hex_lower (n mod 10)])) with 10. rewrite (N.div_mod n 10) at 3; lia.
Qed.

Lemma unsigned_value_cons s : s <> [] -> unsigned_value s = option_map Z.of_N (place_value s).
Proof. destruct s; [congruence|reflexivity]. Qed.

Lemma int_value_unsigned s : all_digits s -> int_value s = unsigned_value s.
Proof.
  destruct s as [|c r]; [reflexivity|]. intros H. inversion H as [|? ? Hc _]; subst.
  unfold int_value. destruct (N.eq_dec c 45) as [->|N]; [lia|].
  destruct c as [|p]; [reflexivity|]. do 6 (destruct p as [p|p|]; try reflexivity). congruence.
Qed.

Lemma int_value_signed neg s v : all_digits s -> s <> [] -> place_value s = Some v ->
  int_value (sign neg ++ s) = Some (if neg then Z.opp (Z.of_N v) else Z.of_N v).
Proof.
  intros A N E. destruct neg; cbn [sign].
  - change (int_value ($"-" ++ s)) with (option_map Z.opp (unsigned_value s)). rewrite unsigned_value_cons, E by exact N. reflexivity.
  - change ([] ++ s) with s. rewrite int_value_unsigned, unsigned_value_cons, E by assumption. reflexivity.
Qed.

Lemma int_value_dec z : int_value (dec_Z z) = Some z.
Proof.
  destruct z as [|p|p]; unfold dec_Z.
  - exact (int_value_signed false (dec_N 0) 0 (dec_N_all _) (dec_N_nonnil _) (place_value_dec _)).
  - change (dec_N (Z.to_N (Z.pos p))) with (sign false ++ dec_N (Z.to_N (Z.pos p))).
    rewrite (int_value_signed false (dec_N (Z.to_N (Z.pos p))) _ (dec_N_all _) (dec_N_nonnil _) (place_value_dec _)). reflexivity.
  - change (45 :: dec_N (N.pos p)) with (sign true ++ dec_N (N.pos p)).
    rewrite (int_value_signed true (dec_N (N.pos p)) _ (dec_N_all _) (dec_N_nonnil _) (place_value_dec _)). reflexivity.
Qed.

Lemma dec_N_leading n : n <> 0 -> exists c r, dec_N n = c :: r /\ 49 <= c <= 57 /\ all_digits r.
Proof.
  intros Hn. assert (D := dec_N_all n). assert (V := place_value_dec n).
  unfold dec_N in *. revert n Hn D V. match goal with |- forall n, @?P n => apply (radix_ind 10 P ltac:(lia)) end; [intros n Hn|intros n Hn IH]; intros Hz D V.
  - rewrite radix_N_eq by lia. replace (n <? 10) with true by (symmetry; lia).
    exists (hex_lower n), []. split; [reflexivity|]. split; [|constructor].
    unfold hex_lower. replace (n <? 10) with true by (symmetry; lia). lia.
  - assert (Q : n / 10 <> 0) by (intros Q; apply N.div_small_iff in Q; lia).
    destruct (IH Q (dec_N_all _) (place_value_dec _)) as (c & r & E & C & R).
    clear IH V. rewrite (radix_N_eq 10 n) in * by lia. replace (n <? 10) with false in * by (symmetry; lia).
    rewrite E in *. exists c, (r ++ [hex_lower (n mod 10)]). split; [reflexivity|]. split; [exact C|].
    apply Forall_app in D as [_ D]. apply Forall_app. auto.
Qed.

Lemma canonical_dec z : canonical_int (dec_Z z).
Proof.
  destruct z as [|p|p]; unfold dec_Z; [left; reflexivity| |]; right.
  - destruct (dec_N_leading (Z.to_N (Z.pos p))) as (c & r & E & C & R); [lia|]. exists c, r. rewrite E. auto.
  - destruct (dec_N_leading (N.pos p)) as (c & r & E & C & R); [lia|]. exists c, r. rewrite E. auto.
Qed.

(** ** C34 *)

Lemma c34_text gext printable : ascii_tables gext printable ->
  (forall t z, int_value (lexical_form (lit_from_int gext printable t z)) = Some z /\
               canonical_int (lexical_form (lit_from_int gext printable t z))) /\
  lexical_form (lit_from_bool gext printable true) = $"true" /\
  lexical_form (lit_from_bool gext printable false) = $"false".
Proof.
  intros T. split; [|split].
  - intros t z. rewrite (int_literal gext printable T). split; [apply int_value_dec|apply canonical_dec].
  - apply (bool_literal gext printable T true).
  - apply (bool_literal gext printable T false).
Qed.

(** ** Floating point numbers *)

Section Floats.
Variable gext printable : chr -> bool.
Hypothesis T : ascii_tables gext printable.
Variable digits : float_type -> N -> str.
Hypothesis D : shortest_digits digits.
Notation display := (float_display digits).

Lemma unsigned_head s : unsigned_decimal s -> exists c r, s = c :: r /\ 48 <= c <= 57.
Proof.
  intros (w & W & N & E). destruct w as [|c w]; [congruence|]. inversion W; subst.
  destruct E as [-> | (f & _ & _ & ->)]; exists c; eexists; (split; [reflexivity|assumption]).
Qed.

Lemma unsigned_ascii s : unsigned_decimal s -> Forall (fun c => 32 <= c <= 126 /\ c <> 34 /\ c <> 92) s.
Proof.
  intros (w & W & _ & [-> | (f & F & _ & ->)]); [apply all_digits_ascii, W|].
  apply Forall_app. split; [apply all_digits_ascii, W|]. constructor; [lia|apply all_digits_ascii, F].
Qed.

Lemma sign_ascii neg s : Forall (fun c => 32 <= c <= 126 /\ c <> 34 /\ c <> 92) s ->
  Forall (fun c => 32 <= c <= 126 /\ c <> 34 /\ c <> 92) (sign neg ++ s).
Proof. intros H. destruct neg; [|exact H]. change (sign true ++ s) with (45 :: s). constructor; [lia|exact H]. Qed.

Lemma display_ascii t v : Forall (fun c => 32 <= c <= 126 /\ c <> 34 /\ c <> 92) (display t v).
Proof.
  destruct v as [|neg|neg m]; unfold float_display.
  - apply Forall_forall. intros c H. vm_compute in H. lia.
  - apply sign_ascii. apply Forall_forall. intros c H. vm_compute in H. lia.
  - apply sign_ascii. apply unsigned_ascii, (proj1 (D t m)).
Qed.

Lemma float_literal t v : lexical_form (lit_from_float gext printable digits t v) = display t v.
Proof. apply escape_ascii; [exact T|apply display_ascii]. Qed.

Lemma sign_inj s t a b : (forall r, a <> 45 :: r) -> (forall r, b <> 45 :: r) -> sign s ++ a = sign t ++ b -> s = t /\ a = b.
Proof.
  intros A B H. destruct s, t; cbn in H.
  - injection H as H. auto.
  - destruct (B _ (eq_sym H)).
  - destruct (A _ H).
  - auto.
Qed.

Lemma unsigned_no_minus s : unsigned_decimal s -> forall r, s <> 45 :: r.
Proof. intros U r E. destruct (unsigned_head s U) as (c & r' & -> & C). injection E as -> _. lia. Qed.

Lemma display_inj t a b : display t a = display t b -> a = b.
Proof.
  destruct a as [|s|s m], b as [|s'|s' n]; unfold float_display; intros H; auto.
  - destruct s'; vm_compute in H; discriminate.
  - destruct (unsigned_head _ (proj1 (D t n))) as (c & r & E & C). rewrite E in H.
    destruct s'; cbn in H; [discriminate|]. injection H as H _. lia.
  - destruct s; vm_compute in H; discriminate.
  - apply sign_inj in H as [-> _]; [reflexivity| |]; intros r E; vm_compute in E; discriminate.
  - apply sign_inj in H as [_ H]; [|intros r E; vm_compute in E; discriminate|apply unsigned_no_minus, D].
    destruct (unsigned_head _ (proj1 (D t n))) as (c & r & E & C). rewrite E in H. cbn in H. injection H as H _. lia.
  - destruct (unsigned_head _ (proj1 (D t m))) as (c & r & E & C). rewrite E in H.
    destruct s; cbn in H; [discriminate|]. injection H as H _. lia.
  - apply sign_inj in H as [_ H]; [|apply unsigned_no_minus, D|intros r E; vm_compute in E; discriminate].
    destruct (unsigned_head _ (proj1 (D t m))) as (c & r & E & C). rewrite E in H. cbn in H. injection H as H _. lia.
  - apply sign_inj in H as [-> H]; [|apply unsigned_no_minus, D|apply unsigned_no_minus, D].
    apply (proj2 (D t m)) in H. subst. reflexivity.
Qed.

Lemma float_data_type_inj t u : float_data_type t = float_data_type u -> t = u.
Proof. destruct t, u; simpl; congruence. Qed.

Lemma c98_float t a u b :
  lit_eq_float digits u (lit_from_float gext printable digits t a) b = true <-> t = u /\ a = b.
Proof.
  unfold lit_eq_float. rewrite float_literal, andb_true_iff, str_eqb_eq.
  unfold lit_from_float, lit_with_data_type. cbn [lit_data_type opt_eqb]. rewrite dt_eqb_eq.
  split.
  - intros [H1 H2]. apply float_data_type_inj in H2. subst u. apply display_inj in H1. auto.
  - intros [-> ->]. auto.
Qed.

Lemma c98_agree t a b :
  lit_eq_float digits t (lit_from_float gext printable digits t a) b = float_eqb a b <->
  ~ (a = NaN /\ b = NaN) /\ ~ (exists s, a = Finite s 0 /\ b = Finite (negb s) 0).
Proof.
  assert (E := c98_float t a t b).
  destruct (lit_eq_float _ _ _ _) eqn:L.
  - destruct (proj1 E eq_refl) as [_ <-]. split.
    + intros F. split; [intros [-> _]; discriminate F|]. intros (s & -> & H). injection H as H. destruct s; discriminate.
    + intros [N _]. destruct a as [|s|s m]; cbn [float_eqb]; [destruct N; auto|symmetry; apply Bool.eqb_reflx|].
      rewrite N.eqb_refl, Bool.eqb_reflx. reflexivity.
  - split.
    + intros F. split; [intros [-> ->]; discriminate (proj2 E (conj eq_refl eq_refl))|].
      intros (s & -> & ->). cbn in F. rewrite orb_true_r in F. discriminate.
    + intros [_ Z]. assert (X : a <> b) by (intros ->; discriminate (proj2 E (conj eq_refl eq_refl))).
      symmetry. apply not_true_is_false. intros F. destruct a as [|s|s m], b as [|s'|s' n]; try discriminate F; cbn in F.
      * apply Bool.eqb_prop in F. congruence.
      * apply andb_true_iff in F as [F1 F2]. apply N.eqb_eq in F1. subst n. apply orb_true_iff in F2 as [F2|F2].
        -- apply Bool.eqb_prop in F2. congruence.
        -- apply N.eqb_eq in F2. subst m. apply Z. exists s. split; [reflexivity|].
           destruct s, s'; try reflexivity; congruence.
Qed.

Lemma c98_text t v : xsd_double (lexical_form (lit_from_float gext printable digits t v)) <-> forall s, v <> Infinite s.
Proof.
  rewrite float_literal. split.
  - intros X s ->. unfold float_display in X.
    assert (I : forall r, ~ unsigned_decimal (105 :: r)).
    { intros r U. destruct (unsigned_head _ U) as (c & q & E & C). injection E as <- _. lia. }
    destruct X as [[U|(u & E & U)]|M].
    + destruct s; [exact (unsigned_no_minus _ U _ eq_refl)|exact (I _ U)].
    + destruct s; cbn in E; [|discriminate]. injection E as <-. exact (I _ U).
    + destruct s; vm_compute in M; intuition discriminate.
  - intros N. destruct v as [|s|s m]; [right; vm_compute; auto|destruct (N s eq_refl)|]. left. unfold float_display.
    destruct s; [right; exists (digits t m); split; [reflexivity|apply D]|left; apply D].
Qed.

(** ** Decimals *)

Lemma zeros_value k s v : place_value s = Some v -> place_value (repeat 48 k ++ s) = Some v.
Proof. intros E. induction k as [|k IH]; [exact E|]. cbn. rewrite IH. cbn. reflexivity. Qed.

Lemma zeros_digits k : all_digits (repeat 48 k).
Proof. apply Forall_forall. intros c H. apply repeat_spec in H. subst. lia. Qed.

Lemma decimal_parts d : exists w f, all_digits w /\ w <> [] /\ all_digits f /\ length f = d_scale d /\
  place_value (w ++ f) = Some (d_mantissa d) /\
  decimal_display d = sign (d_neg d) ++ w ++ match d_scale d with O => [] | _ => 46 :: f end.
Proof.
  destruct d as [neg m k]. cbn [d_neg d_mantissa d_scale]. unfold decimal_display. cbn [d_neg d_mantissa d_scale].
  set (ps := repeat 48 (S k - length (dec_N m)) ++ dec_N m).
  assert (L : (k < length ps)%nat) by (unfold ps; rewrite app_length, repeat_length; lia).
  assert (P : all_digits ps) by (apply Forall_app; split; [apply zeros_digits|apply dec_N_all]).
  assert (V : place_value ps = Some m) by (apply zeros_value, place_value_dec).
  exists (firstn (length ps - k) ps), (skipn (length ps - k) ps).
  rewrite <- (firstn_skipn (length ps - k) ps) in P. apply Forall_app in P as [P1 P2].
  split; [exact P1|]. split.
  { intros E. apply (f_equal (@length _)) in E. rewrite firstn_length in E. change (length (@nil N)) with O in E. lia. }
  split; [exact P2|]. split; [rewrite skipn_length; lia|]. split; [rewrite firstn_skipn; exact V|reflexivity].
Qed.

Lemma decimal_unsigned d : exists u, decimal_display d = sign (d_neg d) ++ u /\ unsigned_decimal u.
Proof.
  destruct (decimal_parts d) as (w & f & W & N & F & L & _ & ->). eexists. split; [reflexivity|].
  exists w. split; [exact W|]. split; [exact N|]. destruct (d_scale d) as [|k].
  - left. apply app_nil_r.
  - right. exists f. split; [exact F|]. split; [|reflexivity]. intros ->. discriminate.
Qed.

Lemma decimal_ascii d : Forall (fun c => 32 <= c <= 126 /\ c <> 34 /\ c <> 92) (decimal_display d).
Proof. destruct (decimal_unsigned d) as (u & -> & U). apply sign_ascii, unsigned_ascii, U. Qed.

Lemma decimal_literal d : lexical_form (lit_from_decimal gext printable d) = decimal_display d.
Proof. apply escape_ascii; [exact T|apply decimal_ascii]. Qed.

Lemma sign_no_point neg w : all_digits w -> ~ In 46 (sign neg ++ w).
Proof.
  intros W H. apply in_app_or in H as [H|H].
  - destruct neg; cbn in H; [destruct H as [H|[]]; discriminate|exact H].
  - rewrite (Forall_forall (fun c => 48 <= c <= 57)) in W. apply W in H. lia.
Qed.

Lemma decimal_display_value d : decimal_value (decimal_display d) = Some (decimal_num d, d_scale d).
Proof.
  destruct (decimal_parts d) as (w & f & W & N & F & L & V & ->). unfold decimal_value, decimal_num.
  destruct (d_scale d) as [|k] eqn:K.
  - rewrite app_nil_r. rewrite (proj2 (split_first_None 46 _) (sign_no_point _ _ W)).
    destruct f as [|]; [|discriminate L]. rewrite app_nil_r in V.
    rewrite (int_value_signed _ _ _ W N V). reflexivity.
  - rewrite app_assoc. rewrite (proj2 (split_first_Some 46 _ (sign (d_neg d) ++ w) f)) by (split; [reflexivity|apply sign_no_point, W]).
    rewrite <- app_assoc.
    rewrite (int_value_signed _ (w ++ f) _ (proj2 (Forall_app _ _ _) (conj W F))
      (fun E => N (proj1 (app_eq_nil _ _ E))) V). cbn [option_map]. rewrite L. reflexivity.
Qed.

Lemma decimal_display_inj a b : decimal_display a = decimal_display b -> a = b.
Proof.
  intros H. assert (V := f_equal decimal_value H). rewrite !decimal_display_value in V.
  injection V as V K. destruct (decimal_unsigned a) as (u & A & U). destruct (decimal_unsigned b) as (u' & B & U').
  rewrite A, B in H. apply sign_inj in H as [S _]; [|apply unsigned_no_minus, U|apply unsigned_no_minus, U'].
  destruct a as [s m k], b as [s' m' k']. cbn in *. subst. f_equal. destruct s'; unfold decimal_num in V; cbn in V; lia.
Qed.

Lemma c98_decimal a b : lit_eq_decimal (lit_from_decimal gext printable a) b = true <-> a = b.
Proof.
  unfold lit_eq_decimal. rewrite decimal_literal, andb_true_iff, str_eqb_eq.
  split; [intros [H _]; apply decimal_display_inj, H|intros ->; auto].
Qed.

Lemma c98_decimal_type l b : lit_eq_decimal l b = true ->
  lit_data_type l = Some DtDecimal /\ lexical_form l = lexical_form (lit_from_decimal gext printable b).
Proof.
  unfold lit_eq_decimal. rewrite decimal_literal, andb_true_iff, str_eqb_eq. intros [H E]. split; [|exact H].
  destruct (lit_data_type l) as [d|]; [|discriminate E]. cbn [opt_eqb] in E. apply dt_eqb_eq in E. congruence.
Qed.

Lemma c98_decimal_text d : xsd_decimal (lexical_form (lit_from_decimal gext printable d)) /\
  decimal_value (lexical_form (lit_from_decimal gext printable d)) = Some (decimal_num d, d_scale d).
Proof.
  rewrite decimal_literal. split; [|apply decimal_display_value].
  destruct (decimal_unsigned d) as (u & -> & U). destruct (d_neg d); [right; exists u; split; [reflexivity|exact U]|left; exact U].
Qed.
End Floats.

Lemma c98_type gext printable digits t l v :
  let named l := option_map dt_as_iri (lit_data_type l) = Some ($"http://www.w3.org/2001/XMLSchema#" ++ match t with F64 => $"double" | F32 => $"float" end) in
  named (lit_from_float gext printable digits t v) /\ lit_language (lit_from_float gext printable digits t v) = None /\
  (lit_eq_float digits t l v = true -> named l).
Proof.
  cbv zeta. split; [destruct t; reflexivity|]. split; [destruct t; reflexivity|]. unfold lit_eq_float. intros H.
  apply andb_true_iff in H as [_ H]. destruct (lit_data_type l) as [d|]; [|discriminate H]. cbn [opt_eqb] in H. apply dt_eqb_eq in H. subst d.
  destruct t; reflexivity.
Qed.
Lemma infinite_text gext printable : ascii_tables gext printable -> forall digits t s,
  lexical_form (lit_from_float gext printable digits t (Infinite s)) = if s then $"-inf" else $"inf".
Proof.
  intros T digits t s. transitivity (escape_string gext printable (if s then $"-inf" else $"inf")); [destruct s; reflexivity|].
  apply escape_ascii; [exact T|]. destruct s; repeat constructor; discriminate.
Qed.
