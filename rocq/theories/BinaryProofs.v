(** What texts of binary literals can be decoded. *)
From Verif Require Import StrFacts LiteralSpec LiteralProofs.
Local Open Scope N_scope.

Definition upto (n : nat) : list N := map N.of_nat (seq 0 n).
Lemma upto_In n x : x < N.of_nat n -> In x (upto n).
Proof. intros H. apply in_map_iff. exists (N.to_nat x). split; [lia|]. apply in_seq. lia. Qed.

Definition opt_N_eqb (a b : option N) : bool :=
  match a, b with Some x, Some y => N.eqb x y | None, None => true | _, _ => false end.
Lemma opt_N_eqb_eq a b : opt_N_eqb a b = true -> a = b.
Proof. destruct a, b; cbn; try discriminate; [|reflexivity]. intros H. apply N.eqb_eq in H. congruence. Qed.

Lemma nth_error_lt (l : str) n c : nth_error l n = Some c -> (n < length l)%nat.
Proof. intros H. apply nth_error_Some. rewrite H. discriminate. Qed.

(** ** Base64 *)
Lemma b64_val_small c x : b64_val c = Some x -> c < 123 /\ x < 64.
Proof.
  unfold b64_val, is_upper, is_lower, is_digit, in_range.
  repeat match goal with |- context [if ?b then _ else _] => destruct b eqn:? end; intros [= <-]; lia.
Qed.
Lemma b64_digit_val c x : base64_digit c x <-> b64_val c = Some x.
Proof.
  unfold base64_digit. split; intros H.
  - assert (L : (N.to_nat x < 64)%nat) by (apply (nth_error_lt _ _ _ H)).
    assert (K : forallb (fun y => match nth_error $"ABCDEFGHIJKLMNOPQRSTUVWXYZabcdefghijklmnopqrstuvwxyz0123456789+/" (N.to_nat y) with
                                  | Some d => opt_N_eqb (b64_val d) (Some y) | None => false end) (upto 64) = true) by (vm_compute; reflexivity).
    rewrite forallb_forall in K. specialize (K x (upto_In 64 x ltac:(lia))). rewrite H in K. apply opt_N_eqb_eq, K.
  - destruct (b64_val_small c x H) as [L M].
    assert (K : forallb (fun d => match b64_val d with
                                  | Some y => opt_N_eqb (nth_error $"ABCDEFGHIJKLMNOPQRSTUVWXYZabcdefghijklmnopqrstuvwxyz0123456789+/" (N.to_nat y)) (Some d)
                                  | None => true end) (upto 123) = true) by (vm_compute; reflexivity).
    rewrite forallb_forall in K. specialize (K c (upto_In 123 c ltac:(lia))). rewrite H in K. apply opt_N_eqb_eq, K.
Qed.
Lemma b64_pad : b64_val 61 = None.
Proof. reflexivity. Qed.

Lemma some_inv (a b : list N) : Some a = Some b -> a = b.
Proof. intros H. injection H. auto. Qed.
Lemma b64_decode_base64 : forall n s bs, (length s <= n)%nat -> b64_decode s = Some bs -> base64 s bs.
Proof.
  induction n as [|n IH]; intros s bs L D.
  { destruct s; [|cbn in L; lia]. injection D as <-. constructor. }
  destruct s as [|c1 [|c2 [|c3 [|c4 r]]]]; try discriminate; [injection D as <-; constructor|].
  cbn [b64_decode] in D. destruct (b64_val c1) as [v1|] eqn:V1; [|discriminate]. destruct (b64_val c2) as [v2|] eqn:V2; [|discriminate].
  pose proof (proj2 (b64_val_small _ _ V1)) as L1. pose proof (proj2 (b64_val_small _ _ V2)) as L2.
  destruct (b64_val c3) as [v3|] eqn:V3.
  - pose proof (proj2 (b64_val_small _ _ V3)) as L3. destruct (b64_val c4) as [v4|] eqn:V4.
    + pose proof (proj2 (b64_val_small _ _ V4)) as L4. destruct (b64_decode r) as [t|] eqn:R; [|discriminate]. apply some_inv in D as <-.
      apply (b64_three c1 c2 c3 c4 v1 v2 v3 v4 _ _ _ r t); try (apply b64_digit_val; assumption).
      * repeat (apply Forall_cons; [cbn beta; lia|]); apply Forall_nil.
      * lia.
      * apply IH; [cbn in L; lia|exact R].
    + destruct (N.eqb_spec c4 61) as [->|]; [|discriminate]. destruct (N.eqb_spec (v3 mod 4) 0) as [Z|]; [|discriminate].
      destruct r; [|discriminate]. apply some_inv in D as <-.
      apply (b64_two c1 c2 c3 v1 v2 v3); try (apply b64_digit_val; assumption); [repeat (apply Forall_cons; [cbn beta; lia|]); apply Forall_nil|lia].
  - destruct (b64_val c4) eqn:V4; [discriminate|]. destruct (N.eqb_spec c3 61) as [->|]; [|discriminate].
    destruct (N.eqb_spec c4 61) as [->|]; [|discriminate]. destruct (N.eqb_spec (v2 mod 16) 0) as [Z|]; [|discriminate].
    destruct r; [|discriminate]. apply some_inv in D as <-.
    apply (b64_one c1 c2 v1 v2); try (apply b64_digit_val; assumption); [repeat (apply Forall_cons; [cbn beta; lia|]); apply Forall_nil|lia].
Qed.
Lemma base64_b64_decode s bs : base64 s bs -> b64_decode s = Some bs.
Proof.
  induction 1 as [|c1 c2 c3 c4 x1 x2 x3 x4 a b c s bs D1 D2 D3 D4 B E H IH|c1 c2 c3 x1 x2 x3 a b D1 D2 D3 B E|c1 c2 x1 x2 a D1 D2 B E];
    [reflexivity| | |]; cbn [app b64_decode lit].
  - apply b64_digit_val in D1, D2, D3, D4. rewrite D1, D2, D3, D4, IH.
    apply b64_val_small in D1 as [_ L1], D2 as [_ L2], D3 as [_ L3], D4 as [_ L4].
    unfold is_bytes in B. rewrite !Forall_cons_iff in B. destruct B as (A1 & A2 & A3 & _).
    repeat f_equal; lia.
  - apply b64_digit_val in D1, D2, D3. rewrite D1, D2, D3. change (N_of_ascii "=") with 61. rewrite b64_pad.
    apply b64_val_small in D1 as [_ L1], D2 as [_ L2], D3 as [_ L3].
    unfold is_bytes in B. rewrite !Forall_cons_iff in B. destruct B as (A1 & A2 & _).
    change (61 =? 61) with true. assert (Z : (x3 mod 4 =? 0) = true) by lia. rewrite Z. cbn [andb]. repeat f_equal; lia.
  - apply b64_digit_val in D1, D2. rewrite D1, D2. change (N_of_ascii "=") with 61. rewrite b64_pad.
    apply b64_val_small in D1 as [_ L1], D2 as [_ L2].
    unfold is_bytes in B. rewrite !Forall_cons_iff in B. destruct B as (A1 & _).
    change (61 =? 61) with true. assert (Z : (x2 mod 16 =? 0) = true) by lia. rewrite Z. cbn [andb]. repeat f_equal; lia.
Qed.
Lemma c36_base64_exact lex lang bs : lit_to_bytes (Lit lex (Some DtBase64Binary) lang) = Some bs <-> base64 lex bs.
Proof.
  change (lit_to_bytes (Lit lex (Some DtBase64Binary) lang)) with (b64_decode lex). split.
  - apply (b64_decode_base64 (length lex)), le_n.
  - apply base64_b64_decode.
Qed.

(** ** Hexadecimal digits *)
Lemma hex_val_small c x : hex_val c = Some x -> c < 103 /\ x < 16.
Proof.
  unfold hex_val, is_digit, in_range.
  repeat match goal with |- context [if ?b then _ else _] => destruct b eqn:? end; intros [= <-]; lia.
Qed.
Lemma hex_digit_val c x : hex_digit_of c x <-> hex_val c = Some x.
Proof.
  unfold hex_digit_of. split; intros H.
  - assert (L : (N.to_nat x < 16)%nat) by (destruct H as [H|H]; apply (nth_error_lt _ _ _ H)).
    assert (K : forallb (fun y => match nth_error $"0123456789ABCDEF" (N.to_nat y), nth_error $"0123456789abcdef" (N.to_nat y) with
                                  | Some d, Some e => opt_N_eqb (hex_val d) (Some y) && opt_N_eqb (hex_val e) (Some y)
                                  | _, _ => false end) (upto 16) = true) by (vm_compute; reflexivity).
    rewrite forallb_forall in K. specialize (K x (upto_In 16 x ltac:(lia))).
    destruct (nth_error $"0123456789ABCDEF" (N.to_nat x)), (nth_error $"0123456789abcdef" (N.to_nat x)); try discriminate.
    apply andb_true_iff in K as [K1 K2]. apply opt_N_eqb_eq in K1, K2. destruct H as [H|H]; injection H as <-; assumption.
  - destruct (hex_val_small c x H) as [L M].
    assert (K : forallb (fun d => match hex_val d with
                                  | Some y => opt_N_eqb (nth_error $"0123456789ABCDEF" (N.to_nat y)) (Some d)
                                              || opt_N_eqb (nth_error $"0123456789abcdef" (N.to_nat y)) (Some d)
                                  | None => true end) (upto 103) = true) by (vm_compute; reflexivity).
    rewrite forallb_forall in K. specialize (K c (upto_In 103 c ltac:(lia))). rewrite H in K.
    apply orb_true_iff in K as [K|K]; apply opt_N_eqb_eq in K; auto.
Qed.
Lemma hex_piece_byte_iff p b : hex_piece p = Some b <-> hex_byte p b.
Proof.
  split.
  - destruct p as [|c [|d [|? ?]]]; try discriminate. cbn [hex_piece]. destruct (is_ascii c && is_ascii d); [|discriminate].
    unfold u8_from_hex2. destruct (N.eqb_spec c 43) as [->|].
    + intros H. apply hb_plus, hex_digit_val, H.
    + destruct (hex_val c) as [x|] eqn:X; [|discriminate]. destruct (hex_val d) as [y|] eqn:Y; [|discriminate]. intros [= <-].
      apply hb_two; apply hex_digit_val; assumption.
  - intros [c d x y C D|d y D]; cbn [hex_piece].
    + apply hex_digit_val in C, D. destruct (hex_val_small _ _ C) as [LC _], (hex_val_small _ _ D) as [LD _].
      unfold is_ascii. replace ((c <? 128) && (d <? 128)) with true by lia. unfold u8_from_hex2.
      destruct (N.eqb_spec c 43) as [->|]; [discriminate C|]. rewrite C, D. reflexivity.
    + apply hex_digit_val in D. destruct (hex_val_small _ _ D) as [LD _]. unfold is_ascii.
      replace ((43 <? 128) && (d <? 128)) with true by lia. exact D.
Qed.
Lemma hex_pieces_iff ps : forall bs, hex_pieces ps = Some bs <-> Forall2 hex_byte ps bs.
Proof.
  induction ps as [|p ps IH]; intros bs; cbn [hex_pieces].
  - split; [intros [= <-]; constructor|intros H; inversion H; reflexivity].
  - split.
    + destruct (hex_piece p) as [b|] eqn:B; [|discriminate]. destruct (hex_pieces ps) as [t|]; [|discriminate]. intros [= <-].
      constructor; [apply hex_piece_byte_iff, B|apply IH; reflexivity].
    + intros H. inversion H as [|? b ? t B F]; subst. apply hex_piece_byte_iff in B. apply IH in F. rewrite B, F. reflexivity.
Qed.
Lemma hex_byte_no_space p b : hex_byte p b -> forallb (fun c => negb (N.eqb 32 c)) p = true.
Proof.
  intros [c d x y C D|d y D].
  - apply hex_digit_val in C, D. cbn [forallb]. destruct (N.eqb_spec 32 c) as [<-|]; [discriminate C|]. destruct (N.eqb_spec 32 d) as [<-|]; [discriminate D|]. reflexivity.
  - apply hex_digit_val in D. cbn [forallb]. destruct (N.eqb_spec 32 d) as [<-|]; [discriminate D|]. reflexivity.
Qed.
Lemma hex_split ps bs : ps <> [] -> Forall2 hex_byte ps bs -> split_on (N.eqb 32) (join [32] ps) = ps.
Proof.
  intros N F. induction F as [|p b ps bs B F IH]; [congruence|]. destruct ps as [|q ps].
  - apply split_on_nosep, (hex_byte_no_space p b B).
  - rewrite join_cons by discriminate. cbn [app]. rewrite split_on_app_sep; [|reflexivity|apply (hex_byte_no_space p b B)].
    rewrite IH by discriminate. reflexivity.
Qed.
Lemma c36_hex_exact lex lang bs : lit_to_bytes (Lit lex (Some DtHexBinary) lang) = Some bs <->
  exists ps, ps <> [] /\ lex = join [32] ps /\ Forall2 hex_byte ps bs.
Proof.
  change (lit_to_bytes (Lit lex (Some DtHexBinary) lang)) with (hex_pieces (split_on (N.eqb 32) lex)). rewrite hex_pieces_iff. split.
  - intros F. exists (split_on (N.eqb 32) lex). split; [|split; [symmetry; apply join_split_on|exact F]].
    intros E. pose proof (join_split_on 32 lex) as J. rewrite E in J. subst lex. discriminate E.
  - intros (ps & N & -> & F). rewrite (hex_split ps bs N F). exact F.
Qed.
