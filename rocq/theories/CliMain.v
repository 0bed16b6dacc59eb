(** Proofs of C78 and C79. *)
From Coq Require Import Permutation Lia.
From Verif Require Import StrFacts GraphProofs SimplifyProofs LiteralProofs NTriplesProofs NTriplesRead NTriplesDocs NTriplesWrite NTriplesReject
  NTriplesMain JsonProofs JsonMain DotProofs DotMain.
From Verif Require Export CliProofs.

(** ** C78 *)
Lemma c78_success e from to i o : convert e from to i = Exits true o ->
  In from [FJson; FNTriples; FXml] /\ ~ In to [Some FJsonLd; Some FN3] /\ o <> None.
Proof.
  unfold convert. intros H. split; [|split].
  - destruct from; cbn in H; try discriminate; cbn; auto. destruct (in_text i); discriminate.
  - intros J. destruct (read_graph e from i) as [[g n]| | |]; cbn in H; try discriminate.
    cbn in J. destruct J as [<-|[<-|[]]]; discriminate.
  - destruct (read_graph e from i) as [[g n]| | |]; cbn in H; try discriminate.
    destruct (write_graph e n g _); cbn in H; try discriminate. injection H as <-. discriminate.
Qed.

Lemma io_all_total {A B} (f : A -> io B) l : (exists w, io_all (map f l) = io_ok w) <-> Forall (fun a => exists b, f a = io_ok b) l.
Proof.
  split.
  - intros (w & E). apply io_all_Forall2 in E. induction E; constructor; eauto.
  - induction 1 as [|a l (b & E) F (w & IH)]; [exists []; reflexivity|]. exists (b :: w). cbn. rewrite E. cbn. rewrite IH. reflexivity.
Qed.
Lemma read_iff e s : (exists g, e_nt_read e s = Ret (Ok g)) <-> text_understood e s.
Proof.
  unfold text_understood, e_nt_read. split.
  - intros (g & R). destruct (proj2 (proj1 (c59_accepts (e_iri e) (e_lang e) (e_label e) (e_gext e) (e_printable e) s))) as (l & D).
    { rewrite R. discriminate. }
    exists l. split; [exact D|]. rewrite (nt_reads _ _ _ _ _ l s D) in R. unfold triples_meaning in R. apply io_all_total.
    destruct (io_all _) as [[w|x]|]; try discriminate. exists w. reflexivity.
  - intros (l & D & F). apply io_all_total in F as (w & E). exists (g_from_iter w). rewrite (nt_reads _ _ _ _ _ l s D).
    unfold triples_meaning. rewrite E. reflexivity.
Qed.
Lemma read_graph_text e s : read_graph e FNTriples (text_input s) = wbind (of_io (e_nt_read e s)) (fun g => Done (g, e_counter e)).
Proof. reflexivity. Qed.
Lemma written e s g to : env_ok e -> e_nt_read e s = Ret (Ok g) -> In to line_formats ->
  exists o, write_graph e (e_counter e) g to = Done o.
Proof.
  intros [O1 O2] R T. destruct (proj1 (read_iff e s) (ex_intro _ g R)) as (l & D & _).
  pose proof (read_flat e s l g D R) as FL. cbn in T. destruct T as [<-|[<-|[<-|[<-|[]]]]]; cbn; try (eexists; reflexivity).
  destruct (js_write_ok (e_mode e) (e_orders e) (e_order e) (e_counter e) g O1) as (v & E & _).
  { rewrite (simplify_flat_list _ _ _ O2 FL). eapply Forall_perm; [|exact FL]. apply Permutation_sym, g_iter_perm, O2. }
  rewrite E. cbn. eexists. reflexivity.
Qed.
Lemma c78_text e s to : env_ok e -> In to line_formats ->
  (text_understood e s -> exists o, convert e FNTriples (Some to) (text_input s) = Exits true (Some o)) /\
  (~ text_understood e s -> forall f, convert e FNTriples f (text_input s) = Exits false None \/
     convert e FNTriples f (text_input s) = Panics /\ e_nt_read e s = Panic).
Proof.
  intros EO T. unfold convert. rewrite read_graph_text. split.
  - intros U. apply read_iff in U as (g & R). rewrite R. cbn. destruct (written e s g to EO R T) as (o & W). rewrite W. cbn. eauto.
  - intros U f. destruct (e_nt_read e s) as [[g|x]|] eqn:R; cbn; [exfalso; apply U, read_iff; eauto|auto|auto].
Qed.
Lemma c78_draw e s : hash_order (e_order e) -> (forall g i, e_compress e g i <> Panic) ->
  (text_understood e s -> exists d, draw e FNTriples (text_input s) = Exits true (Some (OutDot d))) /\
  (~ text_understood e s -> draw e FNTriples (text_input s) = Exits false None \/
     draw e FNTriples (text_input s) = Panics /\ e_nt_read e s = Panic).
Proof.
  intros O C. unfold draw. cbn [is_dataset_representation]. rewrite read_graph_text. split.
  - intros U. apply read_iff in U as (g & R). rewrite R. cbn. destruct (dot_write _ _ _ _ _ _ g) as [[d n]|] eqn:E; [eauto|].
    exfalso. apply c52_written in E as (st & _ & E); [|exact O]. exact (C _ _ E).
  - intros U. destruct (e_nt_read e s) as [[g|x]|] eqn:R; cbn; [exfalso; apply U, read_iff; eauto|auto|auto].
Qed.
Lemma c78_panics e : (forall from to i, In from [FJsonLd; FN3; FNQuads; FTrig] -> convert e from to i = Panics) /\
  (forall to s, convert e FTurtle to (text_input s) = Panics /\ draw e FTurtle (text_input s) = Panics) /\
  (forall s to, text_understood e s -> In to [FJsonLd; FN3] -> convert e FNTriples (Some to) (text_input s) = Panics).
Proof.
  split; [|split].
  - intros from to i J. cbn in J. destruct J as [<-|[<-|[<-|[<-|[]]]]]; reflexivity.
  - intros to s. split; reflexivity.
  - intros s to U J. unfold convert. rewrite read_graph_text. apply read_iff in U as (g & R). rewrite R. cbn.
    destruct J as [<-|[<-|[]]]; reflexivity.
Qed.
Lemma c78_draw_others e from i : (In from [FNQuads; FTrig] -> draw e from i = Exits false None) /\
  (In from [FJsonLd; FN3] -> draw e from i = Panics).
Proof. split; intros J; cbn in J; destruct J as [<-|[<-|[]]]; reflexivity. Qed.
Lemma c78_trig e s : text_understood e s ->
  convert e FNTriples (Some FTrig) (text_input s) = Exits true (Some (OutText ($"{" ++ [10] ++ $"}" ++ [10]))).
Proof.
  intros U. destruct (U) as (l & D & _). unfold convert. rewrite read_graph_text. apply read_iff in U as (g & R). rewrite R. cbn.
  unfold trig_write_graph. destruct (read_back e s l g D R) as [-> _]. reflexivity.
Qed.

(** ** C79 *)
Lemma convert_nt e s g : e_nt_read e s = Ret (Ok g) ->
  convert e FNTriples (Some FNTriples) (text_input s) =
  Exits true (Some (OutText (nt_write (e_mode e) false (e_orders e) (e_order e) (e_counter e) g))).
Proof. intros R. unfold convert. rewrite read_graph_text, R. reflexivity. Qed.
Lemma c79_again e s l g : normalises e -> env_ok e -> e_mode e = Bare ->
  doc_at triple_at l s -> Forall labelled_triple l -> e_nt_read e s = Ret (Ok g) ->
  exists out, convert e FNTriples (Some FNTriples) (text_input s) = Exits true (Some (OutText out)) /\
  (Forall (Forall (readable_char (e_gext e) (e_printable e))) (quoted_texts l) ->
     exists g', e_nt_read e out = Ret (Ok g') /\
       (forall st', In st' (g_list g') <-> exists st, In st (g_list g) /\ st' = reread (e_gext e) (e_printable e) st) /\
       ((forall st, In st (g_list g') <-> In st (g_list g)) <->
        Forall (Forall (prints_as_itself (e_gext e) (e_printable e))) (quoted_texts l))) /\
  (~ Forall (Forall (readable_char (e_gext e) (e_printable e))) (quoted_texts l) -> e_nt_read e out = Ret (Err Tokenizer)).
Proof.
  intros NF EO M D L R. exists (again e g). rewrite (convert_nt e s g R), M. split; [reflexivity|].
  destruct (converted e NF EO s l g D L R) as [A B]. split; [|exact B]. intros H. destruct (A H) as (g' & R' & IN).
  exists g'. split; [exact R'|]. split; [exact IN|]. eapply same_again; eassumption.
Qed.
Lemma c79_angled e s l : normalises e -> env_ok e -> e_mode e = Angled ->
  doc_at triple_at l s -> Forall labelled_triple l -> l <> [] -> text_understood e s ->
  exists out, convert e FNTriples (Some FNTriples) (text_input s) = Exits true (Some (OutText out)) /\
    e_nt_read e out = Ret (Err Tokenizer).
Proof.
  intros NF [O1 O2] M D L NE U. apply read_iff in U as (g & R). eexists. rewrite (convert_nt e s g R), M. split; [reflexivity|].
  apply nt_angled; [exact O1|exact O2|eapply read_flat; eassumption| |].
  - pose proof (read_each e s l g D L R) as F. clear D L NE R. induction F as [|t st l w PP F IH]; [constructor|]. constructor; [|exact IH].
    destruct PP as ((a & b & AT) & LT & ME). destruct (statement_read e NF t st a b AT LT ME) as (S1 & (P1 & _) & _).
    assert (Z : forall i, Forall (fun c => iri_piece (Plain c)) i -> ~ In 62 i).
    { intros i Fi J. rewrite Forall_forall in Fi. apply Fi in J as [_ J]. apply J. cbn. auto. }
    split; [|apply Z, P1]. destruct (st_subject st); [destruct S1; assumption|apply Z, S1|exact S1].
  - destruct (read_back e s l g D R) as [_ F]. inversion F; subst; [congruence|discriminate].
Qed.
