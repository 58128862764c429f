(** The error of a document, both ways: see SpecFail.v. *)

From Coq Require Import String.
From Verif Require Import Bytes BytesFacts Grammar Peg Result Ast Splicer Image Convert ImageFacts Dockerfile SpecDoc DocFacts
  PegFacts SpecImage SpecSyntax SpecClear SpecExact SpecFail PegRules PegTokens PegQuoted Sound SoundRules SoundInstr SoundDoc
  Forward Forward2 Forward3 ListFacts Forward4 Forward5 Idle Exact Exact2 Exact3 Exact4 Exact5 Exact6 Exact7 Exact8 Fail1 Fail2 Fail3.
Local Open Scope nat_scope.

Section Doc.
Variable unq : bytes -> option bytes.
Variable src : bytes.
Notation pos := (Sound.pos src).
Notation adds := (adds unq src).

(** ** From runs of the grammar *)

Lemma doc_step_err t st e : t_rule t <> R_EOI -> t_rule t <> R_comment -> instruction_of unq src t = Err e ->
  doc_step unq src st t = Err e.
Proof. intros H1 H2 E. unfold doc_step. rewrite E. destruct (t_rule t); congruence || reflexivity. Qed.

Lemma doc_step_ok t st i : t_rule t <> R_EOI -> t_rule t <> R_comment -> instruction_of unq src t = Ok i ->
  exists st', doc_step unq src st t = Ok st'.
Proof. intros H1 H2 E. unfold doc_step. rewrite E. destruct (t_rule t); try congruence; cbn [bind]; destruct i; eauto. Qed.

Lemma line_outcome p s q s' f : valid_utf8 s = true -> pos p s -> run ctx0 (Call R_meta_step) p s = Done q s' f -> ends_here s' ->
  exists w, s = w ++ s' /\ q = p + length w /\ line_text p w s' /\
    forall st, match for_each (doc_step unq src) f st with
               | Ok st' => exists l, line_reads unq p w s' l
               | Err e => line_fails unq p w s' e
               | _ => False
               end.
Proof.
  intros Hv Hp H He. call_open H. cbn [grammar fst snd rule_inner rule_outer rule_tokens] in *.
  seq_open H Hv H1. seq_open H Hv0 H2.
  apply blanks_inv in H1. destruct H1 as (b & Hb & -> & -> & -> & _).
  apply blanks_inv in H. destruct H as (b2 & Hb2 & -> & -> & -> & _).
  pose proof (pos_app _ _ _ _ Hp) as Hp1. rewrite app_nil_r. cbn [app].
  apply opt_inv in H2; [|reflexivity]. destruct H2 as [H|(_ & -> & <- & ->)].
  - apply alt_inv in H; [|reflexivity]. destruct H as [H|[_ H]].
    + assert (Hcl : closed_end (b2 ++ s')) by (exists b2, s'; split; [reflexivity|split; [exact Hb2|apply ends_end; exact He]]).
      apply (step_outcome unq src) in H; [|exact Hv0|exact Hp1|exact Hcl].
      destruct H as (w & t & -> & -> & -> & Ht1 & Ht2 & Htxt & Hy).
      exists (b ++ w ++ b2). rewrite <- !app_assoc, !app_length. split; [reflexivity|]. split; [lia|].
      split; [constructor; assumption|]. intros st. cbn [for_each].
      destruct (instruction_of unq src t) as [i|e| |] eqn:E; try contradiction.
      * destruct (doc_step_ok t st i Ht1 Ht2 E) as (st' & ->). cbn [bind]. exists [i]. constructor; assumption.
      * rewrite (doc_step_err t st e Ht1 Ht2 E). cbn [bind]. constructor; assumption.
    + apply comment_inv in H; [|exact Hv0]. destruct H as (t & Ht & -> & -> & -> & Hnl).
      assert (b2 = []).
      { destruct b2 as [|x b2]; [reflexivity|]. exfalso. cbn [app] in Hnl. inversion Hb2 as [|? ? Hx]. subst.
        cbn in Hnl. clear - Hx Hnl. unfold is_blank in Hx. unfold is_newline_byte in Hnl.
        apply orb_true_iff in Hx. rewrite !N.eqb_eq in Hx. destruct Hx; subst; discriminate. }
      subst b2. exists (b ++ t). rewrite <- !app_assoc, !app_length. split; [reflexivity|]. split; [cbn; lia|].
      split; [constructor; assumption|]. intros st. cbn. exists []. constructor; assumption.
  - exists (b ++ b2). rewrite <- !app_assoc, !app_length. split; [reflexivity|]. split; [lia|].
    assert (Hbb : blanks (b ++ b2)) by (apply Forall_app; split; assumption).
    split; [constructor; assumption|]. intros st. cbn. exists []. constructor; assumption.
Qed.

Lemma lines_outcome p s q f : valid_utf8 s = true -> pos p s ->
  run ctx0 (Rep (Seq NEWLINE (Call R_meta_step))) p s = Done q [] f ->
  ends_here s /\
  (forall p0 w0, line_text p0 w0 s -> p = p0 + length w0 -> document_text p0 (w0 ++ s)) /\
  (forall p0 w0 e, line_fails unq p0 w0 s e -> p = p0 + length w0 -> document_fails unq p0 (w0 ++ s) e) /\
  forall st, match for_each (doc_step unq src) f st with
             | Ok _ => True
             | Err e => forall p0 w0 l0, line_reads unq p0 w0 s l0 -> p = p0 + length w0 -> document_fails unq p0 (w0 ++ s) e
             | _ => False
             end.
Proof.
  intros Hv Hp H.
  destruct (rep_ind ctx0 (Seq NEWLINE (Call R_meta_step)) (fun p w f s' => s' = [] -> valid_utf8 (w ++ s') = true -> pos p (w ++ s') ->
    ends_here w /\
    (forall p0 w0, line_text p0 w0 w -> p = p0 + length w0 -> document_text p0 (w0 ++ w)) /\
    (forall p0 w0 e, line_fails unq p0 w0 w e -> p = p0 + length w0 -> document_fails unq p0 (w0 ++ w) e) /\
    forall st, match for_each (doc_step unq src) f st with
               | Ok _ => True
               | Err e => forall p0 w0 l0, line_reads unq p0 w0 w l0 -> p = p0 + length w0 -> document_fails unq p0 (w0 ++ w) e
               | _ => False
               end)) with (4 := H) as (w & E & _ & K).
  - reflexivity.
  - intros p0 s0 _ -> _ _. split; [exact I|]. split; [|split].
    + intros p1 w1 Hl _. rewrite app_nil_r. constructor. exact Hl.
    + intros p1 w1 e Hl _. rewrite app_nil_r. constructor. exact Hl.
    + intros st. exact I.
  - clear H Hv Hp. intros p0 w1 s1 f1 w2 f2 s0' H -> _ IH -> Hv Hp. rewrite <- app_assoc in Hv, Hp.
    pose proof (run_valid _ _ _ _ _ _ _ H Hv eq_refl) as Hv1. specialize (IH eq_refl Hv1 (pos_app _ _ _ _ Hp)).
    destruct IH as (Hends & IHt & IHf & IHs).
    seq_open H Hv H1. apply newline_exact in H1. destruct H1 as (n & Hn & E & -> & -> & Hcr). rewrite E in Hp.
    pose proof (pos_app _ _ _ _ Hp) as Hp1. rewrite !app_nil_r in *.
    apply line_outcome in H; [|exact Hv0|exact Hp1|exact Hends]. destruct H as (w & -> & Eq & Htxt & Hy).
    assert (w1 = n ++ w). { apply (app_inv_tail w2). rewrite E, <- app_assoc. reflexivity. }
    subst w1. rewrite <- app_assoc in *. rewrite app_length in *.
    assert (Hdoc : document_text (p0 + length n) (w ++ w2)) by (apply IHt; [exact Htxt|lia]).
    assert (Hne : ends_here (n ++ w ++ w2)) by (apply ends_end; apply newline_line_end; exact Hn).
    split; [exact Hne|]. split; [|split].
    + intros p1 wp Hl Ep. apply text_more; [exact Hl|exact Hn|exact Hcr|]. rewrite <- Ep. exact Hdoc.
    + intros p1 wp e Hl Ep. apply fails_here; [exact Hl|exact Hn|exact Hcr|]. rewrite <- Ep. exact Hdoc.
    + intros st. cbn [app]. rewrite for_each_app. specialize (Hy st).
      destruct (for_each (doc_step unq src) f3 st) as [st1|e| |]; cbn [bind]; try contradiction.
      * destruct Hy as (l & Hl). specialize (IHs st1).
        destruct (for_each (doc_step unq src) f2 st1) as [st2|e| |]; try contradiction; [exact I|].
        intros p1 wp lp Hlp Ep. eapply fails_later; [exact Hlp|exact Hn|exact Hcr|]. rewrite <- Ep. apply (IHs _ _ l Hl). lia.
      * intros p1 wp lp Hlp Ep. eapply fails_later; [exact Hlp|exact Hn|exact Hcr|]. rewrite <- Ep. apply IHf; [exact Hy|lia].
  - rewrite app_nil_r in E. subst w. specialize (K eq_refl). rewrite app_nil_r in K. apply K; assumption.
Qed.

(** ** To runs of the grammar *)

Lemma text_head_letter p w t s : instruction_text p w t -> match w ++ s with x :: _ => is_alpha x = true | [] => False end.
Proof.
  intros [(i & H)|[(kw & fl & l & k & g & img & al & a & -> & Hkw & _)|(k & kw & n & g & cmd & Hk & -> & Hkw & _)]].
  - apply (reads_head_letter lenient p w i t s H).
  - rewrite <- ?app_assoc. eapply keyword_head; [exact Hkw|discriminate|repeat constructor].
  - rewrite <- ?app_assoc. destruct Hk as [->|[->| ->]]; (eapply keyword_head; [exact Hkw|discriminate|repeat constructor]).
Qed.

Lemma line_end_fwd p s : ends_here s -> run ctx0 (Rep ws) p s = Done p s [].
Proof.
  intros H. rewrite <- (app_nil_l s) at 1. rewrite blanks_fwd; [cbn [length app]; f_equal; lia|constructor|].
  apply line_end_not_blank, ends_end. exact H.
Qed.

Lemma instruction_line p b w b2 s t : blanks b -> blanks b2 -> ends_here s ->
  match w ++ b2 ++ s with x :: _ => is_alpha x = true | [] => False end ->
  run ctx0 (Call R_step) (p + length b) (w ++ b2 ++ s) = Done (p + length b + length w) (b2 ++ s) [t] ->
  run ctx0 (Call R_meta_step) p ((b ++ w ++ b2) ++ s) = Done (p + length (b ++ w ++ b2)) s [t].
Proof.
  intros Hb Hb2 Hs Hl Hrun. rewrite <- !app_assoc. rewrite run_call. change (snd (grammar R_meta_step)) with
    (Seq (Rep ws) (Seq (Opt (Alt (Call R_step) comment)) (Rep ws))).
  change (fst (grammar R_meta_step)) with Silent. cbn [rule_inner rule_outer rule_tokens].
  rewrite run_seq by reflexivity. rewrite blanks_fwd; [|exact Hb|apply letter_head_blank; exact Hl].
  rewrite run_seq by reflexivity. rewrite run_opt by reflexivity. rewrite run_alt by reflexivity. rewrite Hrun.
  rewrite blanks_fwd; [|exact Hb2|apply line_end_not_blank, ends_end; exact Hs].
  cbn [app]. f_equal. rewrite !app_length. lia.
Qed.

Lemma line_text_fwd p w s : line_text p w s -> valid_utf8 (w ++ s) = true -> pos p (w ++ s) ->
  exists f, run ctx0 (Call R_meta_step) p (w ++ s) = Done (p + length w) s f.
Proof.
  intros H Hv Hp. destruct H as [p b s Hb He|p b t s Hb Ht He|p b w b2 s Hb Hi Hb2 He].
  - destruct (line_reads_fwd unq src p b [] s) as (f & E & _); [constructor; assumption|exact Hv|exact Hp|eauto].
  - destruct (line_reads_fwd unq src p (b ++ t) [] s) as (f & E & _); [constructor; assumption|exact Hv|exact Hp|eauto].
  - assert (Hv1 := Hv). rewrite <- !app_assoc in Hp, Hv1. rewrite valid_blanks in Hv1 by exact Hb. apply pos_app in Hp.
    destruct (text_step src (p + length b) w (b2 ++ s) Hi) as (t & Hrun);
      [exists b2, s; split; [reflexivity|split; [exact Hb2|apply ends_end; exact He]]|exact Hv1|exact Hp|].
    exists [t]. apply instruction_line; try assumption. apply (text_head_letter _ _ _ _ Hi).
Qed.

Lemma fails_text p w s e : instruction_fails unq p w s e -> match w ++ s with x :: _ => is_alpha x = true | [] => False end.
Proof.
  intros [[(kw & fl & l & k & g & img & al & a & -> & Hkw & _) _]|[[H _]|(H & _)]].
  - rewrite <- ?app_assoc. eapply keyword_head; [exact Hkw|discriminate|repeat constructor].
  - apply (text_head_letter p w s s). right. right. exact H.
  - apply (text_head_letter p w s s H).
Qed.

Lemma line_fails_fwd p w s e : line_fails unq p w s e -> valid_utf8 (w ++ s) = true -> pos p (w ++ s) ->
  exists f, run ctx0 (Call R_meta_step) p (w ++ s) = Done (p + length w) s f /\ forall st, for_each (doc_step unq src) f st = Err e.
Proof.
  intros H Hv Hp. destruct H as [p b w b2 s e Hb Hi Hb2 He].
  assert (Hv1 := Hv). rewrite <- !app_assoc in Hp, Hv1. rewrite valid_blanks in Hv1 by exact Hb. apply pos_app in Hp.
  destruct (fails_step unq src (p + length b) w (b2 ++ s) e Hi) as (t & Hrun & Ht1 & Ht2 & E);
    [exists b2, s; split; [reflexivity|split; [exact Hb2|apply ends_end; exact He]]|exact Hv1|exact Hp|].
  exists [t]. split; [apply instruction_line; try assumption; apply (fails_text _ _ _ _ Hi)|].
  intros st. cbn [for_each]. rewrite (doc_step_err t st e Ht1 Ht2 E). reflexivity.
Qed.

Definition lines_run (p : nat) (w : bytes) (f1 f2 : list tree) : Prop :=
  exists q s, run ctx0 (Call R_meta_step) p w = Done q s f1 /\ run ctx0 more_lines q s = Done (p + length w) [] f2.

Lemma lines_run_last p w f : run ctx0 (Call R_meta_step) p (w ++ []) = Done (p + length w) [] f -> lines_run p w f [].
Proof.
  intros H. rewrite app_nil_r in H. exists (p + length w), []. split; [exact H|].
  unfold more_lines. rewrite run_rep by reflexivity. rewrite run_seq by reflexivity. rewrite run_newline.
  cbn [strip_newline]. reflexivity.
Qed.

Lemma lines_run_more p w n w2 f f1 f2 : run ctx0 (Call R_meta_step) p (w ++ n ++ w2) = Done (p + length w) (n ++ w2) f ->
  newline n -> (n = [CR] -> ~ begins_with LF w2) -> lines_run (p + length w + length n) w2 f1 f2 -> lines_run p (w ++ n ++ w2) f (f1 ++ f2).
Proof.
  intros H Hn Hcr (q & s & R1 & R2). eexists _, _. split; [exact H|].
  unfold more_lines in *. rewrite run_rep by reflexivity.
  rewrite run_seq by reflexivity. rewrite newline_fwd by assumption. rewrite R1, R2. cbn [app].
  f_equal. rewrite !app_length. lia.
Qed.

Lemma after_line p w n w2 q f : run ctx0 (Call R_meta_step) p (w ++ n ++ w2) = Done q (n ++ w2) f -> newline n ->
  valid_utf8 (w ++ n ++ w2) = true -> pos p (w ++ n ++ w2) -> valid_utf8 w2 = true /\ pos (p + length w + length n) w2.
Proof.
  intros H Hn Hv Hp. pose proof (run_valid _ _ _ _ _ _ _ H Hv eq_refl) as Hv2. rewrite valid_newline in Hv2 by exact Hn.
  split; [exact Hv2|]. apply pos_app, pos_app. exact Hp.
Qed.

Lemma document_text_fwd p w : document_text p w -> valid_utf8 w = true -> pos p w -> exists f1 f2, lines_run p w f1 f2.
Proof.
  intros H. induction H as [p w H|p w n w2 H Hn Hcr H2 IH]; intros Hv Hp.
  - destruct (line_text_fwd p w [] H) as (f & Hrun); [rewrite app_nil_r; exact Hv|rewrite app_nil_r; exact Hp|].
    exists f, []. apply lines_run_last. exact Hrun.
  - destruct (line_text_fwd p w (n ++ w2) H Hv Hp) as (f & Hrun).
    destruct (after_line _ _ _ _ _ _ Hrun Hn Hv Hp) as [Hv2 Hp2].
    destruct (IH Hv2 Hp2) as (f1 & f2 & R). exists f, (f1 ++ f2). apply lines_run_more; assumption.
Qed.

Lemma document_fails_fwd p w e : document_fails unq p w e -> valid_utf8 w = true -> pos p w ->
  exists f1 f2, lines_run p w f1 f2 /\ forall st, for_each (doc_step unq src) (f1 ++ f2) st = Err e.
Proof.
  intros H. induction H as [p w e H|p w n w2 e H Hn Hcr H2|p w n w2 l e H Hn Hcr H2 IH]; intros Hv Hp.
  - destruct (line_fails_fwd p w [] e H) as (f & Hrun & Hf); [rewrite app_nil_r; exact Hv|rewrite app_nil_r; exact Hp|].
    exists f, []. split; [apply lines_run_last; exact Hrun|]. rewrite app_nil_r. exact Hf.
  - destruct (line_fails_fwd p w (n ++ w2) e H Hv Hp) as (f & Hrun & Hf).
    destruct (after_line _ _ _ _ _ _ Hrun Hn Hv Hp) as [Hv2 Hp2].
    destruct (document_text_fwd _ _ H2 Hv2 Hp2) as (f1 & f2 & R). exists f, (f1 ++ f2). split; [apply lines_run_more; assumption|].
    intros st. rewrite for_each_app, Hf. reflexivity.
  - destruct (line_reads_fwd unq src p w l (n ++ w2) H Hv Hp) as (f & Hrun & Ha).
    destruct (after_line _ _ _ _ _ _ Hrun Hn Hv Hp) as [Hv2 Hp2].
    destruct (IH Hv2 Hp2) as (f1 & f2 & R & Hf). exists f, (f1 ++ f2). split; [apply lines_run_more; assumption|].
    intros st. rewrite for_each_app. destruct (Ha st) as (st' & E & _). rewrite E. cbn [bind]. apply Hf.
Qed.
End Doc.

(** ** [parse] *)

Lemma lines_run_pest input f1 f2 : lines_run 0 input f1 f2 ->
  pest_parse R_dockerfile input =
    Done (length input) [] [Node R_dockerfile 0 (length input) (f1 ++ f2 ++ [Node R_EOI (length input) (length input) []])].
Proof.
  intros (q & s & R1 & R2). rewrite pest_parse_run. rewrite run_call. change (snd (grammar R_dockerfile)) with
      (Seq Soi (Seq (Call R_meta_step) (Seq more_lines (Call R_EOI)))).
  change (fst (grammar R_dockerfile)) with Normal. cbn [rule_inner rule_outer].
  rewrite run_seq by reflexivity. rewrite run_soi. cbn [Nat.eqb]. rewrite run_seq by reflexivity. rewrite R1.
  rewrite run_seq by reflexivity. rewrite R2. rewrite run_call. change (snd (grammar R_EOI)) with EndOfInput.
  rewrite run_eoi. cbn [app Nat.add]. reflexivity.
Qed.

Lemma pest_parse_inv unq input q s' f : valid_utf8 input = true -> pest_parse R_dockerfile input = Done q s' f ->
  document_text 0 input /\ forall e, parse unq input = Err e -> document_fails unq 0 input e.
Proof.
  intros Hv HE. pose proof HE as E. rewrite pest_parse_run in E. apply token_inv in E; [|discriminate]. destruct E as (f' & H & ->).
  cbn [grammar fst snd rule_inner rule_outer] in H. seq_open H Hv H1. seq_open H Hv0 H2. seq_open H Hv1 H3.
  rewrite run_soi in H1. cbn in H1. injection H1 as <- <- <-.
  apply token_inv in H; [|discriminate]. destruct H as (fe & H & ->). cbn [grammar fst snd] in H. rewrite run_eoi in H.
  match type of H with match ?x with _ => _ end = _ => destruct x; [|discriminate] end. injection H as <- <- <-.
  pose proof (line_exact unq input _ _ _ _ _ Hv (eq_refl : Sound.pos input 0 input) H2) as (w & Ei & Eq & _).
  assert (Hp : Sound.pos input q1 s0) by (rewrite Eq; apply pos_app; rewrite <- Ei; reflexivity).
  destruct (lines_outcome unq input _ _ _ _ Hv1 Hp H3) as (Hends & Ht & Hf & Hst).
  apply (line_outcome unq input) in H2; [|exact Hv|reflexivity|exact Hends]. destruct H2 as (w' & Ei' & _ & Htxt & Hy).
  rewrite Ei in Ei'. apply app_inv_tail in Ei'. subst w'.
  split; [rewrite Ei; apply Ht; [exact Htxt|exact Eq]|].
  intros e He. unfold parse in He. rewrite HE in He. cbn [t_children app] in He. rewrite for_each_app in He.
  specialize (Hy (DocState [] [] false 0)).
  match type of He with context [bind (for_each ?f ?x ?st0) _] => destruct (for_each f x st0) as [st1|e1| |] end; cbn [bind] in He; try contradiction.
  - destruct Hy as (l & Hl). rewrite for_each_app in He. specialize (Hst st1).
    match type of He with context [bind (for_each ?f ?x ?st0) _] => destruct (for_each f x st0) as [st2|e2| |] end; cbn in He; try contradiction; try discriminate.
    injection He as <-. rewrite Ei. apply (Hst _ _ l Hl). exact Eq.
  - injection He as <-. rewrite Ei. apply Hf; [exact Hy|exact Eq].
Qed.

Lemma document_fails_not_syntax unq p w e : document_fails unq p w e -> e <> EParse.
Proof.
  intros K Ee. induction K as [p w e H|p w n w2 e H|]; try (subst; auto; fail);
    (destruct H as [p b w b2 s e _ [[_ K]|[[_ K]|(_ & _ & _ & _ & K)]] _ _]; subst; discriminate).
Qed.

Theorem syntax_exact unq input : valid_utf8 input = true -> (parse unq input = Err EParse <-> ~ document_text 0 input).
Proof.
  intros Hv. split.
  - intros H Ht. destruct (document_text_fwd unq input 0 input Ht Hv eq_refl) as (f1 & f2 & R). apply lines_run_pest in R.
    destruct (pest_parse_inv unq input _ _ _ Hv R) as [_ K]. specialize (K _ H).
    apply (document_fails_not_syntax _ _ _ _ K). reflexivity.
  - intros Hn. destruct (pest_parse R_dockerfile input) as [q s' f| |] eqn:E.
    + destruct (pest_parse_inv unq input _ _ _ Hv E) as [K _]. contradiction.
    + unfold parse. rewrite E. reflexivity.
    + exfalso. rewrite pest_parse_run in E. revert E. apply run_total. reflexivity.
Qed.

Theorem error_exact unq input e : valid_utf8 input = true ->
  (parse unq input = Err e <-> (e = EParse /\ ~ document_text 0 input) \/ document_fails unq 0 input e).
Proof.
  intros Hv. split.
  - intros H. destruct (pest_parse R_dockerfile input) as [q s' f| |] eqn:E.
    + right. apply (pest_parse_inv unq input _ _ _ Hv E). exact H.
    + left. assert (e = EParse) by (unfold parse in H; rewrite E in H; congruence). subst. split; [reflexivity|].
      apply (syntax_exact unq); assumption.
    + unfold parse in H. rewrite E in H. discriminate.
  - intros [[-> H]|H]; [apply syntax_exact; assumption|].
    destruct (document_fails_fwd unq input 0 input e H Hv eq_refl) as (f1 & f2 & R & Hf).
    apply lines_run_pest in R. unfold parse. rewrite R. cbn [t_children]. rewrite app_assoc, for_each_app, Hf. reflexivity.
Qed.

Lemma no_syntax_error_text unq input : valid_utf8 input = true -> parse unq input <> Err EParse -> document_text 0 input.
Proof.
  intros Hv Hn. destruct (pest_parse R_dockerfile input) as [q s' f| |] eqn:E.
  - apply (pest_parse_inv unq input _ _ _ Hv E).
  - exfalso. apply Hn. unfold parse. rewrite E. reflexivity.
  - exfalso. rewrite pest_parse_run in E. revert E. apply run_total. reflexivity.
Qed.

