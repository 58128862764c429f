(** The error of an instruction, both ways: see SpecFail.v. *)

From Coq Require Import String.
From Verif Require Import Bytes BytesFacts Grammar Peg Result Ast Splicer Image Convert ImageFacts Dockerfile SpecDoc DocFacts
  PegFacts SpecImage SpecSyntax SpecClear SpecExact SpecFail PegRules PegTokens PegQuoted Sound SoundRules SoundInstr SoundDoc
  Forward Forward2 Forward3 ListFacts Forward4 Forward5 Idle Exact Exact2 Exact3 Exact4 Exact5 Exact6 Exact7 Exact8 Fail1 Fail2.
Local Open Scope nat_scope.

Lemma run_unique c e p w w2 s q f q2 f2 : run c e p (w ++ s) = Done q s f -> run c e p (w2 ++ s) = Done q2 s f2 -> w = w2 -> f = f2.
Proof. intros H1 H2 ->. congruence. Qed.

Section Step.
Variable unq : bytes -> option bytes.
Variable src : bytes.
Notation pos := (Sound.pos src).
Notation yields := (yields unq src).

Definition error_of (p : nat) (w s : bytes) (e : error) : Prop :=
  e = EUnescape \/ (e = digest_error /\ from_undigested unq p w) \/ (e = comment_error /\ comment_before p w s).

Lemma bind_err {A B} (o : outcome A) (k : A -> outcome B) e : (forall a, k a <> Err e) -> bind o k = Err e -> o = Err e.
Proof. intros H E. destruct o as [a|e'| |]; cbn [bind] in E; try discriminate; [exfalso; exact (H a E)|congruence]. Qed.

Ltac from_bind E := apply bind_err in E; [|intros ?; discriminate].

Lemma step_err p s q s' f : valid_utf8 s = true -> pos p s -> run ctx0 (Call R_step) p s = Done q s' f ->
  exists w t, s = w ++ s' /\ f = [t] /\
    forall e, closed_end s' -> instruction_of unq src t = Err e -> error_of p w s' e.
Proof.
  intros Hv Hp H. pose proof (run_pure _ _ _ _ _ _ _ H) as Hpure. call_open H. cbn [grammar fst snd rule_inner rule_outer rule_tokens] in *.
  apply alt_inv in H; [|reflexivity]. destruct H as [H|[F1 H]].
  { apply (from_err unq src) in H; [|exact Hv|exact Hp]. destruct H as (w & t & -> & _ & -> & Ht & Hy).
    exists w, t. repeat split. intros e _ E. unfold instruction_of in E. rewrite Ht in E. from_bind E.
    destruct (Hy 0 e E) as [K|K]; [left; exact K|right; left; exact K]. }
  apply alt_inv in H; [|reflexivity]. destruct H as [H|[F2 H]].
  { apply (command_err unq src "run" _ R_run_exec R_run_shell) in H; try reflexivity; try discriminate; auto.
    destruct H as (w & t & -> & _ & -> & Ht & Hsp & Hy).
    exists w, t. repeat split. intros e Hc E. unfold instruction_of in E. rewrite Ht in E. from_bind E. unfold run_of in E. from_bind E.
    destruct (Hy e Hc E) as [K|K]; [left; exact K|right; right; exact K]. }
  apply alt_inv in H; [|reflexivity]. destruct H as [H|[F3 H]].
  { apply (arg_exact unq src) in H; [|exact Hv|exact Hp]. destruct H as (w & t & -> & _ & -> & Ht & Hy).
    exists w, t. repeat split. intros e _ E. unfold instruction_of in E. rewrite Ht in E. from_bind E.
    left. apply (escape_only unq src _ _ e Hy (arg_plain unq src t) E). }
  apply alt_inv in H; [|reflexivity]. destruct H as [H|[F4 H]].
  { apply (label_exact unq src) in H; [|exact Hv|exact Hp]. destruct H as (w & t & -> & _ & -> & Ht & Hy).
    exists w, t. repeat split. intros e _ E. unfold instruction_of in E. rewrite Ht in E. from_bind E.
    left. apply (escape_only unq src _ _ e Hy (label_plain unq src t) E). }
  apply alt_inv in H; [|reflexivity]. destruct H as [H|[F5 H]].
  { apply (copy_exact unq src) in H; [|exact Hv|exact Hp]. destruct H as (w & t & -> & _ & -> & Ht & Hy).
    exists w, t. repeat split. intros e _ E. unfold instruction_of in E. rewrite Ht in E. from_bind E.
    inversion Hpure as [|? ? Hpt _]. left. apply (escape_only unq src _ _ e Hy (copy_plain unq src t Hpt) E). }
  apply alt_inv in H; [|reflexivity]. destruct H as [H|[F6 H]].
  { apply (command_err unq src "entrypoint" _ R_entrypoint_exec R_entrypoint_shell) in H; try reflexivity; try discriminate; auto.
    destruct H as (w & t & -> & _ & -> & Ht & Hsp & Hy).
    exists w, t. repeat split. intros e Hc E. unfold instruction_of in E. rewrite Ht in E. from_bind E. unfold entrypoint_of in E. from_bind E.
    destruct (Hy e Hc E) as [K|K]; [left; exact K|right; right; exact K]. }
  apply alt_inv in H; [|reflexivity]. destruct H as [H|[F7 H]].
  { apply (command_err unq src "cmd" _ R_cmd_exec R_cmd_shell) in H; try reflexivity; try discriminate; auto.
    destruct H as (w & t & -> & _ & -> & Ht & Hsp & Hy).
    exists w, t. repeat split. intros e Hc E. unfold instruction_of in E. rewrite Ht in E. from_bind E. unfold cmd_of in E. from_bind E.
    destruct (Hy e Hc E) as [K|K]; [left; exact K|right; right; exact K]. }
  apply alt_inv in H; [|reflexivity]. destruct H as [H|[F8 H]].
  { apply (env_exact unq src) in H; [|exact Hv|exact Hp]. destruct H as (w & t & -> & _ & -> & Ht & Hy).
    exists w, t. repeat split. intros e _ E. unfold instruction_of in E. rewrite Ht in E. from_bind E.
    inversion Hpure as [|? ? Hpt _]. left. apply (escape_only unq src _ _ e Hy (env_plain unq src t Hpt Ht) E). }
  { apply (misc_exact unq src) in H; [|exact Hv|exact Hp|].
    2:{ intros k r Hin. cbn in Hin. repeat (destruct Hin as [E|Hin]; [injection E as <- <-; assumption|]). contradiction. }
    destruct H as (w & t & -> & _ & -> & Ht & Hy).
    exists w, t. repeat split. intros e _ E. unfold instruction_of in E. rewrite Ht in E. from_bind E.
    inversion Hpure as [|? ? Hpt _]. left. apply (escape_only unq src _ _ e Hy (misc_plain unq src t Hpt Ht) E). }
Qed.

(** ** To runs of the grammar *)

Ltac in_rules := unfold keyword_rules; cbn [In]; repeat (first [left; reflexivity|right]).

Lemma undigested_step p w s : from_undigested unq p w -> closed_end s -> valid_utf8 (w ++ s) = true -> pos p (w ++ s) ->
  exists t, run ctx0 (Call R_step) p (w ++ s) = Done (p + length w) s [t] /\ instruction_of unq src t = Err digest_error.
Proof.
  intros H Hs Hv Hp. pose proof (undigested_fwd unq src p w s H Hs Hv Hp) as (t & Hrun & Ht & Ho).
  destruct H as (kw & fl & l0 & k & g & img & al & a0 & -> & Hkw & Hfl & Hg & Hne & _).
  exists t. split; [|unfold instruction_of; rewrite Ht, Ho; reflexivity].
  rewrite <- ?app_assoc in *. eapply (step_keyword "from"%string R_from); [in_rules|exact Hkw| |exact Hv|exact Hrun].
  eapply spaced_no_letter; [exact Hfl|]. apply (gap_no_letter k); assumption.
Qed.

Lemma comment_step p w s : comment_before p w s -> valid_utf8 (w ++ s) = true -> pos p (w ++ s) ->
  exists t, run ctx0 (Call R_step) p (w ++ s) = Done (p + length w) s [t] /\ instruction_of unq src t = Err comment_error.
Proof.
  intros (k & kw & n & g & cmd & Hk & -> & Hkw & Hg & Ho & Hc) Hv Hp. rewrite <- ?app_assoc in *.
  pose proof (gap_no_letter _ g (cmd ++ s) Hg (gap_comment_ne _ _ Hg)) as Hl.
  destruct Hk as [->|[->| ->]].
  - destruct (comment_fwd_command unq src "run" R_run R_run_exec R_run_shell p kw n g cmd s) as (t & Hrun & Ht & E);
      try reflexivity; try discriminate; try assumption; [repeat constructor|].
    exists t. split; [|unfold instruction_of, run_of; rewrite Ht, E; reflexivity].
    eapply (step_keyword "run"%string R_run); [in_rules|exact Hkw|exact Hl|exact Hv|exact Hrun].
  - destruct (comment_fwd_command unq src "cmd" R_cmd R_cmd_exec R_cmd_shell p kw n g cmd s) as (t & Hrun & Ht & E);
      try reflexivity; try discriminate; try assumption; [repeat constructor|].
    exists t. split; [|unfold instruction_of, cmd_of; rewrite Ht, E; reflexivity].
    eapply (step_keyword "cmd"%string R_cmd); [in_rules|exact Hkw|exact Hl|exact Hv|exact Hrun].
  - destruct (comment_fwd_command unq src "entrypoint" R_entrypoint R_entrypoint_exec R_entrypoint_shell p kw n g cmd s) as (t & Hrun & Ht & E);
      try reflexivity; try discriminate; try assumption; [repeat constructor|].
    exists t. split; [|unfold instruction_of, entrypoint_of; rewrite Ht, E; reflexivity].
    eapply (step_keyword "entrypoint"%string R_entrypoint); [in_rules|exact Hkw|exact Hl|exact Hv|exact Hrun].
Qed.

Lemma reads_step p w i s : instruction_reads unq p w s i -> closed_end s -> valid_utf8 (w ++ s) = true -> pos p (w ++ s) ->
  exists t, run ctx0 (Call R_step) p (w ++ s) = Done (p + length w) s [t] /\ exists i', instruction_of unq src t = Ok i'.
Proof.
  intros H Hs Hv Hp. destruct (step_reads_fwd unq src p w i s H Hs Hv Hp) as (t & Hrun & Hg). exists t. split; [exact Hrun|].
  destruct Hg as (_ & _ & Hg). destruct i; cbn in Hg; try (destruct Hg as (x & E & _)); eauto.
Qed.
End Step.

Section Outcome.
Variable unq : bytes -> option bytes.
Variable src : bytes.
Notation pos := (Sound.pos src).

Lemma text_step p w s : instruction_text p w s -> closed_end s -> valid_utf8 (w ++ s) = true -> pos p (w ++ s) ->
  exists t, run ctx0 (Call R_step) p (w ++ s) = Done (p + length w) s [t].
Proof.
  intros [(i & H)|[H|H]] Hs Hv Hp.
  - destruct (reads_step lenient src p w i s H Hs Hv Hp) as (t & E & _). eauto.
  - destruct (undigested_step lenient src p w s H Hs Hv Hp) as (t & E & _). eauto.
  - destruct (comment_step lenient src p w s H Hv Hp) as (t & E & _). eauto.
Qed.

(** The instruction that [R_step] reads and what becomes of it *)
Theorem step_outcome p s q s' f : valid_utf8 s = true -> pos p s -> run ctx0 (Call R_step) p s = Done q s' f -> closed_end s' ->
  exists w t, s = w ++ s' /\ q = p + length w /\ f = [t] /\ t_rule t <> R_EOI /\ t_rule t <> R_comment /\ instruction_text p w s' /\
    match instruction_of unq src t with
    | Ok i => instruction_reads unq p w s' i
    | Err e => instruction_fails unq p w s' e
    | _ => False
    end.
Proof.
  intros Hv Hp H Hc.
  pose proof (step_exact unq src p s q s' f Hv Hp H) as (w & t & -> & -> & -> & Ht1 & Ht2 & Hy).
  pose proof (step_exact lenient src p _ _ s' _ Hv Hp H) as (wl & tl & El & _ & Etl & _ & _ & Hyl).
  apply app_inv_tail in El. subst wl. injection Etl as <-.
  pose proof (step_err unq src p _ _ s' _ Hv Hp H) as (we & te & Ee & Ete & He).
  apply app_inv_tail in Ee. subst we. injection Ete as <-.
  pose proof (step_err lenient src p _ _ s' _ Hv Hp H) as (we & te & Ee & Ete & Hel).
  apply app_inv_tail in Ee. subst we. injection Ete as <-.
  assert (HT : instruction_text p w s').
  { destruct (instruction_of lenient src t) as [i|e| |]; cbn in Hyl; try contradiction; [left; eauto|].
    pose proof (lenient_cause _ _ Hyl) as Hne. destruct (Hel e Hc eq_refl) as [K|[[_ K]|[_ K]]]; [contradiction|right; left; exact K|right; right; exact K]. }
  exists w, t. repeat (split; [first [reflexivity|assumption]|]).
  destruct (instruction_of unq src t) as [i|e| |] eqn:E; cbn in Hy; try contradiction; [auto|].
  destruct (He e Hc eq_refl) as [->|[[-> K]|[-> K]]]; [|left; auto|right; left; auto].
  right. right. split; [exact HT|]. repeat split.
  - intros K. destruct (undigested_step unq src p w s' K Hc Hv Hp) as (t' & Hrun & E'). congruence.
  - intros K. destruct (comment_step unq src p w s' K Hv Hp) as (t' & Hrun & E'). congruence.
  - intros (i & K). destruct (reads_step unq src p w i s' K Hc Hv Hp) as (t' & Hrun & i' & E'). congruence.
Qed.

Theorem fails_step p w s e : instruction_fails unq p w s e -> closed_end s -> valid_utf8 (w ++ s) = true -> pos p (w ++ s) ->
  exists t, run ctx0 (Call R_step) p (w ++ s) = Done (p + length w) s [t] /\ t_rule t <> R_EOI /\ t_rule t <> R_comment /\ instruction_of unq src t = Err e.
Proof.
  intros H Hs Hv Hp.
  assert (K : exists t, run ctx0 (Call R_step) p (w ++ s) = Done (p + length w) s [t] /\ instruction_of unq src t = Err e).
  { destruct H as [[H ->]|[[H ->]|(H & H1 & H2 & H3 & ->)]]; [apply undigested_step; assumption|apply comment_step; assumption|].
    destruct (text_step p w s H Hs Hv Hp) as (t & Hrun). exists t. split; [exact Hrun|].
    destruct (step_outcome p _ _ s _ Hv Hp Hrun Hs) as (w' & t' & Ew & _ & Et & _ & _ & _ & Ho).
    apply app_inv_tail in Ew. subst w'. injection Et as <-.
    destruct (instruction_of unq src t) as [i|e'| |]; try contradiction; [exfalso; eauto|].
    destruct Ho as [[K _]|[[K _]|(_ & _ & _ & _ & ->)]]; [contradiction|contradiction|reflexivity]. }
  destruct K as (t & Hrun & E). destruct (step_exact unq src p _ _ s _ Hv Hp Hrun) as (w' & t' & _ & _ & Et & Ht1 & Ht2 & _).
  injection Et as <-. exists t. auto.
Qed.
End Outcome.
