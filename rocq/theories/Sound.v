(** What the parser returns is written in the text: conversion of the tokens of a
    run of the grammar yields values related to the text by SpecSyntax.v, or an
    error with a cause in the text; never a panic. *)

From Coq Require Import String.
From Verif Require Import Bytes BytesFacts Grammar Peg Result Ast Splicer Image Convert
  PegFacts SpecImage ImageFacts SpecSyntax PegRules PegTokens PegQuoted.
Local Open Scope nat_scope.

Section Sound.
Variable unq : bytes -> option bytes.
Variable src : bytes.

Definition found (w : bytes) : Prop := exists a b, src = a ++ w ++ b.

Definition digest_message : string := "image reference digest is invalid".

Inductive cause : error -> Prop :=
| cause_escape w : found w -> bad_escape unq w -> cause EUnescape
| cause_digest img : found img -> bad_digest img -> cause (EGeneric (MText digest_message))
| cause_comment w : found w -> comment_in_command w -> cause (EGeneric (MUnexpected R_comment)).

Definition yields {A} (P : A -> Prop) (o : outcome A) : Prop :=
  match o with Ok a => P a | Err e => cause e | Panic | Diverge => False end.

Lemma yields_bind {A B} (P : A -> Prop) (Q : B -> Prop) o k :
  yields P o -> (forall a, P a -> yields Q (k a)) -> yields Q (bind o k).
Proof. destruct o; cbn; auto; contradiction. Qed.

Lemma yields_impl {A} (P Q : A -> Prop) o : yields P o -> (forall a, P a -> Q a) -> yields Q o.
Proof. destruct o; cbn; auto. Qed.

Definition pos (p : nat) (s : bytes) : Prop := skipn p src = s.

Lemma pos_app p w s : pos p (w ++ s) -> pos (p + length w) s.
Proof. unfold pos. intros H. rewrite <- skipn_skipn, H. apply skipn_app_exact. Qed.

Lemma pos_found p w s : pos p (w ++ s) -> found w.
Proof. intros H. exists (firstn p src), s. unfold pos in H. rewrite <- H. symmetry. apply firstn_skipn. Qed.

Lemma as_str_at r p w s ch : pos p (w ++ s) -> as_str src (Node r p (p + length w) ch) = w.
Proof. intros H. apply (slice_of_skipn src w s p H). Qed.

Lemma span_of_at r p (w : bytes) ch : span_of (Node r p (p + length w) ch) = at_ p w.
Proof. reflexivity. Qed.

Lemma starts_quoted_spec w : starts_quoted w = true <-> begins_quoted w.
Proof.
  unfold begins_quoted. destruct w as [|c t]; cbn [starts_quoted].
  - split; [discriminate|]. intros (c & t & E & _). discriminate.
  - unfold is_quote. rewrite !orb_true_iff, !N.eqb_eq. split.
    + intros H. exists c, t. tauto.
    + intros (c' & t' & E & H). injection E as <- <-. tauto.
Qed.

Lemma quoted_begins w : quoted_text w -> begins_quoted w.
Proof. intros (q & b & Hq & -> & _). exists q, (b ++ [q]). split; [reflexivity|]. destruct Hq; auto. Qed.

Lemma parse_string_at r p w s ch : pos p (w ++ s) ->
  yields (string_at unq p w) (parse_string unq src (Node r p (p + length w) ch)).
Proof.
  intros H. unfold parse_string. rewrite (as_str_at r p w s ch H), span_of_at.
  destruct (starts_quoted w) eqn:E.
  - apply starts_quoted_spec in E. unfold unquote. destruct (unq w) as [v|] eqn:Eu; cbn.
    + exists v. split; [left; auto|reflexivity].
    + apply (cause_escape w); [apply (pos_found p w s H)|]. split; [exact E|]. exists w. auto.
  - cbn. exists w. split; [right; split; [|reflexivity]|reflexivity].
    intros K. apply starts_quoted_spec in K. congruence.
Qed.

(** A text whose first character is not a quote stands for itself. *)
Lemma parse_string_plain r p w s ch : pos p (w ++ s) -> ~ begins_quoted w ->
  parse_string unq src (Node r p (p + length w) ch) = Ok (SpannedString (at_ p w) w).
Proof.
  intros H Hn. unfold parse_string. rewrite (as_str_at r p w s ch H), span_of_at.
  destruct (starts_quoted w) eqn:E; [|reflexivity]. apply starts_quoted_spec in E. contradiction.
Qed.

Lemma remove_breaks_aux n : forall w, length w <= n -> without_breaks w (remove_breaks w).
Proof.
  induction n as [|n IH]; intros w Hl.
  - destruct w; [constructor|cbn in Hl; lia].
  - destruct w as [|c [|d t]]; [constructor| |].
    + cbn. constructor; [intros t E; discriminate|constructor].
    + cbn [remove_breaks]. cbn [length] in Hl. destruct (((c =? BSLASH)%N && (d =? LF)%N)) eqn:E.
      * apply andb_true_iff in E. destruct E as [E1 E2]. apply N.eqb_eq in E1. apply N.eqb_eq in E2. subst.
        constructor. apply IH. lia.
      * constructor; [|apply IH; cbn [length]; lia].
        intros u Eu. injection Eu as -> -> _. discriminate.
Qed.

Lemma remove_breaks_spec w : without_breaks w (clean_escaped_breaks w).
Proof. apply (remove_breaks_aux (length w)). apply le_n. Qed.

Lemma unquote_clean_at r p w s ch : pos p (w ++ s) -> quoted_text w ->
  yields (clean_quoted_at unq p w) (unquote_clean unq src (Node r p (p + length w) ch)).
Proof.
  intros H Hq. unfold unquote_clean, unquote. rewrite (as_str_at r p w s ch H), span_of_at.
  pose proof (remove_breaks_spec w) as Hb. destruct (unq (clean_escaped_breaks w)) as [v|] eqn:E; cbn.
  - exists (clean_escaped_breaks w), v. auto.
  - apply (cause_escape w); [apply (pos_found p w s H)|]. split; [apply quoted_begins; exact Hq|].
    exists (clean_escaped_breaks w). auto.
Qed.

(** ** Loops over tokens *)

Lemma for_each_app {S A} (f : S -> A -> outcome S) l1 l2 st :
  for_each f (l1 ++ l2) st = bind (for_each f l1 st) (fun st' => for_each f l2 st').
Proof.
  revert st. induction l1 as [|x l1 IH]; intros st; cbn [app for_each]; [reflexivity|].
  destruct (f st x); cbn [bind]; auto.
Qed.

Definition skips_comments {S} (f : S -> tree -> outcome S) : Prop :=
  forall st t, t_rule t = R_comment -> f st t = Ok st.

Lemma for_each_comments {S} (f : S -> tree -> outcome S) cs st : skips_comments f -> comments cs ->
  for_each f cs st = Ok st.
Proof.
  intros Hf. induction 1 as [|t cs Ht _ IH]; [reflexivity|]. cbn [for_each]. rewrite Hf by exact Ht. exact IH.
Qed.

Lemma for_each_gap {S} (f : S -> tree -> outcome S) cs l st : skips_comments f -> comments cs ->
  for_each f (cs ++ l) st = for_each f l st.
Proof. intros Hf Hc. rewrite for_each_app, (for_each_comments f cs st Hf Hc). reflexivity. Qed.

Lemma token_inv r p s q s' f : run ctx0 (Call r) p s = Done q s' f -> fst (grammar r) <> Silent ->
  exists f', run (rule_inner (fst (grammar r)) ctx0) (snd (grammar r)) p s = Done q s' f' /\ f = [Node r p q f'].
Proof.
  intros H Hk. apply call_inv in H. destruct H as (f' & H & ->). exists f'. split; [exact H|].
  destruct (fst (grammar r)); [reflexivity|congruence|reflexivity|reflexivity].
Qed.

(** Things, each after a gap *)
Section Spaced.
Context {A S : Type}.
Variable r : rule.
Variable at1 : nat -> bytes -> A -> Prop.
Variable conv : tree -> outcome A.
Variable step : S -> tree -> outcome S.
Variable add : S -> A -> S.
Hypothesis r_strict : nullable (Call r) = false.
Hypothesis r_good : good (Rep (Seq arg_ws (Call r))) = true.
Hypothesis r_good2 : good (Rep (Seq arg_ws (Opt (Call r)))) = true.
Hypothesis r_ascii : ascii_expr (Call r) = true.
Hypothesis conv_at : forall p s q s' f, valid_utf8 s = true -> pos p s ->
  run ctx0 (Call r) p s = Done q s' f ->
  exists w t, s = w ++ s' /\ q = p + length w /\ f = [t] /\ t_rule t = r /\ yields (at1 p w) (conv t).
Hypothesis step_item : forall st t, t_rule t = r -> step st t = bind (conv t) (fun x => Ok (add st x)).
Hypothesis step_comment : skips_comments step.

Lemma spaced_one_inv p s q s' f : valid_utf8 s = true -> pos p s ->
  run ctx0 (Seq arg_ws (Call r)) p s = Done q s' f ->
  exists k g w, s = (g ++ w) ++ s' /\ q = p + length (g ++ w) /\ gap k g /\ g <> [] /\
    forall st, yields (fun st' => exists x, at1 (p + length g) w x /\ st' = add st x) (for_each step f st).
Proof.
  intros Hv Hp H. apply seq_inv in H; [|apply (good_sub _ r_good)].
  destruct H as (q1 & s1 & f1 & f2 & H1 & H & ->).
  pose proof (run_valid _ _ _ _ _ _ _ H1 Hv eq_refl) as Hv1.
  pose proof (run_strict _ _ _ _ _ _ _ H r_strict) as Hs.
  apply gap_inv_more in H1; [|exact Hv|intros ->; cbn in Hs; lia].
  destruct H1 as (g & -> & -> & Hc & Hne & Hg). pose proof (pos_app _ _ _ Hp) as Hp1.
  apply conv_at in H; [|exact Hv1|exact Hp1]. destruct H as (w & t & -> & -> & -> & Ht & Hy).
  exists (length f1), g, w. rewrite app_length, <- app_assoc.
  split; [reflexivity|]. split; [lia|]. split; [exact Hg|]. split; [exact Hne|].
  intros st. rewrite for_each_gap by assumption. cbn [for_each]. rewrite step_item by exact Ht.
  eapply yields_bind with (P := fun st1 => exists x, at1 (p + length g) w x /\ st1 = add st x).
  - eapply yields_bind; [exact Hy|]. intros x Hx. cbn. eauto.
  - intros st' Hst. exact Hst.
Qed.

Lemma spaced_inv p s q s' f : valid_utf8 s = true -> pos p s ->
  run ctx0 (Rep (Seq arg_ws (Call r))) p s = Done q s' f ->
  exists w, s = w ++ s' /\ q = p + length w /\
    forall st, yields (fun st' => exists l, spaced at1 p w l /\ st' = fold_left add l st) (for_each step f st).
Proof.
  intros Hv Hp H.
  destruct (rep_ind ctx0 (Seq arg_ws (Call r)) (fun p w f s' => valid_utf8 (w ++ s') = true -> pos p (w ++ s') ->
    forall st, yields (fun st' => exists l, spaced at1 p w l /\ st' = fold_left add l st) (for_each step f st))
    r_good) with (3 := H) as (w & -> & -> & K).
  - intros p0 s0 _ _ _ st. cbn. exists []. split; [constructor|reflexivity].
  - clear H Hv Hp. intros p0 w1 s1 f1 w2 f2 s0' H -> _ IH Hv Hp st. rewrite <- app_assoc in Hv, Hp.
    assert (Hv1 : valid_utf8 (w2 ++ s0') = true).
    { eapply run_valid; [exact H|exact Hv|]. cbn. exact r_ascii. }
    specialize (IH Hv1 (pos_app _ _ _ Hp)).
    apply spaced_one_inv in H; [|exact Hv|exact Hp]. destruct H as (k & g & w & Es & _ & Hg & Hne & Hy).
    apply app_inv_tail in Es. subst w1. rewrite for_each_app. eapply yields_bind; [apply Hy|].
    intros st1 (x & Hx & ->). eapply yields_impl; [apply IH|]. intros st2 (l & Hl & ->).
    exists (x :: l). split; [|reflexivity]. rewrite <- app_assoc. econstructor; eauto.
    rewrite app_length in Hl. rewrite <- Nat.add_assoc. exact Hl.
  - exists w. repeat split. apply K; assumption.
Qed.

(** Things and gaps without a thing, as in LABEL and ENV *)
Lemma gap_app j g k h : gap j g -> gap k h -> gap (j + k) (g ++ h).
Proof.
  intros Hg Hh. induction Hg as [|j c w Hc Hg IH|i j c l w Hc Hl Hg IH]; cbn [app Nat.add].
  - exact Hh.
  - constructor; assumption.
  - rewrite <- Nat.add_assoc, <- !app_assoc. constructor; assumption.
Qed.

Lemma spaced_nil p l : spaced at1 p [] l -> l = [].
Proof.
  intros H. inversion H as [|p1 k g2 w x w2 l2 Hgap Hne2 Hx Hl2 Ep Ew El]; [reflexivity|].
  destruct g2; [congruence|discriminate].
Qed.

Lemma gap_spaced_inv p s q s' f : valid_utf8 s = true -> pos p s ->
  run ctx0 (Rep (Seq arg_ws (Opt (Call r)))) p s = Done q s' f ->
  exists w, s = w ++ s' /\ q = p + length w /\
    exists pairs g, w = pairs ++ g /\ last_gap g /\
    forall st, yields (fun st' => exists l, spaced at1 p pairs l /\ st' = fold_left add l st) (for_each step f st).
Proof.
  intros Hv Hp H.
  destruct (rep_ind ctx0 (Seq arg_ws (Opt (Call r))) (fun p w f s' => valid_utf8 (w ++ s') = true -> pos p (w ++ s') ->
    exists pairs g, w = pairs ++ g /\ ((exists k, gap k g) \/ (s' = [] /\ open_gap g)) /\
    forall st, yields (fun st' => exists l, spaced at1 p pairs l /\ st' = fold_left add l st) (for_each step f st))
    r_good2) with (3 := H) as (w & -> & -> & K).
  - intros p0 s0 _ _ _. exists [], []. split; [reflexivity|]. split; [left; exists 0; constructor|].
    intros st. cbn. exists []. split; [constructor|reflexivity].
  - clear H Hv Hp. intros p0 w1 s1 f1 w2 f2 s0' H -> _ IH Hv Hp. rewrite <- app_assoc in Hv, Hp.
    assert (Hv1 : valid_utf8 (w2 ++ s0') = true).
    { eapply run_valid; [exact H|exact Hv|]. cbn. exact r_ascii. }
    specialize (IH Hv1 (pos_app _ _ _ Hp)). destruct IH as (pairs & g & -> & Hg & Hy).
    apply seq_inv in H; [|apply (good_sub _ r_good2)].
    destruct H as (q1 & s1 & f3 & f4 & H1 & H & ->).
    pose proof (run_valid _ _ _ _ _ _ _ H1 Hv eq_refl) as Hv2.
    apply opt_inv in H; [|apply (good_sub _ (proj1 (good_sub _ r_good2)))].
    destruct H as [H|(_ & _ & Es & ->)].
    + pose proof (run_strict _ _ _ _ _ _ _ H r_strict) as Hs.
      apply gap_inv_more in H1; [|exact Hv|intros ->; cbn in Hs; lia].
      destruct H1 as (g1 & Eg & -> & Hc & Hne & Hg1). rewrite Eg in Hp. pose proof (pos_app _ _ _ Hp) as Hp1.
      apply conv_at in H; [|exact Hv2|exact Hp1]. destruct H as (w & t & -> & Eq & -> & Ht & Hyt).
      assert (w1 = g1 ++ w).
      { apply (app_inv_tail ((pairs ++ g) ++ s0')). rewrite <- !app_assoc in *. exact Eg. }
      subst w1.
      exists (g1 ++ w ++ pairs), g. split; [rewrite <- !app_assoc; reflexivity|]. split; [exact Hg|].
      intros st. rewrite <- app_assoc. rewrite for_each_gap by assumption. rewrite for_each_app.
      cbn [for_each]. rewrite step_item by exact Ht.
      eapply yields_bind with (P := fun st1 => exists x, at1 (p0 + length g1) w x /\ st1 = add st x).
      { eapply yields_bind with (P := fun st1 => exists x, at1 (p0 + length g1) w x /\ st1 = add st x); [|intros a Ha; exact Ha].
        eapply yields_bind; [exact Hyt|]. intros x Hx. cbn. eauto. }
      intros st1 (x & Hx & ->). eapply yields_impl; [apply Hy|]. intros st2 (l & Hl & ->).
      exists (x :: l). split; [|reflexivity]. econstructor; eauto.
      rewrite app_length in Hl. rewrite <- Nat.add_assoc. exact Hl.
    + subst s1. apply gap_inv in H1; [|exact Hv].
      destruct H1 as (g1 & Eg & _ & Hc & Hne & Hg1). apply app_inv_tail in Eg. subst g1. rewrite app_nil_r.
      destruct Hg1 as [Hg1|[En Hg1]].
      * destruct pairs as [|b pairs].
        { exists [], (w1 ++ g). split; [reflexivity|]. split.
          - destruct Hg as [[k Hg]|[-> (k & g0 & c & j & l & b & t & -> & Hg & Hx)]].
            + left. eexists. apply gap_app; eassumption.
            + right. split; [reflexivity|]. exists (length f3 + k), (w1 ++ g0), c, j, l, b, t.
              split; [rewrite <- !app_assoc; reflexivity|]. split; [apply gap_app; assumption|exact Hx].
          - intros st. rewrite for_each_gap by assumption. eapply yields_impl; [apply Hy|].
            intros st' (l & Hl & ->). exists l. split; [|reflexivity].
            apply spaced_nil in Hl. subst l. constructor. }
        { exists (w1 ++ b :: pairs), g. split; [rewrite <- !app_assoc; reflexivity|]. split; [exact Hg|].
          intros st. rewrite for_each_gap by assumption. eapply yields_impl; [apply Hy|].
          intros st' (l & Hl & ->). exists l. split; [|reflexivity].
          inversion Hl as [|p1 k g2 w x w2 l2 Hgap Hne2 Hx Hl2 Ep Ew El]; subst. rewrite app_assoc.
          apply spaced_one with (k := length f3 + k).
          - apply gap_app; assumption.
          - destruct w1; [congruence|discriminate].
          - rewrite app_length, Nat.add_assoc. exact Hx.
          - rewrite app_length, Nat.add_assoc. exact Hl2. }
      * apply app_eq_nil in En. destruct En as [En ->]. apply app_eq_nil in En. destruct En as [-> ->].
        exists [], w1. rewrite app_nil_r. split; [reflexivity|]. split; [right; auto|].
        intros st. rewrite for_each_gap by assumption. eapply yields_impl; [apply Hy|].
        intros st' (l & Hl & ->). exists l. split; [|reflexivity].
        apply spaced_nil in Hl. subst l. constructor.
  - destruct (K Hv Hp) as (pairs & g & -> & Hg & Hy). exists (pairs ++ g). repeat split.
    exists pairs, g. split; [reflexivity|]. split; [|exact Hy].
    destruct Hg as [Hg|[_ Hg]]; [left; exact Hg|right; exact Hg].
Qed.

End Spaced.
End Sound.
