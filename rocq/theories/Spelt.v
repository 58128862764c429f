(** How the texts of some tokens are spelt. *)

From Coq Require Import String.
From Verif Require Import Bytes BytesFacts Grammar Peg PegFacts Result Ast Splicer Image Convert SpecImage SpecSyntax PegRules PegTokens PegQuoted Sound Once.
Local Open Scope nat_scope.

Definition spells (r : rule) (w : bytes) : Prop :=
  match r with
  | R_label_quoted_name | R_label_single_quoted_name | R_label_quoted_value
  | R_env_pair_quoted_value | R_env_single_quoted_value => quoted_text w
  | R_label_name | R_label_single_name | R_label_value => ~ In LF w
  | R_from_flag_name | R_copy_flag_name | R_from_image | R_from_alias | R_arg_name | R_env_name | R_misc_instruction =>
    starts_quoted w = false
  | _ => True
  end.

Section Spelt.
Variable src : bytes.

Inductive spelt : tree -> Prop :=
| spelt_node r a b l : spells r (slice src a b) -> Forall spelt l -> spelt (Node r a b l).

Lemma spelt_inv t : spelt t -> spells (t_rule t) (as_str src t) /\ Forall spelt (t_children t).
Proof. intros H. destruct H as [r a b l H1 H2]. auto. Qed.

Lemma class_unquoted P w : (forall x, is_quote x = true -> P x = false) -> Forall (fun x => P x = true) w -> starts_quoted w = false.
Proof.
  intros HP H. destruct H as [|x w Hx _]; [reflexivity|]. cbn [starts_quoted]. destruct (is_quote x) eqn:E; [|reflexivity].
  apply HP in E. congruence.
Qed.

Lemma quote_cases x : is_quote x = true -> x = DQUOTE \/ x = SQUOTE \/ x = BACKTICK.
Proof. unfold is_quote. rewrite !orb_true_iff, !N.eqb_eq. tauto. Qed.

Lemma rule_spells r c p s q s' f : look c = false -> valid_utf8 s = true -> run c (snd (grammar r)) p s = Done q s' f ->
  exists w, s = w ++ s' /\ q = p + length w /\ spells r w.
Proof.
  intros Hc Hv H. destruct (run_consumes _ _ _ _ _ _ _ H) as (w0 & E0 & Q0).
  destruct r; cbn [grammar snd spells] in *; try (exists w0; repeat split; assumption);
  try (apply string_inv in H; [|exact Hv|exact Hc]; destruct H as (w & ch & -> & -> & Hw & _); exists w; repeat split; assumption);
  try (apply any_equals_inv in H; [|exact Hv]; destruct H as (w & -> & -> & (_ & Hw & _) & _); exists w; repeat split;
       intros K; rewrite Forall_forall in Hw; destruct (Hw LF K) as (_ & K1 & _); discriminate K1);
  try (apply any_whitespace_inv in H; [|exact Hv]; destruct H as (w & -> & -> & (_ & Hw & _) & _); exists w; repeat split;
       intros K; rewrite Forall_forall in Hw; destruct (Hw LF K) as (_ & K1); discriminate K1);
  try (eapply class_rep1_inv in H; [|reflexivity|exact class_alpha]; destruct H as (w & -> & -> & _ & Hw & _); exists w; repeat split;
       apply (class_unquoted is_alpha); [|exact Hw]; intros x Hx; destruct (quote_cases x Hx) as [->|[->| ->]]; reflexivity).
  - eapply class_rep1_inv in H; [|reflexivity|exact class_image]. destruct H as (w & -> & -> & _ & Hw & _). exists w. repeat split.
    eapply class_unquoted; [|exact Hw]. intros x Hx. destruct (quote_cases x Hx) as [->|[->| ->]]; reflexivity.
  - rewrite run_call in H. cbn [grammar fst snd rule_inner rule_outer rule_tokens] in H.
    destruct (run c _ p s) as [q1 s1 f1| |] eqn:E; try discriminate. injection H as <- <- <-.
    eapply class_rep1_inv in E; [|reflexivity|exact class_alias]. destruct E as (w & -> & -> & _ & Hw & _). exists w. repeat split.
    eapply class_unquoted; [|exact Hw]. intros x Hx. destruct (quote_cases x Hx) as [->|[->| ->]]; reflexivity.
  - exists w0. split; [exact E0|]. split; [exact Q0|]. rewrite run_seq in H by reflexivity.
    rewrite class_alpha in H. destruct s as [|x s]; [discriminate|]. destruct (is_alpha x) eqn:Ex; [|discriminate].
    destruct (run c _ (p + 1) s) as [q1 s1 f1| |] eqn:E; try discriminate. injection H as <- <- <-.
    destruct (run_consumes _ _ _ _ _ _ _ E) as (w1 & -> & _). destruct w0 as [|y w0]; [reflexivity|]. cbn [app] in E0. injection E0 as <- _.
    cbn [starts_quoted]. destruct (is_quote x) eqn:Eq; [|reflexivity]. destruct (quote_cases x Eq) as [->|[->| ->]]; discriminate Ex.
  - eapply class_rep1_inv in H; [|reflexivity|exact class_word]. destruct H as (w & -> & -> & _ & Hw & _). exists w. repeat split.
    eapply class_unquoted; [|exact Hw]. intros x Hx. destruct (quote_cases x Hx) as [->|[->| ->]]; reflexivity.
Qed.

Theorem eval_spelt n : forall c e p s q s' f, ascii_expr e = true -> valid_utf8 s = true -> pos src p s ->
  eval n c e p s = Done q s' f -> Forall spelt f.
Proof.
  induction n as [|n IH]; intros c e p s q s' f Ha Hv Hp H; [discriminate|]. rewrite eval_S in H.
  assert (Next : forall c e p s q s' f, ascii_expr e = true -> valid_utf8 s = true -> pos src p s -> eval n c e p s = Done q s' f ->
    valid_utf8 s' = true /\ pos src q s').
  { clear. intros c e p s q s' f Ha Hv Hp H. split; [eapply eval_valid; eassumption|].
    destruct (eval_consumes _ _ _ _ _ _ _ _ H) as (w & -> & ->). apply pos_app. exact Hp. }
  destruct e as [pat|pat|lo hi| | | |r|e1|e1 e2|e1 e2|e1|e1]; cbn [ascii_expr] in Ha.
  - destruct (match_str pat s); [|discriminate]. injection H as <- <- <-. constructor.
  - destruct (match_insens pat s); [|discriminate]. injection H as <- <- <-. constructor.
  - destruct s as [|x s]; [discriminate|]. destruct (in_range lo hi x); [|discriminate]. injection H as <- <- <-. constructor.
  - destruct s as [|x s]; [discriminate|]. injection H as <- <- <-. constructor.
  - destruct (p =? 0); [|discriminate]. injection H as <- <- <-. constructor.
  - destruct s; [|discriminate]. injection H as <- <- <-. constructor.
  - destruct (eval n _ (snd (grammar r)) p s) as [q1 s1 f1| |] eqn:E; try discriminate. injection H as <- <- <-.
    pose proof (IH _ _ _ _ _ _ _ (ascii_rule r) Hv Hp E) as Hf.
    assert (T : emits (rule_outer (fst (grammar r)) c) = true -> spelt (Node r p q1 f1)).
    { intros Hc. constructor; [|exact Hf].
      assert (Hl : look (rule_inner (fst (grammar r)) c) = false).
      { revert Hc. destruct c as [a l]. unfold emits, rule_outer, rule_inner. destruct (fst (grammar r)), a, l; cbn; congruence. }
      assert (Er : run (rule_inner (fst (grammar r)) c) (snd (grammar r)) p s = Done q1 s1 f1).
      { destruct (Nat.le_ge_cases n (fuel_for (length s))) as [K|K].
        - unfold run. rewrite (eval_mono n); [exact E|exact K|rewrite E; discriminate].
        - rewrite <- E. symmetry. apply eval_run; [apply good_rule|]. pose proof (need_fuel (snd (grammar r)) s (good_rule r)). lia. }
      destruct (rule_spells _ _ _ _ _ _ _ Hl Hv Er) as (w & -> & -> & Hw). rewrite (slice_of_skipn src w s1 p Hp). exact Hw. }
    destruct (fst (grammar r)) eqn:Ek; cbn [rule_tokens]; try exact Hf; unfold wrap;
      (destruct (emits _) eqn:Ee; [|exact Hf]); (constructor; [|constructor]); apply T; auto.
  - destruct (eval n _ e1 p s); try discriminate; injection H as <- <- <-; constructor.
  - apply andb_true_iff in Ha. destruct Ha as [Ha1 Ha2].
    destruct (eval n c e1 p s) as [q1 s1 f1| |] eqn:E; try discriminate.
    destruct (eval n c e2 q1 s1) as [q2 s2 f2| |] eqn:E2; try discriminate. injection H as <- <- <-.
    destruct (Next _ _ _ _ _ _ _ Ha1 Hv Hp E) as [V1 P1]. apply Forall_app. split; eapply IH; [| | |exact E| | | |exact E2]; assumption.
  - apply andb_true_iff in Ha. destruct Ha as [Ha1 Ha2]. destruct (eval n c e1 p s) as [q1 s1 f1| |] eqn:E; try discriminate.
    + injection H as <- <- <-. eapply IH; [| | |exact E]; assumption.
    + eapply IH; [| | |exact H]; assumption.
  - destruct (eval n c e1 p s) as [q1 s1 f1| |] eqn:E; try discriminate; injection H as <- <- <-; [|constructor].
    eapply IH; [| | |exact E]; assumption.
  - destruct (eval n c e1 p s) as [q1 s1 f1| |] eqn:E; try discriminate; [|injection H as <- <- <-; constructor].
    destruct (eval n c (Rep e1) q1 s1) as [q2 s2 f2| |] eqn:E2; try discriminate. injection H as <- <- <-.
    destruct (Next _ _ _ _ _ _ _ Ha Hv Hp E) as [V1 P1]. apply Forall_app. split; eapply IH; [| | |exact E| | | |exact E2]; assumption.
Qed.

Theorem run_spelt c e p s q s' f : ascii_expr e = true -> valid_utf8 s = true -> pos src p s -> run c e p s = Done q s' f -> Forall spelt f.
Proof. apply eval_spelt. Qed.

End Spelt.
