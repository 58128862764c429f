(** Errors of the converters, apart from those about digests and comments: see SpecFail.v. *)

From Coq Require Import String.
From Verif Require Import Bytes BytesFacts Grammar Peg Result Ast Splicer Image Convert Dockerfile
  PegFacts SpecImage SpecSyntax Shift Once Sound SoundRules SoundInstr.
Local Open Scope nat_scope.

(** ** Tokens that have no comment in them *)

Definition bare (r : rule) : bool :=
  match r with R_from_flag | R_copy_flag | R_env_pair | R_env | R_misc => true | _ => false end.
Definition is_comment : class := fun r => match r with R_comment => true | _ => false end.

Inductive pure : tree -> Prop :=
| pure_node r a b l : (bare r = true -> tally is_comment l = 0) -> Forall pure l -> pure (Node r a b l).

Lemma bare_cap r : bare r = true -> cap is_comment 40 (rule_inner (fst (grammar r)) ctx0) (snd (grammar r)) = 0.
Proof. destruct r; intros H; try discriminate; vm_compute; reflexivity. Qed.

Theorem eval_pure n : forall c e p s q s' f, eval n c e p s = Done q s' f -> Forall pure f.
Proof.
  induction n as [|n IH]; intros c e p s q s' f H; [discriminate|]. rewrite eval_S in H.
  destruct e as [pat|pat|lo hi| | | |r|e1|e1 e2|e1 e2|e1|e1].
  - destruct (match_str pat s); [|discriminate]. injection H as <- <- <-. constructor.
  - destruct (match_insens pat s); [|discriminate]. injection H as <- <- <-. constructor.
  - destruct s as [|x s]; [discriminate|]. destruct (in_range lo hi x); [|discriminate]. injection H as <- <- <-. constructor.
  - destruct s as [|x s]; [discriminate|]. injection H as <- <- <-. constructor.
  - destruct (p =? 0); [|discriminate]. injection H as <- <- <-. constructor.
  - destruct s; [|discriminate]. injection H as <- <- <-. constructor.
  - destruct (eval n _ (snd (grammar r)) p s) as [q1 s1 f1| |] eqn:E; try discriminate. injection H as <- <- <-.
    pose proof (IH _ _ _ _ _ _ _ E) as Hf.
    assert (T : emits (rule_outer (fst (grammar r)) c) = true -> fst (grammar r) <> Silent -> pure (Node r p q1 f1)).
    { intros Hc Hk. constructor; [|exact Hf]. intros Hb. destruct (emitting_ctx _ _ Hc) as [K|K]; [contradiction|].
      apply bare_cap in Hb. rewrite <- K in Hb. assert (HC : cap is_comment 40 (rule_inner (fst (grammar r)) c) (snd (grammar r)) <= 1) by lia.
      pose proof (cap_tally is_comment n _ _ _ _ _ _ _ _ HC E). lia. }
    destruct (fst (grammar r)) eqn:Ek; cbn [rule_tokens]; try exact Hf; unfold wrap;
      (destruct (emits _) eqn:Ee; [|exact Hf]); (constructor; [|constructor]); apply T; auto; discriminate.
  - destruct (eval n _ e1 p s); try discriminate; injection H as <- <- <-; constructor.
  - destruct (eval n c e1 p s) as [q1 s1 f1| |] eqn:E; try discriminate.
    destruct (eval n c e2 q1 s1) as [q2 s2 f2| |] eqn:E2; try discriminate. injection H as <- <- <-.
    apply Forall_app. split; eapply IH; eassumption.
  - destruct (eval n c e1 p s) as [q1 s1 f1| |] eqn:E; try discriminate.
    + injection H as <- <- <-. eapply IH; eassumption.
    + eapply IH; eassumption.
  - destruct (eval n c e1 p s) as [q1 s1 f1| |] eqn:E; try discriminate; injection H as <- <- <-; [|constructor].
    eapply IH; eassumption.
  - destruct (eval n c e1 p s) as [q1 s1 f1| |] eqn:E; try discriminate; [|injection H as <- <- <-; constructor].
    destruct (eval n c (Rep e1) q1 s1) as [q2 s2 f2| |] eqn:E2; try discriminate. injection H as <- <- <-.
    apply Forall_app. split; eapply IH; eassumption.
Qed.

Theorem run_pure c e p s q s' f : run c e p s = Done q s' f -> Forall pure f.
Proof. apply eval_pure. Qed.

Lemma pure_children t : pure t -> Forall pure (t_children t).
Proof. intros H. destruct H as [r a b l _ H]. exact H. Qed.
Lemma pure_bare t : pure t -> bare (t_rule t) = true -> Forall (fun c => t_rule c <> R_comment) (t_children t).
Proof.
  intros H Hb. destruct H as [r a b l H _]. cbn [t_rule t_children] in *. specialize (H Hb). unfold tally in H.
  apply length_zero_iff_nil in H. apply Forall_forall. intros c Hc E.
  assert (K : In c (filter (fun t => is_comment (t_rule t)) l)) by (apply filter_In; rewrite E; auto).
  rewrite H in K. contradiction.
Qed.

(** ** Their errors *)

Definition plain_error (e : error) : Prop :=
  e <> EGeneric (MText digest_message) /\ e <> EGeneric (MUnexpected R_comment).
Definition plain {A} (o : outcome A) : Prop := forall e, o = Err e -> plain_error e.

Lemma plain_ok {A} (a : A) : plain (Ok a).
Proof. intros e H. discriminate. Qed.
Lemma plain_err {A} e : plain_error e -> @plain A (Err e).
Proof. intros H e' E. injection E as <-. exact H. Qed.
Lemma plain_bind {A B} (o : outcome A) (k : A -> outcome B) : plain o -> (forall a, plain (k a)) -> plain (bind o k).
Proof.
  intros H Hk. destruct o as [a|e| |]; cbn [bind]; [apply Hk| |intros e E; discriminate|intros e E; discriminate].
  intros e' E. injection E as <-. apply H. reflexivity.
Qed.
Lemma plain_ok_or {A} (o : option A) e : plain_error e -> plain (ok_or o e).
Proof. intros H. destruct o; [apply plain_ok|apply plain_err; exact H]. Qed.
Lemma plain_for_each {S} (P : tree -> Prop) (step : S -> tree -> outcome S) :
  (forall st t, P t -> plain (step st t)) -> forall l st, Forall P l -> plain (for_each step l st).
Proof.
  intros Hs l. induction l as [|t l IH]; intros st Hl; cbn [for_each]; [apply plain_ok|].
  inversion Hl. subst. apply plain_bind; [apply Hs; assumption|]. intros st'. apply IH. assumption.
Qed.

Lemma plain_escape : plain_error EUnescape.
Proof. split; discriminate. Qed.
Lemma plain_text m : m <> digest_message -> plain_error (EGeneric (MText m)).
Proof. intros H. split; congruence. Qed.
Lemma plain_unexpected r : r <> R_comment -> plain_error (EGeneric (MUnexpected r)).
Proof. intros H. split; congruence. Qed.

Section Plain.
Variable unq : bytes -> option bytes.
Variable src : bytes.

Lemma unquote_plain w : plain (unquote unq w).
Proof. apply plain_ok_or, plain_escape. Qed.
Lemma parse_string_plain_error t : plain (parse_string unq src t).
Proof.
  unfold parse_string. apply plain_bind; [|intros a; apply plain_ok].
  destruct (starts_quoted (as_str src t)); [apply unquote_plain|apply plain_ok].
Qed.

Ltac step_plain := try match goal with st : (_ * _)%type |- _ => destruct st end; unfold unexpected_token, generic; cbv beta iota; repeat first
  [ apply plain_ok | apply parse_string_plain_error | apply unquote_plain
  | apply plain_err, plain_unexpected; congruence
  | apply plain_err, plain_text; discriminate
  | apply plain_ok_or, plain_text; discriminate
  | apply plain_bind; [|intros ?]
  | match goal with |- plain (match ?x with _ => _ end) => destruct x eqn:?E end ].

Lemma array_plain t : plain (parse_string_array unq src t).
Proof.
  unfold parse_string_array. apply plain_bind; [|intros a; apply plain_ok].
  apply (plain_for_each (fun _ => True)); [|apply Forall_forall; auto]. intros st c _. step_plain.
Qed.

Lemma from_flag_plain t : pure t -> t_rule t = R_from_flag -> plain (from_flag_of unq src t).
Proof.
  intros H Ht. apply pure_bare in H; [|rewrite Ht; reflexivity]. unfold from_flag_of. apply plain_bind; [|intros a; step_plain].
  apply (plain_for_each (fun c => t_rule c <> R_comment)); [|exact H]. intros st c Hc. step_plain.
Qed.
Lemma copy_flag_plain t : pure t -> t_rule t = R_copy_flag -> plain (copy_flag_of unq src t).
Proof.
  intros H Ht. apply pure_bare in H; [|rewrite Ht; reflexivity]. unfold copy_flag_of. apply plain_bind; [|intros a; step_plain].
  apply (plain_for_each (fun c => t_rule c <> R_comment)); [|exact H]. intros st c Hc. step_plain.
Qed.

Lemma from_fields_plain l : Forall pure l -> forall st, plain (for_each (from_step unq src) l st).
Proof.
  intros H st. apply (plain_for_each pure); [|exact H]. clear. intros [[i a] fl] t Ht. unfold from_step.
  destruct (t_rule t) eqn:E; try (step_plain; fail).
  apply plain_bind; [apply from_flag_plain; assumption|]. intros x. apply plain_ok.
Qed.

Lemma arg_plain t : plain (arg_of unq src t).
Proof.
  unfold arg_of. apply plain_bind; [|intros a; step_plain].
  apply (plain_for_each (fun _ => True)); [|apply Forall_forall; auto]. intros st c _. step_plain.
Qed.

Lemma label_of_plain t : plain (label_of unq src t).
Proof.
  unfold label_of. apply plain_bind; [|intros a; step_plain].
  apply (plain_for_each (fun _ => True)); [|apply Forall_forall; auto]. intros st c _. unfold unquote_clean. step_plain.
Qed.
Lemma label_plain t : plain (label_instruction_of unq src t).
Proof.
  unfold label_instruction_of. apply plain_bind; [|intros a; step_plain].
  apply (plain_for_each (fun _ => True)); [|apply Forall_forall; auto]. intros st c _.
  destruct (t_rule c); try (step_plain; fail); (apply plain_bind; [apply label_of_plain|intros x; apply plain_ok]).
Qed.

Lemma copy_plain t : pure t -> plain (copy_of unq src t).
Proof.
  intros H. apply pure_children in H. unfold copy_of. apply plain_bind; [|intros a; step_plain; intros e Ee; discriminate].
  apply (plain_for_each pure); [|exact H]. intros [fl pa] c Hc.
  destruct (t_rule c) eqn:E; try (step_plain; fail). apply plain_bind; [apply copy_flag_plain; assumption|intros x; apply plain_ok].
Qed.

Lemma breakable_plain t : plain (parse_any_breakable src t).
Proof.
  unfold parse_any_breakable. apply plain_bind; [|intros a; apply plain_ok]. revert t. fix IH 1. intros [r a b l].
  cbn [parse_any_breakable_inner].
  match goal with |- plain (?f l []) => enough (H : forall acc, plain (f l acc)) by apply H end.
  revert l. fix IHl 1. intros [|c l] acc; [apply plain_ok|].
  destruct (t_rule c) eqn:E; try (apply plain_err, plain_unexpected; congruence); try apply IHl.
  apply plain_bind; [apply IH|]. intros more. apply IHl.
Qed.

Lemma env_pair_plain t : pure t -> t_rule t = R_env_pair -> plain (env_pair_of unq src t).
Proof.
  intros H Ht. apply pure_bare in H; [|rewrite Ht; reflexivity]. unfold env_pair_of. apply plain_bind; [|intros a; step_plain].
  apply (plain_for_each (fun c => t_rule c <> R_comment)); [|exact H]. intros st c Hc. step_plain.
Qed.
Lemma env_plain t : pure t -> t_rule t = R_env -> plain (env_of unq src t).
Proof.
  intros H Ht. pose proof (pure_bare t H) as Hb. rewrite Ht in Hb. specialize (Hb eq_refl). apply pure_children in H. unfold env_of.
  destruct (t_children t) as [|c l]; [intros e E; discriminate|]. inversion_clear Hb as [|? ? Hc Hb2]. inversion_clear H as [|? ? Hp H2].
  destruct (t_rule c) eqn:E; try (apply plain_err, plain_unexpected; congruence).
  - unfold env_pairs_of. apply plain_bind; [|intros a; step_plain]. apply pure_children in Hp.
    apply (plain_for_each pure); [|exact Hp]. intros st x Hx. destruct (t_rule x) eqn:Ex; try (step_plain; fail).
    apply plain_bind; [apply env_pair_plain; assumption|]. intros y. apply plain_ok.
  - unfold env_single_of. apply plain_bind; [|intros a; step_plain].
    apply (plain_for_each (fun _ => True)); [|apply Forall_forall; auto]. intros st x _.
    destruct st as [k v]. destruct (t_rule x) eqn:Ex; try (step_plain; fail).
    apply plain_bind; [apply breakable_plain|]. intros y. apply plain_ok.
Qed.

Lemma misc_plain t : pure t -> t_rule t = R_misc -> plain (misc_of unq src t).
Proof.
  intros H Ht. apply pure_bare in H; [|rewrite Ht; reflexivity]. unfold misc_of. apply plain_bind; [|intros a; step_plain].
  apply (plain_for_each (fun c => t_rule c <> R_comment)); [|exact H]. intros [n a] c Hc.
  destruct (t_rule c) eqn:E; try (step_plain; fail).
  apply plain_bind; [apply breakable_plain|]. intros x. apply plain_ok.
Qed.
End Plain.
