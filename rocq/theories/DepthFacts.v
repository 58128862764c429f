(** How deep the calls of rule functions are nested: at most a constant plus the
    number of backslashes and hash signs, and at least the number of components of
    any shell command. *)

From Coq Require Import String.
From Verif Require Import Bytes BytesFacts Grammar Peg PegFacts Cost CostFacts SpecSyntax PegRules PegTokens PegQuoted
  Result Ast Splicer Convert Dockerfile Sound SoundRules SpecLayout Shift.
Local Open Scope nat_scope.

(** ** From above *)

(** Bytes that can begin an escape or a continuation, or a comment *)
Definition is_mark (c : N) : bool := ((c =? BSLASH) || (c =? HASH))%N.
Definition marks (s : bytes) : nat := length (filter is_mark s).

Lemma marks_app a b : marks (a ++ b) = marks a + marks b.
Proof. unfold marks. rewrite filter_app, app_length. reflexivity. Qed.

Lemma marks_le n c e p s q s' f : eval n c e p s = Done q s' f -> marks s' <= marks s.
Proof. intros H. destruct (eval_consumes _ _ _ _ _ _ _ _ H) as (w & -> & _). rewrite marks_app. lia. Qed.

Lemma depth_0 c e p s : depth 0 c e p s = 0.
Proof. reflexivity. Qed.

Lemma depth_S n c e p s : depth (S n) c e p s =
    match e with
    | Str _ | Insens _ | Range _ _ | AnyChar | Soi | EndOfInput => 0
    | Call r => S (depth n (rule_inner (fst (grammar r)) c) (snd (grammar r)) p s)
    | NegPred e1 => depth n {| atom := atom c; look := true |} e1 p s
    | Seq e1 e2 =>
      Nat.max (depth n c e1 p s)
        match eval n c e1 p s with Done q s1 _ => depth n c e2 q s1 | _ => 0 end
    | Alt e1 e2 =>
      Nat.max (depth n c e1 p s)
        match eval n c e1 p s with Fail => depth n c e2 p s | _ => 0 end
    | Opt e1 => depth n c e1 p s
    | Rep e1 =>
      Nat.max (depth n c e1 p s)
        match eval n c e1 p s with Done q s1 _ => depth n c (Rep e1) q s1 | _ => 0 end
    end.
Proof. destruct e; reflexivity. Qed.

Definition deep (e : expr) (k : nat) : Prop := forall n c p s, depth n c e p s <= k + marks s.

Section Levels.
Variable known : rule -> option nat.
Hypothesis known_ok : forall r k, known r = Some k -> deep (Call r) k.

Fixpoint level (d : nat) (e : expr) : option nat :=
  match d with
  | O => None
  | S d' =>
    match e with
    | Call r =>
      match known r with
      | Some k => Some k
      | None => match level d' (snd (grammar r)) with Some k => Some (S k) | None => None end
      end
    | NegPred a | Opt a | Rep a => level d' a
    | Seq a b | Alt a b => match level d' a, level d' b with Some x, Some y => Some (Nat.max x y) | _, _ => None end
    | _ => Some 0
    end
  end.

Lemma deep_rep e k : deep e k -> deep (Rep e) k.
Proof.
  intros H n. induction n as [|n IH]; intros c p s; [rewrite ?depth_0; lia|]. rewrite depth_S. pose proof (H n c p s).
  destruct (eval n c e p s) as [q s1 f| |] eqn:E; try lia. pose proof (marks_le _ _ _ _ _ _ _ _ E). pose proof (IH c q s1). lia.
Qed.

Lemma level_ok d : forall e k, level d e = Some k -> deep e k.
Proof.
  induction d as [|d IH]; intros e k E; [discriminate|].
  destruct e as [pat|pat|lo hi| | | |r|e1|e1 e2|e1 e2|e1|e1]; cbn [level] in E;
    try (intros n c p s; destruct n; [rewrite ?depth_0; lia|rewrite depth_S; lia]).
  - destruct (known r) as [k'|] eqn:Ek; [injection E as <-; apply known_ok; exact Ek|].
    destruct (level d (snd (grammar r))) as [k'|] eqn:El; [|discriminate]. injection E as <-.
    intros n c p s. destruct n; [rewrite ?depth_0; lia|]. rewrite depth_S. pose proof (IH _ _ El n (rule_inner (fst (grammar r)) c) p s). lia.
  - intros n c p s. destruct n; [rewrite ?depth_0; lia|]. rewrite depth_S. apply (IH _ _ E).
  - destruct (level d e1) as [x|] eqn:E1; [|discriminate]. destruct (level d e2) as [y|] eqn:E2; [|discriminate]. injection E as <-.
    intros n c p s. destruct n; [rewrite ?depth_0; lia|]. rewrite depth_S. pose proof (IH _ _ E1 n c p s).
    destruct (eval n c e1 p s) as [q s1 f| |] eqn:Ee; try lia. pose proof (marks_le _ _ _ _ _ _ _ _ Ee). pose proof (IH _ _ E2 n c q s1). lia.
  - destruct (level d e1) as [x|] eqn:E1; [|discriminate]. destruct (level d e2) as [y|] eqn:E2; [|discriminate]. injection E as <-.
    intros n c p s. destruct n; [rewrite ?depth_0; lia|]. rewrite depth_S. pose proof (IH _ _ E1 n c p s). pose proof (IH _ _ E2 n c p s).
    destruct (eval n c e1 p s); lia.
  - intros n c p s. destruct n; [rewrite ?depth_0; lia|]. rewrite depth_S. apply (IH _ _ E).
  - apply deep_rep. apply (IH _ _ E).
Qed.
End Levels.

(** A rule that consumed a mark *)
Definition marked (e : expr) : Prop := forall n c p s q s' f, eval n c e p s = Done q s' f -> marks s' < marks s.

Lemma marked_seq x a b : is_mark x = true -> marked (Seq (Str (x :: a)) b).
Proof.
  intros Hx n c p s q s' f H. destruct n as [|n]; [discriminate|]. rewrite eval_S in H.
  destruct (eval n c (Str (x :: a)) p s) as [q1 s1 f1| |] eqn:E1; try discriminate.
  destruct (eval n c b q1 s1) as [q2 s2 f2| |] eqn:E2; try discriminate. injection H as <- <- <-.
  pose proof (marks_le _ _ _ _ _ _ _ _ E2). destruct n as [|n]; [discriminate|]. rewrite eval_S in E1.
  destruct (match_str (x :: a) s) eqn:M; [|discriminate]. injection E1 as <- <- <-. apply match_str_app in M. rewrite M, marks_app.
  unfold marks at 2. cbn [filter]. rewrite Hx. cbn [length]. lia.
Qed.

Lemma marked_call r : marked (snd (grammar r)) -> marked (Call r).
Proof.
  intros Hm n c p s q s' f H. destruct n as [|n]; [discriminate|]. rewrite eval_S in H.
  destruct (eval n _ (snd (grammar r)) p s) as [q1 s1 f1| |] eqn:E; try discriminate. injection H as <- <- <-.
  apply (Hm _ _ _ _ _ _ _ E).
Qed.

Lemma marked_escape : marked (Call R_escape).
Proof. apply marked_call, marked_seq. reflexivity. Qed.
Lemma marked_continuation : marked (Call R_line_continuation).
Proof. apply marked_call, marked_seq. reflexivity. Qed.
Lemma marked_comment : marked (Call R_comment).
Proof. apply marked_call, marked_seq. reflexivity. Qed.
Lemma marked_comment_line : marked (Call R_comment_line).
Proof.
  apply marked_call. intros n c p s q s' f H. cbn [grammar snd] in H. destruct n as [|n]; [discriminate|]. rewrite eval_S in H.
  destruct (eval n c (Rep ws) p s) as [q1 s1 f1| |] eqn:E1; try discriminate.
  destruct (eval n c (comment ~> Opt NEWLINE)%peg q1 s1) as [q2 s2 f2| |] eqn:E2; try discriminate. injection H as <- <- <-.
  pose proof (marks_le _ _ _ _ _ _ _ _ E1). destruct n as [|n]; [discriminate|]. rewrite eval_S in E2.
  destruct (eval n c comment q1 s1) as [q3 s3 f3| |] eqn:E3; try discriminate. pose proof (marked_comment _ _ _ _ _ _ _ E3).
  destruct (eval n c (Opt NEWLINE) q3 s3) as [q4 s4 f4| |] eqn:E4; try discriminate. injection E2 as <- <- <-.
  pose proof (marks_le _ _ _ _ _ _ _ _ E4). lia.
Qed.

Lemma deep_inner r x y k : snd (grammar r) = Seq (Rep x) (Opt (Seq y (Call r))) -> deep (Rep x) k -> deep y k -> marked y ->
  deep (Call r) (S k).
Proof.
  intros Eg H1 H2 Hm n. induction n as [n IH] using lt_wf_ind. intros c p s. destruct n as [|n]; [rewrite ?depth_0; lia|]. rewrite depth_S, Eg.
  set (c' := rule_inner _ c). clearbody c'. destruct n as [|n]; [rewrite ?depth_0; lia|]. rewrite depth_S. pose proof (H1 n c' p s).
  destruct (eval n c' (Rep x) p s) as [q s1 f| |] eqn:E1; try lia. pose proof (marks_le _ _ _ _ _ _ _ _ E1).
  destruct n as [|n]; [rewrite ?depth_0; lia|]. rewrite (depth_S n c' (Opt _)). destruct n as [|n]; [rewrite ?depth_0; lia|]. rewrite (depth_S n c' (Seq _ _)).
  pose proof (H2 n c' q s1). destruct (eval n c' y q s1) as [q2 s2 f2| |] eqn:E2; try lia.
  pose proof (Hm _ _ _ _ _ _ _ E2). pose proof (IH n ltac:(lia) c' q2 s2). lia.
Qed.

Lemma deep_breakable k : deep comment_line k -> deep (Call R_any_content) k -> deep line_continuation k ->
  deep (Call R_any_breakable) (S k).
Proof.
  intros H1 H2 H3 n. induction n as [n IH] using lt_wf_ind. intros c p s. destruct n as [|n]; [rewrite ?depth_0; lia|]. rewrite depth_S.
  set (c' := rule_inner _ c). clearbody c'. cbn [grammar snd]. destruct n as [|n]; [rewrite ?depth_0; lia|]. rewrite depth_S.
  assert (Ha : depth n c' (comment_line ~> Opt any_breakable)%peg p s <= k + marks s).
  { destruct n as [|n]; [rewrite ?depth_0; lia|]. rewrite depth_S. pose proof (H1 n c' p s). destruct (eval n c' comment_line p s) as [q s1 f| |] eqn:E1; try lia.
    pose proof (marked_comment_line _ _ _ _ _ _ _ E1). destruct n as [|n]; [rewrite ?depth_0; lia|]. rewrite (depth_S n c' (Opt _)).
    pose proof (IH n ltac:(lia) c' q s1). unfold any_breakable. lia. }
  assert (Hb : depth n c' (Call R_any_content ~> Opt (line_continuation ~> any_breakable))%peg p s <= k + marks s).
  { destruct n as [|n]; [rewrite ?depth_0; lia|]. rewrite depth_S. pose proof (H2 n c' p s). destruct (eval n c' (Call R_any_content) p s) as [q s1 f| |] eqn:E1; try lia.
    pose proof (marks_le _ _ _ _ _ _ _ _ E1). destruct n as [|n]; [rewrite ?depth_0; lia|]. rewrite (depth_S n c' (Opt _)).
    destruct n as [|n]; [rewrite ?depth_0; lia|]. rewrite (depth_S n c' (Seq _ _)). pose proof (H3 n c' q s1).
    destruct (eval n c' line_continuation q s1) as [q2 s2 f2| |] eqn:E2; try lia. pose proof (marked_continuation _ _ _ _ _ _ _ E2).
    pose proof (IH n ltac:(lia) c' q2 s2). unfold any_breakable. lia. }
  destruct (eval n c' (comment_line ~> Opt any_breakable)%peg p s); lia.
Qed.

Definition no_level (_ : rule) : option nat := None.
Lemma no_level_ok r k : no_level r = Some k -> deep (Call r) k.
Proof. discriminate. Qed.

Lemma deep_le e j k : deep e j -> j <= k -> deep e k.
Proof. intros H Hk n c p s. pose proof (H n c p s). lia. Qed.

Definition recursive_level (r : rule) : option nat :=
  match r with R_inner | R_single_quoted_inner | R_any_breakable => Some 4 | _ => None end.
Lemma recursive_level_ok r k : recursive_level r = Some k -> deep (Call r) k.
Proof.
  destruct r; try discriminate; intros E; injection E as <-.
  - eapply (deep_inner R_inner double_chars (Call R_escape)); [reflexivity| | |exact marked_escape];
      (eapply deep_le; [apply (level_ok no_level no_level_ok 30); vm_compute; reflexivity|lia]).
  - eapply (deep_inner R_single_quoted_inner single_chars (Call R_escape)); [reflexivity| | |exact marked_escape];
      (eapply deep_le; [apply (level_ok no_level no_level_ok 30); vm_compute; reflexivity|lia]).
  - apply deep_breakable; (eapply deep_le; [apply (level_ok no_level no_level_ok 30); vm_compute; reflexivity|lia]).
Qed.
Theorem parse_depth_above input : parse_depth input <= 13 + marks input.
Proof.
  unfold parse_depth. apply (level_ok recursive_level recursive_level_ok 100). vm_compute. reflexivity.
Qed.

(** ** From below *)

Fixpoint tree_depth (t : tree) : nat :=
  match t with Node _ _ _ l => S (list_max (map tree_depth l)) end.
Definition forest_depth (f : list tree) : nat := list_max (map tree_depth f).

Lemma forest_depth_app f g : forest_depth (f ++ g) = Nat.max (forest_depth f) (forest_depth g).
Proof. unfold forest_depth. rewrite map_app. apply list_max_app. Qed.
Lemma tree_depth_children t : tree_depth t = S (forest_depth (t_children t)).
Proof. destruct t; reflexivity. Qed.
Lemma forest_depth_in t f : In t f -> tree_depth t <= forest_depth f.
Proof.
  unfold forest_depth. induction f as [|x f IH]; [intros []|]. cbn [map list_max fold_right]. intros [->|H]; [lia|].
  apply IH in H. unfold list_max in H. lia.
Qed.

Lemma tokens_depth n : forall c e p s q s' f, eval n c e p s = Done q s' f -> forest_depth f <= depth n c e p s.
Proof.
  induction n as [|n IH]; intros c e p s q s' f H; [discriminate|]. rewrite eval_S in H. rewrite depth_S.
  destruct e as [pat|pat|lo hi| | | |r|e1|e1 e2|e1 e2|e1|e1].
  - destruct (match_str pat s); [|discriminate]. injection H as <- <- <-. cbn; lia.
  - destruct (match_insens pat s); [|discriminate]. injection H as <- <- <-. cbn; lia.
  - destruct s as [|x s]; [discriminate|]. destruct (in_range lo hi x); [|discriminate]. injection H as <- <- <-. cbn; lia.
  - destruct s as [|x s]; [discriminate|]. injection H as <- <- <-. cbn; lia.
  - destruct (p =? 0); [|discriminate]. injection H as <- <- <-. cbn; lia.
  - destruct s; [|discriminate]. injection H as <- <- <-. cbn; lia.
  - destruct (eval n _ (snd (grammar r)) p s) as [q1 s1 f1| |] eqn:E; try discriminate. injection H as <- <- <-.
    apply IH in E. unfold rule_tokens, wrap.
    destruct (fst (grammar r)); try (destruct (emits _); [unfold forest_depth at 1; cbn [map list_max fold_right tree_depth];
      fold (forest_depth f1) | ]); lia.
  - destruct (eval n _ e1 p s); try discriminate; injection H as <- <- <-; cbn; lia.
  - destruct (eval n c e1 p s) as [q1 s1 f1| |] eqn:E; try discriminate.
    destruct (eval n c e2 q1 s1) as [q2 s2 f2| |] eqn:E2; try discriminate. injection H as <- <- <-.
    rewrite forest_depth_app. apply IH in E. apply IH in E2. lia.
  - destruct (eval n c e1 p s) as [q1 s1 f1| |] eqn:E; try discriminate.
    + injection H as <- <- <-. apply IH in E. lia.
    + apply IH in H. lia.
  - destruct (eval n c e1 p s) as [q1 s1 f1| |] eqn:E; try discriminate; injection H as <- <- <-; [apply IH in E; lia|cbn; lia].
  - destruct (eval n c e1 p s) as [q1 s1 f1| |] eqn:E; try discriminate.
    + destruct (eval n c (Rep e1) q1 s1) as [q2 s2 f2| |] eqn:E2; try discriminate. injection H as <- <- <-.
      rewrite forest_depth_app. apply IH in E. apply IH in E2. lia.
    + injection H as <- <- <-. cbn; lia.
Qed.

(** The tokens of a shell text hold at most one part and the rest *)
Definition shellish (r : rule) : bool :=
  match r with
  | R_run_shell | R_cmd_shell | R_entrypoint_shell | R_env_single_value | R_misc_arguments => true
  | _ => false
  end.
Definition narrow (r : rule) (l : list tree) : Prop :=
  (r = R_any_breakable -> l = [] \/ (exists x, l = [x]) \/ exists x y, l = [x; y] /\ t_rule x <> R_any_breakable) /\
  (shellish r = true -> l = [] \/ exists x, l = [x]).

Inductive thin : tree -> Prop :=
| thin_node r a b l : narrow r l -> Forall thin l -> thin (Node r a b l).

Lemma done_run n c e p s q s' f : good e = true -> eval n c e p s = Done q s' f -> run c e p s = Done q s' f.
Proof.
  intros Hg H. rewrite <- (eval_run (Nat.max n (need e s)) c e p s Hg) by lia. rewrite <- H. apply eval_mono; [lia|].
  rewrite H. discriminate.
Qed.

Lemma breakable_one c p s q s' f : look c = false -> run c any_breakable p s = Done q s' f -> exists x, f = [x].
Proof.
  intros Hl H. apply call_inv in H. destruct H as (f' & _ & ->). cbn [grammar fst rule_tokens rule_outer]. unfold wrap, emits. cbn [look atom].
  rewrite Hl. eexists. reflexivity.
Qed.

Lemma narrow_rule r c p s q s' f : valid_utf8 s = true -> emits (rule_outer (fst (grammar r)) c) = true ->
  run (rule_inner (fst (grammar r)) c) (snd (grammar r)) p s = Done q s' f -> narrow r f.
Proof.
  intros Hv He H. unfold emits in He. apply andb_true_iff in He. destruct He as [He1 He2]. apply negb_true_iff in He1, He2.
  split.
  - intros ->. cbn [grammar fst snd rule_inner rule_outer look atom] in *.
    assert (Hc : forall p q l, wrap {| atom := false; look := look c |} R_comment p q l = [Node R_comment p q l]).
    { intros. unfold wrap, emits. cbn [look atom]. rewrite He1. reflexivity. }
    assert (Hd : forall p q l, wrap {| atom := false; look := look c |} R_any_content p q l = [Node R_any_content p q l]).
    { intros. unfold wrap, emits. cbn [look atom]. rewrite He1. reflexivity. }
    apply alt_inv in H; [|reflexivity]. destruct H as [H|[_ H]].
    + apply seq_inv in H; [|reflexivity]. destruct H as (q1 & s1 & f1 & f2 & H1 & H & ->).
      apply comment_line_inv in H1; [|exact Hv]. destruct H1 as (? & ? & ? & _ & _ & _ & _ & _ & ->). rewrite Hc.
      apply opt_inv in H; [|reflexivity]. destruct H as [H|(_ & _ & _ & ->)]; [|right; left; eexists; reflexivity].
      apply breakable_one in H; [|exact He1]. destruct H as (y & ->). right; right. eexists; eexists. split; [reflexivity|discriminate].
    + apply seq_inv in H; [|reflexivity]. destruct H as (q1 & s1 & f1 & f2 & H1 & H & ->).
      apply any_content_inv in H1; [|exact Hv]. destruct H1 as (? & _ & _ & _ & -> & _). rewrite Hd.
      apply opt_inv in H; [|reflexivity]. destruct H as [H|(_ & _ & _ & ->)]; [|right; left; eexists; reflexivity].
      apply seq_inv in H; [|reflexivity]. destruct H as (q2 & s2 & f3 & f4 & H1 & H & ->).
      apply continuation_inv in H1. destruct H1 as (? & _ & _ & _ & ->).
      apply breakable_one in H; [|exact He1]. destruct H as (y & ->). right; right. eexists; eexists. split; [reflexivity|discriminate].
  - intros Hr. destruct r; try discriminate; cbn [grammar fst snd rule_inner rule_outer look atom] in *;
      right; eapply breakable_one; try exact H; exact He1.
Qed.

Lemma thin_tokens n : forall c e p s q s' f, ascii_expr e = true -> valid_utf8 s = true ->
  eval n c e p s = Done q s' f -> Forall thin f.
Proof.
  induction n as [|n IH]; intros c e p s q s' f Ha Hv H; [discriminate|]. rewrite eval_S in H.
  destruct e as [pat|pat|lo hi| | | |r|e1|e1 e2|e1 e2|e1|e1]; cbn [ascii_expr] in Ha.
  - destruct (match_str pat s) eqn:E; [|discriminate]. injection H as <- <- <-. constructor.
  - destruct (match_insens pat s) eqn:E; [|discriminate]. injection H as <- <- <-. constructor.
  - destruct s as [|x s]; [discriminate|]. destruct (in_range lo hi x) eqn:E; [|discriminate]. injection H as <- <- <-. constructor.
  - destruct s as [|x s]; [discriminate|]. injection H as <- <- <-. constructor.
  - destruct (p =? 0); [|discriminate]. injection H as <- <- <-. constructor.
  - destruct s; [|discriminate]. injection H as <- <- <-. constructor.
  - destruct (eval n _ (snd (grammar r)) p s) as [q1 s1 f1| |] eqn:E; try discriminate. injection H as <- <- <-.
    pose proof (IH _ _ _ _ _ _ _ (ascii_rule r) Hv E) as Hf. apply done_run in E; [|apply good_rule].
    assert (K : Forall thin (wrap (rule_outer (fst (grammar r)) c) r p q1 f1)).
    { unfold wrap. destruct (emits (rule_outer (fst (grammar r)) c)) eqn:Em; [|exact Hf]. constructor; [|constructor].
      constructor; [|exact Hf]. apply (narrow_rule _ _ _ _ _ _ _ Hv Em E). }
    unfold rule_tokens. destruct (fst (grammar r)); assumption.
  - destruct (eval n _ e1 p s) eqn:E; try discriminate. injection H as <- <- <-. constructor.
  - apply andb_true_iff in Ha. destruct Ha as [Ha1 Ha2].
    destruct (eval n c e1 p s) as [q1 s1 f1| |] eqn:E; try discriminate.
    destruct (eval n c e2 q1 s1) as [q2 s2 f2| |] eqn:E2; try discriminate. injection H as <- <- <-.
    apply Forall_app. split; [apply (IH _ _ _ _ _ _ _ Ha1 Hv E)|].
    apply (IH _ _ _ _ _ _ _ Ha2 (eval_valid _ _ _ _ _ _ _ _ Ha1 Hv E) E2).
  - apply andb_true_iff in Ha. destruct Ha as [Ha1 Ha2].
    destruct (eval n c e1 p s) as [q1 s1 f1| |] eqn:E; try discriminate.
    + injection H as <- <- <-. apply (IH _ _ _ _ _ _ _ Ha1 Hv E).
    + apply (IH _ _ _ _ _ _ _ Ha2 Hv H).
  - destruct (eval n c e1 p s) as [q1 s1 f1| |] eqn:E; try discriminate.
    + injection H as <- <- <-. apply (IH _ _ _ _ _ _ _ Ha Hv E).
    + injection H as <- <- <-. constructor.
  - destruct (eval n c e1 p s) as [q1 s1 f1| |] eqn:E; try discriminate.
    + destruct (eval n c (Rep e1) q1 s1) as [q2 s2 f2| |] eqn:E2; try discriminate. injection H as <- <- <-.
      apply Forall_app. split; [apply (IH _ _ _ _ _ _ _ Ha Hv E)|].
      apply (IH _ _ _ _ _ _ _ (Ha : ascii_expr (Rep e1) = true) (eval_valid _ _ _ _ _ _ _ _ Ha Hv E) E2).
    + injection H as <- <- <-. constructor.
Qed.

Section Components.
Variable src : bytes.

Lemma step_length acc t acc' : breakable_step src acc t = Ok acc' ->
  (t_rule t <> R_any_breakable -> length acc' = S (length acc)) /\
  (t_rule t = R_any_breakable -> exists l, parse_any_breakable_inner src t = Ok l /\ length acc' = length acc + length l).
Proof.
  unfold breakable_step. destruct (t_rule t) eqn:Er; intros E; try discriminate.
  - injection E as <-. split; [intros _; rewrite app_length; cbn; lia|discriminate].
  - injection E as <-. split; [intros _; rewrite app_length; cbn; lia|discriminate].
  - split; [congruence|intros _]. destruct (parse_any_breakable_inner src t) as [l|e| |]; try discriminate. cbn [bind] in E. injection E as <-.
    exists l. rewrite app_length. auto.
Qed.

Lemma components_depth t : thin t -> t_rule t = R_any_breakable \/ shellish (t_rule t) = true ->
  forall l, parse_any_breakable_inner src t = Ok l -> length l <= tree_depth t.
Proof.
  induction t as [r a b f IH] using tree_induction. intros Ht Hr l E. inversion Ht as [r' a' b' f' [Hn1 Hn2] Hf]; subst. clear Ht.
  rewrite breakable_inner_eq in E. cbn [t_children t_rule] in *.
  assert (Hlen : forall x acc acc', In x f -> breakable_step src acc x = Ok acc' -> length acc' <= length acc + tree_depth x).
  { intros x acc acc' Hx Es. apply step_length in Es. destruct Es as [E1 E2]. destruct (rule_eq_dec (t_rule x) R_any_breakable) as [e|e].
    - destruct (E2 e) as (l' & El & ->). rewrite Forall_forall in IH, Hf. pose proof (IH x Hx (Hf x Hx) (or_introl e) l' El). lia.
    - rewrite (E1 e). rewrite tree_depth_children. lia. }
  assert (K : f = [] \/ (exists x, f = [x]) \/ exists x y, f = [x; y] /\ t_rule x <> R_any_breakable).
  { destruct Hr as [Hr|Hr]; [apply Hn1, Hr|]. destruct (Hn2 Hr); auto. }
  destruct K as [->|[(x & ->)|(x & y & -> & Hx)]]; cbn [for_each tree_depth map list_max fold_right] in *.
  - injection E as <-. cbn. lia.
  - destruct (breakable_step src [] x) as [acc|e| |] eqn:E1; try discriminate. cbn [bind] in E. injection E as <-.
    apply Hlen in E1; [|left; reflexivity]. cbn [length] in E1. lia.
  - destruct (breakable_step src [] x) as [acc|e| |] eqn:E1; try discriminate. cbn [bind] in E.
    destruct (breakable_step src acc y) as [acc2|e| |] eqn:E2; try discriminate. cbn [bind] in E. injection E as <-.
    apply Hlen in E2; [|right; left; reflexivity]. apply step_length in E1. destruct E1 as [E1 _]. rewrite (E1 Hx) in E2. cbn [length] in E2. lia.
Qed.

Lemma breakable_depth t b : thin t -> shellish (t_rule t) = true -> parse_any_breakable src t = Ok b ->
  length (br_components b) <= tree_depth t.
Proof.
  intros Ht Hr E. unfold parse_any_breakable in E. destruct (parse_any_breakable_inner src t) as [l|e| |] eqn:El; try discriminate.
  cbn [bind] in E. injection E as <-. cbn [br_components]. apply (components_depth t Ht (or_intror Hr) l El).
Qed.
End Components.

(** ** Documents *)

Lemma for_each_keeps {S A} (P : S -> Prop) (f : S -> A -> outcome S) l : (forall st x st', In x l -> P st -> f st x = Ok st' -> P st') ->
  forall st st', P st -> for_each f l st = Ok st' -> P st'.
Proof.
  induction l as [|x l IH]; intros Hf st st' Hp E; cbn [for_each] in E; [injection E as <-; exact Hp|].
  destruct (f st x) as [st1|e| |] eqn:E1; try discriminate. cbn [bind] in E.
  apply (IH (fun st x st' Hx => Hf st x st' (or_intror Hx)) st1 st'); [|exact E]. apply (Hf st x st1); [left; reflexivity|exact Hp|exact E1].
Qed.

Section Instructions.
Variable unq : bytes -> option bytes.
Variable src : bytes.

Definition fits (k : nat) (b : breakable_string) : Prop := length (br_components b) <= k.

Lemma child_depth t x : In x (t_children t) -> tree_depth x < tree_depth t.
Proof. intros H. rewrite (tree_depth_children t). apply forest_depth_in in H. lia. Qed.

Lemma thin_child t x : thin t -> In x (t_children t) -> thin x.
Proof. intros H Hx. inversion H as [r a b l _ Hf]; subst. cbn [t_children] in Hx. rewrite Forall_forall in Hf. apply Hf, Hx. Qed.

Lemma child_fits t x b : thin t -> In x (t_children t) -> shellish (t_rule x) = true -> parse_any_breakable src x = Ok b ->
  fits (tree_depth t) b.
Proof.
  intros Ht Hx Hr E. pose proof (breakable_depth src x b (thin_child t x Ht Hx) Hr E). pose proof (child_depth t x Hx). unfold fits. lia.
Qed.

Lemma command_fits re rs t e : thin t -> shellish rs = true -> shell_or_exec_of unq src re rs t = Ok e ->
  forall b, e = Shell b -> fits (tree_depth t) b.
Proof.
  intros Ht Hr E b ->. unfold shell_or_exec_of in E. destruct (t_children t) as [|x l] eqn:Ec; [discriminate|].
  destruct (rule_eq_dec (t_rule x) re).
  - destruct (parse_string_array unq src x); discriminate.
  - destruct (rule_eq_dec (t_rule x) rs) as [e|]; [|discriminate]. destruct (parse_any_breakable src x) eqn:Ex; try discriminate.
    cbn [bind] in E. injection E as <-. apply (child_fits t x); [exact Ht|rewrite Ec; left; reflexivity|congruence|exact Ex].
Qed.

Definition opt_fits (k : nat) (b : option breakable_string) : Prop := match b with Some b => fits k b | None => True end.

Lemma field_fits k x v : fits (S k) (breakable_of_field x v).
Proof. unfold fits, breakable_of_field. cbn. lia. Qed.

Lemma instruction_fits t i : thin t -> instruction_of unq src t = Ok i -> Forall (fits (tree_depth t)) (shell_texts_of i).
Proof.
  intros Ht E. unfold instruction_of in E. destruct (t_rule t); try discriminate;
    match type of E with bind ?o _ = _ => destruct o as [x|e| |] eqn:Eo; try discriminate; cbn [bind] in E; injection E as <- end;
    cbn [shell_texts_of]; try (constructor; fail).
  - unfold run_of in Eo. destruct (shell_or_exec_of _ _ _ _ t) as [e|e| |] eqn:Ee; try discriminate. cbn [bind] in Eo. injection Eo as <-.
    cbn [run_expr]. destruct e as [b|b]; constructor; [|constructor]. apply (command_fits R_run_exec R_run_shell t _ Ht eq_refl Ee b eq_refl).
  - unfold entrypoint_of in Eo. destruct (shell_or_exec_of _ _ _ _ t) as [e|e| |] eqn:Ee; try discriminate. cbn [bind] in Eo. injection Eo as <-.
    cbn [entrypoint_expr]. destruct e as [b|b]; constructor; [|constructor]. apply (command_fits R_entrypoint_exec R_entrypoint_shell t _ Ht eq_refl Ee b eq_refl).
  - unfold cmd_of in Eo. destruct (shell_or_exec_of _ _ _ _ t) as [e|e| |] eqn:Ee; try discriminate. cbn [bind] in Eo. injection Eo as <-.
    cbn [cmd_expr]. destruct e as [b|b]; constructor; [|constructor]. apply (command_fits R_cmd_exec R_cmd_shell t _ Ht eq_refl Ee b eq_refl).
  - unfold env_of in Eo. destruct (t_children t) as [|y l] eqn:Ec; [discriminate|].
    assert (Hy : In y (t_children t)) by (rewrite Ec; left; reflexivity). pose proof (thin_child t y Ht Hy) as Hty.
    pose proof (child_depth t y Hy) as Hd. destruct (tree_depth t) as [|k]; [lia|]. destruct (t_rule y); try discriminate.
    + unfold env_pairs_of in Eo. match type of Eo with bind ?o _ = _ => destruct o as [vars|e| |] eqn:Ev; try discriminate end.
      cbn [bind] in Eo. injection Eo as <-. cbn [env_vars]. revert Ev.
      apply (for_each_keeps (fun vars => Forall (fits (S k)) (map ev_value vars))); [|constructor].
      intros st z st' _ Hst Ez. destruct (t_rule z); try discriminate; [injection Ez as <-; exact Hst|].
      destruct (env_pair_of unq src z) as [v|e| |] eqn:Ep; try discriminate. cbn [bind] in Ez. injection Ez as <-. rewrite map_app.
      apply Forall_app. split; [exact Hst|]. constructor; [|constructor]. unfold env_pair_of in Ep.
      match type of Ep with bind ?o _ = _ => destruct o as [[key value]|e| |] eqn:Ek; try discriminate end. cbn [bind] in Ep.
      assert (Kv : opt_fits (S k) (snd (key, value))).
      { revert Ek. apply (for_each_keeps (fun kv => opt_fits (S k) (snd kv))); [|exact I].
        intros [k0 v0] u [k1 v1] _ Hkv Eu. cbn [snd] in *. destruct (t_rule u); try discriminate.
        - destruct (parse_string unq src u); try discriminate. cbn [bind] in Eu. injection Eu as <- <-. exact Hkv.
        - injection Eu as <- <-. apply field_fits.
        - destruct (unquote unq (as_str src u)); try discriminate. cbn [bind] in Eu. injection Eu as <- <-. apply field_fits. }
      cbn [snd] in Kv. destruct key; try discriminate. destruct value; try discriminate. cbn [ok_or bind] in Ep. injection Ep as <-. exact Kv.
    + unfold env_single_of in Eo. match type of Eo with bind ?o _ = _ => destruct o as [[key value]|e| |] eqn:Ek; try discriminate end. cbn [bind] in Eo.
      assert (Kv : opt_fits (S k) (snd (key, value))).
      { revert Ek. apply (for_each_keeps (fun kv => opt_fits (S k) (snd kv))); [|exact I].
        intros [k0 v0] u [k1 v1] Hu Hkv Eu. cbn [snd] in *. destruct (t_rule u) eqn:Er; try discriminate.
        - injection Eu as <- <-. exact Hkv.
        - destruct (parse_string unq src u); try discriminate. cbn [bind] in Eu. injection Eu as <- <-. exact Hkv.
        - destruct (unquote unq (as_str src u)); try discriminate. cbn [bind] in Eu. injection Eu as <- <-. apply field_fits.
        - destruct (parse_any_breakable src u) as [b|e| |] eqn:Eb; try discriminate. cbn [bind] in Eu. injection Eu as <- <-.
          pose proof (child_fits y u b Hty Hu ltac:(rewrite Er; reflexivity) Eb) as Kb. cbn [opt_fits]. unfold fits in *. lia. }
      cbn [snd] in Kv. destruct key; try discriminate. destruct value; try discriminate. cbn [ok_or bind] in Eo. injection Eo as <-.
      constructor; [exact Kv|constructor].
  - unfold misc_of in Eo. match type of Eo with bind ?o _ = _ => destruct o as [[key value]|e| |] eqn:Ek; try discriminate end. cbn [bind] in Eo.
    assert (Kv : opt_fits (tree_depth t) (snd (key, value))).
    { revert Ek. apply (for_each_keeps (fun kv => opt_fits (tree_depth t) (snd kv))); [|exact I].
      intros [k0 v0] u [k1 v1] Hu Hkv Eu. cbn [snd] in *. destruct (t_rule u) eqn:Er; try discriminate.
      - destruct (parse_string unq src u); try discriminate. cbn [bind] in Eu. injection Eu as <- <-. exact Hkv.
      - destruct (parse_any_breakable src u) as [b|e| |] eqn:Eb; try discriminate. cbn [bind] in Eu. injection Eu as <- <-.
        apply (child_fits t u b Ht Hu ltac:(rewrite Er; reflexivity) Eb). }
    cbn [snd] in Kv. destruct key; try discriminate. destruct value; try discriminate. cbn [ok_or bind] in Eo. injection Eo as <-.
    constructor; [exact Kv|constructor].
Qed.

Lemma doc_step_fits k st t st' : thin t -> tree_depth t <= k -> Forall (fun i => Forall (fits k) (shell_texts_of i)) (ds_instructions st) ->
  doc_step unq src st t = Ok st' -> Forall (fun i => Forall (fits k) (shell_texts_of i)) (ds_instructions st').
Proof.
  intros Ht Hk Hst E.
  assert (K : forall i, instruction_of unq src t = Ok i -> Forall (fits k) (shell_texts_of i)).
  { intros i Ei. eapply Forall_impl; [|exact (instruction_fits t i Ht Ei)]. unfold fits. intros. lia. }
  unfold doc_step in E.
  assert (L : forall o, instruction_of unq src t = o -> bind o (fun instruction =>
     match instruction with
     | IFrom f => Ok (DocState (ds_instructions st ++ [IFrom (set_index f (ds_from_index st))]) (ds_global_args st) true (S (ds_from_index st)))
     | IArg a => Ok (DocState (ds_instructions st ++ [IArg a]) (if ds_from_found st then ds_global_args st else ds_global_args st ++ [a])
                   (ds_from_found st) (ds_from_index st))
     | i => Ok (DocState (ds_instructions st ++ [i]) (ds_global_args st) (ds_from_found st) (ds_from_index st))
     end) = Ok st' -> Forall (fun i => Forall (fits k) (shell_texts_of i)) (ds_instructions st')).
  { intros [i|e| |] Eo Ei; try discriminate. cbn [bind] in Ei. apply K in Eo.
    destruct i; injection Ei as <-; cbn [ds_instructions]; apply Forall_app; (split; [exact Hst|constructor; [exact Eo|constructor]]). }
  destruct (t_rule t) eqn:Er; try (apply (L _ eq_refl E)); injection E as <-; exact Hst.
Qed.

Theorem parse_depth_below d i b : valid_utf8 src = true -> parse unq src = Ok d -> In i (d_instructions d) -> In b (shell_texts_of i) ->
  length (br_components b) < parse_depth src.
Proof.
  intros Hv E Hi Hb. unfold parse in E. unfold pest_parse, run in E. unfold parse_depth.
  destruct (eval (fuel_for (length src)) ctx0 (Call R_dockerfile) 0 src) as [q s' f| |] eqn:Ee; try discriminate.
  pose proof (thin_tokens _ _ (Call R_dockerfile) _ _ _ _ _ eq_refl Hv Ee) as Ht. pose proof (tokens_depth _ _ _ _ _ _ _ _ Ee) as Hd.
  destruct f as [|top f]; [discriminate|]. inversion Ht as [|x l Ht1 _]; subst.
  match type of E with bind ?o _ = _ => destruct o as [st|e| |] eqn:Es; try discriminate end. cbn [bind] in E. injection E as <-.
  cbn [d_instructions] in Hi.
  assert (K : Forall (fun i => Forall (fits (forest_depth (t_children top))) (shell_texts_of i)) (ds_instructions st)).
  { revert Es. apply (for_each_keeps (fun st => Forall _ (ds_instructions st))); [|constructor].
    intros st0 x st1 Hx Hst0 Ex. apply (doc_step_fits _ st0 x st1); [apply (thin_child top x Ht1 Hx)|apply forest_depth_in, Hx|exact Hst0|exact Ex]. }
  rewrite Forall_forall in K. specialize (K i Hi). rewrite Forall_forall in K. specialize (K b Hb). unfold fits in K.
  pose proof (forest_depth_in top (top :: f) (or_introl eq_refl)) as Hl. rewrite tree_depth_children in Hl. lia.
Qed.
End Instructions.
