(** How often tokens of a class of rules stand directly in a token. *)

From Coq Require Import String.
From Verif Require Import Bytes BytesFacts Grammar Peg PegFacts Shift.
Local Open Scope nat_scope.

Definition class : Type := rule -> bool.

Definition tally (K : class) (f : list tree) : nat := length (filter (fun t => K (t_rule t)) f).

Lemma tally_app K f h : tally K (f ++ h) = tally K f + tally K h.
Proof. unfold tally. rewrite filter_app, app_length. reflexivity. Qed.

(** At most 0, at most 1, or (2) any number of tokens of the class *)
Fixpoint cap (K : class) (d : nat) (c : ctx) (e : expr) {struct d} : nat :=
  match d with
  | 0 => 2
  | S d =>
    match e with
    | Call r =>
      let k := fst (grammar r) in
      match k with
      | Silent => cap K d (rule_inner k c) (snd (grammar r))
      | _ => if emits (rule_outer k c) then (if K r then 1 else 0) else cap K d (rule_inner k c) (snd (grammar r))
      end
    | NegPred a => 0
    | Opt a => cap K d c a
    | Rep a => if cap K d c a =? 0 then 0 else 2
    | Seq a b => cap K d c a + cap K d c b
    | Alt a b => Nat.max (cap K d c a) (cap K d c b)
    | _ => 0
    end
  end.

Lemma cap_tally K n : forall d c e p s q s' f, cap K d c e <= 1 -> eval n c e p s = Done q s' f -> tally K f <= cap K d c e.
Proof.
  induction n as [|n IH]; intros d c e p s q s' f Hd H; [discriminate|]. rewrite eval_S in H.
  destruct d as [|d]; [cbn [cap] in Hd; lia|].
  destruct e as [pat|pat|lo hi| | | |r|e1|e1 e2|e1 e2|e1|e1]; cbn [cap] in *.
  - destruct (match_str pat s); [|discriminate]. injection H as <- <- <-. cbn. lia.
  - destruct (match_insens pat s); [|discriminate]. injection H as <- <- <-. cbn. lia.
  - destruct s as [|x s]; [discriminate|]. destruct (in_range lo hi x); [|discriminate]. injection H as <- <- <-. cbn. lia.
  - destruct s as [|x s]; [discriminate|]. injection H as <- <- <-. cbn. lia.
  - destruct (p =? 0); [|discriminate]. injection H as <- <- <-. cbn. lia.
  - destruct s; [|discriminate]. injection H as <- <- <-. cbn. lia.
  - destruct (eval n _ (snd (grammar r)) p s) as [q1 s1 f1| |] eqn:E; try discriminate. injection H as <- <- <-.
    assert (T : forall k, tally K (wrap k r p q1 f1) = if emits k then (if K r then 1 else 0) else tally K f1).
    { intros k. unfold wrap. destruct (emits k); [|reflexivity]. unfold tally. cbn [filter t_rule]. destruct (K r); reflexivity. }
    destruct (fst (grammar r)); cbn [rule_tokens] in *; rewrite ?T in *;
      try (match goal with |- context [if emits ?k then _ else _] => destruct (emits k) end; [apply le_n|]);
      eapply IH; eassumption.
  - destruct (eval n _ e1 p s); try discriminate; injection H as <- <- <-; cbn; lia.
  - destruct (eval n c e1 p s) as [q1 s1 f1| |] eqn:E; try discriminate.
    destruct (eval n c e2 q1 s1) as [q2 s2 f2| |] eqn:E2; try discriminate. injection H as <- <- <-.
    assert (H1 : cap K d c e1 <= 1) by lia. assert (H2 : cap K d c e2 <= 1) by lia.
    rewrite tally_app. pose proof (IH d _ _ _ _ _ _ _ H1 E). pose proof (IH d _ _ _ _ _ _ _ H2 E2). lia.
  - assert (H1 : cap K d c e1 <= 1) by lia. assert (H2 : cap K d c e2 <= 1) by lia.
    destruct (eval n c e1 p s) as [q1 s1 f1| |] eqn:E; try discriminate.
    + injection H as <- <- <-. pose proof (IH d _ _ _ _ _ _ _ H1 E). lia.
    + pose proof (IH d _ _ _ _ _ _ _ H2 H). lia.
  - destruct (eval n c e1 p s) as [q1 s1 f1| |] eqn:E; try discriminate; injection H as <- <- <-; [|cbn; lia].
    apply (IH d _ _ _ _ _ _ _ Hd E).
  - destruct (cap K d c e1 =? 0) eqn:Ez; [|lia]. apply Nat.eqb_eq in Ez.
    destruct (eval n c e1 p s) as [q1 s1 f1| |] eqn:E; try discriminate; [|injection H as <- <- <-; cbn; lia].
    destruct (eval n c (Rep e1) q1 s1) as [q2 s2 f2| |] eqn:E2; try discriminate. injection H as <- <- <-.
    assert (H1 : cap K d c e1 <= 1) by lia. rewrite tally_app. pose proof (IH d _ _ _ _ _ _ _ H1 E) as K1.
    assert (K2 : cap K (S d) c (Rep e1) = 0) by (cbn [cap]; rewrite Ez; reflexivity).
    assert (K3 : cap K (S d) c (Rep e1) <= 1) by lia. pose proof (IH (S d) _ _ _ _ _ _ _ K3 E2). lia.
Qed.

Lemma tally_one K x y f : tally K (x :: f) <= 1 -> K (t_rule x) = true -> In y f -> K (t_rule y) = false.
Proof.
  unfold tally. cbn [filter]. intros H Hx Hy. rewrite Hx in H. cbn [length] in H. destruct (K (t_rule y)) eqn:E; [|reflexivity].
  assert (In y (filter (fun t => K (t_rule t)) f)) by (apply filter_In; auto).
  destruct (filter _ f); [contradiction|cbn in H; lia].
Qed.

Lemma tally_tail K x f : tally K (x :: f) <= 1 -> tally K f <= 1.
Proof. unfold tally. cbn [filter]. destruct (K (t_rule x)); cbn [length]; lia. Qed.

(** The fields of which a converter keeps only one *)
Definition fields_of (r : rule) : list class :=
  match r with
  | R_from_flag => [fun x => match x with R_from_flag_name => true | _ => false end;
                    fun x => match x with R_from_flag_value => true | _ => false end]
  | R_copy_flag => [fun x => match x with R_copy_flag_name => true | _ => false end;
                    fun x => match x with R_copy_flag_value => true | _ => false end]
  | R_from => [fun x => match x with R_from_image => true | _ => false end;
               fun x => match x with R_from_alias => true | _ => false end]
  | R_arg => [fun x => match x with R_arg_name => true | _ => false end;
              fun x => match x with R_arg_quoted_value | R_arg_value => true | _ => false end]
  | R_label_pair | R_label_single =>
    [fun x => match x with R_label_name | R_label_single_name | R_label_quoted_name | R_label_single_quoted_name => true | _ => false end;
     fun x => match x with R_label_value | R_label_quoted_value => true | _ => false end]
  | R_env_pair => [fun x => match x with R_env_name => true | _ => false end;
                   fun x => match x with R_env_pair_value | R_env_pair_quoted_value => true | _ => false end]
  | R_env_single => [fun x => match x with R_env_name => true | _ => false end;
                     fun x => match x with R_env_single_value | R_env_single_quoted_value => true | _ => false end]
  | R_misc => [fun x => match x with R_misc_instruction => true | _ => false end;
               fun x => match x with R_misc_arguments => true | _ => false end]
  | _ => []
  end.

Inductive orderly : tree -> Prop :=
| orderly_node r a b l : Forall (fun K => tally K l <= 1) (fields_of r) -> Forall orderly l -> orderly (Node r a b l).

Definition sparse (r : rule) : bool :=
  forallb (fun K => cap K 40 (rule_inner (fst (grammar r)) ctx0) (snd (grammar r)) <=? 1) (fields_of r).

Lemma rule_sparse r : sparse r = true.
Proof. destruct r; vm_compute; reflexivity. Qed.

(** The context inside a rule that leaves a token *)
Lemma emitting_ctx k c : emits (rule_outer k c) = true -> k = Silent \/ rule_inner k c = rule_inner k ctx0.
Proof.
  destruct c as [a l]. unfold emits, rule_outer, rule_inner, ctx0. destruct k, a, l; cbn; intros H; try discriminate; auto.
Qed.

Theorem eval_orderly n : forall c e p s q s' f, eval n c e p s = Done q s' f -> Forall orderly f.
Proof.
  induction n as [|n IH]; intros c e p s q s' f H; [discriminate|]. rewrite eval_S in H.
  destruct e as [pat|pat|lo hi| | | |r|e1|e1 e2|e1 e2|e1|e1].
  - destruct (match_str pat s); [|discriminate]. injection H as <- <- <-. constructor.
  - destruct (match_insens pat s); [|discriminate]. injection H as <- <- <-. constructor.
  - destruct s as [|x s]; [discriminate|]. destruct (in_range lo hi x); [|discriminate]. injection H as <- <- <-. constructor.
  - destruct s as [|x s]; [discriminate|]. injection H as <- <- <-. constructor.
  - destruct (p =? 0); [|discriminate]. injection H as <- <- <-. constructor.
  - destruct s; [|discriminate]. injection H as <- <- <-. constructor.
  - destruct (eval n _ (snd (grammar r)) p s) as [q1 s1 f1| |] eqn:E; try discriminate. injection H as <- <- <-.
    pose proof (IH _ _ _ _ _ _ _ E) as Hf.
    assert (T : emits (rule_outer (fst (grammar r)) c) = true -> fst (grammar r) <> Silent -> orderly (Node r p q1 f1)).
    { intros Hc Hk. constructor; [|exact Hf]. destruct (emitting_ctx _ _ Hc) as [K|K]; [contradiction|].
      pose proof (rule_sparse r) as Hr. unfold sparse in Hr. rewrite <- K in Hr. rewrite forallb_forall in Hr.
      apply Forall_forall. intros C HC. apply Hr in HC. apply Nat.leb_le in HC. pose proof (cap_tally C n _ _ _ _ _ _ _ _ HC E). lia. }
    destruct (fst (grammar r)) eqn:Ek; cbn [rule_tokens]; try exact Hf; unfold wrap;
      (destruct (emits _) eqn:Ee; [|exact Hf]); (constructor; [|constructor]); apply T; auto; discriminate.
  - destruct (eval n _ e1 p s); try discriminate; injection H as <- <- <-; constructor.
  - destruct (eval n c e1 p s) as [q1 s1 f1| |] eqn:E; try discriminate.
    destruct (eval n c e2 q1 s1) as [q2 s2 f2| |] eqn:E2; try discriminate. injection H as <- <- <-.
    apply Forall_app. split; eapply IH; eassumption.
  - destruct (eval n c e1 p s) as [q1 s1 f1| |] eqn:E; try discriminate.
    + injection H as <- <- <-. eapply IH; eassumption.
    + eapply IH; eassumption.
  - destruct (eval n c e1 p s) as [q1 s1 f1| |] eqn:E; try discriminate; injection H as <- <- <-; [|constructor].
    eapply IH; eassumption.
  - destruct (eval n c e1 p s) as [q1 s1 f1| |] eqn:E; try discriminate; [|injection H as <- <- <-; constructor].
    destruct (eval n c (Rep e1) q1 s1) as [q2 s2 f2| |] eqn:E2; try discriminate. injection H as <- <- <-.
    apply Forall_app. split; eapply IH; eassumption.
Qed.

Theorem run_orderly c e p s q s' f : run c e p s = Done q s' f -> Forall orderly f.
Proof. apply eval_orderly. Qed.

Lemma orderly_inv r a b l : orderly (Node r a b l) -> Forall (fun K => tally K l <= 1) (fields_of r) /\ Forall orderly l.
Proof. intros H. inversion H. auto. Qed.
