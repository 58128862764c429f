(** Running the grammar on the same text at another offset: only the offsets in the
    tokens change. *)

From Verif Require Import Bytes BytesFacts Grammar Peg PegFacts PegRules.
Local Open Scope nat_scope.

Fixpoint move_tree (g : nat -> nat) (t : tree) : tree :=
  match t with Node r a b l => Node r (g a) (g b) (map (move_tree g) l) end.

Definition move_res (g : nat -> nat) (r : res) : res :=
  match r with Done q s f => Done (g q) s (map (move_tree g) f) | x => x end.

Lemma move_rule_tokens g k c r p q f :
  map (move_tree g) (rule_tokens k c r p q f) = rule_tokens k c r (g p) (g q) (map (move_tree g) f).
Proof. unfold rule_tokens, wrap. destruct k; try reflexivity; destruct (emits _); reflexivity. Qed.

Definition shifts (g : nat -> nat) (p : nat) (s : bytes) (p' : nat) : Prop :=
  forall k, k <= length s -> g (p + k) = p' + k.

Lemma shifts_here g p s p' : shifts g p s p' -> g p = p'.
Proof. intros H. specialize (H 0 ltac:(lia)). rewrite !Nat.add_0_r in H. exact H. Qed.

Lemma shifts_app g p w s p' : shifts g p (w ++ s) p' -> shifts g (p + length w) s (p' + length w).
Proof. intros H k Hk. rewrite <- !Nat.add_assoc. apply H. rewrite app_length. lia. Qed.

Lemma eval_shift g n : forall c e p s p', shifts g p s p' -> p <> 0 -> p' <> 0 ->
  eval n c e p' s = move_res g (eval n c e p s).
Proof.
  induction n as [|n IH]; intros c e p s p' Hg Hp Hp'; [reflexivity|].
  assert (Next : forall c' e' q s1 f, eval n c' e' p s = Done q s1 f ->
    shifts g q s1 (g q) /\ q <> 0 /\ g q <> 0).
  { intros c' e' q s1 f H. apply eval_consumes in H. destruct H as (w & -> & ->).
    pose proof (shifts_app _ _ _ _ _ Hg) as K. rewrite (shifts_here _ _ _ _ K). split; [exact K|lia]. }
  assert (Step : forall w s1, s = w ++ s1 -> p' + length w = g (p + length w)).
  { intros w s1 ->. symmetry. apply Hg. rewrite app_length. lia. }
  rewrite !eval_S. destruct e as [pat|pat|lo hi| | | |r|e|a b|a b|e|e].
  - destruct (match_str pat s) eqn:E; [|reflexivity]. cbn [move_res map]. f_equal.
    apply match_str_app in E. exact (Step _ _ E).
  - destruct (match_insens pat s) eqn:E; [|reflexivity]. cbn [move_res map]. f_equal.
    apply match_insens_app in E. destruct E as (w & -> & E). rewrite <- (map_length lower_byte pat).
    change (map lower_byte pat) with (to_lower pat). rewrite <- E. unfold to_lower. rewrite map_length. exact (Step _ _ eq_refl).
  - destruct s as [|x s]; [reflexivity|]. destruct (in_range lo hi x); [|reflexivity]. cbn [move_res map]. f_equal.
    apply (Step [x] s). reflexivity.
  - destruct s as [|x s]; [reflexivity|]. cbn [move_res map]. f_equal.
    apply (Step _ (skipn (utf8_width x) (x :: s))). symmetry. apply firstn_skipn.
  - destruct (Nat.eqb_spec p 0); [contradiction|]. destruct (Nat.eqb_spec p' 0); [contradiction|]. reflexivity.
  - destruct s; [|reflexivity]. cbn [move_res map]. f_equal. symmetry. apply (shifts_here _ _ _ _ Hg).
  - rewrite (IH _ _ p s p' Hg Hp Hp'). destruct (eval n _ (snd (grammar r)) p s) as [q s1 f| |]; [|reflexivity..].
    cbn [move_res]. rewrite move_rule_tokens, (shifts_here _ _ _ _ Hg). reflexivity.
  - rewrite (IH _ _ p s p' Hg Hp Hp'). destruct (eval n _ e p s) as [q s1 f| |]; cbn [move_res map]; [reflexivity| |reflexivity].
    f_equal. symmetry. apply (shifts_here _ _ _ _ Hg).
  - rewrite (IH _ a p s p' Hg Hp Hp'). destruct (eval n c a p s) as [q s1 f| |] eqn:E; [|reflexivity..]. cbn [move_res].
    destruct (Next _ _ _ _ _ E) as (K1 & K2 & K3). rewrite (IH _ b q s1 _ K1 K2 K3).
    destruct (eval n c b q s1); [|reflexivity..]. cbn [move_res]. rewrite map_app. reflexivity.
  - rewrite (IH _ a p s p' Hg Hp Hp'). destruct (eval n c a p s) as [q s1 f| |] eqn:E; cbn [move_res]; [reflexivity| |reflexivity].
    apply IH; assumption.
  - rewrite (IH _ e p s p' Hg Hp Hp'). destruct (eval n c e p s) as [q s1 f| |] eqn:E; cbn [move_res map]; [reflexivity| |reflexivity].
    f_equal. symmetry. apply (shifts_here _ _ _ _ Hg).
  - rewrite (IH _ e p s p' Hg Hp Hp'). destruct (eval n c e p s) as [q s1 f| |] eqn:E; cbn [move_res map].
    + destruct (Next _ _ _ _ _ E) as (K1 & K2 & K3). rewrite (IH _ (Rep e) q s1 _ K1 K2 K3).
      destruct (eval n c (Rep e) q s1); [|reflexivity..]. cbn [move_res]. rewrite map_app. reflexivity.
    + f_equal. symmetry. apply (shifts_here _ _ _ _ Hg).
    + reflexivity.
Qed.

Lemma run_shift g c e p s p' : shifts g p s p' -> p <> 0 -> p' <> 0 ->
  run c e p' s = move_res g (run c e p s).
Proof. apply eval_shift. Qed.

(** Tokens lie between the start and the end of the run. *)
Fixpoint tree_within (a b : nat) (t : tree) : Prop :=
  match t with
  | Node _ x y l => a <= x /\ x <= y /\ y <= b /\
    (fix all (l : list tree) : Prop := match l with [] => True | t :: l' => tree_within x y t /\ all l' end) l
  end.

Lemma tree_within_node a b r x y l : tree_within a b (Node r x y l) <->
  a <= x /\ x <= y /\ y <= b /\ Forall (tree_within x y) l.
Proof.
  cbn [tree_within]. assert (E : forall l, (fix all (l : list tree) : Prop := match l with [] => True | t :: l' => tree_within x y t /\ all l' end) l
    <-> Forall (tree_within x y) l).
  { induction l0 as [|t l0 IH]; [split; auto|]. rewrite IH. split; [intros [H1 H2]; constructor; assumption|].
    intros H. inversion H. auto. }
  rewrite E. reflexivity.
Qed.

Lemma tree_within_weaken a b a' b' t : a' <= a -> b <= b' -> tree_within a b t -> tree_within a' b' t.
Proof. destruct t as [r x y l]. rewrite !tree_within_node. intuition lia. Qed.

Lemma trees_weaken a b a' b' f : a' <= a -> b <= b' -> Forall (tree_within a b) f -> Forall (tree_within a' b') f.
Proof. intros H1 H2. apply Forall_impl. intros t. apply tree_within_weaken; assumption. Qed.

Lemma eval_within n : forall c e p s q s' f, eval n c e p s = Done q s' f -> Forall (tree_within p q) f.
Proof.
  induction n as [|n IH]; intros c e p s q s' f H; [discriminate|].
  pose proof (eval_consumes _ _ _ _ _ _ _ _ H) as (w0 & _ & Eq0). rewrite eval_S in H.
  destruct e as [pat|pat|lo hi| | | |r|e|a b|a b|e|e].
  - destruct (match_str pat s); [|discriminate]. injection H as <- <- <-. constructor.
  - destruct (match_insens pat s); [|discriminate]. injection H as <- <- <-. constructor.
  - destruct s; [discriminate|]. destruct (in_range _ _ _); [|discriminate]. injection H as <- <- <-. constructor.
  - destruct s; [discriminate|]. injection H as <- <- <-. constructor.
  - destruct (p =? 0); [|discriminate]. injection H as <- <- <-. constructor.
  - destruct s; [|discriminate]. injection H as <- <- <-. constructor.
  - destruct (eval n _ (snd (grammar r)) p s) as [q1 s1 f1| |] eqn:E; try discriminate. injection H as <- <- <-.
    apply IH in E. unfold rule_tokens, wrap. destruct (fst (grammar r)); try exact E;
      (destruct (emits _); [|exact E]; constructor; [|constructor]; apply tree_within_node; repeat split; try lia; exact E).
  - destruct (eval n _ e p s); [discriminate| |discriminate]. injection H as <- <- <-. constructor.
  - destruct (eval n c a p s) as [q1 s1 f1| |] eqn:E1; try discriminate.
    destruct (eval n c b q1 s1) as [q2 s2 f2| |] eqn:E2; try discriminate. injection H as <- <- <-.
    pose proof (eval_consumes _ _ _ _ _ _ _ _ E1) as (w1 & _ & Q1). pose proof (eval_consumes _ _ _ _ _ _ _ _ E2) as (w2 & _ & Q2).
    apply Forall_app. split; [eapply trees_weaken; [| |apply (IH _ _ _ _ _ _ _ E1)]; lia|eapply trees_weaken; [| |apply (IH _ _ _ _ _ _ _ E2)]; lia].
  - destruct (eval n c a p s) as [q1 s1 f1| |] eqn:E1; try discriminate; [|eapply IH; eassumption].
    injection H as <- <- <-. eapply IH; eassumption.
  - destruct (eval n c e p s) as [q1 s1 f1| |] eqn:E1; try discriminate; [injection H as <- <- <-; eapply IH; eassumption|].
    injection H as <- <- <-. constructor.
  - destruct (eval n c e p s) as [q1 s1 f1| |] eqn:E1; try discriminate.
    + destruct (eval n c (Rep e) q1 s1) as [q2 s2 f2| |] eqn:E2; try discriminate. injection H as <- <- <-.
      pose proof (eval_consumes _ _ _ _ _ _ _ _ E1) as (w1 & _ & Q1). pose proof (eval_consumes _ _ _ _ _ _ _ _ E2) as (w2 & _ & Q2).
      apply Forall_app. split; [eapply trees_weaken; [| |apply (IH _ _ _ _ _ _ _ E1)]; lia|eapply trees_weaken; [| |apply (IH _ _ _ _ _ _ _ E2)]; lia].
    + injection H as <- <- <-. constructor.
Qed.

Lemma run_within c e p s q s' f : run c e p s = Done q s' f -> Forall (tree_within p q) f.
Proof. apply eval_within. Qed.

Lemma tree_induction (P : tree -> Prop) :
  (forall r a b l, Forall P l -> P (Node r a b l)) -> forall t, P t.
Proof.
  intros H. fix IH 1. intros [r a b l]. apply H. induction l as [|t l IHl]; constructor; [apply IH|exact IHl].
Qed.

(** Offsets that a function leaves alone *)
Lemma move_tree_same g a b t : (forall x, a <= x <= b -> g x = x) -> tree_within a b t -> move_tree g t = t.
Proof.
  revert a b. induction t as [r x y l IH] using tree_induction. intros a b Hg H. apply tree_within_node in H.
  destruct H as (H1 & H2 & H3 & H4). cbn [move_tree]. f_equal; [apply Hg; lia|apply Hg; lia|].
  rewrite <- (map_id l) at 2. apply map_ext_in. intros t Ht. rewrite Forall_forall in IH, H4.
  apply (IH t Ht x y); [intros; apply Hg; lia|apply H4; exact Ht].
Qed.

(** Tokens side by side, in order *)
Fixpoint ordered (p q : nat) (f : list tree) : Prop :=
  match f with
  | [] => p <= q
  | t :: f' => tree_within p (t_stop t) t /\ ordered (t_stop t) q f'
  end.

Lemma ordered_le p q f : ordered p q f -> p <= q.
Proof.
  revert p. induction f as [|t f IH]; intros p H; [exact H|]. destruct H as [H1 H2]. apply IH in H2.
  destruct t as [r x y l]. apply tree_within_node in H1. cbn [t_stop] in *. lia.
Qed.

Lemma ordered_weaken p q p' q' f : p' <= p -> q <= q' -> ordered p q f -> ordered p' q' f.
Proof.
  revert p p'. induction f as [|t f IH]; intros p p' H1 H2 H; cbn [ordered] in *; [lia|]. destruct H as [H3 H4].
  split; [eapply tree_within_weaken; [exact H1|apply le_n|exact H3]|]. apply (IH _ _ (le_n _) H2 H4).
Qed.

Lemma ordered_app p m q f1 f2 : ordered p m f1 -> ordered m q f2 -> ordered p q (f1 ++ f2).
Proof.
  revert p. induction f1 as [|t f1 IH]; intros p H1 H2; cbn [app ordered] in *; [eapply ordered_weaken; [exact H1|apply le_n|exact H2]|].
  destruct H1 as [H3 H4]. split; [exact H3|]. apply IH; assumption.
Qed.

Lemma ordered_within p q f : ordered p q f -> Forall (tree_within p q) f.
Proof.
  revert p. induction f as [|t f IH]; intros p H; [constructor|]. destruct H as [H1 H2]. pose proof (ordered_le _ _ _ H2) as L.
  constructor; [eapply tree_within_weaken; [apply le_n|exact L|exact H1]|].
  eapply trees_weaken; [|apply le_n|apply IH; exact H2]. destruct t as [r x y l]. apply tree_within_node in H1. cbn [t_stop]. lia.
Qed.

Lemma ordered_split p q f1 t f2 : ordered p q (f1 ++ t :: f2) ->
  Forall (tree_within p (t_start t)) f1 /\ tree_within p q t /\ Forall (tree_within (t_stop t) q) f2.
Proof.
  revert p. induction f1 as [|u f1 IH]; intros p H; cbn [app ordered] in H.
  - split; [constructor|]. split; [apply (ordered_within p q (t :: f2)) in H; inversion H; assumption|].
    apply ordered_within. apply H.
  - destruct H as [H1 H2]. pose proof (ordered_le _ _ _ H2) as L. destruct (IH _ H2) as (K1 & K2 & K3).
    assert (Lt : t_stop u <= t_start t). { destruct t as [r x y l]. apply tree_within_node in K2. cbn [t_start]. lia. }
    assert (Lu : p <= t_stop u). { destruct u as [r x y l]. apply tree_within_node in H1. cbn [t_stop]. lia. }
    split; [|split].
    + constructor; [eapply tree_within_weaken; [apply le_n|exact Lt|exact H1]|eapply trees_weaken; [exact Lu|apply le_n|exact K1]].
    + eapply tree_within_weaken; [exact Lu|apply le_n|exact K2].
    + exact K3.
Qed.

Lemma eval_ordered n : forall c e p s q s' f, eval n c e p s = Done q s' f -> ordered p q f.
Proof.
  induction n as [|n IH]; intros c e p s q s' f H; [discriminate|].
  pose proof (eval_consumes _ _ _ _ _ _ _ _ H) as (w0 & _ & Eq0).
  pose proof (eval_within _ _ _ _ _ _ _ _ H) as Hw. rewrite eval_S in H.
  destruct e as [pat|pat|lo hi| | | |r|e|a b|a b|e|e].
  - destruct (match_str pat s); [|discriminate]. injection H as <- <- <-. cbn [ordered]. lia.
  - destruct (match_insens pat s); [|discriminate]. injection H as <- <- <-. cbn [ordered]. lia.
  - destruct s; [discriminate|]. destruct (in_range _ _ _); [|discriminate]. injection H as <- <- <-. cbn [ordered]. lia.
  - destruct s; [discriminate|]. injection H as <- <- <-. cbn [ordered]. lia.
  - destruct (p =? 0); [|discriminate]. injection H as <- <- <-. cbn [ordered]. lia.
  - destruct s; [|discriminate]. injection H as <- <- <-. cbn [ordered]. lia.
  - destruct (eval n _ (snd (grammar r)) p s) as [q1 s1 f1| |] eqn:E; try discriminate. injection H as <- <- <-.
    apply IH in E. revert Hw. unfold rule_tokens, wrap. destruct (fst (grammar r)); try (intros _; exact E);
      (destruct (emits _); [|intros _; exact E]; intros Hw; inversion Hw; split; [assumption|cbn [t_stop ordered]; lia]).
  - destruct (eval n _ e p s); [discriminate| |discriminate]. injection H as <- <- <-. cbn [ordered]. lia.
  - destruct (eval n c a p s) as [q1 s1 f1| |] eqn:E1; try discriminate.
    destruct (eval n c b q1 s1) as [q2 s2 f2| |] eqn:E2; try discriminate. injection H as <- <- <-.
    eapply ordered_app; [exact (IH _ _ _ _ _ _ _ E1)|exact (IH _ _ _ _ _ _ _ E2)].
  - destruct (eval n c a p s) as [q1 s1 f1| |] eqn:E1; try discriminate; [|eapply IH; eassumption].
    injection H as <- <- <-. eapply IH; eassumption.
  - destruct (eval n c e p s) as [q1 s1 f1| |] eqn:E1; try discriminate; [injection H as <- <- <-; eapply IH; eassumption|].
    injection H as <- <- <-. cbn [ordered]. lia.
  - destruct (eval n c e p s) as [q1 s1 f1| |] eqn:E1; try discriminate.
    + destruct (eval n c (Rep e) q1 s1) as [q2 s2 f2| |] eqn:E2; try discriminate. injection H as <- <- <-.
      eapply ordered_app; [exact (IH _ _ _ _ _ _ _ E1)|exact (IH _ _ _ _ _ _ _ E2)].
    + injection H as <- <- <-. cbn [ordered]. lia.
Qed.

Lemma run_ordered c e p s q s' f : run c e p s = Done q s' f -> ordered p q f.
Proof. apply eval_ordered. Qed.
