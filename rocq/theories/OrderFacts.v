(** The derived orders: proofs. *)

From Coq Require Import Permutation Sorted.
From Verif Require Import Bytes Ast Order SpecSplice SpecOrder.
Local Open Scope nat_scope.

Lemma nat_total : total_order Nat.compare.
Proof.
  split; [|split].
  - apply Nat.compare_eq_iff.
  - intros. apply Nat.compare_antisym.
  - intros a b c. rewrite !Nat.compare_lt_iff. lia.
Qed.

Lemma N_total : total_order N.compare.
Proof.
  split; [|split].
  - apply N.compare_eq_iff.
  - intros. apply N.compare_antisym.
  - intros a b c. rewrite !N.compare_lt_iff. lia.
Qed.

(** Two fields, the first one first *)
Lemma pair_total {A B C} (f : A -> B) (g : A -> C) cb cc :
  (forall x y, f x = f y -> g x = g y -> x = y) ->
  total_order cb -> total_order cc ->
  total_order (fun x y => then_cmp (cb (f x) (f y)) (cc (g x) (g y))).
Proof.
  intros Hinj (B1 & B2 & B3) (C1 & C2 & C3). split; [|split].
  - intros a b. split.
    + intros H. destruct (cb (f a) (f b)) eqn:E; try discriminate. cbn [then_cmp] in H.
      apply Hinj; [apply B1; exact E|apply C1; exact H].
    + intros ->. rewrite (proj2 (B1 (f b) (f b)) eq_refl). cbn [then_cmp]. apply C1. reflexivity.
  - intros a b. rewrite (B2 (f a) (f b)), (C2 (g a) (g b)). destruct (cb (f a) (f b)); reflexivity.
  - intros a b c. destruct (cb (f a) (f b)) eqn:E1; cbn [then_cmp]; intros H1; try discriminate.
    + apply B1 in E1. rewrite E1. destruct (cb (f b) (f c)); cbn [then_cmp]; intros H2; try discriminate; [|reflexivity].
      eapply C3; eassumption.
    + destruct (cb (f b) (f c)) eqn:E2; cbn [then_cmp]; intros H2; try discriminate.
      * apply B1 in E2. rewrite <- E2, E1. reflexivity.
      * rewrite (B3 _ _ _ E1 E2). reflexivity.
Qed.

Lemma list_total {A} (cmp : A -> A -> comparison) : total_order cmp -> total_order (list_cmp cmp).
Proof.
  intros (C1 & C2 & C3). split; [|split].
  - induction a as [|x a IH]; intros [|y b]; cbn [list_cmp]; split; intros H; try discriminate; try reflexivity.
    + destruct (cmp x y) eqn:E; try discriminate. cbn [then_cmp] in H. apply C1 in E. apply IH in H. congruence.
    + injection H as -> ->. rewrite (proj2 (C1 y y) eq_refl). cbn [then_cmp]. apply IH. reflexivity.
  - induction a as [|x a IH]; intros [|y b]; cbn [list_cmp]; try reflexivity.
    rewrite (C2 x y), (IH b). destruct (cmp x y); reflexivity.
  - induction a as [|x a IH]; intros [|y b] [|z c]; cbn [list_cmp]; intros H1 H2; try discriminate; try reflexivity.
    destruct (cmp x y) eqn:E1; cbn [then_cmp] in H1; try discriminate.
    + apply C1 in E1. subst y. destruct (cmp x z); cbn [then_cmp] in *; try discriminate; [|reflexivity]. eapply IH; eassumption.
    + destruct (cmp y z) eqn:E2; cbn [then_cmp] in H2; try discriminate.
      * apply C1 in E2. subst z. rewrite E1. reflexivity.
      * rewrite (C3 _ _ _ E1 E2). reflexivity.
Qed.

Lemma str_total : total_order str_cmp.
Proof. apply list_total, N_total. Qed.

Lemma span_total : total_order span_cmp.
Proof. apply pair_total; [intros [] [] H1 H2; cbn in *; congruence|apply nat_total|apply nat_total]. Qed.

Lemma string_total : total_order string_cmp.
Proof. apply pair_total; [intros [] [] H1 H2; cbn in *; congruence|apply span_total|apply str_total]. Qed.

Lemma comment_total : total_order comment_cmp.
Proof. apply pair_total; [intros [] [] H1 H2; cbn in *; congruence|apply span_total|apply str_total]. Qed.

Lemma component_total : total_order component_cmp.
Proof.
  destruct string_total as (S1 & S2 & S3). destruct comment_total as (C1 & C2 & C3). split; [|split].
  - intros [x|x] [y|y]; cbn [component_cmp]; split; intros H; try discriminate.
    + apply S1 in H. congruence.
    + injection H as ->. apply S1. reflexivity.
    + apply C1 in H. congruence.
    + injection H as ->. apply C1. reflexivity.
  - intros [x|x] [y|y]; cbn [component_cmp]; auto.
  - intros [x|x] [y|y] [z|z]; cbn [component_cmp]; intros H1 H2; try discriminate; try reflexivity.
    + eapply S3; eassumption.
    + eapply C3; eassumption.
Qed.

Lemma breakable_total : total_order breakable_cmp.
Proof. apply pair_total; [intros [] [] H1 H2; cbn in *; congruence|apply span_total|apply list_total, component_total]. Qed.

Lemma array_total : total_order array_cmp.
Proof. apply pair_total; [intros [] [] H1 H2; cbn in *; congruence|apply span_total|apply list_total, string_total]. Qed.

(** ** Sorting *)

Lemma sorted_unique {A} (cmp : A -> A -> comparison) l1 l2 : total_order cmp ->
  Permutation l1 l2 -> sorted_by cmp l1 -> sorted_by cmp l2 -> l1 = l2.
Proof.
  intros (C1 & C2 & C3). revert l2; induction l1 as [|x l1 IH]; intros l2 P S1 S2.
  - apply Permutation_nil in P. congruence.
  - destruct l2 as [|y l2]; [apply Permutation_sym, Permutation_nil in P; discriminate|].
    inversion S1 as [|? ? S1a S1b]; subst. inversion S2 as [|? ? S2a S2b]; subst.
    rewrite Forall_forall in S1b, S2b.
    assert (Exy : x = y).
    { assert (Hx : In x (y :: l2)) by (eapply Permutation_in; [exact P|left; reflexivity]).
      assert (Hy : In y (x :: l1)) by (eapply Permutation_in; [apply Permutation_sym; exact P|left; reflexivity]).
      destruct Hx as [Hx|Hx]; [auto|]. destruct Hy as [Hy|Hy]; [auto|].
      specialize (S1b _ Hy). specialize (S2b _ Hx). rewrite (C2 x y) in S2b.
      destruct (cmp x y) eqn:E; [apply C1; exact E|elim S2b; reflexivity|elim S1b; reflexivity]. }
    subst y. f_equal. apply IH; try assumption. eapply Permutation_cons_inv. exact P.
Qed.

Lemma span_before a b : s_start a < s_end a -> s_end a <= s_start b -> span_cmp a b = Lt.
Proof. intros H1 H2. unfold span_cmp. rewrite (proj2 (Nat.compare_lt_iff _ _)) by lia. reflexivity. Qed.

Lemma in_order_sorted p len sps : in_order p len sps ->
  sorted_by span_cmp sps /\ forall sp, In sp sps -> p <= s_start sp.
Proof.
  revert p; induction sps as [|s sps IH]; intros p H; [split; [constructor|intros sp []]|].
  cbn [in_order] in H. destruct H as (H1 & H2 & H3 & H4). destruct (IH _ H4) as [K1 K2]. split.
  - constructor; [exact K1|]. apply Forall_forall. intros sp Hi. rewrite span_before; [discriminate|lia|apply K2; exact Hi].
  - intros sp [<-|Hi]; [exact H1|]. pose proof (K2 sp Hi). lia.
Qed.
