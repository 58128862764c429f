(** The number of steps of the parser is bounded by a polynomial.

    For an expression a success that consumes c of L bytes takes at most
    A (c + 1) (L + 1)^j steps, and a failure at most A (L + 1)^k.  A, j and k are
    computed from the expression; the two recursive rules get theirs by induction on
    the length of the rest. *)

From Coq Require Import NArith.
From Verif Require Import Bytes BytesFacts Grammar Peg PegFacts Cost.
Local Open Scope nat_scope.

Definition size (s : bytes) : N := N.of_nat (length s).

Record profile : Type := Profile { pa : N; pj : N; pk : N }.

Local Open Scope N_scope.

Definition bounded (e : expr) (b : profile) : Prop :=
  forall n c p s,
  match eval n c e p s with
  | Done _ s' _ => N.of_nat (steps n c e p s) <= pa b * (1 + (size s - size s')) * (size s + 1) ^ pj b
  | Fail => N.of_nat (steps n c e p s) <= pa b * (size s + 1) ^ pk b
  | OutOfFuel => True
  end.

(** At most this many bytes are consumed. *)
Definition narrow (e : expr) (m : N) : Prop :=
  forall n c p s q s' f, eval n c e p s = Done q s' f -> size s - size s' <= m.

Definition unfailing (e : expr) : Prop := forall n c p s, eval n c e p s <> Fail.

Lemma size_le n c e p s q s' f : eval n c e p s = Done q s' f -> size s' <= size s.
Proof. intros H. destruct (eval_consumes _ _ _ _ _ _ _ _ H) as (w & -> & _). unfold size. rewrite app_length. lia. Qed.
Lemma size_lt n c e p s q s' f : eval n c e p s = Done q s' f -> nullable e = false -> size s' < size s.
Proof. intros H Hn. pose proof (eval_strict _ _ _ _ _ _ _ _ H Hn). unfold size. lia. Qed.

(** ** Powers *)

Lemma pow_pos x j : 1 <= (x + 1) ^ j.
Proof. pose proof (N.pow_le_mono_l 1 (x + 1) j ltac:(lia)) as H. rewrite N.pow_1_l in H. exact H. Qed.
Lemma pow_up x i j : i <= j -> (x + 1) ^ i <= (x + 1) ^ j.
Proof. intros H. apply N.pow_le_mono_r; lia. Qed.
Lemma pow_mono x y j : x <= y -> (x + 1) ^ j <= (y + 1) ^ j.
Proof. intros H. apply N.pow_le_mono_l. lia. Qed.

(** ** Composition *)

(** What a success costs if its consumption is not looked at *)
Definition total_a (a : N) (w : option N) : N := match w with Some m => a * (1 + m) | None => a end.
Definition total_j (j : N) (w : option N) : N := match w with Some _ => j | None => j + 1 end.
Definition narrow_opt (e : expr) (w : option N) : Prop := match w with Some m => narrow e m | None => True end.

Lemma total_ok e b w n c p s q s' f : bounded e b -> narrow_opt e w -> eval n c e p s = Done q s' f ->
  N.of_nat (steps n c e p s) <= total_a (pa b) w * (size s + 1) ^ total_j (pj b) w.
Proof.
  intros Hb Hw E. specialize (Hb n c p s). rewrite E in Hb. etransitivity; [exact Hb|].
  destruct w as [m|]; cbn [total_a total_j].
  - specialize (Hw n c p s q s' f E). apply N.mul_le_mono_r. apply N.mul_le_mono_l. lia.
  - rewrite N.pow_add_r, N.pow_1_r. rewrite <- !N.mul_assoc. apply N.mul_le_mono_l. rewrite N.mul_comm.
    apply N.mul_le_mono_l. lia.
Qed.

Lemma steps_S n c e p s : steps (S n) c e p s =
    S match e with
      | Str _ | Insens _ | Range _ _ | AnyChar | Soi | EndOfInput => 0
      | Call r => steps n (rule_inner (fst (grammar r)) c) (snd (grammar r)) p s
      | NegPred e1 => steps n {| atom := atom c; look := true |} e1 p s
      | Seq e1 e2 =>
        steps n c e1 p s +
        match eval n c e1 p s with Done q s1 _ => steps n c e2 q s1 | _ => 0 end
      | Alt e1 e2 =>
        steps n c e1 p s +
        match eval n c e1 p s with Fail => steps n c e2 p s | _ => 0 end
      | Opt e1 => steps n c e1 p s
      | Rep e1 =>
        steps n c e1 p s +
        match eval n c e1 p s with Done q s1 _ => steps n c (Rep e1) q s1 | _ => 0 end
      end%nat.
Proof. destruct e; reflexivity. Qed.

Lemma bounded_base e : match e with Str _ | Insens _ | Range _ _ | AnyChar | Soi | EndOfInput => True | _ => False end ->
  bounded e (Profile 1 0 0).
Proof.
  intros He n c p s. destruct n as [|n]; [exact I|].
  assert (E : steps (S n) c e p s = 1%nat) by (rewrite steps_S; destruct e; try contradiction; reflexivity).
  rewrite E. cbn [pa pj pk]. destruct (eval (S n) c e p s); try exact I; rewrite N.pow_0_r; lia.
Qed.

Lemma bounded_call r b : bounded (snd (grammar r)) b -> bounded (Call r) (Profile (pa b + 1) (pj b) (pk b)).
Proof.
  intros Hb n c p s. destruct n as [|n]; [exact I|]. rewrite eval_S, steps_S. cbn [pa pj pk].
  specialize (Hb n (rule_inner (fst (grammar r)) c) p s).
  destruct (eval n _ (snd (grammar r)) p s) as [q s' f| |]; [| |exact I].
  - pose proof (pow_pos (size s) (pj b)). nia.
  - pose proof (pow_pos (size s) (pk b)). nia.
Qed.

Lemma bounded_not e b w : bounded e b -> narrow_opt e w ->
  bounded (NegPred e) (Profile (total_a (pa b) w + pa b + 1) (pk b) (total_j (pj b) w)).
Proof.
  intros Hb Hw n c p s. destruct n as [|n]; [exact I|]. rewrite eval_S, steps_S. cbn [pa pj pk].
  set (c' := {| atom := atom c; look := true |}).
  destruct (eval n c' e p s) as [q s' f| |] eqn:E; [| |exact I].
  - pose proof (total_ok e b w n c' p s q s' f Hb Hw E). pose proof (pow_pos (size s) (total_j (pj b) w)). nia.
  - specialize (Hb n c' p s). rewrite E in Hb. pose proof (pow_pos (size s) (pk b)). nia.
Qed.

Definition seq_profile (b1 b2 : profile) (w1 : option N) (nf2 : bool) : profile :=
  Profile (total_a (pa b1) w1 + pa b1 + pa b2 + 1) (N.max (pj b1) (pj b2))
    (if nf2 then pk b1 else N.max (pk b1) (N.max (total_j (pj b1) w1) (pk b2))).

Lemma bounded_seq e1 e2 b1 b2 w1 nf2 : bounded e1 b1 -> bounded e2 b2 -> narrow_opt e1 w1 ->
  (nf2 = true -> unfailing e2) -> bounded (Seq e1 e2) (seq_profile b1 b2 w1 nf2).
Proof.
  intros H1 H2 Hw Hnf n c p s. destruct n as [|n]; [exact I|]. rewrite eval_S, steps_S. unfold seq_profile. cbn [pa pj pk].
  destruct (eval n c e1 p s) as [q s1 f1| |] eqn:E1; [| |exact I].
  - pose proof (size_le _ _ _ _ _ _ _ _ E1) as L1. pose proof (H2 n c q s1) as K2. pose proof (H1 n c p s) as K1. rewrite E1 in K1.
    destruct (eval n c e2 q s1) as [q2 s2 f2| |] eqn:E2; [| |exact I].
    + pose proof (size_le _ _ _ _ _ _ _ _ E2) as L2. rewrite !Nat2N.inj_succ, Nat2N.inj_add.
      set (X := (size s + 1) ^ N.max (pj b1) (pj b2)).
      assert (X1 : (size s + 1) ^ pj b1 <= X) by (apply pow_up; lia).
      assert (X2 : (size s1 + 1) ^ pj b2 <= X) by (etransitivity; [apply pow_mono, L1|apply pow_up; lia]).
      assert (Xp : 1 <= X) by apply pow_pos.
      set (C := 1 + (size s - size s2)).
      assert (C1 : 1 + (size s - size s1) <= C) by (unfold C; lia).
      assert (C2 : 1 + (size s1 - size s2) <= C) by (unfold C; lia).
      assert (Y1 : N.of_nat (steps n c e1 p s) <= pa b1 * C * X).
      { etransitivity; [exact K1|]. apply N.mul_le_mono; [|exact X1]. apply N.mul_le_mono_l. exact C1. }
      assert (Y2 : N.of_nat (steps n c e2 q s1) <= pa b2 * C * X).
      { etransitivity; [exact K2|]. apply N.mul_le_mono; [|exact X2]. apply N.mul_le_mono_l. exact C2. }
      assert (Y0 : 1 <= C * X) by (assert (1 <= C) by (unfold C; lia); nia).
      rewrite <- N.mul_assoc in *. set (Z := C * X) in *. nia.
    + destruct nf2; [exfalso; apply (Hnf eq_refl _ _ _ _ E2)|].
      rewrite !Nat2N.inj_succ, Nat2N.inj_add.
      pose proof (total_ok e1 b1 w1 n c p s _ _ _ H1 Hw E1) as T.
      set (X := (size s + 1) ^ N.max (pk b1) (N.max (total_j (pj b1) w1) (pk b2))).
      assert (X1 : (size s + 1) ^ total_j (pj b1) w1 <= X) by (apply pow_up; lia).
      assert (X2 : (size s1 + 1) ^ pk b2 <= X) by (etransitivity; [apply pow_mono, L1|apply pow_up; lia]).
      assert (Xp : 1 <= X) by apply pow_pos.
      assert (Y1 : N.of_nat (steps n c e1 p s) <= total_a (pa b1) w1 * X) by (etransitivity; [exact T|apply N.mul_le_mono_l, X1]).
      assert (Y2 : N.of_nat (steps n c e2 q s1) <= pa b2 * X) by (etransitivity; [exact K2|apply N.mul_le_mono_l, X2]).
      nia.
  - pose proof (H1 n c p s) as K1. rewrite E1 in K1. rewrite !Nat2N.inj_succ, Nat2N.inj_add. cbn [N.of_nat].
    set (k := if nf2 then pk b1 else N.max (pk b1) (N.max (total_j (pj b1) w1) (pk b2))).
    assert (X1 : (size s + 1) ^ pk b1 <= (size s + 1) ^ k) by (apply pow_up; unfold k; destruct nf2; lia).
    pose proof (pow_pos (size s) k).
    assert (Y1 : N.of_nat (steps n c e1 p s) <= pa b1 * (size s + 1) ^ k) by (etransitivity; [exact K1|apply N.mul_le_mono_l, X1]).
    nia.
Qed.

Definition alt_profile (b1 b2 : profile) : profile :=
  Profile (pa b1 + pa b2 + 1) (N.max (pj b1) (N.max (pk b1) (pj b2))) (N.max (pk b1) (pk b2)).

Lemma bounded_alt e1 e2 b1 b2 : bounded e1 b1 -> bounded e2 b2 -> bounded (Alt e1 e2) (alt_profile b1 b2).
Proof.
  intros H1 H2 n c p s. destruct n as [|n]; [exact I|]. rewrite eval_S, steps_S. unfold alt_profile. cbn [pa pj pk].
  pose proof (H1 n c p s) as K1. destruct (eval n c e1 p s) as [q s1 f1| |] eqn:E1; [| |exact I].
  - rewrite !Nat2N.inj_succ, Nat2N.inj_add. cbn [N.of_nat].
    set (X := (size s + 1) ^ N.max (pj b1) (N.max (pk b1) (pj b2))).
    assert (X1 : (size s + 1) ^ pj b1 <= X) by (apply pow_up; lia).
    assert (Xp : 1 <= X) by apply pow_pos.
    assert (Y1 : N.of_nat (steps n c e1 p s) <= pa b1 * (1 + (size s - size s1)) * X) by (etransitivity; [exact K1|apply N.mul_le_mono_l, X1]).
    set (C := 1 + (size s - size s1)) in *. assert (1 <= C * X) by (assert (1 <= C) by (unfold C; lia); nia).
    rewrite <- N.mul_assoc in *. set (Z := C * X) in *. nia.
  - pose proof (H2 n c p s) as K2. destruct (eval n c e2 p s) as [q s2 f2| |] eqn:E2; [| |exact I]; rewrite !Nat2N.inj_succ, Nat2N.inj_add.
    + set (X := (size s + 1) ^ N.max (pj b1) (N.max (pk b1) (pj b2))).
      assert (X1 : (size s + 1) ^ pk b1 <= X) by (apply pow_up; lia).
      assert (X2 : (size s + 1) ^ pj b2 <= X) by (apply pow_up; lia).
      assert (Xp : 1 <= X) by apply pow_pos.
      set (C := 1 + (size s - size s2)) in *. assert (1 <= C * X) by (assert (1 <= C) by (unfold C; lia); nia).
      assert (HX : X <= C * X) by (assert (1 <= C) by (unfold C; lia); nia).
      assert (Y1 : N.of_nat (steps n c e1 p s) <= pa b1 * (C * X)).
      { etransitivity; [exact K1|]. apply N.mul_le_mono_l. etransitivity; [exact X1|exact HX]. }
      assert (Y2 : N.of_nat (steps n c e2 p s) <= pa b2 * C * X) by (etransitivity; [exact K2|apply N.mul_le_mono_l, X2]).
      rewrite <- N.mul_assoc in *. set (Z := C * X) in *. nia.
    + set (X := (size s + 1) ^ N.max (pk b1) (pk b2)).
      assert (X1 : (size s + 1) ^ pk b1 <= X) by (apply pow_up; lia).
      assert (X2 : (size s + 1) ^ pk b2 <= X) by (apply pow_up; lia).
      assert (Xp : 1 <= X) by apply pow_pos. nia.
Qed.

Definition opt_profile (b : profile) : profile := Profile (pa b + 1) (N.max (pj b) (pk b)) 0.

Lemma bounded_opt e b : bounded e b -> bounded (Opt e) (opt_profile b).
Proof.
  intros H n c p s. destruct n as [|n]; [exact I|]. rewrite eval_S, steps_S. unfold opt_profile. cbn [pa pj pk].
  pose proof (H n c p s) as K. destruct (eval n c e p s) as [q s1 f1| |] eqn:E; [| |exact I]; rewrite Nat2N.inj_succ.
  - assert (X1 : (size s + 1) ^ pj b <= (size s + 1) ^ N.max (pj b) (pk b)) by (apply pow_up; lia).
    pose proof (pow_pos (size s) (N.max (pj b) (pk b))).
    set (X := (size s + 1) ^ N.max (pj b) (pk b)) in *. set (C := 1 + (size s - size s1)) in *.
    assert (Y1 : N.of_nat (steps n c e p s) <= pa b * C * X) by (etransitivity; [exact K|apply N.mul_le_mono_l, X1]).
    assert (1 <= C * X) by (assert (1 <= C) by (unfold C; lia); nia).
    rewrite <- N.mul_assoc in *. set (Z := C * X) in *. nia.
  - rewrite N.sub_diag, N.add_0_r, N.mul_1_r.
    assert (X1 : (size s + 1) ^ pk b <= (size s + 1) ^ N.max (pj b) (pk b)) by (apply pow_up; lia).
    pose proof (pow_pos (size s) (N.max (pj b) (pk b))). nia.
Qed.

Definition rep_profile (b : profile) : profile := Profile (2 * pa b + 1) (N.max (pj b) (pk b)) 0.

Lemma bounded_rep e b : bounded e b -> nullable e = false -> bounded (Rep e) (rep_profile b).
Proof.
  intros H Hn. intros n. induction n as [|n IH]; intros c p s; [exact I|]. rewrite eval_S, steps_S. unfold rep_profile in *. cbn [pa pj pk] in *.
  pose proof (H n c p s) as K. set (J := N.max (pj b) (pk b)) in *.
  destruct (eval n c e p s) as [q s1 f1| |] eqn:E; [| |exact I].
  - specialize (IH c q s1). pose proof (size_lt _ _ _ _ _ _ _ _ E Hn) as Hlt.
    destruct (eval n c (Rep e) q s1) as [q2 s2 f2| |] eqn:E2; [| |exact I].
    + pose proof (size_le _ _ _ _ _ _ _ _ E2) as L2. rewrite !Nat2N.inj_succ, Nat2N.inj_add.
      set (X := (size s + 1) ^ J).
      assert (X1 : (size s + 1) ^ pj b <= X) by (apply pow_up; lia).
      assert (X2 : (size s1 + 1) ^ J <= X) by (apply pow_mono; lia).
      assert (Xp : 1 <= X) by apply pow_pos.
      set (c1 := size s - size s1) in *. set (c2 := size s1 - size s2) in *.
      assert (Ec : size s - size s2 = c1 + c2) by lia. rewrite Ec. assert (Hc1 : 1 <= c1) by lia.
      assert (Y1 : N.of_nat (steps n c e p s) <= pa b * (1 + c1) * X) by (etransitivity; [exact K|apply N.mul_le_mono_l, X1]).
      assert (Y2 : N.of_nat (steps n c (Rep e) q s1) <= (2 * pa b + 1) * (1 + c2) * X) by (etransitivity; [exact IH|apply N.mul_le_mono_l, X2]).
      assert (Z1 : pa b * (1 + c1) * X + X <= (2 * pa b + 1) * c1 * X).
      { replace (pa b * (1 + c1) * X + X) with ((pa b * (1 + c1) + 1) * X) by lia. apply N.mul_le_mono_r. nia. }
      assert (Z2 : (2 * pa b + 1) * (1 + (c1 + c2)) * X = (2 * pa b + 1) * c1 * X + (2 * pa b + 1) * (1 + c2) * X) by lia.
      rewrite Z2. lia.
    + exfalso. clear -E2. destruct n; [discriminate|]. rewrite eval_S in E2.
      destruct (eval n c e q s1) as [q3 s3 f3| |]; try discriminate.
      revert E2. generalize dependent s3. revert q3. induction n as [|n IHn]; intros q3 s3 E2; [discriminate|].
      rewrite eval_S in E2. destruct (eval n c e q3 s3) as [q4 s4 f4| |]; try discriminate.
      destruct (eval n c (Rep e) q4 s4) eqn:E4; try discriminate. apply (IHn q4 s4). rewrite E4. reflexivity.
  - rewrite N.sub_diag, N.add_0_r, N.mul_1_r. rewrite !Nat2N.inj_succ, Nat2N.inj_add. cbn [N.of_nat].
    assert (X1 : (size s + 1) ^ pk b <= (size s + 1) ^ J) by (apply pow_up; lia).
    pose proof (pow_pos (size s) J). nia.
Qed.

(** ** Bounds computed from the grammar *)

Fixpoint width (d : nat) (e : expr) {struct d} : option N :=
  match d with
  | O => None
  | S d' =>
    match e with
    | Str s | Insens s => Some (N.of_nat (length s))
    | Range _ _ => Some 1
    | AnyChar => Some 4
    | Soi | EndOfInput | NegPred _ => Some 0
    | Call r => width d' (snd (grammar r))
    | Seq a b => match width d' a, width d' b with Some x, Some y => Some (x + y) | _, _ => None end
    | Alt a b => match width d' a, width d' b with Some x, Some y => Some (N.max x y) | _, _ => None end
    | Opt a => width d' a
    | Rep _ => None
    end
  end.

Lemma width_ok d : forall e, narrow_opt e (width d e).
Proof.
  induction d as [|d IH]; intros e; [exact I|]. destruct (width (S d) e) as [m|] eqn:E; [|exact I]. cbn [narrow_opt].
  intros n c p s q s' f H. destruct n as [|n]; [discriminate|]. rewrite eval_S in H.
  destruct e as [pat|pat|lo hi| | | |r|e1|e1 e2|e1 e2|e1|e1]; cbn [width] in E.
  - injection E as <-. destruct (match_str pat s) eqn:M; [|discriminate]. injection H as <- <- <-. apply match_str_app in M.
    rewrite M. unfold size. rewrite app_length. lia.
  - injection E as <-. destruct (match_insens pat s) eqn:M; [|discriminate]. injection H as <- <- <-. apply match_insens_app in M.
    destruct M as (w & -> & Hw). unfold size. rewrite app_length. apply (f_equal (@length N)) in Hw. unfold to_lower in Hw.
    rewrite !map_length in Hw. lia.
  - injection E as <-. destruct s as [|x s]; [discriminate|]. destruct (in_range lo hi x); [|discriminate]. injection H as <- <- <-.
    unfold size. cbn [length]. lia.
  - injection E as <-. destruct s as [|x s]; [discriminate|]. injection H as <- <- <-. unfold size. rewrite skipn_length.
    unfold utf8_width. destruct (x <? 128); [lia|]. destruct (x <? 224); [lia|]. destruct (x <? 240); lia.
  - injection E as <-. destruct (p =? 0)%nat; [|discriminate]. injection H as <- <- <-. lia.
  - injection E as <-. destruct s; [|discriminate]. injection H as <- <- <-. lia.
  - pose proof (IH (snd (grammar r))) as K. rewrite E in K.
    destruct (eval n _ (snd (grammar r)) p s) as [q1 s1 f1| |] eqn:E1; try discriminate. injection H as <- <- <-.
    apply (K _ _ _ _ _ _ _ E1).
  - injection E as <-. destruct (eval n _ e1 p s); try discriminate. injection H as <- <- <-. lia.
  - destruct (width d e1) as [x|] eqn:W1; [|discriminate]. destruct (width d e2) as [y|] eqn:W2; [|discriminate]. injection E as <-.
    pose proof (IH e1) as K1. rewrite W1 in K1. pose proof (IH e2) as K2. rewrite W2 in K2.
    destruct (eval n c e1 p s) as [q1 s1 f1| |] eqn:E1; try discriminate.
    destruct (eval n c e2 q1 s1) as [q2 s2 f2| |] eqn:E2; try discriminate. injection H as <- <- <-.
    pose proof (K1 _ _ _ _ _ _ _ E1). pose proof (K2 _ _ _ _ _ _ _ E2). lia.
  - destruct (width d e1) as [x|] eqn:W1; [|discriminate]. destruct (width d e2) as [y|] eqn:W2; [|discriminate]. injection E as <-.
    pose proof (IH e1) as K1. rewrite W1 in K1. pose proof (IH e2) as K2. rewrite W2 in K2.
    destruct (eval n c e1 p s) as [q1 s1 f1| |] eqn:E1; try discriminate.
    + injection H as <- <- <-. pose proof (K1 _ _ _ _ _ _ _ E1). lia.
    + pose proof (K2 _ _ _ _ _ _ _ H). lia.
  - pose proof (IH e1) as K1. rewrite E in K1. destruct (eval n c e1 p s) as [q1 s1 f1| |] eqn:E1; try discriminate.
    + injection H as <- <- <-. apply (K1 _ _ _ _ _ _ _ E1).
    + injection H as <- <- <-. lia.
  - discriminate.
Qed.

Fixpoint never_fails (d : nat) (e : expr) {struct d} : bool :=
  match d with
  | O => false
  | S d' =>
    match e with
    | Call r => never_fails d' (snd (grammar r))
    | Seq a b => never_fails d' a && never_fails d' b
    | Alt a b => never_fails d' a || never_fails d' b
    | Opt _ | Rep _ => true
    | _ => false
    end
  end.

Lemma rep_unfailing e : unfailing (Rep e).
Proof.
  intros n. induction n as [|n IH]; intros c p s H; [discriminate|]. rewrite eval_S in H.
  destruct (eval n c e p s) as [q s1 f1| |]; try discriminate.
  destruct (eval n c (Rep e) q s1) eqn:E; try discriminate. apply (IH _ _ _ E).
Qed.

Lemma never_fails_ok d : forall e, never_fails d e = true -> unfailing e.
Proof.
  induction d as [|d IH]; intros e E; [discriminate|]. destruct e as [pat|pat|lo hi| | | |r|e1|e1 e2|e1 e2|e1|e1]; cbn [never_fails] in E; try discriminate.
  - intros n c p s H. destruct n as [|n]; [discriminate|]. rewrite eval_S in H.
    destruct (eval n _ (snd (grammar r)) p s) eqn:E1; try discriminate. apply (IH _ E _ _ _ _ E1).
  - apply andb_true_iff in E. destruct E as [Ea Eb]. intros n c p s H. destruct n as [|n]; [discriminate|]. rewrite eval_S in H.
    destruct (eval n c e1 p s) as [q1 s1 f1| |] eqn:E1; try discriminate.
    + destruct (eval n c e2 q1 s1) eqn:E2; try discriminate. apply (IH _ Eb _ _ _ _ E2).
    + apply (IH _ Ea _ _ _ _ E1).
  - intros n c p s H. destruct n as [|n]; [discriminate|]. rewrite eval_S in H. apply orb_true_iff in E.
    destruct (eval n c e1 p s) as [q1 s1 f1| |] eqn:E1; try discriminate.
    destruct E as [Ea|Eb]; [apply (IH _ Ea _ _ _ _ E1)|apply (IH _ Eb _ _ _ _ H)].
  - intros n c p s H. destruct n as [|n]; [discriminate|]. rewrite eval_S in H.
    destruct (eval n c e1 p s) as [q1 s1 f1| |] eqn:E1; discriminate.
  - apply rep_unfailing.
Qed.

Section Bounds.
(** Rules for which a bound is known *)
Variable known : rule -> option profile.
Variable dw : nat.

Fixpoint bound (d : nat) (e : expr) {struct d} : option profile :=
  match d with
  | O => None
  | S d' =>
    match e with
    | Call r =>
      match known r with
      | Some b => Some b
      | None => match bound d' (snd (grammar r)) with Some b => Some (Profile (pa b + 1) (pj b) (pk b)) | None => None end
      end
    | NegPred e1 =>
      match bound d' e1 with
      | Some b => let w := width dw e1 in Some (Profile (total_a (pa b) w + pa b + 1) (pk b) (total_j (pj b) w))
      | None => None
      end
    | Seq a b =>
      match bound d' a, bound d' b with
      | Some x, Some y => Some (seq_profile x y (width dw a) (never_fails dw b))
      | _, _ => None
      end
    | Alt a b =>
      match bound d' a, bound d' b with Some x, Some y => Some (alt_profile x y) | _, _ => None end
    | Opt a => match bound d' a with Some b => Some (opt_profile b) | None => None end
    | Rep a =>
      match bound d' a with Some b => if nullable a then None else Some (rep_profile b) | None => None end
    | _ => Some (Profile 1 0 0)
    end
  end.

Hypothesis known_ok : forall r b, known r = Some b -> bounded (Call r) b.

Lemma bound_ok d : forall e b, bound d e = Some b -> bounded e b.
Proof.
  induction d as [|d IH]; intros e b E; [discriminate|].
  destruct e as [pat|pat|lo hi| | | |r|e1|e1 e2|e1 e2|e1|e1]; cbn [bound] in E;
    try (injection E as <-; apply bounded_base; exact I).
  - destruct (known r) as [b'|] eqn:Er; [injection E as <-; apply known_ok; exact Er|].
    destruct (bound d (snd (grammar r))) as [b'|] eqn:Eb; [|discriminate]. injection E as <-. apply bounded_call, IH, Eb.
  - destruct (bound d e1) as [b'|] eqn:Eb; [|discriminate]. injection E as <-. apply bounded_not; [apply IH, Eb|apply width_ok].
  - destruct (bound d e1) as [b1|] eqn:E1; [|discriminate]. destruct (bound d e2) as [b2|] eqn:E2; [|discriminate].
    injection E as <-. apply bounded_seq; [apply IH, E1|apply IH, E2|apply width_ok|apply never_fails_ok].
  - destruct (bound d e1) as [b1|] eqn:E1; [|discriminate]. destruct (bound d e2) as [b2|] eqn:E2; [|discriminate].
    injection E as <-. apply bounded_alt; [apply IH, E1|apply IH, E2].
  - destruct (bound d e1) as [b1|] eqn:E1; [|discriminate]. injection E as <-. apply bounded_opt, IH, E1.
  - destruct (bound d e1) as [b1|] eqn:E1; [|discriminate]. destruct (nullable e1) eqn:En; [discriminate|].
    injection E as <-. apply bounded_rep; [apply IH, E1|exact En].
Qed.

End Bounds.

(** ** The recursive rules *)

Lemma bounded_inner r x y b1 b2 : snd (grammar r) = Seq (Rep x) (Opt (Seq y (Call r))) ->
  bounded (Rep x) b1 -> pj b1 = 0 -> bounded y b2 -> pj b2 = 0 -> pk b2 = 0 -> nullable y = false ->
  bounded (Call r) (Profile (pa b1 + 2 * pa b2 + 4) 0 0).
Proof.
  intros Eg H1 J1 H2 J2 K2 Hn.
  assert (Hu : unfailing (Call r)).
  { apply (never_fails_ok 3). cbn [never_fails]. rewrite Eg. reflexivity. }
  intros n. induction n as [n IH] using lt_wf_ind. intros c p s.
  destruct n as [|n]; [exact I|]. rewrite eval_S, steps_S. rewrite Eg. set (c' := rule_inner (fst (grammar r)) c). clearbody c'. cbn [pa pj pk].
  destruct n as [|n]; [exact I|]. rewrite eval_S, steps_S.
  pose proof (H1 n c' p s) as T1. pose proof (rep_unfailing x n c' p s) as U1.
  destruct (eval n c' (Rep x) p s) as [q s1 f1| |] eqn:E1; [|congruence|exact I]. clear U1.
  pose proof (size_le _ _ _ _ _ _ _ _ E1) as L1. rewrite J1, N.pow_0_r, N.mul_1_r in T1.
  destruct n as [|n]; [exact I|]. rewrite (eval_S n c' (Opt _)), (steps_S n c' (Opt _)).
  destruct n as [|n]; [exact I|]. rewrite (eval_S n c' (Seq _ _)), (steps_S n c' (Seq _ _)).
  pose proof (H2 n c' q s1) as T2. rewrite J2, K2, N.pow_0_r in T2. rewrite N.pow_0_r, !N.mul_1_r in *.
  destruct (eval n c' y q s1) as [q2 s2 f2| |] eqn:E2; [| |exact I].
  - pose proof (size_lt _ _ _ _ _ _ _ _ E2 Hn) as L2.
    assert (Hlt : (n < S (S (S (S n))))%nat) by lia. pose proof (IH n Hlt c' q2 s2) as T3. cbn [pa pj pk] in T3. rewrite N.pow_0_r, !N.mul_1_r in T3.
    pose proof (Hu n c' q2 s2) as U3.
    destruct (eval n c' (Call r) q2 s2) as [q3 s3 f3| |] eqn:E3; [|congruence|exact I].
    pose proof (size_le _ _ _ _ _ _ _ _ E3) as L3.
    rewrite !Nat2N.inj_succ, !Nat2N.inj_add, !Nat2N.inj_succ, !Nat2N.inj_add.
    set (x1 := size s - size s1) in *. set (x2 := size s1 - size s2) in *. set (x3 := size s2 - size s3) in *.
    replace (size s - size s3) with (x1 + x2 + x3) by lia. assert (1 <= x2) by lia.
    generalize dependent (N.of_nat (steps n c' (Call r) q2 s2)). intros N3 T3.
    generalize dependent (N.of_nat (steps n c' y q s1)). intros N2 T2.
    generalize dependent (N.of_nat (steps (S (S n)) c' (Rep x) p s)). intros N1 T1.
    clear - T1 T2 T3 H. assert (pa b2 * (1 + x2) <= pa b2 * (2 * x2)) by (apply N.mul_le_mono_l; lia).
    assert (pa b1 <= pa b1 * x2) by nia. nia.
  - rewrite !Nat2N.inj_succ, !Nat2N.inj_add, !Nat2N.inj_succ, !Nat2N.inj_add. cbn [N.of_nat]. nia.
Qed.

Lemma one_more a x : 1 <= x -> a * (1 + x) <= 2 * a * x.
Proof. intros H. rewrite (N.mul_comm 2 a), <- N.mul_assoc. apply N.mul_le_mono_l. lia. Qed.
Lemma one_more_times a x y : 1 <= x -> 1 <= y -> a * (1 + x) * 1 <= 2 * a * x * y.
Proof. intros H1 H2. apply N.mul_le_mono; [apply one_more; exact H1|exact H2]. Qed.
Lemma times_more a x : 1 <= x -> a <= a * x.
Proof. intros H. rewrite <- (N.mul_1_r a) at 1. apply N.mul_le_mono_l. exact H. Qed.

Lemma bounded_breakable b1 b2 b3 :
  bounded (Call R_comment_line) b1 -> pj b1 = 0 -> pk b1 = 1 ->
  bounded (Call R_any_content) b2 -> pj b2 = 1 -> pk b2 = 1 ->
  bounded (Call R_line_continuation) b3 -> pj b3 = 0 -> pk b3 = 1 ->
  bounded (Call R_any_breakable) (Profile (3 * pa b1 + 3 * pa b2 + 3 * pa b3 + 12) 1 1).
Proof.
  intros H1 J1 K1 H2 J2 K2 H3 J3 K3. set (F := pa b1 + pa b2 + 5). set (A := 3 * pa b1 + 3 * pa b2 + 3 * pa b3 + 12).
  assert (Hfail : forall n c p s, eval n c (Call R_any_breakable) p s = Fail ->
    N.of_nat (steps n c (Call R_any_breakable) p s) <= F * (size s + 1)).
  { intros n c p s. destruct n as [|n]; [discriminate|]. rewrite eval_S, steps_S. set (c' := rule_inner (fst (grammar R_any_breakable)) c). clearbody c'.
    cbn [grammar snd]. destruct n as [|n]; [discriminate|]. rewrite eval_S, steps_S.
    destruct n as [|n]; [discriminate|]. rewrite !eval_S, !steps_S.
    pose proof (H1 n c' p s) as T1. rewrite J1, K1, N.pow_0_r, N.pow_1_r in T1. unfold comment_line, any_breakable in *.
    destruct (eval n c' (Call R_comment_line) p s) as [q s1 f1| |] eqn:E1; [| |discriminate].
    - destruct n as [|n]; [discriminate|]. rewrite (eval_S n c' (Opt _)).
      destruct (eval n c' (Call R_any_breakable) q s1); discriminate.
    - pose proof (H2 n c' p s) as T2. rewrite J2, K2, N.pow_1_r in T2.
      destruct (eval n c' (Call R_any_content) p s) as [q s1 f1| |] eqn:E2; [| |discriminate].
      + destruct n as [|n]; [discriminate|]. rewrite (eval_S n c' (Opt _)).
        destruct (eval n c' (line_continuation ~> Call R_any_breakable)%peg q s1); discriminate.
      + intros _. unfold F. nia. }
  intros n. induction n as [n IH] using lt_wf_ind. intros c p s.
  assert (HF : F <= A) by (unfold F, A; lia).
  destruct (eval n c (Call R_any_breakable) p s) as [q s' f| |] eqn:E; [| |exact I].
  2:{ cbn [pa pj pk]. rewrite N.pow_1_r. etransitivity; [apply Hfail, E|]. apply N.mul_le_mono_r. exact HF. }
  cbn [pa pj pk]. rewrite N.pow_1_r. revert E.
  assert (Hrec : forall m c p s, (m < n)%nat -> eval m c (Call R_any_breakable) p s <> OutOfFuel ->
    match eval m c (Call R_any_breakable) p s with
    | Done _ s' _ => N.of_nat (steps m c (Call R_any_breakable) p s) <= A * (1 + (size s - size s')) * (size s + 1)
    | Fail => N.of_nat (steps m c (Call R_any_breakable) p s) <= F * (size s + 1)
    | OutOfFuel => True
    end).
  { intros m c0 p0 s0 Hm Ho. pose proof (IH m Hm c0 p0 s0) as K. cbn [pa pj pk] in K. rewrite N.pow_1_r in K.
    destruct (eval m c0 (Call R_any_breakable) p0 s0) eqn:E0; [exact K|apply Hfail; exact E0|exact I]. }
  clear IH Hfail.
  destruct n as [|n]; [discriminate|]. rewrite eval_S, steps_S. set (c' := rule_inner (fst (grammar R_any_breakable)) c). clearbody c'.
  cbn [grammar snd]. destruct n as [|n]; [discriminate|]. rewrite eval_S, steps_S.
  destruct n as [|n]; [discriminate|]. rewrite !eval_S, !steps_S. unfold comment_line, any_breakable, line_continuation in *.
  pose proof (H1 n c' p s) as T1. rewrite J1, K1, N.pow_0_r, N.pow_1_r in T1.
  destruct (eval n c' (Call R_comment_line) p s) as [q1 s1 f1| |] eqn:E1; [| |discriminate].
  - pose proof (size_lt _ _ _ _ _ _ _ _ E1 eq_refl) as L1.
    destruct n as [|n]; [discriminate|]. rewrite (eval_S n c' (Opt _)), (steps_S n c' (Opt _)).
    pose proof (Hrec n c' q1 s1 ltac:(lia)) as T2.
    destruct (eval n c' (Call R_any_breakable) q1 s1) as [q2 s2 f2| |] eqn:E2; [| |discriminate]; intros E; injection E as <- <- <-.
    + specialize (T2 ltac:(discriminate)). pose proof (size_le _ _ _ _ _ _ _ _ E2) as L2.
      assert (T2' : N.of_nat (steps n c' (Call R_any_breakable) q1 s1) <= A * (1 + (size s1 - size s2)) * (size s + 1))
        by (etransitivity; [exact T2|apply N.mul_le_mono_l; lia]).
      set (x1 := size s - size s1) in *. set (x2 := size s1 - size s2) in *. set (X := size s + 1) in *.
      replace (size s - size s2) with (x1 + x2) by lia. assert (P1 : 1 <= x1) by lia. assert (P2 : 1 <= X) by lia.
      pose proof (one_more_times (pa b1) x1 X P1 P2) as M1.
      replace (A * (1 + (x1 + x2)) * X) with (A * x1 * X + A * (1 + x2) * X) by lia.
      assert (B1 : 2 * pa b1 * x1 * X + 12 * x1 * X <= A * x1 * X).
      { rewrite <- !N.mul_add_distr_r. apply N.mul_le_mono_r, N.mul_le_mono_r. unfold A. lia. }
      assert (B2 : 12 <= 12 * x1 * X) by (rewrite <- N.mul_assoc; apply (times_more 12); nia).
      clear - T1 T2' M1 B1 B2. lia.
    + specialize (T2 ltac:(discriminate)).
      assert (T2' : N.of_nat (steps n c' (Call R_any_breakable) q1 s1) <= F * (size s + 1))
        by (etransitivity; [exact T2|apply N.mul_le_mono_l; lia]).
      set (Y := 1 + (size s - size s1)) in *. set (X := size s + 1) in *. assert (P1 : 1 <= Y) by (unfold Y; lia). assert (P2 : 1 <= X) by lia.
      pose proof (times_more (pa b1 * Y) X P2) as M1. pose proof (times_more (F * X) Y P1) as M2.
      replace (F * X * Y) with (F * Y * X) in M2 by lia.
      assert (B1 : pa b1 * Y * X + F * Y * X + 4 * Y * X <= A * Y * X).
      { rewrite <- !N.mul_add_distr_r. apply N.mul_le_mono_r, N.mul_le_mono_r. unfold A, F. lia. }
      assert (B2 : 4 <= 4 * Y * X) by (rewrite <- N.mul_assoc; apply (times_more 4); nia).
      clear - T1 T2' M1 M2 B1 B2. lia.
  - pose proof (H2 n c' p s) as T2. rewrite J2, K2, N.pow_1_r in T2.
    destruct (eval n c' (Call R_any_content) p s) as [q2 s2 f2| |] eqn:E2; [| |discriminate].
    2:{ discriminate. }
    pose proof (size_lt _ _ _ _ _ _ _ _ E2 eq_refl) as L2.
    destruct n as [|n]; [discriminate|]. rewrite (eval_S n c' (Opt _)), (steps_S n c' (Opt _)).
    destruct n as [|n]; [discriminate|]. rewrite (eval_S n c' (Seq _ _)), (steps_S n c' (Seq _ _)).
    pose proof (H3 n c' q2 s2) as T3. rewrite J3, K3, N.pow_0_r, N.pow_1_r in T3.
    destruct (eval n c' (Call R_line_continuation) q2 s2) as [q3 s3 f3| |] eqn:E3; [| |discriminate].
    + pose proof (size_lt _ _ _ _ _ _ _ _ E3 eq_refl) as L3. pose proof (Hrec n c' q3 s3 ltac:(lia)) as T4.
      destruct (eval n c' (Call R_any_breakable) q3 s3) as [q4 s4 f4| |] eqn:E4; [| |discriminate]; intros E; injection E as <- <- <-;
        specialize (T4 ltac:(discriminate)).
      * pose proof (size_le _ _ _ _ _ _ _ _ E4) as L4.
        assert (T4' : N.of_nat (steps n c' (Call R_any_breakable) q3 s3) <= A * (1 + (size s3 - size s4)) * (size s + 1))
          by (etransitivity; [exact T4|apply N.mul_le_mono_l; lia]).
        set (x2 := size s - size s2) in *. set (x3 := size s2 - size s3) in *. set (x4 := size s3 - size s4) in *.
        replace (size s - size s4) with (x2 + x3 + x4) by lia. set (X := size s + 1) in *.
        assert (P2 : 1 <= x2) by lia. assert (P3 : 1 <= x3) by lia. assert (PX : 1 <= X) by lia.
        assert (PP : 1 <= x2 * X) by (transitivity (1 * X); [lia|apply N.mul_le_mono_r; exact P2]).
        pose proof (one_more_times (pa b3) x3 X P3 PX) as M3.
        assert (M2 : pa b2 * (1 + x2) * X <= 2 * pa b2 * x2 * X) by (apply N.mul_le_mono_r, one_more, P2).
        pose proof (times_more (pa b1 * X) x2 P2) as M1. replace (pa b1 * X * x2) with (pa b1 * x2 * X) in M1 by lia.
        replace (A * (1 + (x2 + x3 + x4)) * X) with (A * x2 * X + A * x3 * X + A * (1 + x4) * X) by lia.
        assert (B2 : 2 * pa b2 * x2 * X + pa b1 * x2 * X + 12 * x2 * X <= A * x2 * X).
        { rewrite <- !N.mul_add_distr_r. apply N.mul_le_mono_r, N.mul_le_mono_r. unfold A. lia. }
        assert (B3 : 2 * pa b3 * x3 * X <= A * x3 * X) by (apply N.mul_le_mono_r, N.mul_le_mono_r; unfold A; lia).
        assert (B4 : 12 <= 12 * x2 * X) by (rewrite <- N.mul_assoc; apply (times_more 12); exact PP).
        clear - T1 T2 T3 T4' M1 M2 M3 B2 B3 B4. lia.
      * assert (T4' : N.of_nat (steps n c' (Call R_any_breakable) q3 s3) <= F * (size s + 1))
          by (etransitivity; [exact T4|apply N.mul_le_mono_l; lia]).
        set (x2 := size s - size s2) in *. set (x3 := size s2 - size s3) in *. set (X := size s + 1) in *.
        assert (P2 : 1 <= 1 + x2) by lia. assert (PX : 1 <= X) by lia. assert (P3 : 1 + x3 <= X) by lia.
        assert (PP : 1 <= (1 + x2) * X) by (transitivity (1 * X); [lia|apply N.mul_le_mono_r; exact P2]).
        assert (M3 : pa b3 * (1 + x3) * 1 <= pa b3 * X) by (rewrite N.mul_1_r; apply N.mul_le_mono_l; exact P3).
        pose proof (times_more ((pa b1 + pa b3 + F) * X) (1 + x2) P2) as M1.
        replace ((pa b1 + pa b3 + F) * X * (1 + x2)) with ((pa b1 + pa b3 + F) * (1 + x2) * X) in M1 by lia.
        assert (B2 : pa b2 * (1 + x2) * X + (pa b1 + pa b3 + F) * (1 + x2) * X + 7 * (1 + x2) * X <= A * (1 + x2) * X).
        { rewrite <- !N.mul_add_distr_r. apply N.mul_le_mono_r, N.mul_le_mono_r. unfold A, F. lia. }
        assert (B4 : 7 <= 7 * (1 + x2) * X) by (rewrite <- N.mul_assoc; apply (times_more 7); exact PP).
        rewrite !N.mul_add_distr_r in M1, B2.
        clear - T1 T2 T3 T4' M1 M3 B2 B4. lia.
    + intros E; injection E as <- <- <-.
      assert (T3' : N.of_nat (steps n c' (Call R_line_continuation) q2 s2) <= pa b3 * (size s + 1)) by (etransitivity; [exact T3|apply N.mul_le_mono_l; lia]).
      set (x2 := size s - size s2) in *. set (X := size s + 1) in *.
      assert (P2 : 1 <= 1 + x2) by lia. assert (PX : 1 <= X) by lia.
      assert (PP : 1 <= (1 + x2) * X) by (transitivity (1 * X); [lia|apply N.mul_le_mono_r; exact P2]).
      pose proof (times_more ((pa b1 + pa b3) * X) (1 + x2) P2) as M1.
      replace ((pa b1 + pa b3) * X * (1 + x2)) with ((pa b1 + pa b3) * (1 + x2) * X) in M1 by lia.
      assert (B2 : pa b2 * (1 + x2) * X + (pa b1 + pa b3) * (1 + x2) * X + 7 * (1 + x2) * X <= A * (1 + x2) * X).
      { rewrite <- !N.mul_add_distr_r. apply N.mul_le_mono_r, N.mul_le_mono_r. unfold A. lia. }
      assert (B4 : 7 <= 7 * (1 + x2) * X) by (rewrite <- N.mul_assoc; apply (times_more 7); exact PP).
      rewrite !N.mul_add_distr_r in M1, B2.
      clear - T1 T2 T3' M1 B2 B4. lia.
Qed.

(** ** The grammar *)

Definition no_rule (_ : rule) : option profile := None.
Lemma no_rule_ok r b : no_rule r = Some b -> bounded (Call r) b.
Proof. discriminate. Qed.

(** The bound computed for an expression of the grammar without recursive rules *)
Definition plain_bound (e : expr) : profile := match bound no_rule 20 100 e with Some b => b | None => Profile 0 0 0 end.
Lemma plain_bound_ok e b : bound no_rule 20 100 e = Some b -> bounded e (plain_bound e).
Proof. intros H. unfold plain_bound. rewrite H. apply (bound_ok no_rule 20 no_rule_ok 100 e b H). Qed.

Definition double_chars : expr := (! (Str [DQUOTE] // Str [BSLASH] // Str [0] // Str [31]) ~> AnyChar)%peg.
Definition single_chars : expr := (! (Str [SQUOTE] // Str [BSLASH] // Str [0] // Str [31]) ~> AnyChar)%peg.

Definition recursive_rule (r : rule) : option profile :=
  match r with
  | R_inner => Some (Profile (pa (plain_bound (Rep double_chars)) + 2 * pa (plain_bound (Call R_escape)) + 4) 0 0)
  | R_single_quoted_inner => Some (Profile (pa (plain_bound (Rep single_chars)) + 2 * pa (plain_bound (Call R_escape)) + 4) 0 0)
  | R_any_breakable =>
    Some (Profile (3 * pa (plain_bound (Call R_comment_line)) + 3 * pa (plain_bound (Call R_any_content)) +
      3 * pa (plain_bound (Call R_line_continuation)) + 12) 1 1)
  | _ => None
  end.

Lemma some_inj {A} (x y : A) : Some x = Some y -> x = y.
Proof. congruence. Qed.

Lemma recursive_rule_ok r b : recursive_rule r = Some b -> bounded (Call r) b.
Proof.
  destruct r; try discriminate; intros E; cbn [recursive_rule] in E; apply some_inj in E; rewrite <- E; clear E.
  - eapply (bounded_inner R_inner double_chars (Call R_escape)); try reflexivity.
    + eapply plain_bound_ok. vm_compute. reflexivity.
    + eapply plain_bound_ok. vm_compute. reflexivity.
  - eapply (bounded_inner R_single_quoted_inner single_chars (Call R_escape)); try reflexivity.
    + eapply plain_bound_ok. vm_compute. reflexivity.
    + eapply plain_bound_ok. vm_compute. reflexivity.
  - apply bounded_breakable; try reflexivity; eapply plain_bound_ok; vm_compute; reflexivity.
Qed.

Theorem parse_steps_bound input : N.of_nat (parse_steps input) <= 24254518 * (size input + 1) ^ 4.
Proof.
  assert (E : exists b, bound recursive_rule 20 100 (Call R_dockerfile) = Some b /\ pa b = 24254518 /\ pj b = 3 /\ pk b = 4).
  { eexists. split; [vm_compute; reflexivity|]. repeat split; reflexivity. }
  destruct E as (b & E & Ea & Ej & Ek). apply bound_ok in E; [|exact recursive_rule_ok].
  unfold parse_steps. pose proof (E (fuel_for (length input)) ctx0 0%nat input) as K.
  pose proof (run_total ctx0 (Call R_dockerfile) 0 input (good_call _)) as Ht. unfold run in Ht. rewrite Ea, Ej, Ek in K.
  destruct (eval (fuel_for (length input)) ctx0 (Call R_dockerfile) 0 input) as [q s' f| |]; [|exact K|congruence].
  etransitivity; [exact K|]. change 4 with (3 + 1). rewrite N.pow_add_r, N.pow_1_r. rewrite <- N.mul_assoc. apply N.mul_le_mono_l.
  rewrite N.mul_comm. apply N.mul_le_mono_l. lia.
Qed.
