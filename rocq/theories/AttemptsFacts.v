(** Facts about the positions pest remembers (Attempts.v). *)

From Verif Require Import Bytes BytesFacts Grammar Peg PegFacts PegRules Attempts.
Local Open Scope nat_scope.

(** ** One rule *)

Lemma track_pos c neg r p t0 t : tr_pos (track c neg r p t0 t) = tr_pos t \/ (tr_pos (track c neg r p t0 t) = p /\ tr_pos t < p).
Proof.
  unfold track. destruct (atom c); [auto|]. destruct (_ && _); [auto|].
  destruct (if p =? tr_pos t0 then _ else _) as [np nn].
  destruct (Nat.eqb_spec p (tr_pos t)) as [E|E]; cbn [tr_pos].
  - rewrite Nat.ltb_irrefl. cbn [tr_pos]. rewrite Nat.eqb_refl. destruct neg; cbn [tr_pos]; auto.
  - destruct (Nat.ltb_spec (tr_pos t) p) as [L|L]; cbn [tr_pos].
    + rewrite Nat.eqb_refl. destruct neg; cbn [tr_pos]; auto.
    + rewrite (proj2 (Nat.eqb_neq _ _) E). auto.
Qed.

Lemma track_rule_pos k c neg r p o t0 t : tr_pos (track_rule k c neg r p o t0 t) = tr_pos t \/
  (tr_pos (track_rule k c neg r p o t0 t) = p /\ tr_pos t < p).
Proof. unfold track_rule. destruct k; [|auto|..]; destruct o, neg; auto using track_pos. Qed.

Lemma track_rule_up k c neg r p o t0 t : tr_pos t <= tr_pos (track_rule k c neg r p o t0 t).
Proof. destruct (track_rule_pos k c neg r p o t0 t) as [E|[E L]]; lia. Qed.

(** ** Every remembered position was reached *)

Section Reached.
Variable input : bytes.

Definition reached (p : nat) (s : bytes) : Prop := exists w, input = w ++ s /\ p = length w /\ valid_utf8 s = true.
Definition fine (p : nat) : Prop := exists s, reached p s.

Lemma reached_after n c e p s q s1 f : reached p s -> ascii_expr e = true -> eval n c e p s = Done q s1 f -> reached q s1.
Proof.
  intros (w & -> & -> & Hv) Ha E. destruct (eval_consumes _ _ _ _ _ _ _ _ E) as (v & -> & ->).
  exists (w ++ v). rewrite <- app_assoc, app_length. split; [assumption|]. split; [reflexivity|]. exact (eval_valid _ _ _ _ _ _ _ _ Ha Hv E).
Qed.

Theorem attempts_fine n : forall c neg e p s t, ascii_expr e = true -> reached p s -> fine (tr_pos t) -> fine (tr_pos (attempts n c neg e p s t)).
Proof.
  induction n as [|n IH]; intros c neg e p s t Ha Hp Ht; [exact Ht|].
  destruct e as [pat|pat|lo hi| | | |r|e1|e1 e2|e1 e2|e1|e1]; cbn [attempts ascii_expr] in *; try exact Ht.
  - match goal with |- fine (tr_pos (track_rule ?k ?c ?neg ?r ?p ?o ?t0 ?t1)) => destruct (track_rule_pos k c neg r p o t0 t1) as [E|[E _]]; rewrite E end.
    + apply IH; [apply ascii_rule|exact Hp|exact Ht].
    + exists s. exact Hp.
  - apply IH; assumption.
  - apply andb_true_iff in Ha. destruct Ha as [Ha1 Ha2]. destruct (eval n c e1 p s) as [q s1 f| |] eqn:E; auto.
    apply IH; [exact Ha2|exact (reached_after _ _ _ _ _ _ _ _ Hp Ha1 E)|auto].
  - apply andb_true_iff in Ha. destruct Ha as [Ha1 Ha2]. destruct (eval n c e1 p s) as [q s1 f| |] eqn:E; auto.
  - apply IH; assumption.
  - destruct (eval n c e1 p s) as [q s1 f| |] eqn:E; auto.
    apply IH; [exact Ha|exact (reached_after _ _ _ _ _ _ _ _ Hp Ha E)|auto].
Qed.
End Reached.

Theorem attempts_up n : forall c neg e p s t, tr_pos t <= tr_pos (attempts n c neg e p s t).
Proof.
  induction n as [|n IH]; intros c neg e p s t; [apply le_n|].
  destruct e as [pat|pat|lo hi| | | |r|e1|e1 e2|e1 e2|e1|e1]; cbn [attempts]; try apply le_n; try apply IH.
  - etransitivity; [apply IH|apply track_rule_up].
  - destruct (eval n c e1 p s); try apply IH. etransitivity; apply IH.
  - destruct (eval n c e1 p s); try apply IH. etransitivity; apply IH.
  - destruct (eval n c e1 p s); try apply IH. etransitivity; apply IH.
Qed.

(** ** Enough fuel *)

Lemma attempts_mono n : forall m c neg e p s t, n <= m -> eval n c e p s <> OutOfFuel ->
  attempts m c neg e p s t = attempts n c neg e p s t.
Proof.
  induction n as [|n IH]; intros m c neg e p s t Hm H; [exfalso; apply H; reflexivity|].
  destruct m as [|m]; [lia|]. rewrite eval_S in H. assert (Hnm : n <= m) by lia.
  destruct e as [pat|pat|lo hi| | | |r|e1|e1 e2|e1 e2|e1|e1]; cbn [attempts]; try reflexivity.
  - assert (K : eval n (rule_inner (fst (grammar r)) c) (snd (grammar r)) p s <> OutOfFuel).
    { intros K. rewrite K in H. apply H. reflexivity. }
    rewrite (eval_mono n m _ _ _ _ Hnm K), (IH m) by assumption. reflexivity.
  - apply IH; [exact Hnm|]. intros K. rewrite K in H. apply H. reflexivity.
  - assert (K : eval n c e1 p s <> OutOfFuel) by (intros K; rewrite K in H; apply H; reflexivity).
    rewrite (eval_mono n m _ _ _ _ Hnm K), (IH m c neg e1) by assumption. destruct (eval n c e1 p s) as [q s1 f| |]; try reflexivity.
    apply IH; [exact Hnm|]. intros K2. rewrite K2 in H. apply H. reflexivity.
  - assert (K : eval n c e1 p s <> OutOfFuel) by (intros K; rewrite K in H; apply H; reflexivity).
    rewrite (eval_mono n m _ _ _ _ Hnm K), (IH m c neg e1) by assumption. destruct (eval n c e1 p s) as [q s1 f| |]; try reflexivity.
    apply IH; assumption.
  - apply IH; [exact Hnm|]. intros K. rewrite K in H. apply H. reflexivity.
  - assert (K : eval n c e1 p s <> OutOfFuel) by (intros K; rewrite K in H; apply H; reflexivity).
    rewrite (eval_mono n m _ _ _ _ Hnm K), (IH m c neg e1) by assumption. destruct (eval n c e1 p s) as [q s1 f| |]; try reflexivity.
    apply IH; [exact Hnm|]. intros K2. rewrite K2 in H. apply H. reflexivity.
Qed.

Definition tries (c : ctx) (neg : bool) (e : expr) (p : nat) (s : bytes) (t : tracker) : tracker :=
  attempts (fuel_for (length s)) c neg e p s t.

Lemma attempts_tries n c neg e p s t : good e = true -> need e s <= n -> attempts n c neg e p s t = tries c neg e p s t.
Proof.
  intros Hg Hn. pose proof (eval_enough n c e p s Hg Hn) as H1. pose proof (run_total c e p s Hg) as H2. unfold run, tries in *.
  destruct (Nat.le_ge_cases n (fuel_for (length s))) as [H|H].
  - symmetry. apply attempts_mono; assumption.
  - apply attempts_mono; assumption.
Qed.

Local Ltac start s := let n := fresh "n" in let E := fresh "E" in let En := fresh "En" in
  unfold tries at 1; destruct (fuel_pos s) as (n & E & En); rewrite E; cbn [attempts].

Lemma tries_call c neg r p s t : tries c neg (Call r) p s t =
  track_rule (fst (grammar r)) c neg r p (run (rule_inner (fst (grammar r)) c) (snd (grammar r)) p s) t
    (tries (rule_inner (fst (grammar r)) c) neg (snd (grammar r)) p s t).
Proof.
  start s. pose proof (good_bounds _ (good_rule r)).
  rewrite (eval_run n _ (snd (grammar r))), (attempts_tries n _ _ (snd (grammar r))) by (apply good_rule || (unfold need; lia)). reflexivity.
Qed.

Lemma tries_not c neg e p s t : good (NegPred e) = true ->
  tries c neg (NegPred e) p s t = tries {| atom := atom c; look := true |} (negb neg) e p s t.
Proof.
  intros Hg. pose proof (good_sub _ Hg) as Hs. pose proof (good_bounds _ Hs). start s.
  apply attempts_tries; [exact Hs|unfold need; lia].
Qed.

Lemma tries_seq c neg a b p s t : good (Seq a b) = true -> tries c neg (Seq a b) p s t =
  match run c a p s with
  | Done q s1 _ => tries c neg b q s1 (tries c neg a p s t)
  | _ => tries c neg a p s t
  end.
Proof.
  intros Hg. destruct (good_sub _ Hg) as [H1 H2]. pose proof (good_bounds _ H1). pose proof (good_bounds _ H2).
  start s. rewrite (eval_run n _ a), (attempts_tries n _ _ a) by (assumption || (unfold need; lia)).
  destruct (run c a p s) as [q s1 f1| |] eqn:Er; try reflexivity.
  pose proof (eval_consumes _ _ _ _ _ _ _ _ Er) as (w & Hw & _).
  rewrite (attempts_tries n _ _ b); [reflexivity|assumption|]. subst s. rewrite app_length in *. unfold need. lia.
Qed.

Lemma tries_alt c neg a b p s t : good (Alt a b) = true -> tries c neg (Alt a b) p s t =
  match run c a p s with Fail => tries c neg b p s (tries c neg a p s t) | _ => tries c neg a p s t end.
Proof.
  intros Hg. destruct (good_sub _ Hg) as [H1 H2]. pose proof (good_bounds _ H1). pose proof (good_bounds _ H2).
  start s. rewrite (eval_run n _ a), (attempts_tries n _ _ a) by (assumption || (unfold need; lia)).
  destruct (run c a p s) as [q s1 f1| |]; try reflexivity. apply attempts_tries; [assumption|unfold need; lia].
Qed.

Lemma tries_opt c neg e p s t : good (Opt e) = true -> tries c neg (Opt e) p s t = tries c neg e p s t.
Proof.
  intros Hg. pose proof (good_sub _ Hg) as Hs. pose proof (good_bounds _ Hs). start s.
  apply attempts_tries; [exact Hs|unfold need; lia].
Qed.

Lemma tries_rep c neg e p s t : good (Rep e) = true -> tries c neg (Rep e) p s t =
  match run c e p s with
  | Done q s1 _ => tries c neg (Rep e) q s1 (tries c neg e p s t)
  | _ => tries c neg e p s t
  end.
Proof.
  intros Hg. destruct (good_sub _ Hg) as [H1 H2]. pose proof (good_bounds _ H1). pose proof (good_bounds _ Hg).
  start s. rewrite (eval_run n _ e), (attempts_tries n _ _ e) by (assumption || (unfold need; lia)).
  destruct (run c e p s) as [q s1 f1| |] eqn:Er; try reflexivity.
  pose proof (eval_strict _ _ _ _ _ _ _ _ Er H2) as Hlt.
  rewrite (attempts_tries n _ _ (Rep e)); [reflexivity|assumption|]. unfold need. lia.
Qed.

Lemma tries_up c neg e p s t : tr_pos t <= tr_pos (tries c neg e p s t).
Proof. apply attempts_up. Qed.

(** ** Where nothing is remembered *)

(** Silent rules that call no other *)
Definition silent_rule (r : rule) : bool :=
  match r with
  | R_ws | R_line_continuation | R_empty_line | R_any_eol | R_identifier_whitespace | R_any_equals => true
  | _ => false
  end.
(** Rules of which nothing is remembered inside an atomic one *)
Definition inner_rule (r : rule) : bool :=
  match r with
  | R_inner | R_escape | R_unicode | R_single_quoted_inner => true
  | _ => false
  end.
Fixpoint unheard (a : bool) (e : expr) : bool :=
  match e with
  | Call r => silent_rule r || (a && inner_rule r)
  | NegPred e1 | Opt e1 | Rep e1 => unheard a e1
  | Seq e1 e2 | Alt e1 e2 => unheard a e1 && unheard a e2
  | _ => true
  end.

Lemma silent_kind r : silent_rule r = true -> fst (grammar r) = Silent /\ unheard false (snd (grammar r)) = true.
Proof. destruct r; try discriminate; split; reflexivity. Qed.
Lemma inner_kind r : inner_rule r = true -> fst (grammar r) = AtomicRule /\ unheard true (snd (grammar r)) = true.
Proof. destruct r; try discriminate; split; reflexivity. Qed.

Lemma track_atomic k c neg r p o t0 t : k = Silent \/ (k = AtomicRule /\ atom c = true) -> track_rule k c neg r p o t0 t = t.
Proof.
  intros [->|[-> Hc]]; [reflexivity|]. unfold track_rule, track. cbn [rule_outer]. rewrite Hc. destruct o, neg; reflexivity.
Qed.

Lemma attempts_unheard n : forall c neg e p s t a, (a = true -> atom c = true) -> unheard a e = true -> attempts n c neg e p s t = t.
Proof.
  induction n as [|n IH]; intros c neg e p s t a Hc Hq; [reflexivity|].
  destruct e as [pat|pat|lo hi| | | |r|e1|e1 e2|e1 e2|e1|e1]; cbn [attempts unheard] in *; try reflexivity.
  - apply orb_true_iff in Hq. destruct Hq as [Hq|Hq].
    + destruct (silent_kind r Hq) as [E1 E2]. rewrite track_atomic by (left; exact E1). apply (IH _ _ _ _ _ _ false); [discriminate|exact E2].
    + apply andb_true_iff in Hq. destruct Hq as [-> Hq]. destruct (inner_kind r Hq) as [E1 E2].
      rewrite track_atomic by (right; auto). apply (IH _ _ _ _ _ _ true); [|exact E2]. rewrite E1. reflexivity.
  - apply (IH _ _ _ _ _ _ a); assumption.
  - apply andb_true_iff in Hq. destruct Hq as [H1 H2]. destruct (eval n c e1 p s); rewrite (IH _ _ e1 _ _ _ a); eauto.
  - apply andb_true_iff in Hq. destruct Hq as [H1 H2]. destruct (eval n c e1 p s); rewrite (IH _ _ e1 _ _ _ a); eauto.
  - apply (IH _ _ _ _ _ _ a); assumption.
  - destruct (eval n c e1 p s); rewrite (IH _ _ e1 _ _ _ a); eauto.
Qed.

Lemma tries_unheard c neg e p s t : unheard false e = true -> tries c neg e p s t = t.
Proof. intros H. apply (attempts_unheard _ _ _ _ _ _ _ false); [discriminate|exact H]. Qed.

(** A rule whose body is unheard *)
Lemma tries_atomic c neg r p s t : fst (grammar r) = AtomicRule -> unheard true (snd (grammar r)) = true ->
  tr_pos (tries c neg (Call r) p s t) <= Nat.max (tr_pos t) p.
Proof.
  intros Hk Hq. rewrite tries_call, Hk.
  replace (tries (rule_inner AtomicRule c) neg (snd (grammar r)) p s t) with t.
  2:{ symmetry. apply (attempts_unheard _ _ _ _ _ _ _ true); [reflexivity|exact Hq]. }
  match goal with |- context [track_rule ?k ?c ?neg ?r ?p ?o ?t0 ?t1] => destruct (track_rule_pos k c neg r p o t0 t1) as [E|[E _]]; rewrite E end; lia.
Qed.

(** ** The end of the input *)

Lemma tries_eoi p s t : s <> [] -> tr_pos (tries ctx0 false (Call R_EOI) p s t) = Nat.max (tr_pos t) p.
Proof.
  intros Hs. rewrite tries_call. cbn [grammar fst snd rule_inner rule_outer]. rewrite run_eoi. rewrite tries_unheard by reflexivity.
  destruct s as [|x s]; [congruence|]. cbn [track_rule]. unfold track. cbn [rule_outer ctx0 atom].
  rewrite Nat.sub_diag, andb_false_r.
  destruct (Nat.eqb_spec p (tr_pos t)) as [E|E]; cbn [tr_pos].
  - rewrite Nat.ltb_irrefl. cbn [tr_pos]. rewrite Nat.eqb_refl. cbn [tr_pos]. lia.
  - destruct (Nat.ltb_spec (tr_pos t) p) as [L|L]; cbn [tr_pos].
    + rewrite Nat.eqb_refl. cbn [tr_pos]. lia.
    + rewrite (proj2 (Nat.eqb_neq _ _) E). lia.
Qed.

(** ** The rules remembered *)

Definition shape (x : res) : option (nat * bytes) := match x with Done q s _ => Some (q, s) | _ => None end.

(** The context decides about tokens only. *)
Lemma eval_shape n : forall c c' e p s, (eval n c e p s = OutOfFuel <-> eval n c' e p s = OutOfFuel) /\ shape (eval n c e p s) = shape (eval n c' e p s).
Proof.
  induction n as [|n IH]; intros c c' e p s; [split; reflexivity|]. rewrite !eval_S.
  destruct e as [pat|pat|lo hi| | | |r|e1|e1 e2|e1 e2|e1|e1]; try (split; reflexivity).
  - destruct (IH (rule_inner (fst (grammar r)) c) (rule_inner (fst (grammar r)) c') (snd (grammar r)) p s) as [H1 H2].
    destruct (eval n (rule_inner (fst (grammar r)) c) (snd (grammar r)) p s), (eval n (rule_inner (fst (grammar r)) c') (snd (grammar r)) p s);
      cbn [shape] in *; try (split; [split; discriminate|congruence]); try (split; reflexivity); try (destruct H1 as [H1 H1']; try (discriminate (H1 eq_refl)); discriminate (H1' eq_refl)).
  - destruct (IH {| atom := atom c; look := true |} {| atom := atom c'; look := true |} e1 p s) as [H1 H2].
    destruct (eval n {| atom := atom c; look := true |} e1 p s), (eval n {| atom := atom c'; look := true |} e1 p s);
      cbn [shape] in *; try (split; [split; discriminate|congruence]); try (split; reflexivity); try (destruct H1 as [H1 H1']; try (discriminate (H1 eq_refl)); discriminate (H1' eq_refl)).
  - destruct (IH c c' e1 p s) as [H1 H2].
    destruct (eval n c e1 p s) as [q s1 f| |], (eval n c' e1 p s) as [q' s1' f'| |]; cbn [shape] in *; try discriminate; try (split; reflexivity);
      try (destruct H1 as [H1 H1']; try (discriminate (H1 eq_refl)); discriminate (H1' eq_refl)).
    injection H2 as <- <-. destruct (IH c c' e2 q s1) as [H3 H4].
    destruct (eval n c e2 q s1) as [q2 s2 f2| |], (eval n c' e2 q s1) as [q2' s2' f2'| |]; cbn [shape] in *; try discriminate;
      try (split; [split; discriminate|congruence]); try (split; reflexivity); try (destruct H3 as [H3 H3']; try (discriminate (H3 eq_refl)); discriminate (H3' eq_refl)).
  - destruct (IH c c' e1 p s) as [H1 H2].
    destruct (eval n c e1 p s) as [q s1 f| |], (eval n c' e1 p s) as [q' s1' f'| |]; cbn [shape] in *; try discriminate; try (split; reflexivity);
      try (split; [split; discriminate|congruence]); try (destruct H1 as [H1 H1']; try (discriminate (H1 eq_refl)); discriminate (H1' eq_refl)). apply IH.
  - destruct (IH c c' e1 p s) as [H1 H2].
    destruct (eval n c e1 p s) as [q s1 f| |], (eval n c' e1 p s) as [q' s1' f'| |]; cbn [shape] in *; try discriminate; try (split; reflexivity);
      try (split; [split; discriminate|congruence]); try (destruct H1 as [H1 H1']; try (discriminate (H1 eq_refl)); discriminate (H1' eq_refl)).
  - destruct (IH c c' e1 p s) as [H1 H2].
    destruct (eval n c e1 p s) as [q s1 f| |], (eval n c' e1 p s) as [q' s1' f'| |]; cbn [shape] in *; try discriminate; try (split; reflexivity);
      try (destruct H1 as [H1 H1']; try (discriminate (H1 eq_refl)); discriminate (H1' eq_refl)).
    injection H2 as <- <-. destruct (IH c c' (Rep e1) q s1) as [H3 H4].
    destruct (eval n c (Rep e1) q s1) as [q2 s2 f2| |], (eval n c' (Rep e1) q s1) as [q2' s2' f2'| |]; cbn [shape] in *; try discriminate;
      try (split; [split; discriminate|congruence]); try (split; reflexivity); try (destruct H3 as [H3 H3']; try (discriminate (H3 eq_refl)); discriminate (H3' eq_refl)).
Qed.

Lemma run_shape c c' e p s : shape (run c e p s) = shape (run c' e p s).
Proof. apply eval_shape. Qed.

Definition matches_at (r : rule) (p : nat) (s : bytes) : Prop := exists q s1 f, run ctx0 (Call r) p s = Done q s1 f.

Section Truth.
Variable input : bytes.

Definition truthful (t : tracker) : Prop :=
  (forall r, In r (tr_positives t) -> ~ matches_at r (tr_pos t) (skipn (tr_pos t) input)) /\
  (forall r, In r (tr_negatives t) -> matches_at r (tr_pos t) (skipn (tr_pos t) input)).

Lemma in_firstn {T} (x : T) n l : In x (firstn n l) -> In x l.
Proof. intros H. rewrite <- (firstn_skipn n l). apply in_or_app. left. exact H. Qed.

Lemma track_truthful c neg r p t0 t : truthful t ->
  (neg = false -> ~ matches_at r p (skipn p input)) -> (neg = true -> matches_at r p (skipn p input)) -> truthful (track c neg r p t0 t).
Proof.
  intros [H1 H2] Hp Hn. unfold track. destruct (atom c); [split; assumption|]. destruct (_ && _); [split; assumption|].
  destruct (if p =? tr_pos t0 then _ else _) as [np nn].
  assert (K : forall a b, (forall x, In x a -> ~ matches_at x p (skipn p input)) -> (forall x, In x b -> matches_at x p (skipn p input)) ->
    truthful (if neg then Tracker p a (b ++ [r]) else Tracker p (a ++ [r]) b)).
  { intros a b Ha Hb. destruct neg; split; cbn [tr_pos tr_positives tr_negatives]; intros x Hx; auto; apply in_app_or in Hx; destruct Hx as [Hx|[<-|[]]]; auto. }
  destruct (Nat.eqb_spec p (tr_pos t)) as [E|E]; cbn [tr_pos].
  - rewrite Nat.ltb_irrefl. cbn [tr_pos]. rewrite Nat.eqb_refl. cbn [tr_positives tr_negatives]. apply K; intros x Hx; apply in_firstn in Hx; subst p; auto.
  - destruct (Nat.ltb_spec (tr_pos t) p) as [L|L]; cbn [tr_pos].
    + rewrite Nat.eqb_refl. cbn [tr_positives tr_negatives]. apply K; intros x [].
    + rewrite (proj2 (Nat.eqb_neq _ _) E). split; assumption.
Qed.

Lemma attempts_truthful n : forall c neg e p s t, need e s <= n -> good e = true -> input = firstn p input ++ s -> length (firstn p input) = p ->
  truthful t -> truthful (attempts n c neg e p s t).
Proof.
  induction n as [|n IH]; intros c neg e p s t Hn Hg Hs Hl Ht; [exact Ht|].
  assert (A : forall c e q s1 f, eval n c e p s = Done q s1 f -> input = firstn q input ++ s1 /\ length (firstn q input) = q).
  { intros c1 e1 q s1 f E. destruct (eval_consumes _ _ _ _ _ _ _ _ E) as (w & -> & ->).
    assert (Ei : input = (firstn p input ++ w) ++ s1) by (rewrite <- app_assoc; exact Hs).
    assert (El : p + length w = length (firstn p input ++ w)) by (rewrite app_length; lia).
    assert (Ef : firstn (p + length w) ((firstn p input ++ w) ++ s1) = firstn p input ++ w) by (rewrite El; apply firstn_app_exact).
    rewrite <- Ei in Ef. rewrite Ef. split; [exact Ei|symmetry; exact El]. }
  pose proof (good_sub e Hg) as Hsub. pose proof (good_bounds e Hg) as [Hh Hr]. unfold need in Hn.
  destruct e as [pat|pat|lo hi| | | |r|e1|e1 e2|e1 e2|e1|e1]; cbn [attempts rank height] in *; try exact Ht.
  - pose proof (rank_rule_ok r) as Hrr. pose proof (good_bounds _ (good_rule r)) as [Hbh _].
    assert (Hr1 : need (snd (grammar r)) s <= n) by (unfold need; lia). rewrite (eval_run n _ _ _ _ (good_rule r) Hr1).
    pose proof (IH (rule_inner (fst (grammar r)) c) neg (snd (grammar r)) p s t Hr1 (good_rule r) Hs Hl Ht) as K.
    assert (Ek : skipn p input = s). { rewrite Hs. rewrite <- Hl at 1. apply skipn_app_exact. }
    pose proof (run_total (rule_inner (fst (grammar r)) c) (snd (grammar r)) p s (good_rule r)) as T.
    assert (M : matches_at r p (skipn p input) <-> shape (run (rule_inner (fst (grammar r)) c) (snd (grammar r)) p s) <> None).
    { rewrite Ek. unfold matches_at. rewrite run_call. rewrite (run_shape _ (rule_inner (fst (grammar r)) ctx0)).
      destruct (run (rule_inner (fst (grammar r)) ctx0) (snd (grammar r)) p s) as [q s1 f| |]; cbn [shape]; split; try congruence; try (intros (? & ? & ? & ?); discriminate); eauto. }
    unfold track_rule. destruct (run (rule_inner (fst (grammar r)) c) (snd (grammar r)) p s) as [q s1 f| |]; [| |congruence]; cbn [shape] in M;
      destruct (fst (grammar r)); try exact K; destruct neg; try exact K; apply track_truthful; try exact K; try discriminate; intros _; rewrite M; congruence.
  - apply IH; try assumption. unfold need. lia.
  - destruct Hsub as [Hg1 Hg2]. pose proof (IH c neg e1 p s t ltac:(unfold need; destruct (nullable e1); lia) Hg1 Hs Hl Ht) as K1.
    destruct (eval n c e1 p s) as [q s1 f| |] eqn:E; try exact K1. destruct (A _ _ _ _ _ E) as [A1 A2]. apply IH; try assumption.
    unfold need. pose proof (good_bounds _ Hg2) as [Hh2 Hr2]. pose proof (eval_consumes _ _ _ _ _ _ _ _ E) as (w & Hw & _). destruct (nullable e1) eqn:En.
    + rewrite Hw, app_length in Hn. lia.
    + pose proof (eval_strict _ _ _ _ _ _ _ _ E En). lia.
  - destruct Hsub as [Hg1 Hg2]. pose proof (IH c neg e1 p s t ltac:(unfold need; lia) Hg1 Hs Hl Ht) as K1.
    destruct (eval n c e1 p s) as [q s1 f| |] eqn:E; try exact K1. apply IH; try assumption. unfold need. lia.
  - apply IH; try assumption. unfold need. lia.
  - destruct Hsub as [Hg1 Hnn]. pose proof (IH c neg e1 p s t ltac:(unfold need; lia) Hg1 Hs Hl Ht) as K1.
    destruct (eval n c e1 p s) as [q s1 f| |] eqn:E; try exact K1. destruct (A _ _ _ _ _ E) as [A1 A2]. apply IH; try assumption.
    pose proof (eval_strict _ _ _ _ _ _ _ _ E Hnn). unfold need. cbn [rank height]. lia.
Qed.
End Truth.

(** Once a rule is remembered, one is. *)
Definition told (t : tracker) : Prop := tr_positives t ++ tr_negatives t <> [].

Lemma track_told c neg r p t0 t : (tr_pos t = 0 \/ told t) -> let t1 := track c neg r p t0 t in tr_pos t1 = 0 \/ told t1.
Proof.
  intros H. cbn zeta. unfold track. destruct (atom c); [exact H|]. destruct (_ && _); [exact H|].
  destruct (if p =? tr_pos t0 then _ else _) as [np nn].
  assert (K : forall a b, told (if neg then Tracker p a (b ++ [r]) else Tracker p (a ++ [r]) b)).
  { intros a b E. destruct neg; cbn [tr_positives tr_negatives] in E; apply app_eq_nil in E; destruct E as [E1 E2]; [apply app_eq_nil in E2; destruct E2|apply app_eq_nil in E1; destruct E1]; discriminate. }
  destruct (Nat.eqb_spec p (tr_pos t)) as [E|E]; cbn [tr_pos].
  - rewrite Nat.ltb_irrefl. cbn [tr_pos]. rewrite Nat.eqb_refl. right. apply K.
  - destruct (Nat.ltb_spec (tr_pos t) p) as [L|L]; cbn [tr_pos].
    + rewrite Nat.eqb_refl. right. apply K.
    + rewrite (proj2 (Nat.eqb_neq _ _) E). exact H.
Qed.

Lemma attempts_told n : forall c neg e p s t, tr_pos t = 0 \/ told t -> let t1 := attempts n c neg e p s t in tr_pos t1 = 0 \/ told t1.
Proof.
  cbn zeta. induction n as [|n IH]; intros c neg e p s t H; [exact H|].
  destruct e as [pat|pat|lo hi| | | |r|e1|e1 e2|e1 e2|e1|e1]; cbn [attempts]; try exact H; try (apply IH; exact H).
  - pose proof (IH (rule_inner (fst (grammar r)) c) neg (snd (grammar r)) p s t H) as K. unfold track_rule.
    destruct (fst (grammar r)); try exact K; destruct (eval n _ _ _ _), neg; try exact K; apply track_told; exact K.
  - destruct (eval n c e1 p s); try (apply IH; exact H). apply IH, IH. exact H.
  - destruct (eval n c e1 p s); try (apply IH; exact H). apply IH, IH. exact H.
  - destruct (eval n c e1 p s); try (apply IH; exact H). apply IH, IH. exact H.
Qed.

Lemma tries_eoi_told p s t : s <> [] -> tr_pos t = 0 \/ told t -> told (tries ctx0 false (Call R_EOI) p s t).
Proof.
  intros Hs H. rewrite tries_call. cbn [grammar fst snd rule_inner rule_outer]. rewrite run_eoi. rewrite tries_unheard by reflexivity.
  destruct s as [|x s]; [congruence|]. cbn [track_rule]. unfold track. cbn [rule_outer ctx0 atom].
  rewrite Nat.sub_diag, andb_false_r.
  destruct (Nat.eqb_spec p (tr_pos t)) as [E|E]; cbn [tr_pos].
  - rewrite Nat.ltb_irrefl. cbn [tr_pos]. rewrite Nat.eqb_refl. intros K. cbn in K. apply app_eq_nil in K. destruct K as [K _]. apply app_eq_nil in K. destruct K; discriminate.
  - destruct (Nat.ltb_spec (tr_pos t) p) as [L|L]; cbn [tr_pos].
    + rewrite Nat.eqb_refl. cbn. discriminate.
    + rewrite (proj2 (Nat.eqb_neq _ _) E). destruct H; [lia|exact H].
Qed.
