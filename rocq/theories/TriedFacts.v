(** pest's memory of attempts (Attempts.v) and the rules tried in vain (SpecTried.v) *)

From Verif Require Import Bytes BytesFacts Grammar Peg PegFacts PegRules Attempts AttemptsFacts SpecTried.
Local Open Scope nat_scope.

(** Whether the memory of [track_rule] changes *)
Lemma vain_cases c neg r p s :
  let k := fst (grammar r) in let o := run (rule_inner k c) (snd (grammar r)) p s in
  (in_vain c neg r p s /\ forall t0 t, track_rule k c neg r p o t0 t = track (rule_outer k c) neg r p t0 t) \/
  (~ in_vain c neg r p s /\ forall t0 t, track_rule k c neg r p o t0 t = t).
Proof.
  cbv zeta. unfold in_vain. rewrite run_call.
  pose proof (run_total (rule_inner (fst (grammar r)) c) (snd (grammar r)) p s (good_rule r)) as T.
  destruct (run (rule_inner (fst (grammar r)) c) (snd (grammar r)) p s) as [q s1 f| |]; [| |congruence];
  destruct (fst (grammar r)) eqn:Ek; cbn [track_rule];
    try (right; split; [intros (K & _); congruence|reflexivity]);
    (destruct neg; [|try (right; split; [intros (_ & _ & K); discriminate K|reflexivity])]);
    try (right; split; [intros (_ & _ & (? & ? & ? & K)); discriminate K|reflexivity]);
    (destruct (atom (rule_outer _ c)) eqn:Ea;
      [right; split; [intros (_ & K & _); congruence|intros t0 t; unfold track; rewrite Ea; reflexivity]
      |left; split; [split; [discriminate|]; split; [reflexivity|eauto]|reflexivity]]).
Qed.

Lemma vain_dec c neg r p s : in_vain c neg r p s \/ ~ in_vain c neg r p s.
Proof. destruct (vain_cases c neg r p s) as [[H _]|[H _]]; auto. Qed.

Lemma track_reaches c neg r p t0 t : atom c = false -> tr_pos t0 <= tr_pos t -> p <= tr_pos (track c neg r p t0 t).
Proof.
  intros Ha H. unfold track. rewrite Ha. destruct (_ && _) eqn:Ec.
  - apply andb_true_iff in Ec. destruct Ec as [Ec _]. apply Nat.ltb_lt in Ec. unfold attempts_at at 2 in Ec.
    destruct (Nat.eqb_spec (tr_pos t) p); lia.
  - destruct (if p =? tr_pos t0 then _ else _) as [np nn].
    destruct (Nat.eqb_spec p (tr_pos t)) as [E|E]; cbn [tr_pos].
    + rewrite Nat.ltb_irrefl. cbn [tr_pos]. rewrite Nat.eqb_refl. destruct neg; cbn [tr_pos]; lia.
    + destruct (Nat.ltb_spec (tr_pos t) p) as [L|L]; cbn [tr_pos].
      * rewrite Nat.eqb_refl. destruct neg; cbn [tr_pos]; lia.
      * rewrite (proj2 (Nat.eqb_neq _ _) E). lia.
Qed.

(** ** The position *)

(** Nothing is tried in vain behind the position remembered. *)
Theorem tried_before c neg e p s p0 r b : tried c neg e p s p0 r b -> good e = true -> forall t, p0 <= tr_pos (tries c neg e p s t).
Proof.
  intros H. induction H as [c neg r p s H|c neg r p s p0 r0 b H IH|c neg e p s p0 r0 b H IH|c neg e1 e2 p s p0 r0 b H IH
    |c neg e1 e2 p s q s1 f p0 r0 b R H IH|c neg e1 e2 p s p0 r0 b H IH|c neg e1 e2 p s p0 r0 b R H IH|c neg e p s p0 r0 b H IH
    |c neg e p s p0 r0 b H IH|c neg e p s q s1 f p0 r0 b R H IH]; intros G t.
  - rewrite tries_call. destruct (vain_cases c neg r p s) as [[_ E]|[K _]]; [|contradiction]. cbv zeta in E. rewrite E.
    apply track_reaches; [apply H|apply tries_up].
  - rewrite tries_call. etransitivity; [apply IH, good_rule|apply track_rule_up].
  - rewrite tries_not by exact G. apply IH. apply (good_sub _ G).
  - rewrite tries_seq by exact G. destruct (good_sub _ G) as [G1 G2]. specialize (IH G1 t).
    destruct (run c e1 p s) as [q s1 f| |]; try exact IH. etransitivity; [exact IH|apply tries_up].
  - rewrite tries_seq, R by exact G. apply IH. apply (good_sub _ G).
  - rewrite tries_alt by exact G. destruct (good_sub _ G) as [G1 G2]. specialize (IH G1 t).
    destruct (run c e1 p s) as [q s1 f| |]; try exact IH. etransitivity; [exact IH|apply tries_up].
  - rewrite tries_alt, R by exact G. apply IH. apply (good_sub _ G).
  - rewrite tries_opt by exact G. apply IH. apply (good_sub _ G).
  - rewrite tries_rep by exact G. destruct (good_sub _ G) as [G1 G2]. specialize (IH G1 t).
    destruct (run c e p s) as [q s1 f| |]; try exact IH. etransitivity; [exact IH|apply tries_up].
  - rewrite tries_rep, R by exact G. apply IH. exact G.
Qed.

(** Something was tried in vain there. *)
Theorem attempts_tried n : forall c neg e p s t, need e s <= n -> good e = true ->
  tr_pos (attempts n c neg e p s t) = tr_pos t \/ exists r b, tried c neg e p s (tr_pos (attempts n c neg e p s t)) r b.
Proof.
  induction n as [|n IH]; intros c neg e p s t Hn Hg; [left; reflexivity|].
  pose proof (good_sub e Hg) as Hsub. pose proof (good_bounds e Hg) as [Hh Hr]. unfold need in Hn.
  destruct e as [pat|pat|lo hi| | | |r|e1|e1 e2|e1 e2|e1|e1]; cbn [attempts rank height] in *; try (left; reflexivity).
  - pose proof (rank_rule_ok r) as Hrr. pose proof (good_bounds _ (good_rule r)) as [Hbh _].
    assert (Hr1 : need (snd (grammar r)) s <= n) by (unfold need; lia). rewrite (eval_run n _ _ _ _ (good_rule r) Hr1).
    specialize (IH (rule_inner (fst (grammar r)) c) neg (snd (grammar r)) p s t Hr1 (good_rule r)).
    assert (K : forall t', tr_pos t' = tr_pos (attempts n (rule_inner (fst (grammar r)) c) neg (snd (grammar r)) p s t) ->
      tr_pos t' = tr_pos t \/ exists r0 b, tried c neg (Call r) p s (tr_pos t') r0 b).
    { intros t' E. destruct IH as [IH|(r0 & b & IH)]; [left; congruence|right]. exists r0, b. rewrite E. apply tried_inside. exact IH. }
    destruct (vain_cases c neg r p s) as [[Hv E]|[_ E]]; cbv zeta in E; rewrite E; [|apply K; reflexivity].
    match goal with |- tr_pos (track ?c ?neg ?r ?p ?t0 ?t1) = _ \/ _ => destruct (track_pos c neg r p t0 t1) as [Et|[Et _]] end;
      [apply K; exact Et|]. right. exists r, neg. rewrite Et. apply tried_here. exact Hv.
  - destruct (IH {| atom := atom c; look := true |} (negb neg) e1 p s t ltac:(unfold need; lia) Hsub) as [K|(r & b & K)]; [left; exact K|right].
    exists r, b. apply tried_not. exact K.
  - destruct Hsub as [Hg1 Hg2]. assert (Hn1 : need e1 s <= n) by (unfold need; destruct (nullable e1); lia).
    pose proof (IH c neg e1 p s t Hn1 Hg1) as K1. rewrite (eval_run n _ _ _ _ Hg1 Hn1).
    assert (K : tr_pos (attempts n c neg e1 p s t) = tr_pos t \/ exists r b, tried c neg (Seq e1 e2) p s (tr_pos (attempts n c neg e1 p s t)) r b).
    { destruct K1 as [K1|(r & b & K1)]; [left; exact K1|right]. exists r, b. apply tried_first. exact K1. }
    destruct (run c e1 p s) as [q s1 f| |] eqn:E; try exact K.
    assert (Hn2 : need e2 s1 <= n).
    { unfold need. pose proof (good_bounds _ Hg2) as [Hh2 Hr2]. pose proof (eval_consumes _ _ _ _ _ _ _ _ E) as (w & Hw & _). destruct (nullable e1) eqn:En.
      + rewrite Hw, app_length in Hn. lia.
      + pose proof (eval_strict _ _ _ _ _ _ _ _ E En). lia. }
    destruct (IH c neg e2 q s1 (attempts n c neg e1 p s t) Hn2 Hg2) as [K2|(r & b & K2)]; [rewrite K2; exact K|right].
    exists r, b. eapply tried_second; [exact E|exact K2].
  - destruct Hsub as [Hg1 Hg2]. assert (Hn1 : need e1 s <= n) by (unfold need; lia).
    pose proof (IH c neg e1 p s t Hn1 Hg1) as K1. rewrite (eval_run n _ _ _ _ Hg1 Hn1).
    assert (K : tr_pos (attempts n c neg e1 p s t) = tr_pos t \/ exists r b, tried c neg (Alt e1 e2) p s (tr_pos (attempts n c neg e1 p s t)) r b).
    { destruct K1 as [K1|(r & b & K1)]; [left; exact K1|right]. exists r, b. apply tried_left. exact K1. }
    destruct (run c e1 p s) as [q s1 f| |] eqn:E; try exact K.
    destruct (IH c neg e2 p s (attempts n c neg e1 p s t) ltac:(unfold need; lia) Hg2) as [K2|(r & b & K2)]; [rewrite K2; exact K|right].
    exists r, b. apply tried_right; assumption.
  - destruct (IH c neg e1 p s t ltac:(unfold need; lia) Hsub) as [K|(r & b & K)]; [left; exact K|right].
    exists r, b. apply tried_opt. exact K.
  - destruct Hsub as [Hg1 Hg2]. assert (Hn1 : need e1 s <= n) by (unfold need; lia).
    pose proof (IH c neg e1 p s t Hn1 Hg1) as K1. rewrite (eval_run n _ _ _ _ Hg1 Hn1).
    assert (K : tr_pos (attempts n c neg e1 p s t) = tr_pos t \/ exists r b, tried c neg (Rep e1) p s (tr_pos (attempts n c neg e1 p s t)) r b).
    { destruct K1 as [K1|(r & b & K1)]; [left; exact K1|right]. exists r, b. apply tried_once. exact K1. }
    destruct (run c e1 p s) as [q s1 f| |] eqn:E; try exact K.
    assert (Hn2 : need (Rep e1) s1 <= n).
    { unfold need. cbn [rank height]. pose proof (eval_strict _ _ _ _ _ _ _ _ E Hg2). lia. }
    destruct (IH c neg (Rep e1) q s1 (attempts n c neg e1 p s t) Hn2 Hg) as [K2|(r & b & K2)]; [rewrite K2; exact K|right].
    exists r, b. eapply tried_again; [exact E|exact K2].
Qed.

Theorem tries_tried c neg e p s t : good e = true ->
  tr_pos (tries c neg e p s t) = tr_pos t \/ exists r b, tried c neg e p s (tr_pos (tries c neg e p s t)) r b.
Proof.
  intros G. rewrite <- (attempts_tries (need e s) c neg e p s t G (le_n _)). apply attempts_tried; [apply le_n|exact G].
Qed.

(** ** The rules *)

(** What is remembered for the place [p0] *)
Definition kept (p0 : nat) (t : tracker) : list rule * list rule :=
  if tr_pos t =? p0 then (tr_positives t, tr_negatives t) else ([], []).
Definition more (k : list rule * list rule) (l : list (rule * bool)) : list rule * list rule :=
  (fst k ++ expected_in l, snd k ++ unexpected_in l).

Lemma expected_app a b : expected_in (a ++ b) = expected_in a ++ expected_in b.
Proof. unfold expected_in. rewrite filter_app, map_app. reflexivity. Qed.
Lemma unexpected_app a b : unexpected_in (a ++ b) = unexpected_in a ++ unexpected_in b.
Proof. unfold unexpected_in. rewrite filter_app, map_app. reflexivity. Qed.
Lemma more_nil k : more k [] = k.
Proof. destruct k. unfold more. cbn. rewrite !app_nil_r. reflexivity. Qed.
Lemma more_app k a b : more k (a ++ b) = more (more k a) b.
Proof. unfold more. cbn [fst snd]. rewrite expected_app, unexpected_app, !app_assoc. reflexivity. Qed.
Lemma named_length l : length (expected_in l) + length (unexpected_in l) = length l.
Proof.
  induction l as [|[r b] l IH]; [reflexivity|]. unfold expected_in, unexpected_in in *. cbn [filter snd negb].
  destruct b; cbn [negb map length]; lia.
Qed.

Lemma track_kept p0 c neg r p t0 t : tr_pos t0 <= tr_pos t -> tr_pos (track c neg r p t0 t) <= p0 -> p <> p0 ->
  kept p0 (track c neg r p t0 t) = kept p0 t.
Proof.
  intros H0 Hl Hp. destruct (Nat.eqb_spec (tr_pos t) p0) as [E0|E0].
  - destruct (atom c) eqn:Ha; [unfold track; rewrite Ha; reflexivity|]. pose proof (track_reaches c neg r p t0 t Ha H0) as K.
    unfold track. rewrite Ha. destruct (_ && _); [reflexivity|]. destruct (if p =? tr_pos t0 then _ else _) as [np nn].
    rewrite (proj2 (Nat.eqb_neq p (tr_pos t))) by lia. rewrite (proj2 (Nat.ltb_ge (tr_pos t) p)) by lia.
    rewrite (proj2 (Nat.eqb_neq p (tr_pos t))) by lia. reflexivity.
  - unfold kept. rewrite (proj2 (Nat.eqb_neq _ _) E0). destruct (track_pos c neg r p t0 t) as [E|[E _]]; rewrite E.
    + rewrite (proj2 (Nat.eqb_neq _ _) E0). reflexivity.
    + rewrite (proj2 (Nat.eqb_neq _ _) Hp). reflexivity.
Qed.

Lemma attempts_at_kept p0 t : attempts_at t p0 = length (fst (kept p0 t)) + length (snd (kept p0 t)).
Proof. unfold attempts_at, kept. destruct (tr_pos t =? p0); reflexivity. Qed.

Lemma kept_before p0 t : tr_pos t < p0 -> kept p0 t = ([], []).
Proof. intros H. unfold kept. rewrite (proj2 (Nat.eqb_neq _ _)) by lia. reflexivity. Qed.

Lemma track_here p0 c neg r t0 t l : atom c = false -> tr_pos t0 <= tr_pos t -> tr_pos t <= p0 -> kept p0 t = more (kept p0 t0) l ->
  kept p0 (track c neg r p0 t0 t) = more (kept p0 t0) (if length l =? 1 then l else [(r, neg)]).
Proof.
  intros Ha H0 H1 Hk. unfold track. rewrite Ha.
  assert (Hc : attempts_at t p0 = attempts_at t0 p0 + length l).
  { rewrite !attempts_at_kept, Hk. unfold more. cbn [fst snd]. rewrite !app_length, <- (named_length l). lia. }
  rewrite Hc. destruct (Nat.eqb_spec (length l) 1) as [E1|E1].
  - rewrite E1. replace (attempts_at t0 p0 + 1 - attempts_at t0 p0) with 1 by lia.
    rewrite (proj2 (Nat.ltb_lt _ _)) by lia. exact Hk.
  - replace (_ && _) with false.
    2:{ symmetry. apply andb_false_iff. right. apply Nat.eqb_neq. lia. }
    assert (F : forall a b, fst (kept p0 t0) = a -> snd (kept p0 t0) = b ->
      kept p0 (if neg then Tracker p0 a (b ++ [r]) else Tracker p0 (a ++ [r]) b) = more (kept p0 t0) [(r, neg)]).
    { intros a b Ea Eb. unfold more. rewrite Ea, Eb. unfold kept. destruct neg; cbn [tr_pos tr_positives tr_negatives]; rewrite Nat.eqb_refl;
        cbn; rewrite app_nil_r; reflexivity. }
    destruct (Nat.eqb_spec p0 (tr_pos t)) as [E|E].
    + replace (kept p0 t) with (tr_positives t, tr_negatives t) in Hk by (unfold kept; rewrite <- E, Nat.eqb_refl; reflexivity).
      injection Hk as Hp Hn.
      replace (if p0 =? tr_pos t0 then (length (tr_positives t0), length (tr_negatives t0)) else (0, 0))
        with (length (fst (kept p0 t0)), length (snd (kept p0 t0))).
      2:{ unfold kept. rewrite (Nat.eqb_sym (tr_pos t0)). destruct (p0 =? tr_pos t0); reflexivity. }
      cbn [tr_pos]. rewrite Nat.ltb_irrefl. cbn [tr_pos]. rewrite Nat.eqb_refl. cbn [tr_positives tr_negatives].
      apply F; [rewrite Hp|rewrite Hn]; rewrite firstn_app_exact; reflexivity.
    + destruct (if p0 =? tr_pos t0 then _ else _) as [np nn]. rewrite (proj2 (Nat.ltb_lt (tr_pos t) p0)) by lia. cbn [tr_pos].
      rewrite Nat.eqb_refl. cbn [tr_positives tr_negatives]. rewrite kept_before in Hk by lia. unfold more in Hk. injection Hk as Hp Hn.
      symmetry in Hp, Hn. apply app_eq_nil in Hp, Hn. apply F; [apply Hp|apply Hn].
Qed.

Theorem named_kept p0 c neg e p s l : named p0 c neg e p s l -> good e = true -> forall t,
  tr_pos (tries c neg e p s t) <= p0 -> kept p0 (tries c neg e p s t) = more (kept p0 t) l.
Proof.
  intros H. induction H as [c neg e p s He|c neg r p s l Hn H IH|c neg r s x Hv H IH|c neg r s l Hv Hl H IH|c neg e p s l H IH
    |c neg e1 e2 p s l R H IH|c neg e1 e2 p s q s1 f l1 l2 R H1 IH1 H2 IH2|c neg e1 e2 p s q s1 f l R H IH|c neg e1 e2 p s l1 l2 R H1 IH1 H2 IH2
    |c neg e p s l H IH|c neg e p s l R H IH|c neg e p s q s1 f l1 l2 R H1 IH1 H2 IH2]; intros G t Ht.
  - rewrite more_nil. destruct e; try contradiction; rewrite tries_unheard by reflexivity; reflexivity.
  - rewrite tries_call in *. specialize (IH (good_rule r) t).
    destruct (vain_cases c neg r p s) as [[Hv E]|[_ E]]; cbv zeta in E; rewrite E in *; [|apply IH; exact Ht].
    assert (Hp : p <> p0) by (intros ->; apply Hn; auto). rewrite track_kept by (assumption || apply tries_up). apply IH.
    match type of Ht with tr_pos (track ?c ?neg ?r ?p ?t0 ?t1) <= _ => destruct (track_pos c neg r p t0 t1) as [Et|[Et L]] end; lia.
  - rewrite tries_call in *. specialize (IH (good_rule r) t).
    destruct (vain_cases c neg r p0 s) as [[_ E]|[K _]]; [|contradiction]. cbv zeta in E. rewrite E in *.
    assert (Hle : tr_pos (tries (rule_inner (fst (grammar r)) c) neg (snd (grammar r)) p0 s t) <= p0).
    { match type of Ht with tr_pos (track ?c ?neg ?r ?p ?t0 ?t1) <= _ => destruct (track_pos c neg r p t0 t1) as [Et|[Et L]] end; lia. }
    rewrite (track_here p0 _ neg r t _ [x]); [reflexivity|apply Hv|apply tries_up|exact Hle|apply IH; exact Hle].
  - rewrite tries_call in *. specialize (IH (good_rule r) t).
    destruct (vain_cases c neg r p0 s) as [[_ E]|[K _]]; [|contradiction]. cbv zeta in E. rewrite E in *.
    assert (Hle : tr_pos (tries (rule_inner (fst (grammar r)) c) neg (snd (grammar r)) p0 s t) <= p0).
    { match type of Ht with tr_pos (track ?c ?neg ?r ?p ?t0 ?t1) <= _ => destruct (track_pos c neg r p t0 t1) as [Et|[Et L]] end; lia. }
    rewrite (track_here p0 _ neg r t _ l); [|apply Hv|apply tries_up|exact Hle|apply IH; exact Hle].
    rewrite (proj2 (Nat.eqb_neq _ _) Hl). reflexivity.
  - rewrite tries_not in * by exact G. apply IH; [apply (good_sub _ G)|exact Ht].
  - rewrite tries_seq, R in * by exact G. apply IH; [apply (good_sub _ G)|exact Ht].
  - rewrite tries_seq, R in * by exact G. destruct (good_sub _ G) as [G1 G2]. rewrite IH2 by assumption.
    pose proof (tries_up c neg e2 q s1 (tries c neg e1 p s t)). rewrite IH1 by (assumption || lia). symmetry. apply more_app.
  - rewrite tries_alt, R in * by exact G. apply IH; [apply (good_sub _ G)|exact Ht].
  - rewrite tries_alt, R in * by exact G. destruct (good_sub _ G) as [G1 G2]. rewrite IH2 by assumption.
    pose proof (tries_up c neg e2 p s (tries c neg e1 p s t)). rewrite IH1 by (assumption || lia). symmetry. apply more_app.
  - rewrite tries_opt in * by exact G. apply IH; [apply (good_sub _ G)|exact Ht].
  - rewrite tries_rep, R in * by exact G. apply IH; [apply (good_sub _ G)|exact Ht].
  - rewrite tries_rep, R in * by exact G. destruct (good_sub _ G) as [G1 G2]. rewrite IH2 by assumption.
    pose proof (tries_up c neg (Rep e) q s1 (tries c neg e p s t)). rewrite IH1 by (assumption || lia). symmetry. apply more_app.
Qed.

Theorem named_total p0 n : forall c neg e p s, need e s <= n -> good e = true -> exists l, named p0 c neg e p s l.
Proof.
  induction n as [|n IH]; intros c neg e p s Hn Hg.
  { pose proof (run_total c e p s Hg) as T. pose proof (eval_enough 0 c e p s Hg Hn) as K. exfalso. apply K. reflexivity. }
  pose proof (good_sub e Hg) as Hsub. pose proof (good_bounds e Hg) as [Hh Hr]. unfold need in Hn.
  destruct e as [pat|pat|lo hi| | | |r|e1|e1 e2|e1 e2|e1|e1]; cbn [rank height] in *; try (exists []; apply named_basic; exact I).
  - pose proof (rank_rule_ok r) as Hrr. pose proof (good_bounds _ (good_rule r)) as [Hbh _].
    assert (Hr1 : need (snd (grammar r)) s <= n) by (unfold need; lia).
    destruct (IH (rule_inner (fst (grammar r)) c) neg (snd (grammar r)) p s Hr1 (good_rule r)) as (l & K).
    destruct (Nat.eq_dec p p0) as [->|Hp]; [|exists l; apply named_through; tauto].
    destruct (vain_dec c neg r p0 s) as [Hv|Hv]; [|exists l; apply named_through; tauto].
    destruct (Nat.eq_dec (length l) 1) as [E|E]; [|exists [(r, neg)]; apply (named_rule p0 c neg r s l); assumption].
    destruct l as [|x [|]]; try discriminate. exists [x]. apply named_one; assumption.
  - destruct (IH {| atom := atom c; look := true |} (negb neg) e1 p s ltac:(unfold need; lia) Hsub) as (l & K).
    exists l. apply named_not. exact K.
  - destruct Hsub as [Hg1 Hg2]. assert (Hn1 : need e1 s <= n) by (unfold need; destruct (nullable e1); lia).
    destruct (IH c neg e1 p s Hn1 Hg1) as (l1 & K1). pose proof (run_total c e1 p s Hg1) as T.
    destruct (run c e1 p s) as [q s1 f| |] eqn:E; [|exists l1; apply named_first; assumption|congruence].
    assert (Hn2 : need e2 s1 <= n).
    { unfold need. pose proof (good_bounds _ Hg2) as [Hh2 Hr2]. pose proof (eval_consumes _ _ _ _ _ _ _ _ E) as (w & Hw & _). destruct (nullable e1) eqn:En.
      + rewrite Hw, app_length in Hn. lia.
      + pose proof (eval_strict _ _ _ _ _ _ _ _ E En). lia. }
    destruct (IH c neg e2 q s1 Hn2 Hg2) as (l2 & K2). exists (l1 ++ l2). eapply named_second; eassumption.
  - destruct Hsub as [Hg1 Hg2]. destruct (IH c neg e1 p s ltac:(unfold need; lia) Hg1) as (l1 & K1). pose proof (run_total c e1 p s Hg1) as T.
    destruct (run c e1 p s) as [q s1 f| |] eqn:E; [exists l1; eapply named_left; eassumption| |congruence].
    destruct (IH c neg e2 p s ltac:(unfold need; lia) Hg2) as (l2 & K2). exists (l1 ++ l2). apply named_right; assumption.
  - destruct (IH c neg e1 p s ltac:(unfold need; lia) Hsub) as (l & K). exists l. apply named_opt. exact K.
  - destruct Hsub as [Hg1 Hg2]. destruct (IH c neg e1 p s ltac:(unfold need; lia) Hg1) as (l1 & K1). pose proof (run_total c e1 p s Hg1) as T.
    destruct (run c e1 p s) as [q s1 f| |] eqn:E; [|exists l1; apply named_end; assumption|congruence].
    assert (Hn2 : need (Rep e1) s1 <= n).
    { unfold need. cbn [rank height]. pose proof (eval_strict _ _ _ _ _ _ _ _ E Hg2). lia. }
    destruct (IH c neg (Rep e1) q s1 Hn2 Hg) as (l2 & K2). exists (l1 ++ l2). eapply named_again; eassumption.
Qed.
