(** Where the error of two texts put together is reported. *)

From Verif Require Import Bytes BytesFacts Grammar Peg PegFacts PegRules SpecSyntax SpecClear SpecJoin Sound Forward
  Attempts AttemptsFacts Shift ConvertMove Mirror ParseEdit JoinDoc.
Local Open Scope nat_scope.

Notation nothing := (Tracker 0 [] []).

(** ** Elsewhere, and with earlier attempts in mind *)

Definition moved (k : nat) (t t' : tracker) : Prop :=
  (tr_pos t' = k + tr_pos t /\ tr_positives t' = tr_positives t /\ tr_negatives t' = tr_negatives t) \/
  (t = nothing /\ tr_pos t' < k).

Lemma attempts_at_moved k t t' p : moved k t t' -> attempts_at t' (k + p) = attempts_at t p.
Proof.
  unfold attempts_at. intros [(-> & -> & ->)|(-> & L)].
  - destruct (Nat.eqb_spec (tr_pos t) p) as [E|E], (Nat.eqb_spec (k + tr_pos t) (k + p)) as [E2|E2]; try reflexivity; exfalso; lia.
  - cbn [tr_pos tr_positives tr_negatives length]. rewrite (proj2 (Nat.eqb_neq (tr_pos t') (k + p))) by lia. destruct (0 =? p); reflexivity.
Qed.

Lemma track_moved k c neg r p t0 t t0' t' : moved k t0 t0' -> moved k t t' -> moved k (track c neg r p t0 t) (track c neg r (k + p) t0' t').
Proof.
  intros H0 H. unfold track. destruct (atom c); [exact H|]. rewrite (attempts_at_moved k t0 t0' p H0), (attempts_at_moved k t t' p H).
  destruct (_ && _); [exact H|].
  assert (En : (if k + p =? tr_pos t0' then (length (tr_positives t0'), length (tr_negatives t0')) else (0, 0)) =
               (if p =? tr_pos t0 then (length (tr_positives t0), length (tr_negatives t0)) else (0, 0))).
  { destruct H0 as [(-> & -> & ->)|(-> & L)].
    - destruct (Nat.eqb_spec p (tr_pos t0)) as [E|E], (Nat.eqb_spec (k + p) (k + tr_pos t0)) as [E2|E2]; try reflexivity; exfalso; lia.
    - cbn [tr_pos tr_positives tr_negatives length]. rewrite (proj2 (Nat.eqb_neq (k + p) (tr_pos t0'))) by lia. destruct (p =? 0); reflexivity. }
  rewrite En. destruct (if p =? tr_pos t0 then _ else _) as [np nn]. clear En H0 t0 t0'.
  destruct H as [(E1 & E2 & E3)|(-> & L)].
  - rewrite E1, E2, E3. destruct (Nat.eqb_spec p (tr_pos t)) as [E|E].
    + subst p. rewrite Nat.eqb_refl. cbn [tr_pos]. rewrite !Nat.ltb_irrefl. cbn [tr_pos]. rewrite !Nat.eqb_refl. left. destruct neg; auto.
    + rewrite (proj2 (Nat.eqb_neq (k + p) (k + tr_pos t))) by lia. destruct (Nat.ltb_spec (tr_pos t) p) as [L|L].
      * rewrite E1, (proj2 (Nat.ltb_lt (k + tr_pos t) (k + p))) by lia. cbn [tr_pos]. rewrite !Nat.eqb_refl. left. destruct neg; auto.
      * rewrite E1, (proj2 (Nat.ltb_ge (k + tr_pos t) (k + p))) by lia. rewrite E1, (proj2 (Nat.eqb_neq (k + p) (k + tr_pos t))), (proj2 (Nat.eqb_neq p (tr_pos t))) by lia.
        left. auto.
  - rewrite (proj2 (Nat.eqb_neq (k + p) (tr_pos t'))), (proj2 (Nat.ltb_lt (tr_pos t') (k + p))) by lia. cbn [tr_pos]. rewrite Nat.eqb_refl.
    destruct (Nat.eqb_spec p 0) as [->|E].
    + cbn [tr_pos tr_positives tr_negatives]. rewrite !firstn_nil, Nat.ltb_irrefl. cbn [tr_pos Nat.eqb]. left. destruct neg; auto.
    + cbn [tr_pos]. rewrite (proj2 (Nat.ltb_lt 0 p)) by lia. cbn [tr_pos]. rewrite Nat.eqb_refl. left. destruct neg; auto.
Qed.

Lemma attempts_moved k n : forall c neg e p s t t', anywhere e = true -> moved k t t' ->
  moved k (attempts n c neg e p s t) (attempts n c neg e (k + p) s t').
Proof.
  induction n as [|n IH]; intros c neg e p s t t' Ha H; [exact H|].
  assert (R : forall c e, anywhere e = true -> eval n c e (k + p) s = move_res (fun x => k + x) (eval n c e p s)).
  { intros c1 e1 H1. apply eval_anywhere; [exact H1|]. intros i Hi. lia. }
  destruct e as [pat|pat|lo hi| | | |r|e1|e1 e2|e1 e2|e1|e1]; cbn [attempts anywhere] in *; try exact H; try discriminate.
  - assert (Hr : r <> R_dockerfile) by (intros ->; discriminate).
    rewrite R by (apply anywhere_rule; exact Hr). pose proof (IH (rule_inner (fst (grammar r)) c) neg (snd (grammar r)) p s t t' (anywhere_rule r Hr) H) as K.
    unfold track_rule. destruct (fst (grammar r)); [|exact K|..]; destruct (eval n _ (snd (grammar r)) p s); cbn [move_res]; destruct neg; try exact K; apply track_moved; assumption.
  - apply IH; assumption.
  - apply andb_true_iff in Ha. destruct Ha as [H1 H2]. rewrite (R c e1 H1). destruct (eval n c e1 p s) as [q s1 f| |]; cbn [move_res]; auto.
  - apply andb_true_iff in Ha. destruct Ha as [H1 H2]. rewrite (R c e1 H1). destruct (eval n c e1 p s) as [q s1 f| |]; cbn [move_res]; auto.
  - apply IH; assumption.
  - rewrite (R c e1 Ha). destruct (eval n c e1 p s) as [q s1 f| |]; cbn [move_res]; auto.
Qed.

Lemma tries_moved k c neg e p s t t' : anywhere e = true -> moved k t t' -> moved k (tries c neg e p s t) (tries c neg e (k + p) s t').
Proof. apply attempts_moved. Qed.

(** ** The whole document *)

Lemma body_tries input q s f t : run ctx0 document_lines 0 input = Done q s f ->
  tries ctx0 false (snd (grammar R_dockerfile)) 0 input t = tries ctx0 false (Call R_EOI) q s (tries ctx0 false document_lines 0 input t).
Proof.
  cbn [grammar snd]. unfold document_lines. rewrite run_seq by reflexivity. rewrite (tries_seq ctx0 false (Call R_meta_step) (Rep line)) by reflexivity.
  rewrite tries_seq by reflexivity. rewrite run_soi. cbn [Nat.eqb]. rewrite (tries_unheard ctx0 false Soi) by reflexivity.
  rewrite tries_seq by reflexivity. destruct (run ctx0 (Call R_meta_step) 0 input) as [q1 s1 f1| |]; [|discriminate..].
  rewrite tries_seq by reflexivity. destruct (run ctx0 (Rep line) q1 s1) as [q2 s2 f2| |]; [|discriminate..]. intros E. injection E as <- <- _. reflexivity.
Qed.

(** An error at the very beginning is reported as that of the whole document. *)
Lemma track_whole t : tr_pos (track ctx0 false R_dockerfile 0 nothing t) = tr_pos t /\ (tr_pos t <> 0 -> track ctx0 false R_dockerfile 0 nothing t = t).
Proof.
  split; [destruct (track_pos ctx0 false R_dockerfile 0 nothing t) as [E|[_ L]]; [exact E|lia]|].
  intros H. unfold track. cbn [ctx0 atom]. unfold attempts_at. rewrite (proj2 (Nat.eqb_neq _ _) H). cbn. destruct t as [p a b]. cbn [tr_pos] in *.
  destruct p; [lia|reflexivity].
Qed.

Definition lines_tries_of (input : bytes) (q : nat) (s : bytes) : tracker :=
  tries ctx0 false (Call R_EOI) q s (tries ctx0 false document_lines 0 input nothing).

Lemma parse_attempts_run input q s f : run ctx0 document_lines 0 input = Done q s f -> s <> [] ->
  tr_pos (parse_attempts input) = tr_pos (lines_tries_of input q s) /\
  (tr_pos (lines_tries_of input q s) <> 0 -> parse_attempts input = lines_tries_of input q s).
Proof.
  intros E Hs. change (parse_attempts input) with (tries ctx0 false (Call R_dockerfile) 0 input nothing). rewrite tries_call.
  pose proof (run_dockerfile input) as K. rewrite run_call, E in K. change (rule_inner (fst (grammar R_dockerfile)) ctx0) with ctx0 in *.
  assert (Kf : run ctx0 (snd (grammar R_dockerfile)) 0 input = Fail).
  { destruct s; [congruence|]. destruct (run ctx0 (snd (grammar R_dockerfile)) 0 input); try discriminate. reflexivity. }
  rewrite Kf, (body_tries input q s f) by exact E. cbn [grammar fst track_rule rule_outer]. apply track_whole.
Qed.

Section Join.
Variables a n b : bytes.
Hypothesis Ha : valid_utf8 a = true.
Hypothesis Hb : valid_utf8 b = true.
Hypothesis HC : complete a.
Hypothesis HQ : quotes_apart a (n ++ b).
Hypothesis HB : breaks a n b.

Lemma join_tries q u f : run ctx0 document_lines 0 a = Done q u f -> exists t1, tr_pos t1 <= length a /\
  tries ctx0 false document_lines 0 (a ++ n ++ b) nothing = match u with [] => tries ctx0 false (Rep line) (length a) (n ++ b) t1 | _ => t1 end.
Proof.
  intros H. destruct HB as (Hn & H1 & H2).
  assert (HR : newline_here (n ++ b) = true) by (destruct Hn; reflexivity).
  assert (HvR : valid_utf8 (n ++ b) = true) by (destruct Hn; exact Hb).
  assert (HL : begins_with LF (n ++ b) -> ~ exists a0, a = a0 ++ [CR]).
  { intros [t E]. apply H2. destruct Hn; [exists []; reflexivity|discriminate E|discriminate E]. }
  unfold document_lines in *. rewrite run_seq in H by reflexivity. rewrite tries_seq by reflexivity.
  assert (Hl : line_here a a). { split; [exists []; split; [reflexivity|left; reflexivity]|exact Ha]. }
  pose proof (meta_mirror a (n ++ b) HvR HR HC HQ HL 0 a Hl) as K. unfold mirror in K.
  pose proof (meta_within a (n ++ b) HvR HR HC HQ HL 0 a Hl false nothing) as W.
  destruct (run ctx0 (Call R_meta_step) 0 a) as [q1 u1 f1| |] eqn:E; [|discriminate..]. cbn [mirrors] in K. rewrite K.
  pose proof (run_valid _ _ _ _ _ _ _ E Ha eq_refl) as Hu. destruct (run_consumes _ _ _ _ _ _ _ E) as (w & Ew & Eq).
  assert (Hi : inside a u1) by (exists w; exact Ew).
  destruct (run ctx0 (Rep line) q1 u1) as [q2 u2 f2| |] eqn:E2; [|discriminate..]. injection H as -> -> <-.
  destruct (lines_tries a (n ++ b) HvR HR HC HQ HL q1 u1 Hi Hu q u f2 E2 (tries ctx0 false (Call R_meta_step) 0 (a ++ n ++ b) nothing)) as (t1 & L & Et).
  exists t1. cbn [tr_pos] in W. assert (La : length a = length w + length u1) by (rewrite Ew; apply app_length). split; [lia|]. rewrite Et.
  destruct u; [|reflexivity]. destruct (run_consumes _ _ _ _ _ _ _ E2) as (w2 & Ew2 & Eq2). rewrite app_nil_r in Ew2. subst w2.
  replace q with (length a) by lia. reflexivity.
Qed.

Theorem join_error_first q x u f : run ctx0 document_lines 0 a = Done q (x :: u) f -> tr_pos (parse_attempts (a ++ n ++ b)) <= length a.
Proof.
  intros E. pose proof (lines_run a n b Ha Hb HC HQ HB) as R. rewrite E in R.
  destruct (parse_attempts_run _ _ _ _ R) as [-> _]; [discriminate|]. unfold lines_tries_of. rewrite tries_eoi by discriminate.
  destruct (join_tries _ _ _ E) as (t1 & L & ->). destruct (run_consumes _ _ _ _ _ _ _ E) as (w & Ew & Eq).
  rewrite Ew, app_length in *. lia.
Qed.

Theorem join_error_second q f q2 x s2 f2 : run ctx0 document_lines 0 a = Done q [] f -> run ctx0 document_lines 0 b = Done q2 (x :: s2) f2 ->
  tr_pos (parse_attempts (a ++ n ++ b)) = length (a ++ n) + tr_pos (parse_attempts b) /\
  (tr_pos (parse_attempts b) <> 0 -> tr_positives (parse_attempts (a ++ n ++ b)) = tr_positives (parse_attempts b) /\
    tr_negatives (parse_attempts (a ++ n ++ b)) = tr_negatives (parse_attempts b)).
Proof.
  intros E E2. pose proof (lines_run a n b Ha Hb HC HQ HB) as R. rewrite E, E2 in R.
  destruct (parse_attempts_run _ _ _ _ R) as [P1 P2]; [discriminate|]. destruct (parse_attempts_run _ _ _ _ E2) as [Q1 Q2]; [discriminate|].
  destruct HB as (Hn & Hcr & _).
  assert (M : moved (length (a ++ n)) (lines_tries_of b q2 (x :: s2)) (lines_tries_of (a ++ n ++ b) (length (a ++ n) + q2) (x :: s2))).
  { unfold lines_tries_of. apply tries_moved; [reflexivity|]. destruct (join_tries _ _ _ E) as (t1 & L & ->). cbn beta iota.
    rewrite tries_rep by reflexivity. rewrite run_seq by reflexivity. rewrite tries_seq by reflexivity. rewrite newline_fwd by assumption.
    rewrite (tries_unheard ctx0 false NEWLINE) by reflexivity.
    unfold document_lines. rewrite (tries_seq ctx0 false (Call R_meta_step) (Rep line)) by reflexivity.
    assert (M0 : moved (length (a ++ n)) (tries ctx0 false (Call R_meta_step) 0 b nothing) (tries ctx0 false (Call R_meta_step) (length (a ++ n) + 0) b t1)).
    { apply tries_moved; [reflexivity|]. right. split; [reflexivity|]. rewrite app_length. destruct Hn; cbn [length]; lia. }
    replace (length a + length n) with (length (a ++ n) + 0) by (rewrite app_length; lia). rewrite run_anywhere by reflexivity.
    pose proof (meta_done 0 b) as D. pose proof (run_total ctx0 (Call R_meta_step) 0 b (good_call _)) as T.
    destruct (run ctx0 (Call R_meta_step) 0 b) as [q3 s3 f3| |]; cbn [move_res]; [|congruence|congruence].
    apply tries_moved; [reflexivity|exact M0]. }
  assert (Pb : q2 <= tr_pos (lines_tries_of b q2 (x :: s2))) by (unfold lines_tries_of; rewrite tries_eoi by discriminate; lia).
  assert (Pw : length (a ++ n) + q2 <= tr_pos (lines_tries_of (a ++ n ++ b) (length (a ++ n) + q2) (x :: s2)))
    by (unfold lines_tries_of; rewrite tries_eoi by discriminate; lia).
  destruct M as [(M1 & M2 & M3)|(_ & M)]; [|lia]. split; [congruence|]. intros H. rewrite Q1 in H. rewrite (Q2 H), P2 by lia. split; assumption.
Qed.
End Join.

(** ** The rules an error names *)

Definition proper (t : tracker) : Prop := ~ In R_dockerfile (tr_positives t) /\ ~ In R_dockerfile (tr_negatives t).

Lemma track_proper c neg r p t0 t : r <> R_dockerfile -> proper t -> proper (track c neg r p t0 t).
Proof.
  intros Hr [H1 H2]. unfold track. destruct (atom c); [split; assumption|]. destruct (_ && _); [split; assumption|].
  destruct (if p =? tr_pos t0 then _ else _) as [np nn].
  assert (K : forall a b, ~ In R_dockerfile a -> ~ In R_dockerfile b -> proper (if neg then Tracker p a (b ++ [r]) else Tracker p (a ++ [r]) b)).
  { intros a b Ha Hb. destruct neg; split; cbn [tr_positives tr_negatives]; try assumption; intros Hx; apply in_app_or in Hx; destruct Hx as [Hx|[Hx|[]]]; auto. }
  destruct (Nat.eqb_spec p (tr_pos t)) as [E|E]; cbn [tr_pos].
  - rewrite Nat.ltb_irrefl. cbn [tr_pos]. rewrite Nat.eqb_refl. cbn [tr_positives tr_negatives]. apply K; intros Hx; apply in_firstn in Hx; auto.
  - destruct (Nat.ltb_spec (tr_pos t) p) as [L|L]; cbn [tr_pos].
    + rewrite Nat.eqb_refl. cbn [tr_positives tr_negatives]. apply K; intros [].
    + rewrite (proj2 (Nat.eqb_neq _ _) E). split; assumption.
Qed.

Lemma attempts_proper n : forall c neg e p s t, anywhere e = true -> proper t -> proper (attempts n c neg e p s t).
Proof.
  induction n as [|n IH]; intros c neg e p s t Ha H; [exact H|].
  destruct e as [pat|pat|lo hi| | | |r|e1|e1 e2|e1 e2|e1|e1]; cbn [attempts anywhere] in *; try exact H; try discriminate; try (apply IH; assumption).
  - assert (Hr : r <> R_dockerfile) by (intros ->; discriminate).
    pose proof (IH (rule_inner (fst (grammar r)) c) neg (snd (grammar r)) p s t (anywhere_rule r Hr) H) as K. unfold track_rule.
    destruct (fst (grammar r)); try exact K; destruct (eval n _ _ _ _), neg; try exact K; apply track_proper; assumption.
  - apply andb_true_iff in Ha. destruct Ha as [H1 H2]. destruct (eval n c e1 p s); try (apply IH; assumption). apply IH; auto.
  - apply andb_true_iff in Ha. destruct Ha as [H1 H2]. destruct (eval n c e1 p s); try (apply IH; assumption). apply IH; auto.
  - destruct (eval n c e1 p s); try (apply IH; assumption). apply IH; auto.
Qed.

Lemma matches_anywhere r p s : r <> R_dockerfile \/ p = 0 -> matches_at r p s <-> exists q s1 f, pest_parse r s = Done q s1 f.
Proof.
  intros H. unfold matches_at. rewrite pest_parse_run. destruct H as [H| ->]; [|reflexivity].
  replace p with (p + 0) by lia. rewrite run_anywhere by (destruct r; try reflexivity; congruence).
  destruct (run ctx0 (Call r) 0 s) as [q s1 f| |]; cbn [move_res]; split; intros (? & ? & ? & E); try discriminate; eauto.
Qed.

Theorem error_rules input q x s f : run ctx0 document_lines 0 input = Done q (x :: s) f ->
  let t := parse_attempts input in
  told t /\
  (forall r, In r (tr_positives t) -> pest_parse r (skipn (tr_pos t) input) = Fail) /\
  (forall r, In r (tr_negatives t) -> exists q s1 f, pest_parse r (skipn (tr_pos t) input) = Done q s1 f).
Proof.
  intros E. cbn zeta. set (t := parse_attempts input).
  assert (T : truthful input t).
  { apply attempts_truthful; [apply need_fuel; reflexivity|reflexivity|reflexivity|reflexivity|]. split; intros r []. }
  destruct (parse_attempts_run input _ _ _ E) as [P1 P2]; [discriminate|]. fold t in P1, P2.
  assert (D : forall r, In r (tr_positives t) \/ In r (tr_negatives t) -> r <> R_dockerfile \/ tr_pos t = 0).
  { intros r Hr. destruct (Nat.eq_dec (tr_pos t) 0) as [Z|Z]; [right; exact Z|left]. rewrite P1 in Z. rewrite (P2 Z) in Hr.
    assert (K : proper (lines_tries_of input q (x :: s))).
    { apply attempts_proper; [reflexivity|]. apply attempts_proper; [reflexivity|]. split; intros []. }
    intros ->. destruct K, Hr; contradiction. }
  split; [|split].
  - destruct (Nat.eq_dec (tr_pos t) 0) as [Z|Z].
    + unfold t, parse_attempts in *. change (attempts (fuel_for (length input)) ctx0 false (Call R_dockerfile) 0 input nothing) with (tries ctx0 false (Call R_dockerfile) 0 input nothing) in *.
      rewrite tries_call in *. pose proof (run_dockerfile input) as K. rewrite run_call, E in K. change (rule_inner (fst (grammar R_dockerfile)) ctx0) with ctx0 in *.
      assert (Kf : run ctx0 (snd (grammar R_dockerfile)) 0 input = Fail).
      { destruct (run ctx0 (snd (grammar R_dockerfile)) 0 input); try discriminate. reflexivity. }
      rewrite Kf, (body_tries input q (x :: s) f) in * by exact E. cbn [grammar fst track_rule rule_outer] in *.
      set (t1 := tries ctx0 false (Call R_EOI) q (x :: s) (tries ctx0 false document_lines 0 input nothing)) in *.
      assert (Z1 : tr_pos t1 = 0) by (rewrite <- (proj1 (track_whole t1)); exact Z).
      assert (T1 : told t1). { apply tries_eoi_told; [discriminate|]. apply attempts_told. left. reflexivity. }
      unfold track. cbn [ctx0 atom]. destruct (_ && _); [exact T1|]. destruct (if 0 =? tr_pos nothing then _ else _) as [np nn]. rewrite Z1. cbn [Nat.eqb tr_pos].
      rewrite Nat.ltb_irrefl. cbn. intros K2. apply app_eq_nil in K2. destruct K2 as [K2 _]. apply app_eq_nil in K2. destruct K2; discriminate.
    + rewrite P1 in Z. rewrite (P2 Z). apply tries_eoi_told; [discriminate|]. apply attempts_told. left. reflexivity.
  - intros r Hr. pose proof (proj1 T r Hr) as K. rewrite matches_anywhere in K by (apply D; auto).
    pose proof (run_total ctx0 (Call r) 0 (skipn (tr_pos t) input) (good_call r)) as Tt. rewrite <- pest_parse_run in Tt.
    destruct (pest_parse r (skipn (tr_pos t) input)) as [q1 s1 f1| |]; [exfalso; apply K; eauto|reflexivity|congruence].
  - intros r Hr. pose proof (proj2 T r Hr) as K. rewrite matches_anywhere in K by (apply D; auto). exact K.
Qed.
