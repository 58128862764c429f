(** What the small rules of the grammar do, as functions and as languages. *)

From Coq Require Import String.
From Verif Require Import Bytes BytesFacts Grammar Peg PegFacts SpecSyntax.
Local Open Scope nat_scope.

(** ** Inversion *)

Lemma seq_inv c a b p s q s' f : good (Seq a b) = true -> run c (Seq a b) p s = Done q s' f ->
  exists q1 s1 f1 f2, run c a p s = Done q1 s1 f1 /\ run c b q1 s1 = Done q s' f2 /\ f = f1 ++ f2.
Proof.
  intros G H. rewrite run_seq in H by exact G.
  destruct (run c a p s) as [q1 s1 f1| |]; try discriminate.
  destruct (run c b q1 s1) as [q2 s2 f2| |] eqn:E; try discriminate.
  injection H as <- <- <-. exists q1, s1, f1, f2. auto.
Qed.

Lemma alt_inv c a b p s q s' f : good (Alt a b) = true -> run c (Alt a b) p s = Done q s' f ->
  run c a p s = Done q s' f \/ (run c a p s = Fail /\ run c b p s = Done q s' f).
Proof.
  intros G H. rewrite run_alt in H by exact G.
  destruct (run c a p s) as [q1 s1 f1| |]; [left; exact H|right; auto|discriminate].
Qed.

Lemma opt_inv c e p s q s' f : good (Opt e) = true -> run c (Opt e) p s = Done q s' f ->
  run c e p s = Done q s' f \/ (run c e p s = Fail /\ q = p /\ s' = s /\ f = []).
Proof.
  intros G H. rewrite run_opt in H by exact G.
  destruct (run c e p s) as [q1 s1 f1| |]; [left; exact H| |discriminate].
  injection H as <- <- <-. right. auto.
Qed.

Lemma call_inv c r p s q s' f : run c (Call r) p s = Done q s' f ->
  exists f', run (rule_inner (fst (grammar r)) c) (snd (grammar r)) p s = Done q s' f' /\
    f = rule_tokens (fst (grammar r)) c r p q f'.
Proof.
  intros H. rewrite run_call in H.
  destruct (run _ (snd (grammar r)) p s) as [q1 s1 f1| |]; try discriminate.
  injection H as <- <- <-. exists f1. auto.
Qed.

Lemma call_fail c r p s : run c (Call r) p s = Fail <->
  run (rule_inner (fst (grammar r)) c) (snd (grammar r)) p s = Fail.
Proof.
  rewrite run_call. destruct (run _ (snd (grammar r)) p s) as [q1 s1 f1| |]; split; congruence.
Qed.

Lemma str_inv c pat p s q s' f : run c (Str pat) p s = Done q s' f ->
  s = pat ++ s' /\ q = p + length pat /\ f = [].
Proof.
  rewrite run_str. destruct (match_str pat s) eqn:E; [|discriminate].
  intros H. injection H as <- <- <-. apply match_str_app in E. auto.
Qed.

Lemma insens_inv c pat p s q s' f : run c (Insens pat) p s = Done q s' f ->
  exists w, s = w ++ s' /\ to_lower w = to_lower pat /\ q = p + length w /\ f = [].
Proof.
  rewrite run_insens. destruct (match_insens pat s) eqn:E; [|discriminate].
  intros H. injection H as <- <- <-. apply match_insens_app in E. destruct E as (w & -> & Hw).
  exists w. repeat split; [exact Hw|].
  apply (f_equal (@length N)) in Hw. unfold to_lower in Hw. rewrite !map_length in Hw. lia.
Qed.

(** A repetition, from left to right. *)
Lemma rep_ind c e (P : nat -> bytes -> list tree -> bytes -> Prop) : good (Rep e) = true ->
  (forall p s, run c e p s = Fail -> P p [] [] s) ->
  (forall p w1 s1 f1 w2 f2 s', run c e p (w1 ++ s1) = Done (p + length w1) s1 f1 -> s1 = w2 ++ s' ->
     w1 <> [] -> P (p + length w1) w2 f2 s' -> P p (w1 ++ w2) (f1 ++ f2) s') ->
  forall p s q s' f, run c (Rep e) p s = Done q s' f ->
    exists w, s = w ++ s' /\ q = p + length w /\ P p w f s'.
Proof.
  intros G H0 HS p s. remember (length s) as n eqn:En. revert p s En.
  induction n as [n IH] using lt_wf_ind. intros p s En q s' f H.
  rewrite run_rep in H by exact G.
  destruct (run c e p s) as [q1 s1 f1| |] eqn:E; try discriminate.
  - destruct (run c (Rep e) q1 s1) as [q2 s2 f2| |] eqn:E2; try discriminate. injection H as <- <- <-.
    pose proof (run_strict _ _ _ _ _ _ _ E (proj2 (good_sub _ G))) as Hlt.
    destruct (run_consumes _ _ _ _ _ _ _ E) as (w1 & -> & ->).
    destruct (IH (length s1) ltac:(lia) _ _ eq_refl _ _ _ E2) as (w2 & -> & -> & HP).
    exists (w1 ++ w2). rewrite <- app_assoc, app_length. split; [reflexivity|]. split; [lia|].
    apply (HS p w1 (w2 ++ s2) f1 w2 f2 s2 E eq_refl); [|exact HP].
    intros ->. cbn [app] in Hlt. lia.
  - injection H as <- <- <-. exists []. cbn [app length]. split; [reflexivity|]. split; [lia|]. apply H0. exact E.
Qed.

(** A repetition never fails. *)
Lemma rep_done c e p s : good (Rep e) = true -> exists q s' f, run c (Rep e) p s = Done q s' f.
Proof.
  intros G. pose proof (run_total c (Rep e) p s G) as Ht. revert p Ht.
  remember (length s) as n eqn:En. revert s En. induction n as [n IH] using lt_wf_ind. intros s En p Ht.
  rewrite run_rep in * by exact G. destruct (run c e p s) as [q1 s1 f1| |] eqn:E; [|eauto|contradiction].
  pose proof (run_strict _ _ _ _ _ _ _ E (proj2 (good_sub _ G))) as Hlt.
  destruct (IH (length s1) ltac:(lia) s1 eq_refl q1) as (q2 & s2 & f2 & E2); [apply run_total; exact G|].
  rewrite E2. eauto.
Qed.

Lemma rep_not_fail c e p s : good (Rep e) = true -> run c (Rep e) p s <> Fail.
Proof. intros G H. destruct (rep_done c e p s G) as (q & s' & f & E). congruence. Qed.

Lemma opt_not_fail c e p s : good (Opt e) = true -> run c (Opt e) p s <> Fail.
Proof.
  intros G H. rewrite run_opt in H by exact G. destruct (run c e p s); discriminate.
Qed.

(** ** Validity of what is left *)

Fixpoint ascii_expr (e : expr) : bool :=
  match e with
  | Str s | Insens s => ascii_all s
  | Range lo hi => (hi <? 128)%N
  | NegPred a | Opt a | Rep a => ascii_expr a
  | Seq a b | Alt a b => ascii_expr a && ascii_expr b
  | _ => true
  end.

Lemma ascii_rule r : ascii_expr (snd (grammar r)) = true.
Proof. destruct r; vm_compute; reflexivity. Qed.

Lemma lower_byte_ascii a b : lower_byte a = lower_byte b -> (b < 128)%N -> (a < 128)%N.
Proof.
  unfold lower_byte. destruct (is_upper a) eqn:Ea, (is_upper b) eqn:Eb; intros H Hb;
    unfold is_upper in *; try apply in_range_spec in Ea; try apply in_range_spec in Eb; lia.
Qed.

Lemma lower_ascii w pat : to_lower w = to_lower pat -> ascii_all pat = true -> ascii_all w = true.
Proof.
  revert pat; induction w as [|x w IH]; intros pat H Ha; [reflexivity|].
  destruct pat as [|y pat]; [discriminate|]. cbn [to_lower map] in H. injection H as Hx H.
  cbn [ascii_all forallb] in *. bool_hyps. apply andb_true_iff. split; [|apply (IH pat); assumption].
  apply N.ltb_lt. apply (lower_byte_ascii x y Hx). assumption.
Qed.

Lemma any_char_valid x t : valid_utf8 (x :: t) = true -> exists ch,
  utf8_char ch /\ x :: t = ch ++ skipn (utf8_width x) (x :: t) /\
  firstn (utf8_width x) (x :: t) = ch /\ valid_utf8 (skipn (utf8_width x) (x :: t)) = true.
Proof.
  intros H. destruct (valid_utf8_cases _ H) as [K|(ch & t' & E & Hch & Ht)]; [discriminate|].
  assert (Hx : hd_error ch = Some x).
  { destruct (utf8_char_nonempty ch Hch) as (a & u & -> & _). cbn [app] in E. injection E as -> _. reflexivity. }
  pose proof (utf8_char_width ch x Hch Hx) as Hw. exists ch.
  rewrite Hw, E. rewrite firstn_app_exact, skipn_app_exact. auto.
Qed.

Lemma eval_valid n : forall c e p s q s' f, ascii_expr e = true -> valid_utf8 s = true ->
  eval n c e p s = Done q s' f -> valid_utf8 s' = true.
Proof.
  induction n as [|n IH]; intros c e p s q s' f Ha Hv H; [discriminate|]. rewrite eval_S in H.
  destruct e as [pat|pat|lo hi| | | |r|e1|e1 e2|e1 e2|e1|e1]; cbn [ascii_expr] in Ha.
  - destruct (match_str pat s) eqn:E; [|discriminate]. injection H as <- <- <-.
    apply match_str_app in E. subst s. rewrite valid_utf8_ascii_app in Hv by exact Ha. exact Hv.
  - destruct (match_insens pat s) eqn:E; [|discriminate]. injection H as <- <- <-.
    apply match_insens_app in E. destruct E as (w & -> & Hw).
    rewrite valid_utf8_ascii_app in Hv by (apply (lower_ascii w pat Hw Ha)). exact Hv.
  - destruct s as [|x s]; [discriminate|]. destruct (in_range lo hi x) eqn:E; [|discriminate]. injection H as <- <- <-.
    apply in_range_spec in E. apply N.ltb_lt in Ha. rewrite valid_utf8_cons_ascii in Hv by lia. exact Hv.
  - destruct s as [|x s]; [discriminate|]. injection H as <- <- <-.
    destruct (any_char_valid x s Hv) as (ch & _ & _ & _ & K). exact K.
  - destruct (p =? 0); [|discriminate]. injection H as <- <- <-. exact Hv.
  - destruct s; [|discriminate]. injection H as <- <- <-. exact Hv.
  - destruct (eval n _ (snd (grammar r)) p s) as [q1 s1 f1| |] eqn:E; try discriminate. injection H as <- <- <-.
    apply (IH _ _ _ _ _ _ _ (ascii_rule r) Hv E).
  - destruct (eval n _ e1 p s) eqn:E; try discriminate. injection H as <- <- <-. exact Hv.
  - apply andb_true_iff in Ha. destruct Ha as [Ha1 Ha2].
    destruct (eval n c e1 p s) as [q1 s1 f1| |] eqn:E; try discriminate.
    destruct (eval n c e2 q1 s1) as [q2 s2 f2| |] eqn:E2; try discriminate. injection H as <- <- <-.
    apply (IH _ _ _ _ _ _ _ Ha2 (IH _ _ _ _ _ _ _ Ha1 Hv E) E2).
  - apply andb_true_iff in Ha. destruct Ha as [Ha1 Ha2].
    destruct (eval n c e1 p s) as [q1 s1 f1| |] eqn:E; try discriminate.
    + injection H as <- <- <-. apply (IH _ _ _ _ _ _ _ Ha1 Hv E).
    + apply (IH _ _ _ _ _ _ _ Ha2 Hv H).
  - destruct (eval n c e1 p s) as [q1 s1 f1| |] eqn:E; try discriminate.
    + injection H as <- <- <-. apply (IH _ _ _ _ _ _ _ Ha Hv E).
    + injection H as <- <- <-. exact Hv.
  - destruct (eval n c e1 p s) as [q1 s1 f1| |] eqn:E; try discriminate.
    + destruct (eval n c (Rep e1) q1 s1) as [q2 s2 f2| |] eqn:E2; try discriminate. injection H as <- <- <-.
      apply (IH _ _ _ _ _ _ _ (Ha : ascii_expr (Rep e1) = true) (IH _ _ _ _ _ _ _ Ha Hv E) E2).
    + injection H as <- <- <-. exact Hv.
Qed.

Lemma run_valid c e p s q s' f : run c e p s = Done q s' f -> valid_utf8 s = true ->
  ascii_expr e = true -> valid_utf8 s' = true.
Proof. intros H Hv Ha. exact (eval_valid _ c e p s q s' f Ha Hv H). Qed.

(** ** Repeated characters of a class *)

Fixpoint take_while (P : N -> bool) (s : bytes) : bytes :=
  match s with [] => [] | c :: t => if P c then c :: take_while P t else [] end.
Fixpoint drop_while (P : N -> bool) (s : bytes) : bytes :=
  match s with [] => [] | c :: t => if P c then drop_while P t else s end.

Lemma take_drop P s : take_while P s ++ drop_while P s = s.
Proof. induction s as [|c t IH]; [reflexivity|]. cbn. destruct (P c); [cbn; f_equal; exact IH|reflexivity]. Qed.

Lemma take_while_all P s : Forall (fun c => P c = true) (take_while P s).
Proof. induction s as [|c t IH]; [constructor|]. cbn. destruct (P c) eqn:E; constructor; assumption. Qed.

Lemma drop_while_head P s : match drop_while P s with c :: _ => P c = false | [] => True end.
Proof. induction s as [|c t IH]; [exact I|]. cbn. destruct (P c) eqn:E; [exact IH|exact E]. Qed.

Lemma take_while_app P w s : Forall (fun c => P c = true) w ->
  (match s with c :: _ => P c = false | [] => True end) -> take_while P (w ++ s) = w /\ drop_while P (w ++ s) = s.
Proof.
  intros H Hs. induction H as [|c w Hc H IH]; cbn [app take_while drop_while].
  - destruct s as [|c s]; [auto|]. cbn. rewrite Hs. auto.
  - rewrite Hc. destruct IH as [-> ->]. auto.
Qed.

(** [e] matches exactly one byte of the class. *)
Definition matches_class (e : expr) (P : N -> bool) : Prop := forall c p s, run c e p s =
  match s with x :: t => if P x then Done (p + 1) t [] else Fail | [] => Fail end.

Lemma class_range lo hi : matches_class (Range lo hi) (in_range lo hi).
Proof. intros c p s. apply run_range. Qed.

Lemma class_str x : matches_class (Str [x]) (N.eqb x).
Proof.
  intros c p s. rewrite run_str. destruct s as [|y s]; cbn [match_str]; [reflexivity|].
  destruct (x =? y)%N; reflexivity.
Qed.

Lemma class_alt a b P Q : good (Alt a b) = true -> matches_class a P -> matches_class b Q ->
  matches_class (Alt a b) (fun x => P x || Q x).
Proof.
  intros G Ha Hb c p s. rewrite run_alt by exact G. rewrite Ha, Hb.
  destruct s as [|x s]; [reflexivity|]. destruct (P x); [reflexivity|]. cbn [orb]. destruct (Q x); reflexivity.
Qed.

Lemma class_ext e P Q : (forall x, P x = Q x) -> matches_class e P -> matches_class e Q.
Proof. intros E H c p s. rewrite H. destruct s as [|x s]; [reflexivity|]. rewrite E. reflexivity. Qed.

Lemma class_rep e P : good (Rep e) = true -> matches_class e P -> forall c p s,
  run c (Rep e) p s = Done (p + length (take_while P s)) (drop_while P s) [].
Proof.
  intros G H c p s. revert p. induction s as [|x s IH]; intros p; rewrite run_rep by exact G; rewrite H.
  - cbn. rewrite Nat.add_0_r. reflexivity.
  - cbn [take_while drop_while]. destruct (P x).
    + rewrite IH. cbn [length app]. rewrite <- Nat.add_assoc. reflexivity.
    + cbn. rewrite Nat.add_0_r. reflexivity.
Qed.

Lemma class_rep1 e P : good (rep1 e) = true -> matches_class e P -> forall c p s,
  run c (rep1 e) p s = match take_while P s with
                       | [] => Fail
                       | w => Done (p + length w) (drop_while P s) []
                       end.
Proof.
  intros G H c p s. unfold rep1 in *. rewrite run_seq by exact G. destruct (good_sub _ G) as [_ G2]. rewrite H.
  destruct s as [|x s]; [reflexivity|]. cbn [take_while drop_while].
  destruct (P x); [|reflexivity]. rewrite (class_rep e P G2 H). cbn [length app].
  rewrite <- Nat.add_assoc. reflexivity.
Qed.

(** ** Repeated characters up to a stop *)

Fixpoint until (stop : bytes -> bool) (s : bytes) : bytes :=
  match s with [] => [] | c :: t => if stop s then [] else c :: until stop t end.
Fixpoint from_stop (stop : bytes -> bool) (s : bytes) : bytes :=
  match s with [] => [] | c :: t => if stop s then s else from_stop stop t end.

Lemma until_app stop s : until stop s ++ from_stop stop s = s.
Proof.
  induction s as [|c t IH]; [reflexivity|]. cbn [until from_stop].
  destruct (stop (c :: t)); [reflexivity|]. cbn [app]. f_equal. exact IH.
Qed.

Lemma from_stop_head stop s : match from_stop stop s with [] => True | c :: t => stop (c :: t) = true end.
Proof.
  induction s as [|c t IH]; [exact I|]. cbn [from_stop]. destruct (stop (c :: t)) eqn:E; [exact E|exact IH].
Qed.

(** The first byte of a place where to stop is ASCII. *)
Definition stops_at_ascii (stop : bytes -> bool) : Prop :=
  forall x t, stop (x :: t) = true -> (x < 128)%N.

(** [e] matches one character unless it is to stop here. *)
Definition matches_unless (e : expr) (stop : bytes -> bool) : Prop := forall c p s, valid_utf8 s = true ->
  run c e p s = match s with
                | [] => Fail
                | x :: _ => if stop s then Fail
                            else Done (p + length (firstn (utf8_width x) s)) (skipn (utf8_width x) s) []
                end.

Lemma until_char stop ch t : stops_at_ascii stop -> utf8_char ch -> stop (ch ++ t) = false ->
  until stop (ch ++ t) = ch ++ until stop t /\ from_stop stop (ch ++ t) = from_stop stop t.
Proof.
  intros Ha H Hs.
  assert (K : forall x u, (128 <= x)%N -> stop (x :: u) = false).
  { intros x u Hx. destruct (stop (x :: u)) eqn:E; [|reflexivity]. apply Ha in E. lia. }
  assert (Kc : forall x, is_cont x = true -> (128 <= x)%N) by (intros x Hx; apply is_cont_range in Hx; lia).
  destruct H as [a Ha' | a b Ha' Hb | a b c Ha' Hb Hc H1 H2 | a b c d Ha' Hb Hc Hd H1 H2];
    cbn [app until from_stop] in *; rewrite Hs; rewrite ?K by auto; auto.
Qed.

Lemma until_rep e stop : good (Rep e) = true -> stops_at_ascii stop -> matches_unless e stop ->
  forall c p s, valid_utf8 s = true ->
  run c (Rep e) p s = Done (p + length (until stop s)) (from_stop stop s) [].
Proof.
  intros G Ha H c p s Hv. revert p. revert s Hv.
  apply (valid_utf8_ind (fun s => forall p, run c (Rep e) p s = Done (p + length (until stop s)) (from_stop stop s) [])).
  - intros p. rewrite run_rep by exact G. rewrite H by reflexivity. cbn. rewrite Nat.add_0_r. reflexivity.
  - intros ch t Hch Hv IH p. rewrite run_rep by exact G.
    assert (Hv' : valid_utf8 (ch ++ t) = true) by (rewrite valid_utf8_char_app; assumption).
    rewrite H by exact Hv'. destruct (utf8_char_nonempty ch Hch) as (x & u & Ex & _).
    pose proof (utf8_char_width ch x Hch ltac:(rewrite Ex; reflexivity)) as Hw.
    destruct (ch ++ t) as [|y l] eqn:El; [rewrite Ex in El; discriminate|].
    assert (y = x) by (rewrite Ex in El; cbn [app] in El; injection El as -> _; reflexivity). subst y.
    destruct (stop (x :: l)) eqn:Es.
    + cbn [until from_stop]. rewrite Es. cbn. rewrite Nat.add_0_r. reflexivity.
    + rewrite <- El in Es |- *. rewrite Hw, firstn_app_exact, skipn_app_exact, IH.
      destruct (until_char stop ch t Ha Hch Es) as [-> ->]. rewrite app_length, Nat.add_assoc. reflexivity.
Qed.

Lemma until_rep1 e stop : good (rep1 e) = true -> stops_at_ascii stop -> matches_unless e stop ->
  forall c p s, valid_utf8 s = true ->
  run c (rep1 e) p s = match until stop s with
                       | [] => Fail
                       | w => Done (p + length w) (from_stop stop s) []
                       end.
Proof.
  intros G Ha H c p s Hv. unfold rep1 in *. destruct (good_sub _ G) as [_ G2].
  assert (E : run c (Seq e (Rep e)) p s = match run c e p s with Fail => Fail | _ => run c (Rep e) p s end).
  { rewrite run_seq by exact G. rewrite (run_rep c e p s) by exact G2.
    destruct (run c e p s) as [q s1 f1| |] eqn:E1; [|reflexivity|].
    - destruct (run c (Rep e) q s1) eqn:E2; reflexivity.
    - exfalso. apply (run_total c e p s (proj1 (good_sub _ G)) E1). }
  rewrite E, (until_rep e stop G2 Ha H c p s Hv), (H c p s Hv). destruct s as [|x s]; [reflexivity|].
  cbn [until]. destruct (stop (x :: s)); reflexivity.
Qed.

(** Building such expressions: [!a ~ b] *)
Definition succeeds (e : expr) (test : bytes -> bool) : Prop :=
  forall c p s, valid_utf8 s = true ->
  (exists q s' f, run c e p s = Done q s' f /\ test s = true) \/ (run c e p s = Fail /\ test s = false).

Lemma unless_any : matches_unless AnyChar (fun _ => false).
Proof. intros c p s Hv. rewrite run_any. destruct s; reflexivity. Qed.

Lemma unless_not a e test stop : good (Seq (NegPred a) e) = true -> succeeds a test -> matches_unless e stop ->
  matches_unless (Seq (NegPred a) e) (fun s => test s || stop s).
Proof.
  intros G Ha He c p s Hv. rewrite run_seq by exact G. destruct (good_sub _ G) as [G1 _]. rewrite run_not by exact G1.
  destruct (Ha {| atom := atom c; look := true |} p s Hv) as [(q & s' & f & -> & ->)|(-> & ->)].
  - destruct s; reflexivity.
  - rewrite (He c p s Hv). cbn [orb]. destruct s as [|x s]; [reflexivity|]. destruct (stop (x :: s)); reflexivity.
Qed.

Lemma succeeds_class e P : matches_class e P ->
  succeeds e (fun s => match s with x :: _ => P x | [] => false end).
Proof.
  intros H c p s _. specialize (H c p s). destruct s as [|x s]; [right; auto|]. cbn beta iota in *. destruct (P x) eqn:E; [left; do 3 eexists; split; [exact H|reflexivity]|right; auto].
Qed.

Lemma succeeds_alt a b t u : good (Alt a b) = true -> succeeds a t -> succeeds b u ->
  succeeds (Alt a b) (fun s => t s || u s).
Proof.
  intros G Ha Hb c p s Hv. rewrite run_alt by exact G.
  destruct (Ha c p s Hv) as [(q & s' & f & -> & ->)|(-> & ->)]; [left; do 3 eexists; split; reflexivity|].
  cbn [orb]. apply Hb. exact Hv.
Qed.

(** ** White space and newlines *)

Lemma class_ws : matches_class ws is_blank.
Proof.
  intros c p s. unfold ws. rewrite run_call. change (snd (grammar R_ws)) with (Alt (Str [SP]) (Str [TAB])).
  rewrite (class_alt (Str [SP]) (Str [TAB]) _ _ eq_refl (class_str SP) (class_str TAB)).
  destruct s as [|x s]; [reflexivity|]. unfold is_blank. rewrite (N.eqb_sym SP x), (N.eqb_sym TAB x).
  destruct ((x =? SP)%N || (x =? TAB)%N); reflexivity.
Qed.

Lemma run_ws_star c p s : run c (Rep ws) p s = Done (p + length (take_while is_blank s)) (drop_while is_blank s) [].
Proof. apply class_rep; [reflexivity|apply class_ws]. Qed.

Definition strip_newline (s : bytes) : option (nat * bytes) :=
  match s with
  | x :: t =>
    if (x =? LF)%N then Some (1, t)
    else if (x =? CR)%N then
      match t with
      | y :: u => if (y =? LF)%N then Some (2, u) else Some (1, t)
      | [] => Some (1, t)
      end
    else None
  | [] => None
  end.

Lemma run_newline c p s : run c NEWLINE p s =
  match strip_newline s with Some (n, t) => Done (p + n) t [] | None => Fail end.
Proof.
  unfold NEWLINE. rewrite run_alt by reflexivity. rewrite run_alt by reflexivity. rewrite !run_str.
  destruct s as [|x s]; cbn [match_str strip_newline]; [reflexivity|].
  rewrite (N.eqb_sym LF x), (N.eqb_sym CR x).
  destruct (x =? LF)%N; [reflexivity|]. destruct (x =? CR)%N; [|reflexivity].
  destruct s as [|y s]; [reflexivity|]. rewrite (N.eqb_sym LF y). destruct (y =? LF)%N; reflexivity.
Qed.

Definition newline_here (s : bytes) : bool := match s with x :: _ => is_newline_byte x | [] => false end.

Lemma strip_newline_none s : strip_newline s = None <-> newline_here s = false.
Proof.
  destruct s as [|x s]; [split; reflexivity|]. cbn [strip_newline newline_here]. unfold is_newline_byte.
  destruct (x =? LF)%N; [split; discriminate|]. destruct (x =? CR)%N; [|split; reflexivity].
  destruct s as [|y s]; [split; discriminate|]. destruct (y =? LF)%N; split; discriminate.
Qed.

Lemma strip_newline_some s n t : strip_newline s = Some (n, t) ->
  exists w, newline w /\ s = w ++ t /\ length w = n.
Proof.
  destruct s as [|x s]; [discriminate|]. cbn [strip_newline].
  destruct (x =? LF)%N eqn:E; bool_hyps.
  - subst x. intros H. injection H as <- <-. exists [LF]. repeat constructor.
  - destruct (x =? CR)%N eqn:E2; [|discriminate]. bool_hyps. subst x. destruct s as [|y s].
    + intros H. injection H as <- <-. exists [CR]. repeat constructor.
    + destruct (y =? LF)%N eqn:E3; bool_hyps; intros H; injection H as <- <-.
      * subst y. exists [CR; LF]. repeat constructor.
      * exists [CR]. repeat constructor.
Qed.

Lemma succeeds_newline : succeeds NEWLINE newline_here.
Proof.
  intros c p s _. rewrite run_newline. destruct (strip_newline s) as [[n t]|] eqn:E.
  - left. eexists _, _, _. split; [reflexivity|]. destruct (newline_here s) eqn:K; [reflexivity|].
    apply strip_newline_none in K. congruence.
  - right. split; [reflexivity|]. apply strip_newline_none. exact E.
Qed.

Lemma newline_inv c p s q s' f : run c NEWLINE p s = Done q s' f ->
  exists n, newline n /\ s = n ++ s' /\ q = p + length n /\ f = [].
Proof.
  rewrite run_newline. destruct (strip_newline s) as [[n t]|] eqn:E; [|discriminate].
  intros H. injection H as <- <- <-. apply strip_newline_some in E. destruct E as (w & Hw & -> & <-).
  exists w. auto.
Qed.

Lemma blanks_inv c p s q s' f : run c (Rep ws) p s = Done q s' f ->
  exists b, blanks b /\ s = b ++ s' /\ q = p + length b /\ f = [] /\
    match s' with x :: _ => is_blank x = false | [] => True end.
Proof.
  rewrite run_ws_star. intros H. injection H as <- <- <-. exists (take_while is_blank s).
  split; [apply take_while_all|]. rewrite take_drop. repeat split. apply drop_while_head.
Qed.

(** ** Comments *)

Lemma newline_byte_ascii : stops_at_ascii newline_here.
Proof.
  intros x t H. cbn in H. unfold is_newline_byte in H. bool_hyps. destruct H; bool_hyps; subst; reflexivity.
Qed.

Lemma until_no_newline s : no_newline (until newline_here s).
Proof.
  induction s as [|x s IH]; [constructor|]. cbn [until newline_here].
  destruct (is_newline_byte x) eqn:E; constructor; assumption.
Qed.

Definition not_newline_rep : expr := Rep (Seq (NegPred NEWLINE) AnyChar).

Lemma run_not_newline c p s : valid_utf8 s = true ->
  run c not_newline_rep p s = Done (p + length (until newline_here s)) (from_stop newline_here s) [].
Proof.
  intros Hv. unfold not_newline_rep. apply until_rep; try reflexivity; try assumption.
  - apply newline_byte_ascii.
  - assert (K := unless_not NEWLINE AnyChar _ _ eq_refl succeeds_newline unless_any).
    intros c' p' s' Hv'. rewrite (K c' p' s' Hv'). destruct s' as [|x s']; [reflexivity|].
    rewrite orb_false_r. reflexivity.
Qed.

Lemma run_comment c p s : valid_utf8 s = true ->
  run c comment p s =
  match s with
  | x :: t => if (x =? HASH)%N then
                Done (p + 1 + length (until newline_here t)) (from_stop newline_here t)
                  (wrap c R_comment p (p + 1 + length (until newline_here t)) [])
              else Fail
  | [] => Fail
  end.
Proof.
  intros Hv. unfold comment. rewrite run_call.
  change (snd (grammar R_comment)) with (Seq (Str [HASH]) not_newline_rep).
  rewrite run_seq by reflexivity. rewrite class_str. destruct s as [|x s]; [reflexivity|].
  rewrite (N.eqb_sym HASH x). destruct (x =? HASH)%N eqn:E; [|reflexivity]. bool_hyps. subst x.
  rewrite run_not_newline by (rewrite valid_utf8_cons_ascii in Hv by reflexivity; exact Hv). reflexivity.
Qed.

Lemma valid_until stop s : stops_at_ascii stop -> valid_utf8 s = true ->
  valid_utf8 (until stop s) = true /\ valid_utf8 (from_stop stop s) = true.
Proof.
  intros Ha Hv. pose proof (until_app stop s) as E. pose proof (from_stop_head stop s) as Hh.
  apply (valid_utf8_cut s Hv _ _ (eq_sym E)). destruct (from_stop stop s) as [|x t]; [exact I|].
  apply Ha in Hh. unfold is_cont. apply in_range_false. lia.
Qed.

Lemma comment_inv c p s q s' f : valid_utf8 s = true -> run c comment p s = Done q s' f ->
  exists t, comment_text t /\ s = t ++ s' /\ q = p + length t /\ f = wrap c R_comment p q [] /\
    match s' with [] => True | _ => newline_here s' = true end.
Proof.
  intros Hv H. rewrite run_comment in H by exact Hv. destruct s as [|x s]; [discriminate|].
  destruct (x =? HASH)%N eqn:E; [|discriminate]. bool_hyps. subst x. injection H as <- <- <-.
  rewrite valid_utf8_cons_ascii in Hv by reflexivity.
  exists (HASH :: until newline_here s). split; [exists (until newline_here s); split; [reflexivity|split; [apply until_no_newline|apply valid_until; [apply newline_byte_ascii|exact Hv]]]|].
  cbn [app length]. rewrite until_app. split; [reflexivity|]. split; [lia|]. split; [reflexivity|].
  pose proof (from_stop_head newline_here s) as K. destruct (from_stop newline_here s); [exact I|exact K].
Qed.

Lemma comment_line_inv c p s q s' f : valid_utf8 s = true -> run c comment_line p s = Done q s' f ->
  exists b t n, blanks b /\ comment_text t /\ s = b ++ t ++ n ++ s' /\ q = p + length (b ++ t ++ n) /\
    (newline n \/ (n = [] /\ s' = [])) /\
    f = wrap c R_comment (p + length b) (p + length b + length t) [].
Proof.
  intros Hv H. unfold comment_line in H. apply call_inv in H. destruct H as (f' & H & ->).
  change (snd (grammar R_comment_line)) with (Seq (Rep ws) (Seq comment (Opt NEWLINE))) in H.
  apply seq_inv in H; [|reflexivity]. destruct H as (q1 & s1 & f1 & f2 & H1 & H & ->).
  pose proof (run_valid _ _ _ _ _ _ _ H1 Hv eq_refl) as Hv1.
  apply blanks_inv in H1. destruct H1 as (b & Hb & -> & -> & -> & _).
  apply seq_inv in H; [|reflexivity]. destruct H as (q2 & s2 & f3 & f4 & H1 & H & ->).
  apply comment_inv in H1; [|exact Hv1]. destruct H1 as (t & Ht & -> & -> & -> & Hs2).
  exists b, t. apply opt_inv in H; [|reflexivity]. destruct H as [H|(Hf & -> & -> & ->)].
  - apply newline_inv in H. destruct H as (n & Hn & -> & -> & ->). exists n.
    rewrite !app_length. rewrite app_nil_r. repeat split; auto. lia.
  - exists []. assert (s2 = []).
    { destruct s2 as [|x s2]; [reflexivity|]. rewrite run_newline in Hf. destruct (strip_newline (x :: s2)) as [[? ?]|] eqn:E; [discriminate|].
      apply strip_newline_none in E. congruence. }
    subst s2. rewrite !app_length, !app_nil_r. cbn [length]. repeat split; auto. lia.
Qed.

Lemma empty_line_inv c p s q s' f : run c empty_line p s = Done q s' f ->
  exists b n, blanks b /\ newline n /\ s = b ++ n ++ s' /\ q = p + length (b ++ n) /\ f = [].
Proof.
  intros H. unfold empty_line in H. apply call_inv in H. destruct H as (f' & H & ->).
  change (snd (grammar R_empty_line)) with (Seq (Rep ws) NEWLINE) in H.
  apply seq_inv in H; [|reflexivity]. destruct H as (q1 & s1 & f1 & f2 & H1 & H & ->).
  apply blanks_inv in H1. destruct H1 as (b & Hb & -> & -> & -> & _).
  apply newline_inv in H. destruct H as (n & Hn & -> & -> & ->). exists b, n.
  rewrite app_length, Nat.add_assoc. auto 6.
Qed.

(** ** Continuations *)

Definition cont_rest (s : bytes) : option (nat * bytes) :=
  match s with
  | x :: t => if (x =? BSLASH)%N then
                match strip_newline (drop_while is_blank t) with
                | Some (n, u) => Some (1 + length (take_while is_blank t) + n, u)
                | None => None
                end
              else None
  | [] => None
  end.

Lemma run_continuation c p s : run c line_continuation p s =
  match cont_rest s with Some (n, t) => Done (p + n) t [] | None => Fail end.
Proof.
  unfold line_continuation. rewrite run_call.
  change (snd (grammar R_line_continuation)) with (Seq (Str [BSLASH]) (Seq (Rep ws) NEWLINE)).
  rewrite run_seq by reflexivity. rewrite class_str. destruct s as [|x s]; [reflexivity|]. cbn [cont_rest].
  rewrite (N.eqb_sym BSLASH x). destruct (x =? BSLASH)%N; [|reflexivity].
  rewrite run_seq by reflexivity. rewrite run_ws_star, run_newline.
  destruct (strip_newline (drop_while is_blank s)) as [[n u]|]; [|reflexivity].
  cbn [fst grammar rule_tokens app]. f_equal. lia.
Qed.

Lemma cont_rest_some s n t : cont_rest s = Some (n, t) ->
  exists c, continuation c /\ s = c ++ t /\ length c = n.
Proof.
  destruct s as [|x s]; [discriminate|]. cbn [cont_rest]. destruct (x =? BSLASH)%N eqn:E; [|discriminate].
  bool_hyps. subst x. destruct (strip_newline (drop_while is_blank s)) as [[m u]|] eqn:Es; [|discriminate].
  intros H. injection H as <- <-. apply strip_newline_some in Es. destruct Es as (w & Hw & Ed & <-).
  exists (BSLASH :: take_while is_blank s ++ w). split; [|split].
  - exists (take_while is_blank s), w. split; [reflexivity|]. split; [apply take_while_all|exact Hw].
  - cbn [app]. rewrite <- app_assoc, <- Ed, take_drop. reflexivity.
  - cbn [length]. rewrite app_length. lia.
Qed.

Lemma continuation_inv c p s q s' f : run c line_continuation p s = Done q s' f ->
  exists k, continuation k /\ s = k ++ s' /\ q = p + length k /\ f = [].
Proof.
  rewrite run_continuation. destruct (cont_rest s) as [[n t]|] eqn:E; [|discriminate].
  intros H. injection H as <- <- <-. apply cont_rest_some in E. destruct E as (k & Hk & -> & <-). exists k. auto.
Qed.

Definition continues (s : bytes) : bool := match cont_rest s with Some _ => true | None => false end.

Lemma succeeds_continuation : succeeds line_continuation continues.
Proof.
  intros c p s _. rewrite run_continuation. unfold continues.
  destruct (cont_rest s) as [[n t]|]; [left; do 3 eexists; split; reflexivity|right; auto].
Qed.

Lemma continues_bslash s : continues s = true -> exists t, s = BSLASH :: t.
Proof.
  unfold continues. destruct s as [|x s]; [discriminate|]. cbn [cont_rest].
  destruct (x =? BSLASH)%N eqn:E; [|discriminate]. bool_hyps. subst. eauto.
Qed.
