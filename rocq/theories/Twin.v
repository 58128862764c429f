(** Runs of the grammar on texts that differ only in the case of letters and in the
    choice between spaces and tabs: they end alike and leave the same tokens. *)

From Coq Require Import String.
From Verif Require Import Bytes BytesFacts Grammar Peg PegFacts SpecSyntax PegRules PegTokens PegQuoted Result Convert Sound
  SpecClear Forward2 DepthFacts.
Local Open Scope nat_scope.

(** A representative of each class of bytes that the grammar does not distinguish *)
Definition canon (x : N) : N := if N.eqb x TAB then SP else lower_byte x.
Definition twin (x y : N) : Prop := canon x = canon y.
Definition twins : bytes -> bytes -> Prop := Forall2 twin.

Lemma twins_length a b : twins a b -> length a = length b.
Proof. induction 1; cbn [length]; lia. Qed.

Lemma twins_app_inv a b t : twins (a ++ b) t -> exists a' b', t = a' ++ b' /\ twins a a' /\ twins b b'.
Proof. intros H. apply Forall2_app_inv_l in H. destruct H as (a' & b' & H1 & H2 & ->). exists a', b'. auto. Qed.

Lemma twins_skipn n a b : twins a b -> twins (skipn n a) (skipn n b).
Proof. intros H. revert n. induction H as [|x y a b Hx H IH]; intros [|n]; cbn [skipn]; try constructor; auto. Qed.

Lemma twins_sym a b : twins a b -> twins b a.
Proof. induction 1; constructor; [symmetry; assumption|assumption]. Qed.

(** Bytes that have no other twin *)
Definition alone (x : N) : bool := negb (is_alpha x || is_blank x).

Lemma lower_cases x : (is_upper x = true /\ lower_byte x = (x + 32)%N /\ (65 <= x <= 90)%N) \/ (is_upper x = false /\ lower_byte x = x).
Proof.
  unfold lower_byte. destruct (is_upper x) eqn:E; [left|right; auto]. split; [reflexivity|]. split; [reflexivity|].
  unfold is_upper in E. apply in_range_spec in E. exact E.
Qed.

Lemma canon_cases x : (canon x = SP /\ is_blank x = true) \/
  (exists l, canon x = l /\ (97 <= l <= 122)%N /\ (x = l \/ x = l - 32)%N /\ is_alpha x = true) \/
  (canon x = x /\ alone x = true).
Proof.
  unfold canon, alone. destruct (N.eqb x TAB) eqn:Et.
  { apply N.eqb_eq in Et. subst x. left. split; reflexivity. }
  destruct (N.eqb x SP) eqn:Es.
  { apply N.eqb_eq in Es. subst x. left. split; reflexivity. }
  right. assert (Eb : is_blank x = false) by (unfold is_blank; rewrite Et, Es; reflexivity).
  destruct (lower_cases x) as [(E1 & E2 & E3)|[E1 E2]].
  - left. exists (x + 32)%N. split; [exact E2|]. split; [lia|]. split; [right; lia|]. unfold is_alpha. rewrite E1. apply orb_true_r.
  - unfold is_alpha. rewrite E1, E2, orb_false_r, Eb. destruct (is_lower x) eqn:El.
    + left. exists x. apply in_range_spec in El. auto.
    + right. auto.
Qed.

Lemma twin_cases x y : twin x y ->
  x = y \/ (is_blank x = true /\ is_blank y = true) \/ (is_alpha x = true /\ is_alpha y = true /\ lower_byte x = lower_byte y).
Proof.
  unfold twin. intros E. destruct (canon_cases x) as [(E1 & E2)|[(l & E1 & E2 & E3 & E4)|(E1 & E2)]];
    destruct (canon_cases y) as [(F1 & F2)|[(m & F1 & F2 & F3 & F4)|(F1 & F2)]]; pose proof E as E0; rewrite E1, F1 in E.
  - auto.
  - change SP with 32%N in E. lia.
  - rewrite <- E in F2. discriminate.
  - change SP with 32%N in E. lia.
  - right; right. split; [exact E4|]. split; [exact F4|].
    assert (Hx : canon x = lower_byte x). { unfold canon. destruct (N.eqb_spec x TAB) as [->|]; [discriminate|reflexivity]. }
    assert (Hy : canon y = lower_byte y). { unfold canon. destruct (N.eqb_spec y TAB) as [->|]; [discriminate|reflexivity]. }
    rewrite Hx, Hy in E0. exact E0.
  - exfalso. unfold alone, is_alpha in F2.
    assert (K : is_lower y = true) by (unfold is_lower; apply in_range_spec; lia). rewrite K in F2. discriminate.
  - rewrite E in E2. discriminate.
  - exfalso. unfold alone, is_alpha in E2.
    assert (K : is_lower x = true) by (unfold is_lower; apply in_range_spec; lia). rewrite K in E2. discriminate.
  - auto.
Qed.

Lemma twin_alone c x y : alone c = true -> twin x y -> N.eqb c x = N.eqb c y.
Proof.
  intros Hc H. assert (K : forall z, is_alpha z || is_blank z = true -> N.eqb c z = false).
  { intros z Hz. destruct (N.eqb_spec c z) as [e|]; [|reflexivity]. subst c. unfold alone in Hc. rewrite Hz in Hc. discriminate. }
  apply twin_cases in H. destruct H as [->|[[H1 H2]|(H1 & H2 & _)]]; [reflexivity| |].
  - rewrite !K; [reflexivity|rewrite H2; apply orb_true_r|rewrite H1; apply orb_true_r].
  - rewrite !K; [reflexivity|rewrite H2; reflexivity|rewrite H1; reflexivity].
Qed.

Lemma twin_ascii x y : twin x y -> x = y \/ (x < 128 /\ y < 128)%N.
Proof.
  assert (Ka : forall z, is_alpha z = true -> (z < 128)%N).
  { intros z E. unfold is_alpha in E. apply orb_true_iff in E. destruct E as [E|E]; apply in_range_spec in E; lia. }
  assert (Kb : forall z, is_blank z = true -> (z < 128)%N).
  { intros z E. unfold is_blank in E. apply orb_true_iff in E. destruct E as [E|E]; apply N.eqb_eq in E; subst z; reflexivity. }
  intros H. apply twin_cases in H. destruct H as [->|[[H1 H2]|(H1 & H2 & _)]]; auto.
Qed.

Lemma twin_width x y : twin x y -> utf8_width x = utf8_width y.
Proof.
  intros H. apply twin_ascii in H. destruct H as [->|[H1 H2]]; [reflexivity|]. unfold utf8_width.
  apply N.ltb_lt in H1, H2. rewrite H1, H2. reflexivity.
Qed.

(** Classes that do not tell twins apart *)
Definition twin_class (P : N -> bool) : Prop := forall x y, twin x y -> P x = P y.

Lemma alpha_twin : twin_class is_alpha.
Proof.
  intros x y H. apply twin_cases in H. destruct H as [->|[[H1 H2]|(H1 & H2 & _)]]; [reflexivity| |congruence].
  assert (K : forall z, is_blank z = true -> is_alpha z = false).
  { intros z E. unfold is_blank in E. apply orb_true_iff in E. destruct E as [E|E]; apply N.eqb_eq in E; subst z; reflexivity. }
  rewrite !K by assumption. reflexivity.
Qed.

Lemma blank_twin : twin_class is_blank.
Proof.
  intros x y H. apply twin_cases in H. destruct H as [->|[[H1 H2]|(H1 & H2 & _)]]; [reflexivity|congruence|].
  assert (K : forall z, is_alpha z = true -> is_blank z = false).
  { intros z E. apply alnum_not_blank. unfold is_alnum. rewrite E. reflexivity. }
  rewrite !K by assumption. reflexivity.
Qed.

Lemma digit_twin : twin_class is_digit.
Proof.
  intros x y H. apply twin_cases in H. destruct H as [->|[[H1 H2]|(H1 & H2 & _)]]; [reflexivity| |].
  - assert (K : forall z, is_blank z = true -> is_digit z = false).
    { intros z E. unfold is_blank in E. apply orb_true_iff in E. destruct E as [E|E]; apply N.eqb_eq in E; subst z; reflexivity. }
    rewrite !K by assumption. reflexivity.
  - assert (K : forall z, is_alpha z = true -> is_digit z = false).
    { intros z E. destruct (is_digit z) eqn:F; [|reflexivity]. exfalso. unfold is_alpha in E. apply in_range_spec in F.
      apply orb_true_iff in E. destruct E as [E|E]; apply in_range_spec in E; lia. }
    rewrite !K by assumption. reflexivity.
Qed.

Lemma alnum_twin : twin_class is_alnum.
Proof. intros x y H. unfold is_alnum. rewrite (alpha_twin x y H), (digit_twin x y H). reflexivity. Qed.

(** ** Which expressions do not tell twins apart *)

Definition expr_dec (a b : expr) : {a = b} + {a <> b}.
Proof. decide equality; try apply N.eq_dec; try apply rule_eq_dec; apply list_eq_dec, N.eq_dec. Defined.

Definition letter_class (e : expr) : bool :=
  if expr_dec e ASCII_ALPHA then true else if expr_dec e ASCII_ALPHANUMERIC then true else false.

Definition case_rule (r : rule) : bool :=
  match r with R_inner | R_single_quoted_inner | R_escape | R_unicode => true | _ => false end.

Fixpoint blind (e : expr) : bool :=
  match e with
  | Str pat => forallb alone pat
  | Insens pat => forallb is_alpha pat
  | Range lo hi => false
  | AnyChar | Soi | EndOfInput => true
  | Call r => negb (case_rule r)
  | NegPred a | Opt a | Rep a => blind a
  | Seq a b => blind a && blind b
  | Alt a b => letter_class e || blind a && blind b
  end.

(** Rules known as a whole *)
Definition whole_rule (r : rule) : bool :=
  match r with R_ws | R_double_quoted_string | R_single_quoted_string => true | _ => false end.

Lemma blind_rule r : case_rule r = false -> whole_rule r = false -> blind (snd (grammar r)) = true.
Proof. destruct r; try discriminate; intros _ _; vm_compute; reflexivity. Qed.

Definition ends_alike (c : ctx) (e : expr) (p : nat) (t : bytes) (r : res) : Prop :=
  match r with
  | Done q s1 f => exists t1, run c e p t = Done q t1 f /\ twins s1 t1
  | Fail => run c e p t = Fail
  | OutOfFuel => True
  end.

Lemma twins_str pat s t : forallb alone pat = true -> twins s t ->
  match match_str pat s with
  | Some s1 => exists t1, match_str pat t = Some t1 /\ twins s1 t1
  | None => match_str pat t = None
  end.
Proof.
  intros Hp H. revert s t H. induction pat as [|c pat IH]; intros s t H; cbn [match_str].
  - exists t. auto.
  - cbn [forallb] in Hp. apply andb_true_iff in Hp. destruct Hp as [Hc Hp]. destruct H as [|x y s t Hx H]; [reflexivity|].
    rewrite <- (twin_alone c x y Hc Hx). destruct (N.eqb c x); [|reflexivity]. apply (IH Hp). exact H.
Qed.

Lemma twin_icase c x y : is_alpha c = true -> twin x y -> eq_icase c x = eq_icase c y.
Proof.
  intros Hc H. unfold eq_icase. apply twin_cases in H. destruct H as [->|[[H1 H2]|(H1 & H2 & ->)]]; [reflexivity| |reflexivity].
  assert (K : forall z, is_blank z = true -> (lower_byte c =? lower_byte z)%N = false).
  { intros z E. assert (Ez : lower_byte z = z /\ (z < 65)%N).
    { unfold is_blank in E. apply orb_true_iff in E. destruct E as [E|E]; apply N.eqb_eq in E; subst z; split; reflexivity. }
    destruct Ez as [-> Hz]. apply N.eqb_neq. destruct (lower_cases c) as [(_ & -> & K)|[_ ->]]; [lia|].
    unfold is_alpha in Hc. apply orb_true_iff in Hc. destruct Hc as [E1|E1]; apply in_range_spec in E1; lia. }
  rewrite !K by assumption. reflexivity.
Qed.

Lemma twins_insens pat s t : forallb is_alpha pat = true -> twins s t ->
  match match_insens pat s with
  | Some s1 => exists t1, match_insens pat t = Some t1 /\ twins s1 t1
  | None => match_insens pat t = None
  end.
Proof.
  intros Hp H. revert s t H. induction pat as [|c pat IH]; intros s t H; cbn [match_insens].
  - exists t. auto.
  - cbn [forallb] in Hp. apply andb_true_iff in Hp. destruct Hp as [Hc Hp]. destruct H as [|x y s t Hx H]; [reflexivity|].
    rewrite <- (twin_icase c x y Hc Hx). destruct (eq_icase c x); [|reflexivity]. apply (IH Hp). exact H.
Qed.

Lemma class_alike e P c p s t : matches_class e P -> twin_class P -> twins s t -> ends_alike c e p t (run c e p s).
Proof.
  intros He HP H. rewrite He. destruct H as [|x y s t Hx H]; cbn [ends_alike]; [rewrite He; reflexivity|].
  rewrite (HP x y Hx). destruct (P y) eqn:E; cbn [ends_alike]; rewrite He, E; [exists t; auto|reflexivity].
Qed.

(** ** Quoted strings *)

Lemma quoted_body_twins q w v : q = DQUOTE \/ q = SQUOTE -> quoted_body q w -> twins w v -> quoted_body q v.
Proof.
  intros Hq Hw. assert (Hqa : alone q = true) by (destruct Hq; subst; reflexivity).
  assert (K : forall a x y, alone a = true -> twin x y -> x <> a -> y <> a).
  { intros a x y Ha Hx Hn ->. pose proof (twin_alone a x a Ha Hx) as E. rewrite N.eqb_refl in E. apply N.eqb_eq in E. congruence. }
  revert v. induction Hw as [|x w H1 H2 H3 H4 Hw IH|x w H1 H2 Hw IH]; intros v H.
  - inversion H. constructor.
  - inversion H as [|? y ? v' Hx Hv]; subst. apply qb_plain; [apply (K _ x); auto..|apply IH; exact Hv].
  - inversion H as [|? b ? v1 Hb Hv1]; subst. inversion Hv1 as [|? y ? v' Hx Hv]; subst.
    assert (Eb : b = BSLASH). { pose proof (twin_alone BSLASH BSLASH b eq_refl Hb) as E. rewrite N.eqb_refl in E. symmetry in E. apply N.eqb_eq in E. auto. }
    subst b. apply qb_escape; [apply (K _ x); auto..|apply IH; exact Hv].
Qed.

(** Inside an atomic rule, rules that are not compound leave no tokens. *)
Fixpoint quiet (e : expr) : bool :=
  match e with
  | Call r => match r with R_inner | R_single_quoted_inner | R_escape | R_unicode => true | _ => false end
  | NegPred a | Opt a | Rep a => quiet a
  | Seq a b | Alt a b => quiet a && quiet b
  | _ => true
  end.
Lemma quiet_tokens n : forall c e p s q s' f, quiet e = true -> atom c = true -> eval n c e p s = Done q s' f -> f = [].
Proof.
  induction n as [|n IH]; intros c e p s q s' f He Hc H; [discriminate|]. rewrite eval_S in H.
  destruct e as [pat|pat|lo hi| | | |r|e1|e1 e2|e1 e2|e1|e1]; cbn [quiet] in He.
  - destruct (match_str pat s); [|discriminate]. congruence.
  - destruct (match_insens pat s); [|discriminate]. congruence.
  - destruct s as [|x s]; [discriminate|]. destruct (in_range lo hi x); [|discriminate]. congruence.
  - destruct s as [|x s]; [discriminate|]. congruence.
  - destruct (p =? 0); [|discriminate]. congruence.
  - destruct s; [|discriminate]. congruence.
  - destruct (eval n _ (snd (grammar r)) p s) as [q1 s1 f1| |] eqn:E; try discriminate. injection H as <- <- <-.
    assert (Kb : quiet (snd (grammar r)) = true /\ fst (grammar r) = AtomicRule) by (destruct r; try discriminate; split; reflexivity).
    destruct Kb as [Kb Kk]. rewrite Kk in *. assert (f1 = []) by (eapply IH; [exact Kb| |exact E]; reflexivity). subst f1.
    cbn [rule_tokens rule_outer]. unfold wrap, emits. rewrite Hc, andb_false_r. reflexivity.
  - destruct (eval n _ e1 p s); try discriminate; congruence.
  - apply andb_true_iff in He. destruct He as [He1 He2].
    destruct (eval n c e1 p s) as [q1 s1 f1| |] eqn:E; try discriminate.
    destruct (eval n c e2 q1 s1) as [q2 s2 f2| |] eqn:E2; try discriminate. injection H as <- <- <-.
    rewrite (IH _ _ _ _ _ _ _ He1 Hc E), (IH _ _ _ _ _ _ _ He2 Hc E2). reflexivity.
  - apply andb_true_iff in He. destruct He as [He1 He2].
    destruct (eval n c e1 p s) as [q1 s1 f1| |] eqn:E; try discriminate.
    + injection H as <- <- <-. apply (IH _ _ _ _ _ _ _ He1 Hc E).
    + apply (IH _ _ _ _ _ _ _ He2 Hc H).
  - destruct (eval n c e1 p s) as [q1 s1 f1| |] eqn:E; try discriminate; [|congruence].
    injection H as <- <- <-. apply (IH _ _ _ _ _ _ _ He Hc E).
  - destruct (eval n c e1 p s) as [q1 s1 f1| |] eqn:E; try discriminate; [|congruence].
    destruct (eval n c (Rep e1) q1 s1) as [q2 s2 f2| |] eqn:E2; try discriminate. injection H as <- <- <-.
    rewrite (IH _ _ _ _ _ _ _ He Hc E), (IH _ (Rep e1) _ _ _ _ _ He Hc E2). reflexivity.
Qed.

Lemma quoted_tokens quo c p s q s' f : quo = DQUOTE \/ quo = SQUOTE -> run c (Call (quoted_rule quo)) p s = Done q s' f ->
  f = wrap c (quoted_rule quo) p q [].
Proof.
  intros Hq H. apply call_inv in H. destruct H as (f' & H & ->). rewrite (quoted_rule_body quo Hq) in *. cbn [fst snd] in *.
  assert (f' = []) by (apply quiet_tokens in H; [exact H|destruct Hq; subst; reflexivity|reflexivity]). subst f'. reflexivity.
Qed.

Lemma quoted_done quo c p s t q s1 f : quo = DQUOTE \/ quo = SQUOTE -> valid_utf8 s = true -> valid_utf8 t = true -> twins s t ->
  run c (Call (quoted_rule quo)) p s = Done q s1 f -> exists t1, run c (Call (quoted_rule quo)) p t = Done q t1 f /\ twins s1 t1.
Proof.
  intros Hq Hvs Hvt Ht H. rewrite (quoted_tokens _ _ _ _ _ _ _ Hq H).
  assert (Hb : begins_with quo s).
  { destruct s as [|x s]; [|destruct (N.eq_dec x quo) as [->|K]; [exists s; reflexivity|]];
      rewrite quoted_rule_fails in H by (try exact Hq; intros [u E]; congruence); discriminate. }
  apply quoted_rule_inv in H; [|exact Hq|exact Hvs]. destruct H as (w & -> & -> & (q' & body & Hq' & -> & Hbody & _)).
  assert (q' = quo) by (destruct Hb as [u E]; cbn [app] in E; congruence). subst q'.
  apply twins_app_inv in Ht. destruct Ht as (w' & t1 & -> & Hw & Ht1). cbn [app] in Hw.
  inversion Hw as [|? a ? w1 Ha Hw1]; subst. apply twins_app_inv in Hw1. destruct Hw1 as (body' & e & -> & Hb' & He).
  inversion He as [|? z ? e1 Hz He1]; subst. inversion He1; subst.
  assert (K : forall y, twin quo y -> y = quo).
  { intros y Hy. pose proof (twin_alone quo quo y ltac:(destruct Hq; subst; reflexivity) Hy) as E. rewrite N.eqb_refl in E. symmetry in E. apply N.eqb_eq in E. auto. }
  rewrite (K a Ha), (K z Hz) in *. pose proof (quoted_body_twins _ _ _ Hq Hbody Hb') as Hq2.
  destruct (quoted_rule_fwd quo body' c p t1 Hq Hq2 Hvt) as (f2 & E). exists t1. split; [|exact Ht1].
  assert (El : length (quo :: body' ++ [quo]) = length (quo :: body ++ [quo])).
  { cbn [length]. rewrite !app_length, (twins_length _ _ Hb'). reflexivity. }
  rewrite El in E. rewrite E. rewrite (quoted_tokens _ _ _ _ _ _ _ Hq E). reflexivity.
Qed.

Lemma quoted_alike quo c p s t : quo = DQUOTE \/ quo = SQUOTE -> valid_utf8 s = true -> valid_utf8 t = true -> twins s t ->
  ends_alike c (Call (quoted_rule quo)) p t (run c (Call (quoted_rule quo)) p s).
Proof.
  intros Hq Hvs Hvt Ht. destruct (run c (Call (quoted_rule quo)) p s) as [q s1 f| |] eqn:E; cbn [ends_alike].
  - apply (quoted_done quo c p s t q s1 f); assumption.
  - destruct (run c (Call (quoted_rule quo)) p t) as [q t1 f| |] eqn:E2; [|reflexivity|].
    + exfalso. apply twins_sym in Ht. destruct (quoted_done quo c p t s q t1 f Hq Hvt Hvs Ht E2) as (s1 & E3 & _). congruence.
    + exfalso. apply (run_total c (Call (quoted_rule quo)) p t); [apply good_call|exact E2].
  - exact I.
Qed.

(** ** Runs *)

Lemma any_twins x s t : twins (x :: s) t -> exists y t', t = y :: t' /\ utf8_width x = utf8_width y /\
  length (firstn (utf8_width x) (x :: s)) = length (firstn (utf8_width y) t) /\
  twins (skipn (utf8_width x) (x :: s)) (skipn (utf8_width y) t).
Proof.
  intros H. inversion H as [|? y ? t' Hx Ht]; subst. exists y, t'. split; [reflexivity|]. rewrite (twin_width x y Hx).
  split; [reflexivity|]. split; [|apply twins_skipn; exact H]. rewrite !firstn_length, (twins_length _ _ H). reflexivity.
Qed.

Lemma fail_run n c e p s : good e = true -> eval n c e p s = Fail -> run c e p s = Fail.
Proof.
  intros Hg H. rewrite <- (eval_run (Nat.max n (need e s)) c e p s Hg) by lia. rewrite <- H. apply eval_mono; [lia|].
  rewrite H. discriminate.
Qed.

Lemma known_alike n c e p s t : good e = true -> ends_alike c e p t (run c e p s) -> ends_alike c e p t (eval n c e p s).
Proof.
  intros Hg H. destruct (eval n c e p s) as [q s1 f| |] eqn:E; [| |exact I].
  - rewrite (done_run _ _ _ _ _ _ _ _ Hg E) in H. exact H.
  - rewrite (fail_run _ _ _ _ _ Hg E) in H. exact H.
Qed.

Theorem eval_twins n : forall c e p s t, good e = true -> ascii_expr e = true -> blind e = true ->
  valid_utf8 s = true -> valid_utf8 t = true -> twins s t -> ends_alike c e p t (eval n c e p s).
Proof.
  induction n as [|n IH]; intros c e p s t Hg Ha Hb Hs Ht H; [exact I|].
  destruct e as [pat|pat|lo hi| | | |r|e1|e1 e2|e1 e2|e1|e1]; cbn [blind ascii_expr] in Hb, Ha;
    try (pose proof (good_sub _ Hg) as Hg'; cbn beta iota in Hg').
  - rewrite eval_S. pose proof (twins_str pat s t Hb H) as K. destruct (match_str pat s) as [s1|]; cbn [ends_alike]; rewrite run_str.
    + destruct K as (t1 & -> & K). exists t1. auto.
    + rewrite K. reflexivity.
  - rewrite eval_S. pose proof (twins_insens pat s t Hb H) as K. destruct (match_insens pat s) as [s1|]; cbn [ends_alike]; rewrite run_insens.
    + destruct K as (t1 & -> & K). exists t1. auto.
    + rewrite K. reflexivity.
  - discriminate.
  - rewrite eval_S. destruct s as [|x s]; cbn [ends_alike]; rewrite run_any.
    + inversion H. reflexivity.
    + destruct (any_twins x s t H) as (y & t' & -> & _ & -> & K). eexists. split; [reflexivity|exact K].
  - rewrite eval_S. destruct (p =? 0) eqn:E; cbn [ends_alike]; rewrite run_soi, E; [exists t; auto|reflexivity].
  - rewrite eval_S. destruct H as [|x y s t Hx H]; cbn [ends_alike]; rewrite run_eoi; [exists []; split; [reflexivity|constructor]|reflexivity].
  - apply negb_true_iff in Hb. destruct (whole_rule r) eqn:Hw.
    + apply known_alike; [apply good_call|]. destruct r; try discriminate.
      * apply (class_alike _ is_blank); [exact class_ws|exact blank_twin|exact H].
      * apply (quoted_alike DQUOTE); auto.
      * apply (quoted_alike SQUOTE); auto.
    + rewrite eval_S. pose proof (IH (rule_inner (fst (grammar r)) c) (snd (grammar r)) p s t (good_rule r) (ascii_rule r) (blind_rule r Hb Hw) Hs Ht H) as K.
      destruct (eval n _ (snd (grammar r)) p s) as [q s1 f| |]; cbn [ends_alike] in *; [| |exact I]; rewrite run_call.
      * destruct K as (t1 & -> & K). exists t1. auto.
      * rewrite K. reflexivity.
  - rewrite eval_S. pose proof (IH {| atom := atom c; look := true |} e1 p s t Hg' Ha Hb Hs Ht H) as K.
    destruct (eval n _ e1 p s) as [q s1 f| |]; cbn [ends_alike] in *; [| |exact I]; rewrite run_not by exact Hg.
    + destruct K as (t1 & -> & _). reflexivity.
    + rewrite K. exists t. auto.
  - apply andb_true_iff in Hb, Ha. destruct Hb as [Hb1 Hb2]. destruct Ha as [Ha1 Ha2]. destruct Hg' as [Hg1 Hg2].
    rewrite eval_S. pose proof (IH c e1 p s t Hg1 Ha1 Hb1 Hs Ht H) as K.
    destruct (eval n c e1 p s) as [q s1 f| |] eqn:E; cbn [ends_alike] in K; [| |exact I].
    + destruct K as (t1 & E1 & K). pose proof (eval_valid _ _ _ _ _ _ _ _ Ha1 Hs E) as Hs1. pose proof (run_valid _ _ _ _ _ _ _ E1 Ht Ha1) as Ht1.
      pose proof (IH c e2 q s1 t1 Hg2 Ha2 Hb2 Hs1 Ht1 K) as K2.
      destruct (eval n c e2 q s1) as [q2 s2 f2| |]; cbn [ends_alike] in *; [| |exact I]; rewrite run_seq by exact Hg; rewrite E1.
      * destruct K2 as (t2 & -> & K2). exists t2. auto.
      * rewrite K2. reflexivity.
    + cbn [ends_alike]. rewrite run_seq by exact Hg. rewrite K. reflexivity.
  - destruct (letter_class (Alt e1 e2)) eqn:El.
    + apply known_alike; [exact Hg|]. unfold letter_class in El. destruct (expr_dec (Alt e1 e2) ASCII_ALPHA) as [->|_].
      * apply (class_alike _ is_alpha); [exact class_alpha|exact alpha_twin|exact H].
      * destruct (expr_dec (Alt e1 e2) ASCII_ALPHANUMERIC) as [->|_]; [|discriminate].
        apply (class_alike _ is_alnum); [exact class_alnum|exact alnum_twin|exact H].
    + cbn [orb] in Hb. apply andb_true_iff in Hb, Ha. destruct Hb as [Hb1 Hb2]. destruct Ha as [Ha1 Ha2]. destruct Hg' as [Hg1 Hg2].
      rewrite eval_S. pose proof (IH c e1 p s t Hg1 Ha1 Hb1 Hs Ht H) as K.
      destruct (eval n c e1 p s) as [q s1 f| |] eqn:E; cbn [ends_alike] in K; [| |exact I].
      * destruct K as (t1 & E1 & K). cbn [ends_alike]. exists t1. rewrite run_alt by exact Hg. rewrite E1. auto.
      * pose proof (IH c e2 p s t Hg2 Ha2 Hb2 Hs Ht H) as K2.
        destruct (eval n c e2 p s) as [q2 s2 f2| |]; cbn [ends_alike] in *; [| |exact I]; rewrite run_alt by exact Hg; rewrite K; exact K2.
  - rewrite eval_S. pose proof (IH c e1 p s t Hg' Ha Hb Hs Ht H) as K.
    destruct (eval n c e1 p s) as [q s1 f| |]; cbn [ends_alike] in *; [| |exact I]; rewrite run_opt by exact Hg.
    + destruct K as (t1 & -> & K). exists t1. auto.
    + rewrite K. exists t. auto.
  - destruct Hg' as [Hg1 _]. rewrite eval_S. pose proof (IH c e1 p s t Hg1 Ha Hb Hs Ht H) as K.
    destruct (eval n c e1 p s) as [q s1 f| |] eqn:E; cbn [ends_alike] in K; [| |exact I].
    + destruct K as (t1 & E1 & K). pose proof (eval_valid _ _ _ _ _ _ _ _ Ha Hs E) as Hs1. pose proof (run_valid _ _ _ _ _ _ _ E1 Ht Ha) as Ht1.
      pose proof (IH c (Rep e1) q s1 t1 Hg Ha Hb Hs1 Ht1 K) as K2.
      destruct (eval n c (Rep e1) q s1) as [q2 s2 f2| |]; cbn [ends_alike] in *; [| |exact I]; rewrite run_rep by exact Hg; rewrite E1.
      * destruct K2 as (t2 & -> & K2). exists t2. auto.
      * rewrite K2. reflexivity.
    + cbn [ends_alike]. rewrite run_rep by exact Hg. rewrite K. exists t. auto.
Qed.

Theorem run_twins c e p s t : good e = true -> ascii_expr e = true -> blind e = true ->
  valid_utf8 s = true -> valid_utf8 t = true -> twins s t -> ends_alike c e p t (run c e p s).
Proof. intros. apply eval_twins; assumption. Qed.
