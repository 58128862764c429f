(** The evaluator: more fuel never changes a result, and the fuel that
    [pest_parse] gives is enough; [run] is the evaluator with enough fuel, and has
    the equations one expects. *)

From Verif Require Import Bytes BytesFacts Grammar Peg.
Local Open Scope nat_scope.

Lemma eval_S n c e p s : eval (S n) c e p s =
  match e with
  | Str pat =>
    match match_str pat s with
    | Some s' => Done (p + length pat) s' []
    | None => Fail
    end
  | Insens pat =>
    match match_insens pat s with
    | Some s' => Done (p + length pat) s' []
    | None => Fail
    end
  | Range lo hi =>
    match s with
    | x :: s' => if in_range lo hi x then Done (p + 1) s' [] else Fail
    | [] => Fail
    end
  | AnyChar =>
    match s with
    | x :: _ =>
      Done (p + length (firstn (utf8_width x) s)) (skipn (utf8_width x) s) []
    | [] => Fail
    end
  | Soi => if p =? 0 then Done p s [] else Fail
  | EndOfInput => match s with [] => Done p s [] | _ => Fail end
  | Call r =>
    match eval n (rule_inner (fst (grammar r)) c) (snd (grammar r)) p s with
    | Done q s' f => Done q s' (rule_tokens (fst (grammar r)) c r p q f)
    | x => x
    end
  | NegPred e1 =>
    match eval n {| atom := atom c; look := true |} e1 p s with
    | Done _ _ _ => Fail
    | Fail => Done p s []
    | OutOfFuel => OutOfFuel
    end
  | Seq e1 e2 =>
    match eval n c e1 p s with
    | Done q s1 f1 =>
      match eval n c e2 q s1 with
      | Done q2 s2 f2 => Done q2 s2 (f1 ++ f2)
      | x => x
      end
    | x => x
    end
  | Alt e1 e2 =>
    match eval n c e1 p s with
    | Fail => eval n c e2 p s
    | x => x
    end
  | Opt e1 =>
    match eval n c e1 p s with
    | Fail => Done p s []
    | x => x
    end
  | Rep e1 =>
    match eval n c e1 p s with
    | Fail => Done p s []
    | OutOfFuel => OutOfFuel
    | Done q s1 f1 =>
      match eval n c (Rep e1) q s1 with
      | Done q2 s2 f2 => Done q2 s2 (f1 ++ f2)
      | x => x
      end
    end
  end.
Proof. destruct e; try reflexivity. cbn [eval]. destruct (grammar r) as [k body]. reflexivity. Qed.

(** ** More fuel *)

Lemma eval_mono n : forall m c e p s, n <= m -> eval n c e p s <> OutOfFuel ->
  eval m c e p s = eval n c e p s.
Proof.
  induction n as [|n IH]; intros m c e p s Hm H; [exfalso; apply H; reflexivity|].
  destruct m as [|m]; [lia|]. rewrite !eval_S in *.
  assert (Hnm : n <= m) by lia.
  destruct e as [pat|pat|lo hi| | | |r|e1|e1 e2|e1 e2|e1|e1]; try reflexivity.
  - destruct (eval n _ (snd (grammar r)) p s) eqn:E; try (exfalso; apply H; reflexivity);
      rewrite (IH m _ _ _ _ Hnm), E by congruence; reflexivity.
  - destruct (eval n _ e1 p s) eqn:E; try (exfalso; apply H; reflexivity);
      rewrite (IH m _ _ _ _ Hnm), E by congruence; reflexivity.
  - destruct (eval n c e1 p s) as [q s1 f1| |] eqn:E; try (exfalso; apply H; reflexivity);
      rewrite (IH m _ _ _ _ Hnm), E by congruence; [|reflexivity].
    destruct (eval n c e2 q s1) eqn:E2; try (exfalso; apply H; reflexivity);
      rewrite (IH m _ _ _ _ Hnm), E2 by congruence; reflexivity.
  - destruct (eval n c e1 p s) as [q s1 f1| |] eqn:E; try (exfalso; apply H; reflexivity);
      rewrite (IH m _ _ _ _ Hnm), E by congruence; [reflexivity|].
    apply IH; assumption.
  - destruct (eval n c e1 p s) as [q s1 f1| |] eqn:E; try (exfalso; apply H; reflexivity);
      rewrite (IH m _ _ _ _ Hnm), E by congruence; reflexivity.
  - destruct (eval n c e1 p s) as [q s1 f1| |] eqn:E; try (exfalso; apply H; reflexivity);
      rewrite (IH m _ _ _ _ Hnm), E by congruence; [|reflexivity].
    destruct (eval n c (Rep e1) q s1) eqn:E2; try (exfalso; apply H; reflexivity);
      rewrite (IH m _ _ _ _ Hnm), E2 by congruence; reflexivity.
Qed.

(** ** What is consumed *)

Lemma match_str_app pat s s' : match_str pat s = Some s' <-> s = pat ++ s'.
Proof.
  revert s; induction pat as [|x pat IH]; intros s; cbn [match_str app].
  - split; intros H; [injection H as ->; reflexivity|subst; reflexivity].
  - destruct s as [|y s]; [split; discriminate|].
    destruct (x =? y)%N eqn:E; bool_hyps.
    + subst y. rewrite IH. split; intros H; [subst; reflexivity|injection H as ->; reflexivity].
    + split; [discriminate|]. intros H. injection H as -> _. contradiction.
Qed.

Lemma match_insens_app pat s s' : match_insens pat s = Some s' <->
  exists w, s = w ++ s' /\ to_lower w = to_lower pat.
Proof.
  revert s; induction pat as [|x pat IH]; intros s; cbn [match_insens to_lower map].
  - split; intros H.
    + injection H as ->. exists []. auto.
    + destruct H as (w & -> & H). destruct w; [reflexivity|discriminate].
  - destruct s as [|y s].
    + split; [discriminate|]. intros (w & E & H). destruct w; discriminate.
    + unfold eq_icase. destruct (lower_byte x =? lower_byte y)%N eqn:E; bool_hyps.
      * rewrite IH. split.
        -- intros (w & -> & Hw). exists (y :: w). split; [reflexivity|]. cbn [to_lower map]. rewrite E. f_equal. exact Hw.
        -- intros (w & Ew & Hw). destruct w as [|z w]; [discriminate|].
           cbn [to_lower map] in Hw. injection Hw as Hz Hw. cbn [app] in Ew. injection Ew as -> ->. exists w. auto.
      * split; [discriminate|]. intros (w & Ew & Hw). destruct w as [|z w]; [discriminate|].
        cbn [to_lower map] in Hw. injection Hw as Hz Hw. cbn [app] in Ew. injection Ew as -> ->. congruence.
Qed.

Lemma eval_consumes n : forall c e p s q s' f, eval n c e p s = Done q s' f ->
  exists w, s = w ++ s' /\ q = p + length w.
Proof.
  induction n as [|n IH]; intros c e p s q s' f H; [discriminate|]. rewrite eval_S in H.
  destruct e as [pat|pat|lo hi| | | |r|e1|e1 e2|e1 e2|e1|e1].
  - destruct (match_str pat s) eqn:E; [|discriminate]. injection H as <- <- <-.
    apply match_str_app in E. exists pat. auto.
  - destruct (match_insens pat s) eqn:E; [|discriminate]. injection H as <- <- <-.
    apply match_insens_app in E. destruct E as (w & -> & Hw). exists w. split; [reflexivity|].
    f_equal. apply (f_equal (@length N)) in Hw. unfold to_lower in Hw. rewrite !map_length in Hw. lia.
  - destruct s as [|x s]; [discriminate|]. destruct (in_range lo hi x); [|discriminate]. injection H as <- <- <-.
    exists [x]. auto.
  - destruct s as [|x s]; [discriminate|]. injection H as <- <- <-.
    exists (firstn (utf8_width x) (x :: s)). rewrite firstn_skipn. auto.
  - destruct (p =? 0); [|discriminate]. injection H as <- <- <-. exists []. cbn. auto.
  - destruct s; [|discriminate]. injection H as <- <- <-. exists []. cbn. auto.
  - destruct (eval n _ (snd (grammar r)) p s) as [q1 s1 f1| |] eqn:E; try discriminate. injection H as <- <- <-.
    apply (IH _ _ _ _ _ _ _ E).
  - destruct (eval n _ e1 p s) eqn:E; try discriminate. injection H as <- <- <-. exists []. cbn. auto.
  - destruct (eval n c e1 p s) as [q1 s1 f1| |] eqn:E; try discriminate.
    destruct (eval n c e2 q1 s1) as [q2 s2 f2| |] eqn:E2; try discriminate. injection H as <- <- <-.
    destruct (IH _ _ _ _ _ _ _ E) as (w1 & -> & ->). destruct (IH _ _ _ _ _ _ _ E2) as (w2 & -> & ->).
    exists (w1 ++ w2). rewrite app_assoc, app_length. split; [reflexivity|lia].
  - destruct (eval n c e1 p s) as [q1 s1 f1| |] eqn:E; try discriminate.
    + injection H as <- <- <-. apply (IH _ _ _ _ _ _ _ E).
    + apply (IH _ _ _ _ _ _ _ H).
  - destruct (eval n c e1 p s) as [q1 s1 f1| |] eqn:E; try discriminate.
    + injection H as <- <- <-. apply (IH _ _ _ _ _ _ _ E).
    + injection H as <- <- <-. exists []. cbn. auto.
  - destruct (eval n c e1 p s) as [q1 s1 f1| |] eqn:E; try discriminate.
    + destruct (eval n c (Rep e1) q1 s1) as [q2 s2 f2| |] eqn:E2; try discriminate. injection H as <- <- <-.
      destruct (IH _ _ _ _ _ _ _ E) as (w1 & -> & ->). destruct (IH _ _ _ _ _ _ _ E2) as (w2 & -> & ->).
      exists (w1 ++ w2). rewrite app_assoc, app_length. split; [reflexivity|lia].
    + injection H as <- <- <-. exists []. cbn. auto.
Qed.

(** ** Which expressions may succeed without consuming anything *)

Definition nullable_rule (r : rule) : bool :=
  match r with
  | R_EOI | R_dockerfile | R_meta_step | R_inner | R_single_quoted_inner | R_arg_ws_maybe | R_any_eol => true
  | _ => false
  end.

Fixpoint nullable (e : expr) : bool :=
  match e with
  | Str s | Insens s => match s with [] => true | _ => false end
  | Range _ _ | AnyChar => false
  | Soi | EndOfInput => true
  | Call r => nullable_rule r
  | NegPred _ => true
  | Seq a b => nullable a && nullable b
  | Alt a b => nullable a || nullable b
  | Opt _ | Rep _ => true
  end.

Lemma nullable_rule_ok r : nullable (snd (grammar r)) = nullable_rule r \/ nullable_rule r = true.
Proof. destruct r; (left; reflexivity) || (right; reflexivity). Qed.

Lemma eval_strict n : forall c e p s q s' f, eval n c e p s = Done q s' f -> nullable e = false ->
  length s' < length s.
Proof.
  induction n as [|n IH]; intros c e p s q s' f H Hn; [discriminate|].
  pose proof (eval_consumes _ _ _ _ _ _ _ _ H) as (w & Hw & Hq). rewrite eval_S in H.
  destruct e as [pat|pat|lo hi| | | |r|e1|e1 e2|e1 e2|e1|e1]; cbn [nullable] in Hn; try discriminate.
  - destruct pat as [|x pat]; [discriminate|]. destruct (match_str (x :: pat) s) eqn:E; [|discriminate].
    injection H as <- <- <-. apply match_str_app in E. rewrite E, app_length. cbn [length]. lia.
  - destruct pat as [|x pat]; [discriminate|]. destruct (match_insens (x :: pat) s) eqn:E; [|discriminate].
    injection H as <- <- <-. subst s. rewrite app_length. cbn [length] in Hq. lia.
  - destruct s as [|x s]; [discriminate|]. destruct (in_range lo hi x); [|discriminate]. injection H as <- <- <-.
    cbn [length]. lia.
  - destruct s as [|x s]; [discriminate|]. injection H as <- <- <-.
    rewrite skipn_length. unfold utf8_width. cbn [length]. repeat destruct (_ <? _)%N; lia.
  - destruct (eval n _ (snd (grammar r)) p s) as [q1 s1 f1| |] eqn:E; try discriminate. injection H as <- <- <-.
    apply (IH _ _ _ _ _ _ _ E). destruct (nullable_rule_ok r) as [K|K]; congruence.
  - destruct (eval n c e1 p s) as [q1 s1 f1| |] eqn:E; try discriminate.
    destruct (eval n c e2 q1 s1) as [q2 s2 f2| |] eqn:E2; try discriminate. injection H as <- <- <-.
    destruct (eval_consumes _ _ _ _ _ _ _ _ E) as (w1 & -> & _).
    destruct (eval_consumes _ _ _ _ _ _ _ _ E2) as (w2 & -> & _).
    apply andb_false_iff in Hn. rewrite !app_length. destruct Hn as [Hn|Hn].
    + pose proof (IH _ _ _ _ _ _ _ E Hn) as K. rewrite !app_length in K. lia.
    + pose proof (IH _ _ _ _ _ _ _ E2 Hn) as K. rewrite !app_length in K. lia.
  - apply orb_false_iff in Hn. destruct Hn as [Hn1 Hn2].
    destruct (eval n c e1 p s) as [q1 s1 f1| |] eqn:E; try discriminate.
    + injection H as <- <- <-. apply (IH _ _ _ _ _ _ _ E Hn1).
    + apply (IH _ _ _ _ _ _ _ H Hn2).
Qed.

(** ** Enough fuel *)

(** Depth of calls before something is consumed. *)
Definition rule_rank (r : rule) : nat :=
  match r with
  | R_EOI => 1
  | R_dockerfile => 6
  | R_meta_step => 5
  | R_step => 4
  | R_from | R_run | R_arg | R_label | R_copy | R_entrypoint | R_cmd | R_env => 1
  | R_misc => 3
  | R_ws | R_comment | R_line_continuation | R_escape => 1
  | R_double_quoted_string | R_single_quoted_string => 1
  | R_comment_line | R_empty_line => 2
  | R_inner | R_single_quoted_inner => 2
  | R_unicode => 1
  | R_string => 2
  | R_arg_ws | R_arg_ws_maybe => 2
  | R_any_content => 2
  | R_any_breakable => 3
  | R_any_eol => 1
  | R_any_whitespace => 3
  | R_identifier_whitespace | R_any_equals => 2
  | R_string_array => 1
  | R_from_flag_name | R_from_image | R_arg_name | R_copy_flag_name | R_env_name | R_misc_instruction => 1
  | R_from_flag_value | R_copy_flag_value | R_copy_pathspec => 4
  | R_from_flag | R_copy_flag => 1
  | R_from_alias => 3
  | R_from_alias_outer => 3
  | R_arg_value | R_label_value | R_env_pair_value => 4
  | R_arg_quoted_value | R_label_quoted_value | R_label_quoted_name | R_env_pair_quoted_value => 3
  | R_label_name => 3
  | R_label_pair => 4
  | R_label_single_name => 3
  | R_label_single_quoted_name => 3
  | R_label_single => 3
  | R_run_shell | R_entrypoint_shell | R_cmd_shell | R_misc_arguments => 4
  | R_run_exec | R_entrypoint_exec | R_cmd_exec => 2
  | R_env_pair => 2
  | R_env_pairs => 3
  | R_env_single_quoted_value => 3
  | R_env_single_value => 4
  | R_env_single => 3
  end.

Fixpoint rank (e : expr) : nat :=
  match e with
  | Call r => rule_rank r
  | NegPred a | Opt a | Rep a => rank a
  | Seq a b => if nullable a then Nat.max (rank a) (rank b) else rank a
  | Alt a b => Nat.max (rank a) (rank b)
  | _ => 0
  end.

Fixpoint height (e : expr) : nat :=
  match e with
  | NegPred a | Opt a | Rep a => S (height a)
  | Seq a b | Alt a b => S (Nat.max (height a) (height b))
  | _ => 1
  end.

(** No repetition of something that may consume nothing; bounded rank and height. *)
Fixpoint good (e : expr) : bool :=
  (height e <=? 50) && (rank e <=? 8) &&
  match e with
  | NegPred a | Opt a => good a
  | Rep a => good a && negb (nullable a)
  | Seq a b | Alt a b => good a && good b
  | _ => true
  end.

Lemma good_bounds e : good e = true -> height e <= 50 /\ rank e <= 8.
Proof.
  intros H. destruct e; cbn [good] in H; apply andb_true_iff in H; destruct H as [H _];
    apply andb_true_iff in H; destruct H as [H1 H2]; apply Nat.leb_le in H1, H2; auto.
Qed.

Lemma good_rule r : good (snd (grammar r)) = true.
Proof. destruct r; vm_compute; reflexivity. Qed.

Lemma good_call r : good (Call r) = true.
Proof. destruct r; vm_compute; reflexivity. Qed.

Lemma rank_rule_ok r : rank (snd (grammar r)) < rule_rank r.
Proof. apply Nat.ltb_lt. destruct r; vm_compute; reflexivity. Qed.

Definition need (e : expr) (s : bytes) : nat := 512 * length s + 50 * rank e + height e.

Lemma good_sub e : good e = true ->
  match e with
  | NegPred a | Opt a => good a = true
  | Rep a => good a = true /\ nullable a = false
  | Seq a b | Alt a b => good a = true /\ good b = true
  | _ => True
  end.
Proof.
  intros H. destruct e; try exact I; cbn [good] in H; apply andb_true_iff in H; destruct H as [_ H];
    try exact H; apply andb_true_iff in H; destruct H as [H1 H2]; split; try assumption.
  apply negb_true_iff. exact H2.
Qed.

Lemma eval_enough n : forall c e p s, good e = true -> need e s <= n -> eval n c e p s <> OutOfFuel.
Proof.
  induction n as [|n IH]; intros c e p s Hg Hn.
  - exfalso. unfold need in Hn. destruct e; cbn [height] in Hn; lia.
  - rewrite eval_S. pose proof (good_sub e Hg) as Hs. pose proof (good_bounds e Hg) as [Hh Hr].
    unfold need in Hn. destruct e as [pat|pat|lo hi| | | |r|e1|e1 e2|e1 e2|e1|e1].
    + destruct (match_str pat s); discriminate.
    + destruct (match_insens pat s); discriminate.
    + destruct s; [discriminate|]. destruct (in_range lo hi n0); discriminate.
    + destruct s; discriminate.
    + destruct (p =? 0); discriminate.
    + destruct s; discriminate.
    + pose proof (rank_rule_ok r) as Hrr. pose proof (good_bounds _ (good_rule r)) as [Hbh _].
      assert (K : eval n (rule_inner (fst (grammar r)) c) (snd (grammar r)) p s <> OutOfFuel).
      { apply IH; [apply good_rule|]. unfold need. cbn [rank height] in Hn. lia. }
      destruct (eval n _ (snd (grammar r)) p s); [discriminate|discriminate|contradiction].
    + cbn [rank height] in Hn.
      assert (K : eval n {| atom := atom c; look := true |} e1 p s <> OutOfFuel) by (apply IH; [exact Hs|unfold need; lia]).
      destruct (eval n _ e1 p s); [discriminate|discriminate|contradiction].
    + destruct Hs as [Hg1 Hg2]. cbn [rank height] in Hn.
      assert (K : eval n c e1 p s <> OutOfFuel).
      { apply IH; [exact Hg1|]. unfold need. destruct (nullable e1); lia. }
      destruct (eval n c e1 p s) as [q s1 f1| |] eqn:E; [|discriminate|contradiction].
      pose proof (eval_consumes _ _ _ _ _ _ _ _ E) as (w & Hw & _).
      assert (K2 : eval n c e2 q s1 <> OutOfFuel).
      { apply IH; [exact Hg2|]. unfold need. pose proof (good_bounds _ Hg2) as [Hh2 Hr2].
        destruct (nullable e1) eqn:En.
        - subst s. rewrite app_length in Hn. lia.
        - pose proof (eval_strict _ _ _ _ _ _ _ _ E En) as Hlt. lia. }
      destruct (eval n c e2 q s1); [discriminate|discriminate|contradiction].
    + destruct Hs as [Hg1 Hg2]. cbn [rank height] in Hn.
      assert (K : eval n c e1 p s <> OutOfFuel) by (apply IH; [exact Hg1|unfold need; lia]).
      destruct (eval n c e1 p s) as [q s1 f1| |] eqn:E; [discriminate| |contradiction].
      apply IH; [exact Hg2|unfold need; lia].
    + cbn [rank height] in Hn.
      assert (K : eval n c e1 p s <> OutOfFuel) by (apply IH; [exact Hs|unfold need; lia]).
      destruct (eval n _ e1 p s); [discriminate|discriminate|contradiction].
    + destruct Hs as [Hg1 Hnn]. cbn [rank height] in Hn.
      assert (K : eval n c e1 p s <> OutOfFuel) by (apply IH; [exact Hg1|unfold need; lia]).
      destruct (eval n c e1 p s) as [q s1 f1| |] eqn:E; [|discriminate|contradiction].
      pose proof (eval_strict _ _ _ _ _ _ _ _ E Hnn) as Hlt.
      assert (K2 : eval n c (Rep e1) q s1 <> OutOfFuel).
      { apply IH; [exact Hg|]. unfold need. cbn [rank height]. lia. }
      destruct (eval n c (Rep e1) q s1); [discriminate|discriminate|contradiction].
Qed.

(** ** [run] *)

Definition run (c : ctx) (e : expr) (p : nat) (s : bytes) : res := eval (fuel_for (length s)) c e p s.

Lemma need_fuel e s : good e = true -> need e s <= fuel_for (length s).
Proof. intros H. apply good_bounds in H. unfold need, fuel_for. lia. Qed.

Lemma run_total c e p s : good e = true -> run c e p s <> OutOfFuel.
Proof. intros H. apply eval_enough; [exact H|apply need_fuel; exact H]. Qed.

Lemma eval_run n c e p s : good e = true -> need e s <= n -> eval n c e p s = run c e p s.
Proof.
  intros Hg Hn. pose proof (eval_enough n c e p s Hg Hn) as H1.
  pose proof (run_total c e p s Hg) as H2. unfold run in *.
  destruct (Nat.le_ge_cases n (fuel_for (length s))) as [H|H].
  - symmetry. apply eval_mono; assumption.
  - apply eval_mono; assumption.
Qed.

Lemma pest_parse_run r input : pest_parse r input = run ctx0 (Call r) 0 input.
Proof. reflexivity. Qed.

Lemma fuel_pos (s : bytes) : exists n, fuel_for (length s) = S n /\ n = 512 * length s + 511.
Proof. exists (512 * length s + 511). unfold fuel_for. split; lia. Qed.

Local Ltac start s := let n := fresh "n" in let E := fresh "E" in let En := fresh "En" in
  unfold run at 1; destruct (fuel_pos s) as (n & E & En); rewrite E, eval_S.

Lemma run_str c pat p s : run c (Str pat) p s =
  match match_str pat s with Some s' => Done (p + length pat) s' [] | None => Fail end.
Proof. start s. reflexivity. Qed.

Lemma run_insens c pat p s : run c (Insens pat) p s =
  match match_insens pat s with Some s' => Done (p + length pat) s' [] | None => Fail end.
Proof. start s. reflexivity. Qed.

Lemma run_range c lo hi p s : run c (Range lo hi) p s =
  match s with x :: s' => if in_range lo hi x then Done (p + 1) s' [] else Fail | [] => Fail end.
Proof. start s. reflexivity. Qed.

Lemma run_any c p s : run c AnyChar p s =
  match s with
  | x :: _ => Done (p + length (firstn (utf8_width x) s)) (skipn (utf8_width x) s) []
  | [] => Fail
  end.
Proof. start s. reflexivity. Qed.

Lemma run_soi c p s : run c Soi p s = if p =? 0 then Done p s [] else Fail.
Proof. start s. reflexivity. Qed.

Lemma run_eoi c p s : run c EndOfInput p s = match s with [] => Done p s [] | _ => Fail end.
Proof. start s. reflexivity. Qed.

Lemma run_call c r p s : run c (Call r) p s =
  match run (rule_inner (fst (grammar r)) c) (snd (grammar r)) p s with
  | Done q s' f => Done q s' (rule_tokens (fst (grammar r)) c r p q f)
  | x => x
  end.
Proof.
  start s. rewrite (eval_run n _ (snd (grammar r))); [reflexivity|apply good_rule|].
  pose proof (good_bounds _ (good_rule r)). unfold need. lia.
Qed.

Lemma run_not c e p s : good (NegPred e) = true -> run c (NegPred e) p s =
  match run {| atom := atom c; look := true |} e p s with
  | Done _ _ _ => Fail
  | _ => Done p s []
  end.
Proof.
  intros Hg. pose proof (good_sub _ Hg) as Hs. pose proof (good_bounds _ Hs).
  pose proof (run_total {| atom := atom c; look := true |} e p s Hs) as Ht.
  start s. rewrite (eval_run n _ e) by (assumption || (unfold need; lia)).
  destruct (run _ e p s); [reflexivity|reflexivity|contradiction].
Qed.

Lemma run_seq c a b p s : good (Seq a b) = true -> run c (Seq a b) p s =
  match run c a p s with
  | Done q s1 f1 =>
    match run c b q s1 with
    | Done q2 s2 f2 => Done q2 s2 (f1 ++ f2)
    | x => x
    end
  | x => x
  end.
Proof.
  intros Hg. destruct (good_sub _ Hg) as [H1 H2]. pose proof (good_bounds _ H1). pose proof (good_bounds _ H2).
  start s. rewrite (eval_run n _ a) by (assumption || (unfold need; lia)).
  destruct (run c a p s) as [q s1 f1| |] eqn:Er; try reflexivity.
  pose proof (eval_consumes _ _ _ _ _ _ _ _ Er) as (w & Hw & _).
  rewrite (eval_run n _ b); [reflexivity|assumption|]. subst s. rewrite app_length in *. unfold need. lia.
Qed.

Lemma run_alt c a b p s : good (Alt a b) = true -> run c (Alt a b) p s =
  match run c a p s with Fail => run c b p s | x => x end.
Proof.
  intros Hg. destruct (good_sub _ Hg) as [H1 H2]. pose proof (good_bounds _ H1). pose proof (good_bounds _ H2).
  start s. rewrite !eval_run by (assumption || (unfold need; lia)). reflexivity.
Qed.

Lemma run_opt c e p s : good (Opt e) = true -> run c (Opt e) p s =
  match run c e p s with Fail => Done p s [] | x => x end.
Proof.
  intros Hg. pose proof (good_sub _ Hg) as Hs. pose proof (good_bounds _ Hs).
  start s. rewrite !eval_run by (assumption || (unfold need; lia)). reflexivity.
Qed.

Lemma run_rep c e p s : good (Rep e) = true -> run c (Rep e) p s =
  match run c e p s with
  | Done q s1 f1 =>
    match run c (Rep e) q s1 with
    | Done q2 s2 f2 => Done q2 s2 (f1 ++ f2)
    | x => x
    end
  | Fail => Done p s []
  | OutOfFuel => OutOfFuel
  end.
Proof.
  intros Hg. destruct (good_sub _ Hg) as [H1 H2]. pose proof (good_bounds _ H1). pose proof (good_bounds _ Hg).
  start s. rewrite (eval_run n _ e) by (assumption || (unfold need; lia)).
  destruct (run c e p s) as [q s1 f1| |] eqn:Er; try reflexivity.
  pose proof (eval_consumes _ _ _ _ _ _ _ _ Er) as (w & Hw & _).
  pose proof (eval_strict _ _ _ _ _ _ _ _ Er H2) as Hlt.
  rewrite (eval_run n _ (Rep e)); [reflexivity|assumption|]. unfold need. lia.
Qed.

Lemma run_consumes c e p s q s' f : run c e p s = Done q s' f -> exists w, s = w ++ s' /\ q = p + length w.
Proof. apply eval_consumes. Qed.

Lemma run_strict c e p s q s' f : run c e p s = Done q s' f -> nullable e = false -> length s' < length s.
Proof. apply eval_strict. Qed.

(** ** Parsing always ends *)
Lemma pest_parse_total r input : pest_parse r input <> OutOfFuel.
Proof. rewrite pest_parse_run. apply run_total, good_call. Qed.
