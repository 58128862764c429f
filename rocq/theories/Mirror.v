(** Running the grammar on the end of a text and on the same with another text behind
    it, from the next line on: the runs are the same, if the first text is complete. *)

From Coq Require Import String.
From Verif Require Import Bytes BytesFacts Grammar Peg PegFacts SpecSyntax PegRules PegTokens PegQuoted SpecClear SpecMove SpecJoin
  Sound SoundInstr Attempts AttemptsFacts Forward Forward2 Forward3 DepthFacts Twin.
Local Open Scope nat_scope.

Definition line_rule (r : rule) : bool :=
  match r with
  | R_comment | R_line_continuation | R_any_content | R_any_whitespace | R_any_equals
  | R_arg_ws | R_arg_ws_maybe | R_double_quoted_string | R_single_quoted_string => true
  | _ => false
  end.

(** Rules that are looked at one by one below, or never reached *)
Definition wild_rule (r : rule) : bool :=
  match r with
  | R_EOI | R_dockerfile | R_meta_step | R_step | R_comment_line | R_empty_line
  | R_inner | R_escape | R_unicode | R_single_quoted_inner | R_any_breakable | R_any_eol
  | R_run | R_run_shell | R_entrypoint | R_entrypoint_shell | R_cmd | R_cmd_shell
  | R_env | R_env_single | R_env_single_value | R_misc | R_misc_arguments => true
  | _ => false
  end.

Definition not_newline_byte (c : N) : bool := negb (is_newline_byte c).

Fixpoint tame (e : expr) : bool :=
  match e with
  | Str pat => forallb not_newline_byte pat
  | Insens pat => forallb is_alpha pat
  | Range lo hi => (13 <? lo)%N
  | AnyChar | Soi | EndOfInput => false
  | Call r => negb (wild_rule r)
  | NegPred a | Opt a | Rep a => tame a
  | Seq a b | Alt a b => tame a && tame b
  end.

Lemma tame_rule r : wild_rule r = false -> line_rule r = false -> tame (snd (grammar r)) = true.
Proof. destruct r; try discriminate; reflexivity. Qed.

(** ** Where strings may begin *)

(** Rules that end in a character after which a string may begin, or before none *)
Definition opens_rule (r : rule) : bool :=
  match r with
  | R_ws | R_comment | R_line_continuation | R_comment_line | R_empty_line | R_arg_ws => true
  | _ => false
  end.

(** [o]: such a character is before [e]; the answer: one is behind it. *)
Fixpoint after (o : bool) (e : expr) : bool :=
  match e with
  | Str [] => o
  | Str pat => before_string (last pat 0%N)
  | Insens _ | Range _ _ | AnyChar | Soi | EndOfInput => false
  | Call R_arg_ws_maybe => o
  | Call r => opens_rule r
  | NegPred _ => o
  | Seq a b => after (after o a) b
  | Alt a b => after o a && after o b
  | Opt a | Rep a => o && after o a
  end.

(** Rules that look for a string first *)
Definition string_first (r : rule) : bool :=
  match r with
  | R_double_quoted_string | R_single_quoted_string | R_string | R_arg_quoted_value
  | R_label_quoted_name | R_label_quoted_value | R_label_pair | R_label_single_quoted_name
  | R_env_pair_quoted_value | R_env_single_quoted_value => true
  | _ => false
  end.

(** [e] looks for strings after such characters only. *)
Fixpoint strings (o : bool) (e : expr) : bool :=
  match e with
  | Call r => o || negb (string_first r)
  | NegPred a | Opt a => strings o a
  | Rep a => strings (o && after o a) a
  | Seq a b => strings o a && strings (after o a) b
  | Alt a b => strings o a && strings o b
  | _ => true
  end.

Lemma strings_rule r : wild_rule r = false -> line_rule r = false -> strings (string_first r) (snd (grammar r)) = true.
Proof. destruct r; try discriminate; reflexivity. Qed.

Section Mirror.
Variables A R : bytes.
Hypothesis HvA : valid_utf8 A = true.
Hypothesis HvR : valid_utf8 R = true.
Hypothesis HR : newline_here R = true.
Hypothesis HC : complete A.
Hypothesis HQ : quotes_apart A R.
Hypothesis HCR : begins_with LF R -> ~ exists a0, A = a0 ++ [CR].

Definition inside (u : bytes) : Prop := exists x, A = x ++ u.

Lemma inside_app w u : inside (w ++ u) -> inside u.
Proof. intros [x Hx]. exists (x ++ w). rewrite Hx. apply app_assoc. Qed.

Lemma inside_cons c u : inside (c :: u) -> inside u.
Proof. apply (inside_app [c]). Qed.

Definition mirrors (c : ctx) (e : expr) (p : nat) (u : bytes) (r : res) : Prop :=
  match r with
  | Done q u1 f => run c e p (u ++ R) = Done q (u1 ++ R) f
  | Fail => run c e p (u ++ R) = Fail
  | OutOfFuel => True
  end.
Definition mirror (c : ctx) (e : expr) (p : nat) (u : bytes) : Prop := mirrors c e p u (run c e p u).

Lemma R_head : exists x t, R = x :: t /\ is_newline_byte x = true.
Proof. destruct R as [|x t]; [discriminate|]. exists x, t. auto. Qed.

Lemma valid_both u : valid_utf8 u = true -> valid_utf8 (u ++ R) = true.
Proof. intros H. rewrite valid_utf8_app by exact H. exact HvR. Qed.

(** ** Single characters *)

Lemma class_mirror e P c p u : matches_class e P -> (forall x, is_newline_byte x = true -> P x = false) -> mirror c e p u.
Proof.
  intros He HP. unfold mirror. rewrite He. destruct u as [|x u].
  - cbn [mirrors app]. rewrite He. destruct R_head as (y & t & -> & Hy). rewrite HP by exact Hy. reflexivity.
  - destruct (P x) eqn:E; cbn [mirrors app]; rewrite He, E; reflexivity.
Qed.

Lemma str_mirror pat u : forallb not_newline_byte pat = true ->
  match_str pat (u ++ R) = option_map (fun t => t ++ R) (match_str pat u).
Proof.
  revert u. induction pat as [|c pat IH]; intros u H; [reflexivity|]. cbn [forallb] in H. apply andb_true_iff in H. destruct H as [Hc H].
  destruct u as [|x u]; cbn [app match_str].
  - destruct R_head as (y & t & -> & Hy). cbn [match_str option_map]. destruct (N.eqb_spec c y) as [->|]; [|reflexivity].
    unfold not_newline_byte in Hc. rewrite Hy in Hc. discriminate.
  - destruct (c =? x)%N; [|reflexivity]. apply IH. exact H.
Qed.

Lemma icase_newline c y : is_alpha c = true -> is_newline_byte y = true -> eq_icase c y = false.
Proof.
  intros Hc Hy. unfold eq_icase. apply N.eqb_neq. intros E.
  assert (K : lower_byte y = y /\ (y < 65)%N).
  { unfold is_newline_byte in Hy. apply orb_true_iff in Hy. destruct Hy as [E1|E1]; apply N.eqb_eq in E1; subst y; split; reflexivity. }
  destruct K as [K1 K2]. rewrite K1 in E. destruct (lower_cases c) as [(_ & E2 & K)|[_ E2]]; [lia|].
  unfold is_alpha in Hc. apply orb_true_iff in Hc. destruct Hc as [E1|E1]; apply in_range_spec in E1; lia.
Qed.

Lemma insens_mirror pat u : forallb is_alpha pat = true ->
  match_insens pat (u ++ R) = option_map (fun t => t ++ R) (match_insens pat u).
Proof.
  revert u. induction pat as [|c pat IH]; intros u H; [reflexivity|]. cbn [forallb] in H. apply andb_true_iff in H. destruct H as [Hc H].
  destruct u as [|x u]; cbn [app match_insens].
  - destruct R_head as (y & t & -> & Hy). cbn [match_insens option_map]. rewrite icase_newline by assumption. reflexivity.
  - destruct (eq_icase c x); [|reflexivity]. apply IH. exact H.
Qed.

Lemma blank_not_newline x : is_newline_byte x = true -> is_blank x = false.
Proof.
  unfold is_newline_byte, is_blank. intros H. apply orb_true_iff in H. destruct H as [E|E]; apply N.eqb_eq in E; subst x; reflexivity.
Qed.

Lemma blanks_mirror u : take_while is_blank (u ++ R) = take_while is_blank u /\ drop_while is_blank (u ++ R) = drop_while is_blank u ++ R.
Proof.
  destruct R_head as (y & t & E & Hy). pose proof (blank_not_newline y Hy) as K.
  induction u as [|x u IH]; cbn [app take_while drop_while].
  - rewrite E. cbn [take_while drop_while]. rewrite K. auto.
  - destruct (is_blank x); [|auto]. destruct IH as [-> ->]. auto.
Qed.

Lemma ws_star_mirror c p u : mirror c (Rep ws) p u.
Proof. unfold mirror. rewrite run_ws_star. cbn [mirrors]. rewrite run_ws_star. destruct (blanks_mirror u) as [-> ->]. reflexivity. Qed.

(** ** Line breaks *)

Lemma strip_mirror u : inside u -> u <> [] -> strip_newline (u ++ R) = option_map (fun '(n, t) => (n, t ++ R)) (strip_newline u).
Proof.
  intros [x0 Hu] Hne. destruct u as [|x u]; [congruence|]. cbn [app strip_newline]. destruct (x =? LF)%N; [reflexivity|].
  destruct (x =? CR)%N eqn:E; [|reflexivity]. apply N.eqb_eq in E. subst x. destruct u as [|y u].
  - cbn [app]. destruct R as [|y t] eqn:ER; [discriminate|]. destruct (y =? LF)%N eqn:Ey; [|reflexivity].
    exfalso. apply N.eqb_eq in Ey. subst y. apply HCR; [exists t; reflexivity|]. exists x0. exact Hu.
  - cbn [app]. destruct (y =? LF)%N; reflexivity.
Qed.

Lemma newline_mirror c p u : inside u -> u <> [] -> mirror c NEWLINE p u.
Proof.
  intros Hu Hne. unfold mirror. rewrite run_newline. pose proof (strip_mirror u Hu Hne) as K.
  destruct (strip_newline u) as [[n t]|]; cbn [mirrors option_map] in *; rewrite run_newline, K; reflexivity.
Qed.

Lemma newline_here_mirror x u : newline_here ((x :: u) ++ R) = newline_here (x :: u).
Proof. reflexivity. Qed.

Lemma cont_mirror u : inside u -> cont_rest (u ++ R) = option_map (fun '(n, t) => (n, t ++ R)) (cont_rest u).
Proof.
  intros Hu. destruct u as [|x u]; cbn [app cont_rest].
  - destruct R as [|y t] eqn:ER; [discriminate|]. cbn [cont_rest option_map]. destruct (N.eqb_spec y BSLASH) as [->|]; [discriminate|reflexivity].
  - destruct (N.eqb_spec x BSLASH) as [->|]; [|reflexivity]. destruct (blanks_mirror u) as [E1 E2]. rewrite E1, E2.
    rewrite strip_mirror.
    + destruct (strip_newline (drop_while is_blank u)) as [[n t]|]; reflexivity.
    + destruct Hu as [x0 Hu]. exists (x0 ++ BSLASH :: take_while is_blank u). rewrite <- app_assoc. cbn [app]. rewrite take_drop. exact Hu.
    + intros E. destruct HC as [H1 _]. apply H1. destruct Hu as [x0 Hu]. exists x0, u. split; [exact Hu|].
      rewrite <- (take_drop is_blank u), E, app_nil_r. apply take_while_all.
Qed.

Lemma continuation_mirror c p u : inside u -> mirror c line_continuation p u.
Proof.
  intros Hu. unfold mirror. rewrite run_continuation. pose proof (cont_mirror u Hu) as K.
  destruct (cont_rest u) as [[n t]|]; cbn [mirrors option_map] in *; rewrite run_continuation, K; reflexivity.
Qed.

Lemma continues_mirror u : inside u -> continues (u ++ R) = continues u.
Proof. intros Hu. unfold continues. rewrite cont_mirror by exact Hu. destruct (cont_rest u) as [[n t]|]; reflexivity. Qed.

Lemma gap_here_mirror u : inside u -> gap_here (u ++ R) = gap_here u.
Proof.
  intros Hu. pose proof (continues_mirror u Hu) as K. destruct u as [|x u].
  - cbn [app] in *. destruct R_head as (y & t & E & Hy). rewrite E in *. cbn [gap_here]. rewrite K, blank_not_newline by exact Hy. reflexivity.
  - cbn [app gap_here]. cbn [app] in K. rewrite K. reflexivity.
Qed.

(** ** Text up to a stop *)

Lemma until_mirror stop u : stop R = true -> inside u -> (forall x v, inside (x :: v) -> stop ((x :: v) ++ R) = stop (x :: v)) ->
  until stop (u ++ R) = until stop u /\ from_stop stop (u ++ R) = from_stop stop u ++ R.
Proof.
  intros H0 Hu Hs. induction u as [|x u IH].
  - cbn [app until from_stop]. destruct R as [|y t]; [discriminate|]. cbn [until from_stop]. rewrite H0. auto.
  - pose proof (Hs x u Hu) as K. cbn [app] in K |- *. cbn [until from_stop]. rewrite K.
    destruct (stop (x :: u)); [auto|]. destruct (IH (inside_cons _ _ Hu)) as [-> ->]. auto.
Qed.

Lemma until_newline_mirror u : inside u -> until newline_here (u ++ R) = until newline_here u /\
  from_stop newline_here (u ++ R) = from_stop newline_here u ++ R.
Proof. intros Hu. apply until_mirror; [exact HR|exact Hu|reflexivity]. Qed.

Lemma comment_mirror c p u : inside u -> valid_utf8 u = true -> mirror c comment p u.
Proof.
  intros Hu Hv. unfold mirror. rewrite run_comment by exact Hv. destruct u as [|x u].
  - cbn [mirrors app]. rewrite run_comment by exact HvR. destruct R as [|y t] eqn:ER; [discriminate|].
    destruct (N.eqb_spec y HASH) as [->|]; [discriminate|reflexivity].
  - destruct (x =? HASH)%N eqn:E; cbn [mirrors app]; rewrite run_comment by (apply (valid_both (x :: u)); exact Hv); rewrite E; [|reflexivity].
    destruct (until_newline_mirror u (inside_cons _ _ Hu)) as [-> ->]. reflexivity.
Qed.

Lemma chunk_stop_mirror u : inside u -> until chunk_stop (u ++ R) = until chunk_stop u /\ from_stop chunk_stop (u ++ R) = from_stop chunk_stop u ++ R.
Proof.
  intros Hu. apply until_mirror; [unfold chunk_stop; rewrite HR; reflexivity|exact Hu|].
  intros x v Hv. unfold chunk_stop. rewrite continues_mirror by exact Hv. reflexivity.
Qed.

Lemma content_mirror c p u : inside u -> valid_utf8 u = true -> mirror c (Call R_any_content) p u.
Proof.
  intros Hu Hv. unfold mirror. rewrite run_any_content by exact Hv. destruct (chunk_stop_mirror u Hu) as [E1 E2].
  destruct (until chunk_stop u) as [|x w] eqn:E; cbn [mirrors]; rewrite run_any_content by (apply valid_both; exact Hv); rewrite E1, ?E2; reflexivity.
Qed.

Lemma word_stop_mirror u : inside u -> until word_stop (u ++ R) = until word_stop u /\ from_stop word_stop (u ++ R) = from_stop word_stop u ++ R.
Proof.
  intros Hu. apply until_mirror; [unfold word_stop; rewrite HR; reflexivity|exact Hu|].
  intros x v Hv. unfold word_stop. rewrite gap_here_mirror by exact Hv. reflexivity.
Qed.

Lemma word_mirror c p u : inside u -> valid_utf8 u = true -> mirror c any_whitespace p u.
Proof.
  intros Hu Hv. unfold mirror. rewrite run_any_whitespace by exact Hv. destruct (word_stop_mirror u Hu) as [E1 E2].
  destruct (until word_stop u) as [|x w] eqn:E; cbn [mirrors]; rewrite run_any_whitespace by (apply valid_both; exact Hv); rewrite E1, ?E2; reflexivity.
Qed.

Lemma label_stop_mirror u : inside u -> until label_stop (u ++ R) = until label_stop u /\ from_stop label_stop (u ++ R) = from_stop label_stop u ++ R.
Proof. intros Hu. apply until_mirror; [unfold label_stop; rewrite HR; reflexivity|exact Hu|]. intros x v Hv. reflexivity. Qed.

Lemma equals_mirror c p u : inside u -> valid_utf8 u = true -> mirror c any_equals p u.
Proof.
  intros Hu Hv. unfold mirror. rewrite run_any_equals by exact Hv. destruct (label_stop_mirror u Hu) as [E1 E2].
  destruct (until label_stop u) as [|x w] eqn:E; cbn [mirrors]; rewrite run_any_equals by (apply valid_both; exact Hv); rewrite E1, ?E2; reflexivity.
Qed.

(** ** Quoted strings *)

Definition opened (u : bytes) : Prop := forall q t x, u = q :: t -> q = DQUOTE \/ q = SQUOTE -> A = x ++ u ->
  exists y o, x = y ++ [o] /\ before_string o = true.

Lemma quoted_mirror quo c p u : quo = DQUOTE \/ quo = SQUOTE -> inside u -> opened u -> valid_utf8 u = true -> mirror c (Call (quoted_rule quo)) p u.
Proof.
  intros Hq Hu Ho Hv. unfold mirror. destruct (run c (Call (quoted_rule quo)) p u) as [q u1 f| |] eqn:E; cbn [mirrors]; [| |exact I].
  - rewrite (quoted_tokens _ _ _ _ _ _ _ Hq E).
    assert (Hb : begins_with quo u).
    { destruct u as [|x u]; [|destruct (N.eq_dec x quo) as [->|K]; [exists u; reflexivity|]];
        rewrite quoted_rule_fails in E by (try exact Hq; intros [t Et]; congruence); discriminate. }
    apply quoted_rule_inv in E; [|exact Hq|exact Hv]. destruct E as (w & -> & -> & (q' & body & Hq' & -> & Hbody & _)).
    assert (q' = quo) by (destruct Hb as [t Et]; cbn [app] in Et; congruence). subst q'.
    assert (Hv' : valid_utf8 (quo :: body ++ [quo] ++ u1 ++ R) = true).
    { pose proof (valid_both _ Hv) as K. rewrite <- !app_assoc in K. cbn [app] in K. rewrite <- !app_assoc in K. exact K. }
    rewrite <- app_assoc. destruct (quoted_rule_fwd quo body c p (u1 ++ R) Hq Hbody) as (f2 & K).
    { cbn [app]. rewrite <- app_assoc. exact Hv'. }
    rewrite K. rewrite (quoted_tokens _ _ _ _ _ _ _ Hq K). reflexivity.
  - destruct (run c (Call (quoted_rule quo)) p (u ++ R)) as [q t1 f| |] eqn:E2; [|reflexivity|].
    2:{ exfalso. apply (run_total c (Call (quoted_rule quo)) p (u ++ R)); [apply good_call|exact E2]. }
    exfalso. assert (Hb : begins_with quo (u ++ R)).
    { destruct (u ++ R) as [|x t]; [|destruct (N.eq_dec x quo) as [->|K]; [exists t; reflexivity|]];
        rewrite quoted_rule_fails in E2 by (try exact Hq; intros [t' Et]; congruence); discriminate. }
    apply quoted_rule_inv in E2; [|exact Hq|apply valid_both; exact Hv]. destruct E2 as (w & Ew & -> & (q' & body & Hq' & -> & Hbody & Hbv)).
    assert (q' = quo) by (destruct Hb as [t Et]; rewrite Ew in Et; cbn [app] in Et; congruence). subst q'.
    destruct u as [|x u].
    { cbn [app] in Ew. rewrite Ew in HR. destruct Hq; subst quo; discriminate. }
    cbn [app] in Ew. injection Ew as -> Ew. rewrite <- app_assoc in Ew. cbn [app] in Ew. destruct Hu as [x0 Hu].
    destruct (Ho quo u x0 eq_refl Hq Hu) as (y & o & -> & Hbs). rewrite <- app_assoc in Hu. cbn [app] in Hu.
    pose proof (HQ y o quo u body t1 Hu Hbs Hq Hbody Ew) as L.
    assert (Eu : exists t, u = body ++ quo :: t).
    { exists (skipn (S (length body)) u). pose proof (f_equal (firstn (length u)) Ew) as K.
      rewrite firstn_app, Nat.sub_diag, firstn_O, app_nil_r, firstn_all in K.
      rewrite firstn_app in K. rewrite (firstn_all2 body) in K by lia. rewrite K at 1. f_equal.
      destruct (length u - length body) as [|m] eqn:Em; [lia|]. cbn [firstn]. f_equal. rewrite K.
      rewrite skipn_app. rewrite (skipn_all2 body) by lia. cbn [app]. replace (S (length body) - length body) with 1 by lia. cbn [skipn firstn]. reflexivity. }
    destruct Eu as (t & ->). destruct (quoted_rule_fwd quo body c p t Hq Hbody) as (f2 & K).
    { cbn [app] in Hv |- *. rewrite <- app_assoc. exact Hv. }
    cbn [app] in K. rewrite <- app_assoc in K. cbn [app] in K. congruence.
Qed.

(** ** Combinations *)

Lemma mirror_fail c e p u : mirror c e p u -> run c e p u = Fail -> run c e p (u ++ R) = Fail.
Proof. unfold mirror. intros H E. rewrite E in H. exact H. Qed.
Lemma mirror_done c e p u q u1 f : mirror c e p u -> run c e p u = Done q u1 f -> run c e p (u ++ R) = Done q (u1 ++ R) f.
Proof. unfold mirror. intros H E. rewrite E in H. exact H. Qed.

Lemma seq_mirror c a b p u : good (Seq a b) = true -> mirror c a p u ->
  (forall q u1 f, run c a p u = Done q u1 f -> mirror c b q u1) -> mirror c (Seq a b) p u.
Proof.
  intros Hg Ha Hb. unfold mirror. rewrite run_seq by exact Hg. destruct (run c a p u) as [q u1 f| |] eqn:E; [| |exact I].
  - specialize (Hb q u1 f eq_refl). pose proof (mirror_done _ _ _ _ _ _ _ Ha E) as Ka. unfold mirror in Hb.
    destruct (run c b q u1) as [q2 u2 f2| |]; cbn [mirrors] in *; [| |exact I]; rewrite run_seq by exact Hg; rewrite Ka, Hb; reflexivity.
  - cbn [mirrors]. rewrite run_seq by exact Hg. rewrite (mirror_fail _ _ _ _ Ha E). reflexivity.
Qed.

Lemma alt_mirror c a b p u : good (Alt a b) = true -> mirror c a p u -> (run c a p u = Fail -> mirror c b p u) -> mirror c (Alt a b) p u.
Proof.
  intros Hg Ha Hb. unfold mirror. rewrite run_alt by exact Hg. destruct (run c a p u) as [q u1 f| |] eqn:E; [| |exact I].
  - cbn [mirrors]. rewrite run_alt by exact Hg. rewrite (mirror_done _ _ _ _ _ _ _ Ha E). reflexivity.
  - specialize (Hb eq_refl). unfold mirror in Hb. destruct (run c b p u) as [q2 u2 f2| |]; cbn [mirrors] in *; [| |exact I];
      rewrite run_alt by exact Hg; rewrite (mirror_fail _ _ _ _ Ha E); exact Hb.
Qed.

Lemma opt_mirror c a p u : good (Opt a) = true -> mirror c a p u -> mirror c (Opt a) p u.
Proof.
  intros Hg Ha. unfold mirror. rewrite run_opt by exact Hg. destruct (run c a p u) as [q u1 f| |] eqn:E; cbn [mirrors]; [| |exact I];
    rewrite run_opt by exact Hg; [rewrite (mirror_done _ _ _ _ _ _ _ Ha E)|rewrite (mirror_fail _ _ _ _ Ha E)]; reflexivity.
Qed.

Lemma not_mirror c a p u : good (NegPred a) = true -> mirror {| atom := atom c; look := true |} a p u -> mirror c (NegPred a) p u.
Proof.
  intros Hg Ha. unfold mirror. rewrite run_not by exact Hg. pose proof (run_total {| atom := atom c; look := true |} a p u (good_sub _ Hg)) as Ht.
  destruct (run _ a p u) as [q u1 f| |] eqn:E; cbn [mirrors]; [| |congruence];
    rewrite run_not by exact Hg; [rewrite (mirror_done _ _ _ _ _ _ _ Ha E)|rewrite (mirror_fail _ _ _ _ Ha E)]; reflexivity.
Qed.

Lemma call_mirror c r p u : mirror (rule_inner (fst (grammar r)) c) (snd (grammar r)) p u -> mirror c (Call r) p u.
Proof.
  intros Ha. unfold mirror. rewrite run_call. destruct (run _ (snd (grammar r)) p u) as [q u1 f| |] eqn:E; cbn [mirrors]; [| |exact I];
    rewrite run_call; [rewrite (mirror_done _ _ _ _ _ _ _ Ha E)|rewrite (mirror_fail _ _ _ _ Ha E)]; reflexivity.
Qed.

(** [P] holds wherever the repetition comes. *)
Lemma rep_mirror c a (P : bytes -> Prop) : good (Rep a) = true -> nullable a = false ->
  (forall p u, P u -> mirror c a p u) -> (forall p u q u1 f, P u -> run c a p u = Done q u1 f -> P u1) ->
  forall p u, P u -> mirror c (Rep a) p u.
Proof.
  intros Hg Hn Ha HP p u. remember (length u) as m eqn:Em. revert p u Em. induction m as [m IH] using lt_wf_ind. intros p u Em Hu.
  unfold mirror. rewrite run_rep by exact Hg. pose proof (Ha p u Hu) as K. destruct (run c a p u) as [q u1 f| |] eqn:E; [| |exact I].
  - pose proof (run_strict _ _ _ _ _ _ _ E Hn) as L. pose proof (IH (length u1) ltac:(lia) q u1 eq_refl (HP _ _ _ _ _ Hu E)) as K2.
    unfold mirror in K2. destruct (run c (Rep a) q u1) as [q2 u2 f2| |]; cbn [mirrors] in *; [| |exact I];
      rewrite run_rep by exact Hg; rewrite (mirror_done _ _ _ _ _ _ _ K E), K2; reflexivity.
  - cbn [mirrors]. rewrite run_rep by exact Hg. rewrite (mirror_fail _ _ _ _ K E). reflexivity.
Qed.

(** ** Gaps *)

Definition here (u : bytes) : Prop := inside u /\ valid_utf8 u = true.

Lemma here_after c e p u q u1 f : here u -> run c e p u = Done q u1 f -> ascii_expr e = true -> here u1.
Proof.
  intros [Hu Hv] E Ha. split; [|apply (run_valid _ _ _ _ _ _ _ E Hv Ha)].
  destruct (run_consumes _ _ _ _ _ _ _ E) as (w & -> & _). apply inside_app in Hu. exact Hu.
Qed.

Lemma idle_comment b t : blanks b -> comment_text t -> idle_tail (b ++ t).
Proof. intros Hb Ht. exists 0, [], (b ++ t). split; [reflexivity|]. split; [constructor|]. right. exists b, t. auto. Qed.
Lemma idle_blanks b : blanks b -> idle_tail b.
Proof. intros Hb. exists 0, [], b. split; [reflexivity|]. split; [constructor|]. left. exact Hb. Qed.
Lemma idle_line b n t : blanks b -> newline n -> idle_tail t -> idle_tail (b ++ n ++ t).
Proof.
  intros Hb Hn (k & l & b2 & -> & Hl & H). exists k, (b ++ n ++ l), b2. rewrite <- !app_assoc. split; [reflexivity|].
  split; [constructor; assumption|exact H].
Qed.
Lemma idle_comment_line b c n t : blanks b -> comment_text c -> newline n -> idle_tail t -> idle_tail (b ++ c ++ n ++ t).
Proof.
  intros Hb Hc Hn (k & l & b2 & -> & Hl & H). exists (S k), (b ++ c ++ n ++ l), b2. rewrite <- !app_assoc. split; [reflexivity|].
  split; [constructor; assumption|exact H].
Qed.

Lemma comment_line_mirror c p u : here u -> ~ comments_only u -> mirror c comment_line p u.
Proof.
  intros [Hu Hv] Hi. apply call_mirror. change (snd (grammar R_comment_line)) with (Seq (Rep ws) (Seq comment (Opt NEWLINE))).
  cbn [grammar fst rule_inner]. apply seq_mirror; [reflexivity|apply ws_star_mirror|]. intros q u1 f E.
  pose proof (here_after _ _ _ _ _ _ _ (conj Hu Hv) E eq_refl) as [Hu1 Hv1]. apply blanks_inv in E. destruct E as (b & Hb & -> & _ & _ & _).
  apply seq_mirror; [reflexivity|apply comment_mirror; assumption|]. intros q2 u2 f2 E2.
  pose proof (here_after _ _ _ _ _ _ _ (conj Hu1 Hv1) E2 eq_refl) as [Hu2 Hv2].
  apply comment_inv in E2; [|exact Hv1]. destruct E2 as (t & Ht & -> & _ & _ & _).
  apply opt_mirror; [reflexivity|]. apply newline_mirror; [exact Hu2|]. intros ->. apply Hi. rewrite app_nil_r. constructor; assumption.
Qed.

Lemma comments_idle u : comments_only u -> idle_tail u.
Proof. intros H. induction H; [apply idle_comment; assumption|apply idle_comment_line; assumption]. Qed.

Lemma empty_line_mirror c p u : here u -> ~ idle_tail u -> mirror c empty_line p u.
Proof.
  intros [Hu Hv] Hi. apply call_mirror. change (snd (grammar R_empty_line)) with (Seq (Rep ws) NEWLINE).
  cbn [grammar fst rule_inner]. apply seq_mirror; [reflexivity|apply ws_star_mirror|]. intros q u1 f E.
  apply blanks_inv in E. destruct E as (b & Hb & -> & _ & _ & _). apply inside_app in Hu. apply newline_mirror; [exact Hu|].
  intros ->. apply Hi. rewrite app_nil_r. apply idle_blanks. exact Hb.
Qed.

Lemma lines_mirror c p u : here u -> ~ idle_tail u -> mirror c (Rep (Alt comment_line empty_line)) p u.
Proof.
  intros Hu Hi. apply (rep_mirror c _ (fun u => here u /\ ~ idle_tail u)); [reflexivity|reflexivity| | |split; assumption].
  - clear p u Hu Hi. intros p u [Hu Hi]. apply alt_mirror; [reflexivity|apply comment_line_mirror; [exact Hu|]|].
    + intros K. apply Hi. apply comments_idle. exact K.
    + intros _. apply empty_line_mirror; assumption.
  - clear p u Hu Hi. intros p u q u1 f [Hu Hi] E. split; [apply (here_after _ _ _ _ _ _ _ Hu E eq_refl)|]. intros K. apply Hi.
    apply alt_inv in E; [|reflexivity]. destruct E as [E|[_ E]].
    + apply comment_line_inv in E; [|apply Hu]. destruct E as (b & t & n & Hb & Ht & -> & _ & Hn & _). destruct Hn as [Hn|[-> ->]].
      * apply idle_comment_line; assumption.
      * rewrite !app_nil_r. apply idle_comment; assumption.
    + apply empty_line_inv in E. destruct E as (b & n & Hb & Hn & -> & _). apply idle_line; assumption.
Qed.

Lemma gap_item_mirror c p u : here u -> mirror c arg_ws_item p u.
Proof.
  intros Hu. unfold arg_ws_item. apply alt_mirror; [reflexivity| |].
  - apply (class_mirror _ is_blank); [exact class_ws|exact blank_not_newline].
  - intros _. apply seq_mirror; [reflexivity|apply continuation_mirror; apply Hu|]. intros q u1 f E.
    pose proof (here_after _ _ _ _ _ _ _ Hu E eq_refl) as Hu1. apply continuation_inv in E. destruct E as (k & Hk & -> & _ & _).
    apply lines_mirror; [exact Hu1|]. destruct Hu as [[x Hx] _]. destruct HC as (_ & H2 & _). apply (H2 x k u1 Hx Hk).
Qed.

Lemma gap_star_mirror c p u : here u -> mirror c (Rep arg_ws_item) p u.
Proof.
  apply rep_mirror; [reflexivity|reflexivity|intros; apply gap_item_mirror; assumption|].
  intros p0 u0 q u1 f Hu E. apply (here_after _ _ _ _ _ _ _ Hu E eq_refl).
Qed.

Lemma gap_mirror c p u : here u -> mirror c arg_ws p u.
Proof.
  intros Hu. apply call_mirror. change (snd (grammar R_arg_ws)) with (Seq arg_ws_item (Rep arg_ws_item)). cbn [grammar fst rule_inner].
  apply seq_mirror; [reflexivity|apply gap_item_mirror; exact Hu|]. intros q u1 f E.
  apply gap_star_mirror. apply (here_after _ _ _ _ _ _ _ Hu E eq_refl).
Qed.

Lemma gap_maybe_mirror c p u : here u -> mirror c arg_ws_maybe p u.
Proof.
  intros Hu. apply call_mirror. change (snd (grammar R_arg_ws_maybe)) with (Rep arg_ws_item). cbn [grammar fst rule_inner].
  apply gap_star_mirror. exact Hu.
Qed.

(** ** What is behind a character after which a string may begin *)

Lemma opened_last u1 x0 o : before_string o = true -> A = x0 ++ o :: u1 -> opened u1.
Proof.
  intros Ho Hx q t x -> _ Hx2. exists x0, o. split; [|exact Ho]. rewrite Hx in Hx2.
  apply (app_inv_tail (q :: t)). rewrite <- Hx2, <- app_assoc. reflexivity.
Qed.

Lemma after_rule r : opens_rule r = true -> r <> R_comment -> after false (snd (grammar r)) = true.
Proof. destruct r; try discriminate; try reflexivity. congruence. Qed.

Theorem after_opened n : forall c e p u o q u1 f, good e = true -> ascii_expr e = true -> here u -> (o = true -> opened u) ->
  after o e = true -> eval n c e p u = Done q u1 f -> opened u1.
Proof.
  induction n as [|n IH]; intros c e p u o q u1 f Hg Ha Hu Ho Hr E; [discriminate|].
  destruct e as [pat|pat|lo hi| | | |r|e1|e1 e2|e1 e2|e1|e1]; cbn [after ascii_expr] in Hr, Ha; try discriminate;
    try (pose proof (good_sub _ Hg) as Hg'; cbn beta iota in Hg').
  - rewrite eval_S in E. destruct (match_str pat u) as [t|] eqn:M; [|discriminate]. injection E as _ <- _. apply match_str_app in M. subst u.
    destruct pat as [|x pat]; [exact (Ho Hr)|]. destruct Hu as [[y Hy] _].
    destruct (@exists_last _ (x :: pat) ltac:(discriminate)) as (pre & l & El). rewrite El in *. rewrite last_last in Hr.
    apply (opened_last t (y ++ pre) l Hr). rewrite Hy, <- !app_assoc. reflexivity.
  - assert (D : r = R_comment \/ r = R_arg_ws_maybe \/ (opens_rule r = true /\ r <> R_comment)).
    { destruct r; try discriminate; auto; right; right; split; try reflexivity; discriminate. }
    destruct D as [->|[->|[D1 D2]]].
    + pose proof (done_run _ _ _ _ _ _ _ _ Hg E) as K. fold comment in K. rewrite run_comment in K by apply Hu.
      destruct u as [|x u]; [discriminate|]. destruct (x =? HASH)%N; [|discriminate]. injection K as _ <- _.
      intros y t z Ey Hy _. pose proof (from_stop_head newline_here u) as K. rewrite Ey in K. destruct Hy; subst y; discriminate.
    + rewrite eval_S in E. destruct (eval n _ (snd (grammar R_arg_ws_maybe)) p u) as [q2 u2 f2| |] eqn:E2; [|discriminate..]. injection E as _ <- _.
      refine (IH _ _ _ _ o _ _ _ (good_rule _) (ascii_rule _) Hu Ho _ E2). subst o. reflexivity.
    + rewrite eval_S in E. destruct (eval n _ (snd (grammar r)) p u) as [q2 u2 f2| |] eqn:E2; [|discriminate..]. injection E as _ <- _.
      refine (IH _ _ _ _ false _ _ _ (good_rule _) (ascii_rule _) Hu _ (after_rule r D1 D2) E2). discriminate.
  - rewrite eval_S in E. destruct (eval n _ e1 p u) as [q2 u2 f2| |]; [discriminate| |discriminate]. injection E as _ <- _. exact (Ho Hr).
  - apply andb_true_iff in Ha. destruct Ha as [Ha1 Ha2]. destruct Hg' as [Hg1 Hg2]. rewrite eval_S in E.
    destruct (eval n c e1 p u) as [q2 u2 f2| |] eqn:E1; [|discriminate..].
    pose proof (here_after _ _ _ _ _ _ _ Hu (done_run _ _ _ _ _ _ _ _ Hg1 E1) Ha1) as Hu2.
    destruct (eval n c e2 q2 u2) as [q3 u3 f3| |] eqn:E2; [|discriminate..]. injection E as _ <- _.
    refine (IH _ _ _ _ (after o e1) _ _ _ Hg2 Ha2 Hu2 _ Hr E2). intros K. exact (IH _ _ _ _ o _ _ _ Hg1 Ha1 Hu Ho K E1).
  - apply andb_true_iff in Ha, Hr. destruct Ha as [Ha1 Ha2]. destruct Hg' as [Hg1 Hg2]. destruct Hr as [Hr1 Hr2]. rewrite eval_S in E.
    destruct (eval n c e1 p u) as [q2 u2 f2| |] eqn:E1; [|eauto|discriminate]. injection E as _ <- _. eauto.
  - apply andb_true_iff in Hr. destruct Hr as [Hr1 Hr2]. rewrite eval_S in E.
    destruct (eval n c e1 p u) as [q2 u2 f2| |] eqn:E1; [| |discriminate]; injection E as _ <- _; eauto.
  - pose proof Hr as Hr0. apply andb_true_iff in Hr. destruct Hr as [Hr1 Hr2]. destruct Hg' as [Hg1 _]. rewrite eval_S in E.
    destruct (eval n c e1 p u) as [q2 u2 f2| |] eqn:E1; [| |discriminate].
    + pose proof (here_after _ _ _ _ _ _ _ Hu (done_run _ _ _ _ _ _ _ _ Hg1 E1) Ha) as Hu2.
      destruct (eval n c (Rep e1) q2 u2) as [q3 u3 f3| |] eqn:E2; [|discriminate..]. injection E as _ <- _.
      refine (IH _ _ _ _ o _ _ _ Hg Ha Hu2 _ Hr0 E2). intros _. eauto.
    + injection E as _ <- _. auto.
Qed.

Lemma run_opened c e p u o q u1 f : good e = true -> ascii_expr e = true -> here u -> (o = true -> opened u) ->
  after o e = true -> run c e p u = Done q u1 f -> opened u1.
Proof. intros Hg Ha Hu Ho Hr E. exact (after_opened _ _ _ _ _ _ _ _ _ Hg Ha Hu Ho Hr E). Qed.

(** ** Everything that does not ask for a line *)

Lemma line_rule_mirror c r p u : line_rule r = true -> here u -> (string_first r = true -> opened u) -> mirror c (Call r) p u.
Proof.
  intros Hr Hu Ho. destruct r; try discriminate; try (destruct Hu as [Hu Hv]).
  - apply comment_mirror; assumption.
  - apply (quoted_mirror DQUOTE); auto.
  - apply (quoted_mirror SQUOTE); auto.
  - apply continuation_mirror; assumption.
  - apply gap_mirror. split; assumption.
  - apply gap_maybe_mirror. split; assumption.
  - apply content_mirror; assumption.
  - apply word_mirror; assumption.
  - apply equals_mirror; assumption.
Qed.

Theorem tame_mirror n : forall c e p u, good e = true -> ascii_expr e = true -> tame e = true -> here u ->
  forall o, (o = true -> opened u) -> strings o e = true -> mirrors c e p u (eval n c e p u).
Proof.
  induction n as [|n IH]; intros c e p u Hg Ha Hb Hu o Ho Hs; [exact I|].
  destruct e as [pat|pat|lo hi| | | |r|e1|e1 e2|e1 e2|e1|e1]; cbn [tame ascii_expr strings] in Hb, Ha, Hs; try discriminate;
    try (pose proof (good_sub _ Hg) as Hg'; cbn beta iota in Hg').
  - rewrite eval_S. pose proof (str_mirror pat u Hb) as K. destruct (match_str pat u) as [u1|]; cbn [mirrors option_map] in *; rewrite run_str, K; reflexivity.
  - rewrite eval_S. pose proof (insens_mirror pat u Hb) as K. destruct (match_insens pat u) as [u1|]; cbn [mirrors option_map] in *; rewrite run_insens, K; reflexivity.
  - apply N.ltb_lt in Hb. rewrite eval_S. destruct u as [|x u]; cbn [mirrors app]; rewrite ?run_range.
    + destruct R_head as (y & t & -> & Hy). assert (E : in_range lo hi y = false).
      { destruct (in_range lo hi y) eqn:E; [|reflexivity]. apply in_range_spec in E. unfold is_newline_byte in Hy.
        apply orb_true_iff in Hy. destruct Hy as [E1|E1]; apply N.eqb_eq in E1; subst y; lia. }
      rewrite E. reflexivity.
    + destruct (in_range lo hi x) eqn:E; cbn [mirrors app]; rewrite run_range, E; reflexivity.
  - apply negb_true_iff in Hb. assert (Ho' : string_first r = true -> opened u).
    { intros K. rewrite K, orb_false_r in Hs. auto. }
    destruct (line_rule r) eqn:Hw.
    + pose proof (line_rule_mirror c r p u Hw Hu Ho') as K. unfold mirror in K. destruct (eval (S n) c (Call r) p u) as [q u1 f| |] eqn:E; [| |exact I].
      * rewrite (done_run _ _ _ _ _ _ _ _ Hg E) in K. exact K.
      * rewrite (fail_run _ _ _ _ _ Hg E) in K. exact K.
    + rewrite eval_S. pose proof (IH (rule_inner (fst (grammar r)) c) (snd (grammar r)) p u (good_rule r) (ascii_rule r) (tame_rule r Hb Hw) Hu _ Ho' (strings_rule r Hb Hw)) as K.
      destruct (eval n _ (snd (grammar r)) p u) as [q u1 f| |]; cbn [mirrors] in *; [| |exact I]; rewrite run_call, K; reflexivity.
  - rewrite eval_S. pose proof (IH {| atom := atom c; look := true |} e1 p u Hg' Ha Hb Hu o Ho Hs) as K.
    destruct (eval n _ e1 p u) as [q u1 f| |]; cbn [mirrors] in *; [| |exact I]; rewrite run_not by exact Hg; rewrite K; reflexivity.
  - apply andb_true_iff in Hb, Ha, Hs. destruct Hs as [Hs1 Hs2]. destruct Hb as [Hb1 Hb2]. destruct Ha as [Ha1 Ha2]. destruct Hg' as [Hg1 Hg2].
    rewrite eval_S. pose proof (IH c e1 p u Hg1 Ha1 Hb1 Hu o Ho Hs1) as K.
    destruct (eval n c e1 p u) as [q u1 f| |] eqn:E; cbn [mirrors] in K; [| |exact I].
    + pose proof (here_after _ _ _ _ _ _ _ Hu (done_run _ _ _ _ _ _ _ _ Hg1 E) Ha1) as Hu1.
      pose proof (IH c e2 q u1 Hg2 Ha2 Hb2 Hu1 _ (fun K => after_opened _ _ _ _ _ _ _ _ _ Hg1 Ha1 Hu Ho K E) Hs2) as K2.
      destruct (eval n c e2 q u1) as [q2 u2 f2| |]; cbn [mirrors] in *; [| |exact I]; rewrite run_seq by exact Hg; rewrite K, K2; reflexivity.
    + cbn [mirrors]. rewrite run_seq by exact Hg. rewrite K. reflexivity.
  - apply andb_true_iff in Hb, Ha, Hs. destruct Hs as [Hs1 Hs2]. destruct Hb as [Hb1 Hb2]. destruct Ha as [Ha1 Ha2]. destruct Hg' as [Hg1 Hg2].
    rewrite eval_S. pose proof (IH c e1 p u Hg1 Ha1 Hb1 Hu o Ho Hs1) as K.
    destruct (eval n c e1 p u) as [q u1 f| |] eqn:E; cbn [mirrors] in K; [| |exact I].
    + cbn [mirrors]. rewrite run_alt by exact Hg. rewrite K. reflexivity.
    + pose proof (IH c e2 p u Hg2 Ha2 Hb2 Hu o Ho Hs2) as K2.
      destruct (eval n c e2 p u) as [q2 u2 f2| |]; cbn [mirrors] in *; [| |exact I]; rewrite run_alt by exact Hg; rewrite K; exact K2.
  - rewrite eval_S. pose proof (IH c e1 p u Hg' Ha Hb Hu o Ho Hs) as K.
    destruct (eval n c e1 p u) as [q u1 f| |]; cbn [mirrors] in *; [| |exact I]; rewrite run_opt by exact Hg; rewrite K; reflexivity.
  - destruct Hg' as [Hg1 _].
    assert (Ho1 : o && after o e1 = true -> opened u) by (intros K; apply andb_true_iff in K; apply Ho, K).
    rewrite eval_S. pose proof (IH c e1 p u Hg1 Ha Hb Hu _ Ho1 Hs) as K.
    destruct (eval n c e1 p u) as [q u1 f| |] eqn:E; cbn [mirrors] in K; [| |exact I].
    + pose proof (here_after _ _ _ _ _ _ _ Hu (done_run _ _ _ _ _ _ _ _ Hg1 E) Ha) as Hu1.
      assert (Ho2 : o && after o e1 = true -> opened u1).
      { intros K1. apply andb_true_iff in K1. exact (after_opened _ _ _ _ _ _ _ _ _ Hg1 Ha Hu Ho (proj2 K1) E). }
      assert (Hs' : strings (o && after o e1) (Rep e1) = true).
      { cbn [strings]. destruct o; cbn [andb] in *; [|exact Hs]. destruct (after true e1) eqn:Ea; cbn [andb] in *; [rewrite Ea; exact Hs|exact Hs]. }
      pose proof (IH c (Rep e1) q u1 Hg Ha Hb Hu1 (o && after o e1) Ho2 Hs') as K2.
      destruct (eval n c (Rep e1) q u1) as [q2 u2 f2| |]; cbn [mirrors] in *; [| |exact I]; rewrite run_rep by exact Hg; rewrite K, K2; reflexivity.
    + cbn [mirrors]. rewrite run_rep by exact Hg. rewrite K. reflexivity.
Qed.

Lemma run_tame c e p u : good e = true -> ascii_expr e = true -> tame e = true -> strings false e = true -> here u -> mirror c e p u.
Proof. intros Hg Ha Ht Hs Hu. apply (tame_mirror _ c e p u Hg Ha Ht Hu false); [discriminate|exact Hs]. Qed.

(** ** Breakable texts *)

Lemma breakable_mirror c p u : here u -> ~ comments_only u -> mirror c any_breakable p u.
Proof.
  remember (length u) as m eqn:Em. revert c p u Em. induction m as [m IH] using lt_wf_ind. intros c p u Em Hu Hi. apply call_mirror.
  change (snd (grammar R_any_breakable)) with
    (Alt (Seq comment_line (Opt any_breakable)) (Seq (Call R_any_content) (Opt (Seq line_continuation any_breakable)))).
  apply alt_mirror; [reflexivity| |].
  - apply seq_mirror; [reflexivity|apply comment_line_mirror; assumption|]. intros q u1 f E.
    pose proof (here_after _ _ _ _ _ _ _ Hu E eq_refl) as Hu1. pose proof (run_strict _ _ _ _ _ _ _ E eq_refl) as L.
    apply opt_mirror; [reflexivity|]. apply (IH (length u1)); [lia|reflexivity|exact Hu1|]. intros K. apply Hi.
    apply comment_line_inv in E; [|apply Hu]. destruct E as (b & t & n & Hb & Ht & -> & _ & Hn & _). destruct Hn as [Hn|[-> ->]].
    + constructor; assumption.
    + rewrite !app_nil_r. constructor; assumption.
  - intros _. apply seq_mirror; [reflexivity|apply content_mirror; apply Hu|]. intros q u1 f E.
    pose proof (here_after _ _ _ _ _ _ _ Hu E eq_refl) as Hu1. pose proof (run_strict _ _ _ _ _ _ _ E eq_refl) as L.
    apply opt_mirror; [reflexivity|]. apply seq_mirror; [reflexivity|apply continuation_mirror; apply Hu1|]. intros q2 u2 f2 E2.
    pose proof (here_after _ _ _ _ _ _ _ Hu1 E2 eq_refl) as Hu2. pose proof (run_strict _ _ _ _ _ _ _ E2 eq_refl) as L2.
    apply (IH (length u2)); [lia|reflexivity|exact Hu2|]. intros K.
    apply continuation_inv in E2. destruct E2 as (k & Hk & -> & _ & _). destruct Hu1 as [[x Hx] _].
    destruct HC as (_ & H2 & _). apply (H2 x k u2 Hx Hk). apply comments_idle. exact K.
Qed.

(** ** Instructions *)

Definition first_here (u : bytes) : Prop := (exists x, A = x ++ u /\ before_first_word x) /\ valid_utf8 u = true.

Lemma first_inside u : first_here u -> here u.
Proof. intros [(x & Hx & _) Hv]. split; [exists x; exact Hx|exact Hv]. Qed.

Lemma comments_only_nil : ~ comments_only [].
Proof.
  intros H. remember [] as u eqn:E. destruct H as [b t Hb Ht|b t n w Hb Ht Hn Hw]; destruct Ht as (x & -> & _); destruct b; discriminate.
Qed.

Lemma comments_only_blanks b u : blanks b -> comments_only u -> comments_only (b ++ u).
Proof.
  intros Hb H. destruct H as [b1 t Hb1 Ht|b1 t n w Hb1 Ht Hn Hw]; rewrite app_assoc; constructor; try assumption; apply Forall_app; split; assumption.
Qed.

Lemma skipped_idle k l t : skipped_lines k l -> idle_tail t -> idle_tail (l ++ t).
Proof.
  intros H Ht. induction H as [|k b n w Hb Hn Hw IH|k b c n w Hb Hc Hn Hw IH]; [exact Ht| |].
  - rewrite <- !app_assoc. apply idle_line; assumption.
  - rewrite <- !app_assoc. apply idle_comment_line; assumption.
Qed.

(** A gap is blanks, or ends with a continuation, empty lines, comments and blanks. *)
Lemma gap_last k w : gap k w -> blanks w \/
  exists g c j l b, w = g ++ c ++ l ++ b /\ continuation c /\ skipped_lines j l /\ blanks b.
Proof.
  induction 1 as [|k c w Hc Hw IH|j k c l w Hc Hl Hw IH].
  - left. constructor.
  - destruct IH as [IH|(g & c1 & j & l & b & -> & H1 & H2 & H3)]; [left; constructor; assumption|].
    right. exists (c :: g), c1, j, l, b. auto.
  - right. destruct IH as [IH|(g & c1 & j1 & l1 & b & -> & H1 & H2 & H3)].
    + exists [], c, j, l, w. auto.
    + exists (c ++ l ++ g), c1, j1, l1, b. rewrite <- !app_assoc. auto.
Qed.

Lemma gap_comments k w x u : gap k w -> A = x ++ w ++ u -> comments_only u -> blanks w.
Proof.
  intros Hg E Hu. destruct (gap_last _ _ Hg) as [K|(g & c & j & l & b & -> & Hc & Hl & Hb)]; [exact K|exfalso].
  destruct HC as (_ & H2 & _). apply (H2 (x ++ g) c (l ++ b ++ u)); [rewrite E, <- !app_assoc; reflexivity|exact Hc|].
  apply (skipped_idle j); [exact Hl|]. apply comments_idle. apply comments_only_blanks; assumption.
Qed.

Lemma newline_ends_line x n : newline n -> ends_line (x ++ n).
Proof.
  intros Hn. right. destruct Hn; [exists x, LF|exists (x ++ [CR]), LF|exists x, CR]; (split; [|reflexivity]); rewrite <- ?app_assoc; reflexivity.
Qed.

Lemma skipped_ends_line k l x : skipped_lines k l -> ends_line x -> ends_line (x ++ l).
Proof.
  intros H. revert x. induction H as [|k b n w Hb Hn Hw IH|k b c n w Hb Hc Hn Hw IH]; intros x Hx.
  - rewrite app_nil_r. exact Hx.
  - replace (x ++ b ++ n ++ w) with (((x ++ b) ++ n) ++ w) by (rewrite <- !app_assoc; reflexivity). apply IH, newline_ends_line, Hn.
  - replace (x ++ b ++ c ++ n ++ w) with (((x ++ b ++ c) ++ n) ++ w) by (rewrite <- !app_assoc; reflexivity). apply IH, newline_ends_line, Hn.
Qed.

Lemma gap_first k w x : gap k w -> blanks w \/ before_first_word (x ++ w).
Proof.
  intros Hg. destruct (gap_last _ _ Hg) as [K|(g & c & j & l & b & -> & Hc & Hl & Hb)]; [left; exact K|right].
  exists (x ++ g ++ c ++ l), b. split; [rewrite <- !app_assoc; reflexivity|]. split; [|exact Hb].
  destruct Hc as (b1 & n & -> & Hb1 & Hn).
  replace (x ++ g ++ (BSLASH :: b1 ++ n) ++ l) with (((x ++ g ++ BSLASH :: b1) ++ n) ++ l) by (rewrite <- !app_assoc; cbn [app]; rewrite <- ?app_assoc; reflexivity).
  apply (skipped_ends_line j); [exact Hl|]. apply newline_ends_line, Hn.
Qed.

Lemma keyword_name k w : to_lower w = to_lower (bs k) -> bs k <> [] -> forallb is_alpha (bs k) = true -> env_name_text w.
Proof.
  intros E Hne Ha. split. { intros ->. destruct (bs k); [congruence|discriminate]. }
  assert (K : forallb is_alpha (to_lower w) = true).
  { rewrite E. unfold to_lower. rewrite forallb_forall in *. intros c Hc. apply in_map_iff in Hc. destruct Hc as (d & <- & Hd). rewrite lower_is_alpha. auto. }
  apply Forall_forall. intros c Hc. rewrite forallb_forall in K. specialize (K (lower_byte c) (in_map _ _ _ Hc)). rewrite lower_is_alpha in K.
  unfold is_word, is_alnum. rewrite K. reflexivity.
Qed.

(** After the first word of a line and a gap *)
Lemma after_gap x w q u q1 u1 f : A = x ++ w ++ u -> before_first_word x -> env_name_text w -> here u ->
  run ctx0 arg_ws q u = Done q1 u1 f -> ~ comments_only u1.
Proof.
  intros E Hx Hw Hu H K. assert (Hne : u1 <> []). { intros ->. apply comments_only_nil. exact K. }
  apply gap_inv_more in H; [|apply Hu|exact Hne]. destruct H as (g & -> & _ & _ & _ & Hg).
  assert (Hb : blanks g). { apply (gap_comments _ _ (x ++ w) u1 Hg); [rewrite E, <- app_assoc; reflexivity|exact K]. }
  destruct HC as (_ & _ & H3 & _). apply (H3 x w (g ++ u1) E Hx Hw). apply comments_only_blanks; assumption.
Qed.

Lemma shell_mirror k exec shell p u : bs k <> [] -> forallb is_alpha (bs k) = true -> ascii_expr (Insens (bs k)) = true -> tame (Call exec) = true -> string_first exec = false ->
  grammar shell = (AtomicRule, any_breakable) -> good (Seq (Insens (bs k)) (Seq arg_ws (Alt (Call exec) (Call shell)))) = true ->
  first_here u -> mirror ctx0 (Seq (Insens (bs k)) (Seq arg_ws (Alt (Call exec) (Call shell)))) p u.
Proof.
  intros Hk Ha Hak He Hes Hs Hg Hu. pose proof (first_inside u Hu) as Hi. pose proof (good_sub _ Hg) as [_ Hg1]. pose proof (good_sub _ Hg1) as [_ Hg2].
  apply seq_mirror; [exact Hg|apply run_tame; [apply (good_sub _ Hg)|exact Hak|exact Ha|reflexivity|exact Hi]|]. intros q u1 f E.
  pose proof (here_after _ _ _ _ _ _ _ Hi E Hak) as Hu1.
  apply seq_mirror; [exact Hg1|apply gap_mirror; exact Hu1|]. intros q2 u2 f2 E2.
  pose proof (here_after _ _ _ _ _ _ _ Hu1 E2 eq_refl) as Hu2.
  apply alt_mirror; [exact Hg2|apply run_tame; [apply good_call|reflexivity|exact He|cbn [strings]; rewrite Hes; reflexivity|exact Hu2]|]. intros _.
  apply call_mirror. rewrite Hs. cbn [fst snd]. apply breakable_mirror; [exact Hu2|].
  apply insens_inv in E. destruct E as (w & -> & Hw & _ & _). destruct Hu as [(x & Hx & Hf) _].
  apply (after_gap x w q u1 q2 u2 f2 Hx Hf); [|exact Hu1|exact E2]. apply (keyword_name k); assumption.
Qed.

Lemma misc_mirror p u : first_here u -> mirror ctx0 (Call R_misc) p u.
Proof.
  intros Hu. pose proof (first_inside u Hu) as Hi. apply call_mirror.
  change (snd (grammar R_misc)) with (Seq (Call R_misc_instruction) (Call R_misc_arguments)). change (rule_inner (fst (grammar R_misc)) ctx0) with ctx0.
  apply seq_mirror; [reflexivity|apply run_tame; [apply good_call|reflexivity|reflexivity|reflexivity|exact Hi]|]. intros q u1 f E.
  pose proof (here_after _ _ _ _ _ _ _ Hi E eq_refl) as Hu1.
  apply call_mirror. cbn [grammar fst snd]. apply breakable_mirror; [exact Hu1|].
  apply letters_rule_inv in E; [|reflexivity]. destruct E as (w & ch & -> & _ & Hw & _ & _). destruct Hu as [(x & Hx & Hf) _].
  destruct HC as (_ & _ & H3 & _). apply (H3 x w u1 Hx Hf). destruct Hw as [Hne Hw]. split; [exact Hne|].
  eapply Forall_impl; [|exact Hw]. intros c Hc. cbn beta in *. unfold is_word, is_alnum. rewrite Hc. reflexivity.
Qed.

Lemma env_mirror p u : first_here u -> mirror ctx0 (Call R_env) p u.
Proof.
  intros Hu. pose proof (first_inside u Hu) as Hi. apply call_mirror.
  change (snd (grammar R_env)) with (Seq (Insens (bs "env")) (Alt (Call R_env_single) (Call R_env_pairs))).
  change (rule_inner (fst (grammar R_env)) ctx0) with ctx0.
  apply seq_mirror; [reflexivity|apply run_tame; [reflexivity|reflexivity|reflexivity|reflexivity|exact Hi]|]. intros q u1 f E.
  pose proof (here_after _ _ _ _ _ _ _ Hi E eq_refl) as Hu1.
  apply alt_mirror; [reflexivity| |intros _; apply run_tame; [reflexivity|reflexivity|reflexivity|reflexivity|exact Hu1]].
  apply insens_inv in E. destruct E as (kw & -> & Hkw & _ & _). destruct Hu as [(x & Hx & Hf) _].
  apply call_mirror.
  change (snd (grammar R_env_single)) with (Seq arg_ws (Seq (Call R_env_name) (Seq arg_ws (Alt (Call R_env_single_quoted_value) (Call R_env_single_value))))).
  change (rule_inner (fst (grammar R_env_single)) ctx0) with ctx0.
  apply seq_mirror; [reflexivity|apply gap_mirror; exact Hu1|]. intros q2 u2 f2 E2. pose proof (here_after _ _ _ _ _ _ _ Hu1 E2 eq_refl) as Hu2.
  apply seq_mirror; [reflexivity|apply run_tame; [reflexivity|reflexivity|reflexivity|reflexivity|exact Hu2]|]. intros q3 u3 f3 E3.
  pose proof (here_after _ _ _ _ _ _ _ Hu2 E3 eq_refl) as Hu3.
  apply seq_mirror; [reflexivity|apply gap_mirror; exact Hu3|]. intros q4 u4 f4 E4. pose proof (here_after _ _ _ _ _ _ _ Hu3 E4 eq_refl) as Hu4.
  apply alt_mirror; [reflexivity|apply (tame_mirror _ ctx0 (Call R_env_single_quoted_value) q4 u4 eq_refl eq_refl eq_refl Hu4 true); [intros _|reflexivity]; refine (run_opened ctx0 arg_ws q3 u3 false q4 u4 f4 eq_refl eq_refl Hu3 _ eq_refl E4); discriminate|]. intros _.
  apply call_mirror. cbn [grammar fst snd]. apply breakable_mirror; [exact Hu4|].
  apply env_name_inv in E3; [|reflexivity]. destruct E3 as (w & ch & -> & _ & Hw & _).
  apply gap_inv_more in E2; [|apply Hu1|destruct Hw as [Hne _]; destruct w; [congruence|discriminate]].
  destruct E2 as (g & -> & _ & _ & Hgne & Hg). destruct (gap_first _ _ (x ++ kw) Hg) as [Hb|Hff].
  - intros K. assert (Hne : u4 <> []). { intros ->. apply comments_only_nil. exact K. }
    apply gap_inv_more in E4; [|apply Hu3|exact Hne]. destruct E4 as (g2 & -> & _ & _ & _ & Hg2).
    assert (Hb2 : blanks g2). { apply (gap_comments _ _ (x ++ kw ++ g ++ w) u4 Hg2); [rewrite Hx, <- !app_assoc; reflexivity|exact K]. }
    destruct HC as (_ & _ & _ & H4). apply (H4 x kw g w (g2 ++ u4)); try assumption. apply comments_only_blanks; assumption.
  - apply (after_gap ((x ++ kw) ++ g) w q3 u3 q4 u4 f4); [rewrite Hx, <- !app_assoc; reflexivity|exact Hff|exact Hw|exact Hu3|exact E4].
Qed.

Lemma step_mirror p u : first_here u -> mirror ctx0 (Call R_step) p u.
Proof.
  intros Hu. pose proof (first_inside u Hu) as Hi. apply call_mirror. change (rule_inner (fst (grammar R_step)) ctx0) with ctx0. cbn [grammar snd].
  apply alt_mirror; [reflexivity|apply run_tame; try reflexivity; exact Hi|intros _].
  apply alt_mirror; [reflexivity| |intros _].
  { apply call_mirror. change (rule_inner (fst (grammar R_run)) ctx0) with ctx0. apply (shell_mirror "run" R_run_exec R_run_shell); try reflexivity; [discriminate|exact Hu]. }
  apply alt_mirror; [reflexivity|apply run_tame; try reflexivity; exact Hi|intros _].
  apply alt_mirror; [reflexivity|apply run_tame; try reflexivity; exact Hi|intros _].
  apply alt_mirror; [reflexivity|apply run_tame; try reflexivity; exact Hi|intros _].
  apply alt_mirror; [reflexivity| |intros _].
  { apply call_mirror. change (rule_inner (fst (grammar R_entrypoint)) ctx0) with ctx0.
    apply (shell_mirror "entrypoint" R_entrypoint_exec R_entrypoint_shell); try reflexivity; [discriminate|exact Hu]. }
  apply alt_mirror; [reflexivity| |intros _].
  { apply call_mirror. change (rule_inner (fst (grammar R_cmd)) ctx0) with ctx0. apply (shell_mirror "cmd" R_cmd_exec R_cmd_shell); try reflexivity; [discriminate|exact Hu]. }
  apply alt_mirror; [reflexivity|apply env_mirror; exact Hu|intros _]. apply misc_mirror. exact Hu.
Qed.

(** ** Lines *)

Definition line_here (u : bytes) : Prop := (exists x, A = x ++ u /\ ends_line x) /\ valid_utf8 u = true.

Lemma meta_mirror p u : line_here u -> mirror ctx0 (Call R_meta_step) p u.
Proof.
  intros [(x & Hx & Hl) Hv]. assert (Hi : here u) by (split; [exists x; exact Hx|exact Hv]). apply call_mirror.
  change (rule_inner (fst (grammar R_meta_step)) ctx0) with ctx0. cbn [grammar snd].
  apply seq_mirror; [reflexivity|apply ws_star_mirror|]. intros q u1 f E. pose proof (here_after _ _ _ _ _ _ _ Hi E eq_refl) as Hu1.
  apply seq_mirror; [reflexivity| |intros; apply ws_star_mirror]. apply opt_mirror; [reflexivity|].
  apply alt_mirror; [reflexivity| |intros _; apply comment_mirror; apply Hu1]. apply step_mirror.
  apply blanks_inv in E. destruct E as (b & Hb & -> & _ & _ & _). split; [|apply Hu1]. exists (x ++ b). split; [rewrite Hx, <- app_assoc; reflexivity|].
  exists x, b. auto.
Qed.

Notation line := (Seq NEWLINE (Call R_meta_step)).

Lemma line_step p u : inside u -> valid_utf8 u = true -> u <> [] -> mirror ctx0 line p u.
Proof.
  intros Hu Hv Hne. apply seq_mirror; [reflexivity|apply newline_mirror; assumption|]. intros q u1 f E.
  pose proof (here_after _ _ _ _ _ _ _ (conj Hu Hv) E eq_refl) as Hu1. apply meta_mirror. split; [|apply Hu1].
  apply newline_inv in E. destruct E as (n & Hn & -> & _ & _). destruct Hu as [x Hx]. exists (x ++ n).
  split; [rewrite Hx, <- app_assoc; reflexivity|]. apply newline_ends_line, Hn.
Qed.

(** The lines of [A], and then those of [R] *)
Lemma lines_join p u : inside u -> valid_utf8 u = true -> forall q u1 f, run ctx0 (Rep line) p u = Done q u1 f ->
  run ctx0 (Rep line) p (u ++ R) =
  match u1 with
  | [] => match run ctx0 (Rep line) q R with Done q2 s2 f2 => Done q2 s2 (f ++ f2) | x => x end
  | _ => Done q (u1 ++ R) f
  end.
Proof.
  remember (length u) as m eqn:Em. revert p u Em. induction m as [m IH] using lt_wf_ind. intros p u Em Hu Hv q u1 f H.
  destruct u as [|x u].
  - rewrite run_rep in H by reflexivity. rewrite run_seq, run_newline in H by reflexivity. cbn [strip_newline] in H. injection H as <- <- <-.
    cbn [app]. destruct (run ctx0 (Rep line) p R); reflexivity.
  - assert (Hne : x :: u <> []) by discriminate. pose proof (line_step p (x :: u) Hu Hv Hne) as K. unfold mirror in K.
    rewrite run_rep in H by reflexivity. destruct (run ctx0 line p (x :: u)) as [q1 s1 f1| |] eqn:E; [| |discriminate].
    + cbn [mirrors] in K. destruct (run ctx0 (Rep line) q1 s1) as [q2 s2 f2| |] eqn:E2; [|discriminate|discriminate]. injection H as -> -> <-.
      pose proof (run_strict _ _ _ _ _ _ _ E eq_refl) as L. destruct (here_after _ _ _ _ _ _ _ (conj Hu Hv) E eq_refl) as [Hu1 Hv1].
      rewrite run_rep by reflexivity. rewrite K, (IH (length s1) ltac:(lia) q1 s1 eq_refl Hu1 Hv1 q u1 f2 E2).
      destruct u1; [|reflexivity]. destruct (run ctx0 (Rep line) q R); [|reflexivity..]. rewrite app_assoc. reflexivity.
    + injection H as <- <- <-. cbn [mirrors] in K. rewrite run_rep by reflexivity. rewrite K. reflexivity.
Qed.

(** ** What is remembered for the error report

    Whatever is tried on the rest [u] of [A], with [R] behind it, is tried in [u] or at
    its end. *)

Definition within (c : ctx) (e : expr) (p : nat) (u : bytes) : Prop :=
  forall neg t, tr_pos (tries c neg e p (u ++ R) t) <= Nat.max (tr_pos t) (p + length u).

Lemma quiet_within c e p u : unheard false e = true -> within c e p u.
Proof. intros H neg t. rewrite tries_unheard by exact H. lia. Qed.

Lemma atomic_within c r p u : fst (grammar r) = AtomicRule -> unheard true (snd (grammar r)) = true -> within c (Call r) p u.
Proof. intros H1 H2 neg t. pose proof (tries_atomic c neg r p (u ++ R) t H1 H2). lia. Qed.

Lemma seq_within c a b p u : good (Seq a b) = true -> mirror c a p u -> within c a p u ->
  (forall q u1 f, run c a p u = Done q u1 f -> within c b q u1) -> within c (Seq a b) p u.
Proof.
  intros Hg Ma Ha Hb neg t. rewrite tries_seq by exact Hg. pose proof (run_total c a p u (proj1 (good_sub _ Hg))) as T.
  destruct (run c a p u) as [q u1 f| |] eqn:E; [| |congruence].
  - rewrite (mirror_done _ _ _ _ _ _ _ Ma E). destruct (run_consumes _ _ _ _ _ _ _ E) as (w & -> & ->).
    pose proof (Hb _ _ _ eq_refl neg (tries c neg a p ((w ++ u1) ++ R) t)) as K. pose proof (Ha neg t) as K2. rewrite app_length in *. lia.
  - rewrite (mirror_fail _ _ _ _ Ma E). apply Ha.
Qed.

Lemma alt_within c a b p u : good (Alt a b) = true -> mirror c a p u -> within c a p u -> (run c a p u = Fail -> within c b p u) -> within c (Alt a b) p u.
Proof.
  intros Hg Ma Ha Hb neg t. rewrite tries_alt by exact Hg. pose proof (run_total c a p u (proj1 (good_sub _ Hg))) as T.
  destruct (run c a p u) as [q u1 f| |] eqn:E; [| |congruence].
  - rewrite (mirror_done _ _ _ _ _ _ _ Ma E). apply Ha.
  - rewrite (mirror_fail _ _ _ _ Ma E). pose proof (Hb eq_refl neg (tries c neg a p (u ++ R) t)). pose proof (Ha neg t). lia.
Qed.

Lemma opt_within c a p u : good (Opt a) = true -> within c a p u -> within c (Opt a) p u.
Proof. intros Hg Ha neg t. rewrite tries_opt by exact Hg. apply Ha. Qed.

Lemma not_within c a p u : good (NegPred a) = true -> within {| atom := atom c; look := true |} a p u -> within c (NegPred a) p u.
Proof. intros Hg Ha neg t. rewrite tries_not by exact Hg. apply Ha. Qed.

Lemma call_within c r p u : within (rule_inner (fst (grammar r)) c) (snd (grammar r)) p u -> within c (Call r) p u.
Proof.
  intros Ha neg t. rewrite tries_call. specialize (Ha neg t).
  match goal with |- context [track_rule ?k ?c ?neg ?r ?p ?o ?t0 ?t1] => destruct (track_rule_pos k c neg r p o t0 t1) as [E|[E _]]; rewrite E end; lia.
Qed.

Lemma rep_within c a (P : bytes -> Prop) : good (Rep a) = true -> nullable a = false ->
  (forall p u, P u -> mirror c a p u) -> (forall p u, P u -> within c a p u) -> (forall p u q u1 f, P u -> run c a p u = Done q u1 f -> P u1) ->
  forall p u, P u -> within c (Rep a) p u.
Proof.
  intros Hg Hn Ma Ha HP p u. remember (length u) as m eqn:Em. revert p u Em. induction m as [m IH] using lt_wf_ind. intros p u Em Hu neg t.
  rewrite tries_rep by exact Hg. pose proof (run_total c a p u (proj1 (good_sub _ Hg))) as T. pose proof (Ma p u Hu) as K.
  destruct (run c a p u) as [q u1 f| |] eqn:E; [| |congruence].
  - rewrite (mirror_done _ _ _ _ _ _ _ K E). pose proof (run_strict _ _ _ _ _ _ _ E Hn) as L.
    pose proof (IH (length u1) ltac:(lia) q u1 eq_refl (HP _ _ _ _ _ Hu E) neg (tries c neg a p (u ++ R) t)) as K2.
    pose proof (Ha p u Hu neg t) as K3. destruct (run_consumes _ _ _ _ _ _ _ E) as (w & Ew & Eq). rewrite Ew, app_length in *. lia.
  - rewrite (mirror_fail _ _ _ _ K E). rewrite <- Em. subst m. apply Ha. exact Hu.
Qed.

Lemma comment_line_within c p u : here u -> within c comment_line p u.
Proof.
  intros Hu. apply call_within. change (snd (grammar R_comment_line)) with (Seq (Rep ws) (Seq comment (Opt NEWLINE))).
  cbn [grammar fst rule_inner]. apply seq_within; [reflexivity|apply ws_star_mirror|apply quiet_within; reflexivity|]. intros q u1 f E.
  pose proof (here_after _ _ _ _ _ _ _ Hu E eq_refl) as [Hu1 Hv1].
  apply seq_within; [reflexivity|apply comment_mirror; assumption|apply atomic_within; reflexivity|]. intros q2 u2 f2 E2. apply quiet_within. reflexivity.
Qed.

Lemma skipped_step c p u q u1 f : here u -> ~ idle_tail u -> run c (Alt comment_line empty_line) p u = Done q u1 f -> here u1 /\ ~ idle_tail u1.
Proof.
  intros Hu Hi E. split; [apply (here_after _ _ _ _ _ _ _ Hu E eq_refl)|]. intros K. apply Hi.
  apply alt_inv in E; [|reflexivity]. destruct E as [E|[_ E]].
  - apply comment_line_inv in E; [|apply Hu]. destruct E as (b & t & n & Hb & Ht & -> & _ & Hn & _). destruct Hn as [Hn|[-> ->]].
    + apply idle_comment_line; assumption.
    + rewrite !app_nil_r. apply idle_comment; assumption.
  - apply empty_line_inv in E. destruct E as (b & n & Hb & Hn & -> & _). apply idle_line; assumption.
Qed.

Lemma lines_within c p u : here u -> ~ idle_tail u -> within c (Rep (Alt comment_line empty_line)) p u.
Proof.
  intros Hu Hi.
  assert (M : forall p u, here u /\ ~ idle_tail u -> mirror c comment_line p u).
  { clear p u Hu Hi. intros p u [Hu Hi]. apply comment_line_mirror; [exact Hu|]. intros K. apply Hi. apply comments_idle. exact K. }
  apply (rep_within c _ (fun u => here u /\ ~ idle_tail u)); [reflexivity|reflexivity| | | |split; assumption]; clear p u Hu Hi.
  - intros p u [Hu Hi]. apply alt_mirror; [reflexivity|apply M; split; assumption|]. intros _. apply empty_line_mirror; assumption.
  - intros p u [Hu Hi]. apply alt_within; [reflexivity|apply M; split; assumption|apply comment_line_within; exact Hu|].
    intros _. apply quiet_within. reflexivity.
  - intros p u q u1 f [Hu Hi] E. eapply skipped_step; eassumption.
Qed.

Lemma gap_item_within c p u : here u -> within c arg_ws_item p u.
Proof.
  intros Hu. unfold arg_ws_item. apply alt_within; [reflexivity| |apply quiet_within; reflexivity|].
  - apply (class_mirror _ is_blank); [exact class_ws|exact blank_not_newline].
  - intros _. apply seq_within; [reflexivity|apply continuation_mirror; apply Hu|apply quiet_within; reflexivity|]. intros q u1 f E.
    pose proof (here_after _ _ _ _ _ _ _ Hu E eq_refl) as Hu1. apply continuation_inv in E. destruct E as (k & Hk & -> & _ & _).
    apply lines_within; [exact Hu1|]. destruct Hu as [[x Hx] _]. destruct HC as (_ & H2 & _). apply (H2 x k u1 Hx Hk).
Qed.

Lemma gap_star_within c p u : here u -> within c (Rep arg_ws_item) p u.
Proof.
  apply rep_within; [reflexivity|reflexivity|intros; apply gap_item_mirror; assumption|intros; apply gap_item_within; assumption|].
  intros p0 u0 q u1 f Hu E. apply (here_after _ _ _ _ _ _ _ Hu E eq_refl).
Qed.

Lemma gap_within c p u : here u -> within c arg_ws p u.
Proof.
  intros Hu. apply call_within. change (snd (grammar R_arg_ws)) with (Seq arg_ws_item (Rep arg_ws_item)). cbn [grammar fst rule_inner].
  apply seq_within; [reflexivity|apply gap_item_mirror; exact Hu|apply gap_item_within; exact Hu|]. intros q u1 f E.
  apply gap_star_within. apply (here_after _ _ _ _ _ _ _ Hu E eq_refl).
Qed.

(** A character of a word *)
Notation word_end := (Alt NEWLINE (Alt (Call R_EOI) arg_ws)).

Lemma eoi_mirror c p x u : mirror c (Call R_EOI) p (x :: u).
Proof. unfold mirror. rewrite run_call. cbn [grammar fst snd rule_inner]. rewrite run_eoi. cbn [mirrors app]. rewrite run_call. cbn [grammar fst snd rule_inner]. rewrite run_eoi. reflexivity. Qed.

Lemma eoi_within c p u : within c (Call R_EOI) p u.
Proof. apply call_within, quiet_within. reflexivity. Qed.

Lemma word_end_mirror c p x u : here (x :: u) -> mirror c word_end p (x :: u).
Proof.
  intros Hu. apply alt_mirror; [reflexivity|apply newline_mirror; [apply Hu|discriminate]|]. intros _.
  apply alt_mirror; [reflexivity|apply eoi_mirror|]. intros _. apply gap_mirror. exact Hu.
Qed.

Lemma word_item_mirror c p u : here u -> mirror c (Seq (NegPred word_end) AnyChar) p u.
Proof.
  intros Hu. destruct u as [|x u].
  - unfold mirror. rewrite run_seq, run_not by reflexivity. rewrite run_alt, run_newline by reflexivity. cbn [strip_newline].
    rewrite run_alt by reflexivity. rewrite (run_call _ R_EOI). cbn [grammar fst snd rule_inner]. rewrite run_eoi. cbn [mirrors app].
    rewrite run_seq, run_not by reflexivity. rewrite run_alt, run_newline by reflexivity.
    destruct (strip_newline R) as [[n v]|] eqn:E; [reflexivity|]. apply strip_newline_none in E. congruence.
  - apply seq_mirror; [reflexivity|apply not_mirror; [reflexivity|apply word_end_mirror; exact Hu]|]. intros q u1 f E.
    rewrite run_not in E by reflexivity. destruct (run _ word_end p (x :: u)); try discriminate; injection E as <- <- <-;
      unfold mirror; rewrite run_any; cbn [mirrors app]; rewrite run_any;
      (destruct (any_char_valid x u) as (ch & Hc & E1 & E2 & _); [apply Hu|]);
      rewrite E2; change (x :: u ++ R) with ((x :: u) ++ R);
      (assert (L : utf8_width x = length ch) by (rewrite (utf8_char_width ch x Hc); [reflexivity|]; destruct ch; [inversion Hc|injection E1 as -> _; reflexivity]));
      rewrite L in *; rewrite firstn_app, skipn_app, E2;
      pose proof (f_equal (@length N) E2) as L2; rewrite firstn_length in L2;
      (replace (length ch - length (x :: u)) with 0 by lia); cbn [firstn skipn]; rewrite app_nil_r; reflexivity.
Qed.

Lemma word_item_within c p u : here u -> within c (Seq (NegPred word_end) AnyChar) p u.
Proof.
  intros Hu. destruct u as [|x u].
  - intros neg t. cbn [app]. rewrite tries_seq by reflexivity. rewrite run_not by reflexivity. rewrite run_alt, run_newline by reflexivity.
    destruct (strip_newline R) as [[n v]|] eqn:E; [|apply strip_newline_none in E; congruence].
    rewrite tries_not by reflexivity. rewrite tries_alt by reflexivity. rewrite run_newline, E. rewrite tries_unheard by reflexivity. lia.
  - apply seq_within; [reflexivity|apply not_mirror; [reflexivity|apply word_end_mirror; exact Hu]| |intros; apply quiet_within; reflexivity].
    apply not_within; [reflexivity|]. apply alt_within; [reflexivity|apply newline_mirror; [apply Hu|discriminate]|apply quiet_within; reflexivity|]. intros _.
    apply alt_within; [reflexivity|apply eoi_mirror|apply eoi_within|]. intros _. apply gap_within. exact Hu.
Qed.

Lemma word_within c p u : here u -> within c any_whitespace p u.
Proof.
  intros Hu. apply call_within. change (snd (grammar R_any_whitespace)) with (rep1 (Seq (NegPred word_end) AnyChar)). cbn [grammar fst rule_inner].
  apply seq_within; [reflexivity|apply word_item_mirror; exact Hu|apply word_item_within; exact Hu|]. intros q u1 f E.
  pose proof (here_after _ _ _ _ _ _ _ Hu E eq_refl) as Hu1. revert q u1 Hu1 E. intros q u1 Hu1 _. revert q u1 Hu1.
  apply rep_within; [reflexivity|reflexivity|intros; apply word_item_mirror; assumption|intros; apply word_item_within; assumption|].
  intros p0 u0 q0 u2 f0 H E. apply (here_after _ _ _ _ _ _ _ H E eq_refl).
Qed.

Lemma line_rule_within c r p u : line_rule r = true -> here u -> within c (Call r) p u.
Proof.
  intros Hr Hu. destruct r; try discriminate; try (apply atomic_within; reflexivity); try (apply quiet_within; reflexivity).
  - apply gap_within. exact Hu.
  - apply call_within, gap_star_within. exact Hu.
  - apply word_within. exact Hu.
Qed.

Theorem tame_within n : forall c e p u, need e u <= n -> good e = true -> ascii_expr e = true -> tame e = true -> here u ->
  forall o, (o = true -> opened u) -> strings o e = true -> within c e p u.
Proof.
  induction n as [|n IH]; intros c e p u Hn Hg Ha Hb Hu o Ho Hs.
  { exfalso. unfold need in Hn. destruct e; cbn [height] in Hn; lia. }
  assert (M : forall e1 p1 u1 o1, good e1 = true -> ascii_expr e1 = true -> tame e1 = true -> here u1 -> (o1 = true -> opened u1) -> strings o1 e1 = true -> mirror c e1 p1 u1).
  { intros. unfold mirror, run. eapply tame_mirror; eassumption. }
  destruct e as [pat|pat|lo hi| | | |r|e1|e1 e2|e1 e2|e1|e1]; cbn [tame ascii_expr strings] in Hb, Ha, Hs; try discriminate;
    try (pose proof (good_sub _ Hg) as Hg'; cbn beta iota in Hg'); try (apply quiet_within; reflexivity).
  - apply negb_true_iff in Hb. assert (Ho' : string_first r = true -> opened u).
    { intros K. rewrite K, orb_false_r in Hs. auto. }
    destruct (line_rule r) eqn:Hw; [apply line_rule_within; assumption|]. apply call_within.
    pose proof (rank_rule_ok r) as Hrr. pose proof (good_bounds _ (good_rule r)) as [Hbh _].
    refine (IH _ _ _ _ _ (good_rule r) (ascii_rule r) (tame_rule r Hb Hw) Hu _ Ho' (strings_rule r Hb Hw)); unfold need in *; cbn [rank height] in Hn; lia.
  - apply not_within; [exact Hg|]. refine (IH _ _ _ _ _ Hg' Ha Hb Hu o Ho Hs); unfold need in *; cbn [rank height] in Hn; lia.
  - apply andb_true_iff in Hb, Ha, Hs. destruct Hs as [Hs1 Hs2]. destruct Hb as [Hb1 Hb2]. destruct Ha as [Ha1 Ha2]. destruct Hg' as [Hg1 Hg2].
    unfold need in Hn. cbn [rank height] in Hn.
    apply seq_within; [exact Hg|eauto| |].
    + refine (IH _ _ _ _ _ Hg1 Ha1 Hb1 Hu o Ho Hs1); unfold need; destruct (nullable e1); lia.
    + intros q u1 f E. pose proof (here_after _ _ _ _ _ _ _ Hu E Ha1) as Hu1.
      refine (IH _ _ _ _ _ Hg2 Ha2 Hb2 Hu1 _ (fun K => run_opened _ _ _ _ _ _ _ _ Hg1 Ha1 Hu Ho K E) Hs2).
      unfold need. pose proof (good_bounds _ Hg2) as [Hh2 Hr2]. pose proof (run_consumes _ _ _ _ _ _ _ E) as (w & Hw & _). destruct (nullable e1) eqn:En.
      * rewrite Hw, app_length in Hn. lia.
      * pose proof (run_strict _ _ _ _ _ _ _ E En). lia.
  - apply andb_true_iff in Hb, Ha, Hs. destruct Hs as [Hs1 Hs2]. destruct Hb as [Hb1 Hb2]. destruct Ha as [Ha1 Ha2]. destruct Hg' as [Hg1 Hg2].
    unfold need in Hn. cbn [rank height] in Hn.
    apply alt_within; [exact Hg|eauto| |intros _].
    + refine (IH _ _ _ _ _ Hg1 Ha1 Hb1 Hu o Ho Hs1); unfold need; lia.
    + refine (IH _ _ _ _ _ Hg2 Ha2 Hb2 Hu o Ho Hs2); unfold need; lia.
  - apply opt_within; [exact Hg|]. refine (IH _ _ _ _ _ Hg' Ha Hb Hu o Ho Hs); unfold need in *; cbn [rank height] in Hn; lia.
  - destruct Hg' as [Hg1 Hnn].
    assert (Ho1 : o && after o e1 = true -> opened u) by (intros K; apply andb_true_iff in K; apply Ho, K).
    assert (Hr : need e1 u <= n) by (unfold need in *; cbn [rank height] in Hn; lia). clear Hn.
    assert (G : forall v, (here v /\ (o && after o e1 = true -> opened v)) /\ length v <= length u ->
      forall p, mirror c e1 p v /\ within c e1 p v /\ forall q u1 f, run c e1 p v = Done q u1 f -> (here u1 /\ (o && after o e1 = true -> opened u1)) /\ length u1 <= length u).
    { intros v [[Hv Hov] Hl] p1. split; [eauto|]. split; [refine (IH _ _ _ _ _ Hg1 Ha Hb Hv _ Hov Hs); unfold need in *; lia|].
      intros q u1 f E. split; [split; [exact (here_after _ _ _ _ _ _ _ Hv E Ha)|]|].
      - intros K. refine (run_opened _ _ _ _ _ _ _ _ Hg1 Ha Hv _ _ E); [exact Hov|]. apply andb_true_iff in K. destruct K as [-> K]. rewrite K. exact K.
      - pose proof (run_strict _ _ _ _ _ _ _ E Hnn). lia. }
    apply (rep_within c e1 (fun v => (here v /\ (o && after o e1 = true -> opened v)) /\ length v <= length u)); [exact Hg|exact Hnn| | | |auto].
    + intros p1 v Hv. apply G. exact Hv.
    + intros p1 v Hv. apply G. exact Hv.
    + intros p1 v q u1 f Hv E. exact (proj2 (proj2 (G v Hv p1)) q u1 f E).
Qed.

Lemma run_within_tame c e p u : good e = true -> ascii_expr e = true -> tame e = true -> strings false e = true -> here u -> within c e p u.
Proof. intros Hg Ha Ht Hs Hu. apply (tame_within (need e u) c e p u (le_n _) Hg Ha Ht Hu false); [discriminate|exact Hs]. Qed.

Lemma breakable_within c p u : here u -> ~ comments_only u -> within c any_breakable p u.
Proof.
  remember (length u) as m eqn:Em. revert c p u Em. induction m as [m IH] using lt_wf_ind. intros c p u Em Hu Hi. apply call_within.
  change (snd (grammar R_any_breakable)) with
    (Alt (Seq comment_line (Opt any_breakable)) (Seq (Call R_any_content) (Opt (Seq line_continuation any_breakable)))).
  assert (N1 : forall c q u1 f, run c comment_line p u = Done q u1 f -> here u1 /\ ~ comments_only u1).
  { intros c0 q u1 f E. split; [exact (here_after _ _ _ _ _ _ _ Hu E eq_refl)|]. intros K. apply Hi.
    apply comment_line_inv in E; [|apply Hu]. destruct E as (b & t & n & Hb & Ht & -> & _ & Hn & _). destruct Hn as [Hn|[-> ->]].
    + constructor; assumption.
    + rewrite !app_nil_r. constructor; assumption. }
  apply alt_within; [reflexivity| | |].
  - apply seq_mirror; [reflexivity|apply comment_line_mirror; assumption|]. intros q u1 f E. destruct (N1 _ _ _ _ E) as [H1 H2].
    apply opt_mirror; [reflexivity|]. apply breakable_mirror; assumption.
  - apply seq_within; [reflexivity|apply comment_line_mirror; assumption|apply comment_line_within; exact Hu|]. intros q u1 f E. destruct (N1 _ _ _ _ E) as [H1 H2].
    pose proof (run_strict _ _ _ _ _ _ _ E eq_refl) as L. apply opt_within; [reflexivity|]. apply (IH (length u1)); [lia|reflexivity|assumption|assumption].
  - intros _. apply seq_within; [reflexivity|apply content_mirror; apply Hu|apply atomic_within; reflexivity|]. intros q u1 f E.
    pose proof (here_after _ _ _ _ _ _ _ Hu E eq_refl) as Hu1. pose proof (run_strict _ _ _ _ _ _ _ E eq_refl) as L.
    apply opt_within; [reflexivity|]. apply seq_within; [reflexivity|apply continuation_mirror; apply Hu1|apply quiet_within; reflexivity|]. intros q2 u2 f2 E2.
    pose proof (here_after _ _ _ _ _ _ _ Hu1 E2 eq_refl) as Hu2. pose proof (run_strict _ _ _ _ _ _ _ E2 eq_refl) as L2.
    apply (IH (length u2)); [lia|reflexivity|exact Hu2|]. intros K.
    apply continuation_inv in E2. destruct E2 as (k & Hk & -> & _ & _). destruct Hu1 as [[x Hx] _].
    destruct HC as (_ & H2 & _). apply (H2 x k u2 Hx Hk). apply comments_idle. exact K.
Qed.

Lemma shell_within k exec shell p u : bs k <> [] -> forallb is_alpha (bs k) = true -> ascii_expr (Insens (bs k)) = true -> tame (Call exec) = true -> string_first exec = false ->
  grammar shell = (AtomicRule, any_breakable) -> good (Seq (Insens (bs k)) (Seq arg_ws (Alt (Call exec) (Call shell)))) = true ->
  first_here u -> within ctx0 (Seq (Insens (bs k)) (Seq arg_ws (Alt (Call exec) (Call shell)))) p u.
Proof.
  intros Hk Ha Hak He Hes Hs Hg Hu. pose proof (first_inside u Hu) as Hi. pose proof (good_sub _ Hg) as [_ Hg1]. pose proof (good_sub _ Hg1) as [_ Hg2].
  apply seq_within; [exact Hg|apply run_tame; [apply (good_sub _ Hg)|exact Hak|exact Ha|reflexivity|exact Hi]|apply quiet_within; reflexivity|]. intros q u1 f E.
  pose proof (here_after _ _ _ _ _ _ _ Hi E Hak) as Hu1.
  apply seq_within; [exact Hg1|apply gap_mirror; exact Hu1|apply gap_within; exact Hu1|]. intros q2 u2 f2 E2.
  pose proof (here_after _ _ _ _ _ _ _ Hu1 E2 eq_refl) as Hu2.
  assert (St : strings false (Call exec) = true) by (cbn [strings]; rewrite Hes; reflexivity).
  apply alt_within; [exact Hg2|apply run_tame; [apply good_call|reflexivity|exact He|exact St|exact Hu2]|
    apply run_within_tame; [apply good_call|reflexivity|exact He|exact St|exact Hu2]|]. intros _.
  apply call_within. rewrite Hs. cbn [fst snd]. apply breakable_within; [exact Hu2|].
  apply insens_inv in E. destruct E as (w & -> & Hw & _ & _). destruct Hu as [(x & Hx & Hf) _].
  apply (after_gap x w q u1 q2 u2 f2 Hx Hf); [|exact Hu1|exact E2]. apply (keyword_name k); assumption.
Qed.

Lemma misc_within p u : first_here u -> within ctx0 (Call R_misc) p u.
Proof.
  intros Hu. pose proof (first_inside u Hu) as Hi. apply call_within.
  change (snd (grammar R_misc)) with (Seq (Call R_misc_instruction) (Call R_misc_arguments)). change (rule_inner (fst (grammar R_misc)) ctx0) with ctx0.
  apply seq_within; [reflexivity|apply run_tame; [apply good_call|reflexivity|reflexivity|reflexivity|exact Hi]|apply atomic_within; reflexivity|]. intros q u1 f E.
  pose proof (here_after _ _ _ _ _ _ _ Hi E eq_refl) as Hu1.
  apply call_within. cbn [grammar fst snd]. apply breakable_within; [exact Hu1|].
  apply letters_rule_inv in E; [|reflexivity]. destruct E as (w & ch & -> & _ & Hw & _ & _). destruct Hu as [(x & Hx & Hf) _].
  destruct HC as (_ & _ & H3 & _). apply (H3 x w u1 Hx Hf). destruct Hw as [Hne Hw]. split; [exact Hne|].
  eapply Forall_impl; [|exact Hw]. intros c Hc. cbn beta in *. unfold is_word, is_alnum. rewrite Hc. reflexivity.
Qed.

Lemma env_value_free x kw q1 u1 q2 u2 f2 q3 u3 f3 q4 u4 f4 : A = x ++ kw ++ u1 -> before_first_word x -> to_lower kw = to_lower (bs "env") -> here u1 ->
  run ctx0 arg_ws q1 u1 = Done q2 u2 f2 -> run ctx0 (Call R_env_name) q2 u2 = Done q3 u3 f3 -> run ctx0 arg_ws q3 u3 = Done q4 u4 f4 -> ~ comments_only u4.
Proof.
  intros Hx Hf Hkw Hu1 E2 E3 E4. pose proof (here_after _ _ _ _ _ _ _ Hu1 E2 eq_refl) as Hu2. pose proof (here_after _ _ _ _ _ _ _ Hu2 E3 eq_refl) as Hu3.
  apply env_name_inv in E3; [|reflexivity]. destruct E3 as (w & ch & -> & _ & Hw & _).
  apply gap_inv_more in E2; [|apply Hu1|destruct Hw as [Hne _]; destruct w; [congruence|discriminate]].
  destruct E2 as (g & -> & _ & _ & Hgne & Hg). destruct (gap_first _ _ (x ++ kw) Hg) as [Hb|Hff].
  - intros K. assert (Hne : u4 <> []). { intros ->. apply comments_only_nil. exact K. }
    apply gap_inv_more in E4; [|apply Hu3|exact Hne]. destruct E4 as (g2 & -> & _ & _ & _ & Hg2).
    assert (Hb2 : blanks g2). { apply (gap_comments _ _ (x ++ kw ++ g ++ w) u4 Hg2); [rewrite Hx, <- !app_assoc; reflexivity|exact K]. }
    destruct HC as (_ & _ & _ & H4). apply (H4 x kw g w (g2 ++ u4)); try assumption. apply comments_only_blanks; assumption.
  - apply (after_gap ((x ++ kw) ++ g) w q3 u3 q4 u4 f4); [rewrite Hx, <- !app_assoc; reflexivity|exact Hff|exact Hw|exact Hu3|exact E4].
Qed.

Lemma env_single_mirror x kw q1 u1 : A = x ++ kw ++ u1 -> before_first_word x -> to_lower kw = to_lower (bs "env") -> here u1 ->
  mirror ctx0 (Call R_env_single) q1 u1 /\ within ctx0 (Call R_env_single) q1 u1.
Proof.
  intros Hx Hf Hkw Hu1.
  assert (K : forall q2 u2 f2 q3 u3 f3 q4 u4 f4, run ctx0 arg_ws q1 u1 = Done q2 u2 f2 -> run ctx0 (Call R_env_name) q2 u2 = Done q3 u3 f3 ->
    run ctx0 arg_ws q3 u3 = Done q4 u4 f4 -> here u2 /\ here u3 /\ here u4 /\ ~ comments_only u4 /\ opened u4).
  { intros q2 u2 f2 q3 u3 f3 q4 u4 f4 E2 E3 E4. pose proof (here_after _ _ _ _ _ _ _ Hu1 E2 eq_refl) as Hu2.
    pose proof (here_after _ _ _ _ _ _ _ Hu2 E3 eq_refl) as Hu3. pose proof (here_after _ _ _ _ _ _ _ Hu3 E4 eq_refl) as Hu4. repeat split; try apply Hu2; try apply Hu3; try apply Hu4.
    - exact (env_value_free x kw q1 u1 q2 u2 f2 q3 u3 f3 q4 u4 f4 Hx Hf Hkw Hu1 E2 E3 E4).
    - refine (run_opened ctx0 arg_ws q3 u3 false q4 u4 f4 eq_refl eq_refl Hu3 _ eq_refl E4). discriminate. }
  split; [apply call_mirror|apply call_within];
    change (snd (grammar R_env_single)) with (Seq arg_ws (Seq (Call R_env_name) (Seq arg_ws (Alt (Call R_env_single_quoted_value) (Call R_env_single_value)))));
    change (rule_inner (fst (grammar R_env_single)) ctx0) with ctx0.
  - apply seq_mirror; [reflexivity|apply gap_mirror; exact Hu1|]. intros q2 u2 f2 E2. pose proof (here_after _ _ _ _ _ _ _ Hu1 E2 eq_refl) as Hu2.
    apply seq_mirror; [reflexivity|apply run_tame; [reflexivity|reflexivity|reflexivity|reflexivity|exact Hu2]|]. intros q3 u3 f3 E3.
    pose proof (here_after _ _ _ _ _ _ _ Hu2 E3 eq_refl) as Hu3.
    apply seq_mirror; [reflexivity|apply gap_mirror; exact Hu3|]. intros q4 u4 f4 E4. destruct (K _ _ _ _ _ _ _ _ _ E2 E3 E4) as (_ & _ & Hu4 & Hc & Hop).
    apply alt_mirror; [reflexivity|apply (tame_mirror _ ctx0 (Call R_env_single_quoted_value) q4 u4 eq_refl eq_refl eq_refl Hu4 true); [intros _; exact Hop|reflexivity]|]. intros _.
    apply call_mirror. cbn [grammar fst snd]. apply breakable_mirror; assumption.
  - apply seq_within; [reflexivity|apply gap_mirror; exact Hu1|apply gap_within; exact Hu1|]. intros q2 u2 f2 E2. pose proof (here_after _ _ _ _ _ _ _ Hu1 E2 eq_refl) as Hu2.
    apply seq_within; [reflexivity|apply run_tame; [reflexivity|reflexivity|reflexivity|reflexivity|exact Hu2]|apply run_within_tame; [reflexivity|reflexivity|reflexivity|reflexivity|exact Hu2]|]. intros q3 u3 f3 E3.
    pose proof (here_after _ _ _ _ _ _ _ Hu2 E3 eq_refl) as Hu3.
    apply seq_within; [reflexivity|apply gap_mirror; exact Hu3|apply gap_within; exact Hu3|]. intros q4 u4 f4 E4. destruct (K _ _ _ _ _ _ _ _ _ E2 E3 E4) as (_ & _ & Hu4 & Hc & Hop).
    apply alt_within; [reflexivity|apply (tame_mirror _ ctx0 (Call R_env_single_quoted_value) q4 u4 eq_refl eq_refl eq_refl Hu4 true); [intros _; exact Hop|reflexivity]|
      apply (tame_within _ ctx0 (Call R_env_single_quoted_value) q4 u4 (le_n _) eq_refl eq_refl eq_refl Hu4 true); [intros _; exact Hop|reflexivity]|]. intros _.
    apply call_within. cbn [grammar fst snd]. apply breakable_within; assumption.
Qed.

Lemma env_within p u : first_here u -> within ctx0 (Call R_env) p u.
Proof.
  intros Hu. pose proof (first_inside u Hu) as Hi. apply call_within.
  change (snd (grammar R_env)) with (Seq (Insens (bs "env")) (Alt (Call R_env_single) (Call R_env_pairs))).
  change (rule_inner (fst (grammar R_env)) ctx0) with ctx0.
  apply seq_within; [reflexivity|apply run_tame; [reflexivity|reflexivity|reflexivity|reflexivity|exact Hi]|apply quiet_within; reflexivity|]. intros q u1 f E.
  pose proof (here_after _ _ _ _ _ _ _ Hi E eq_refl) as Hu1.
  apply insens_inv in E. destruct E as (kw & -> & Hkw & _ & _). destruct Hu as [(x & Hx & Hf) _].
  destruct (env_single_mirror x kw q u1 Hx Hf Hkw Hu1) as [H1 H2].
  apply alt_within; [reflexivity|exact H1|exact H2|intros _; apply run_within_tame; [reflexivity|reflexivity|reflexivity|reflexivity|exact Hu1]].
Qed.

Lemma step_within p u : first_here u -> within ctx0 (Call R_step) p u.
Proof.
  intros Hu. pose proof (first_inside u Hu) as Hi. apply call_within. change (rule_inner (fst (grammar R_step)) ctx0) with ctx0. cbn [grammar snd].
  assert (T : forall r, wild_rule r = false -> string_first r = false -> mirror ctx0 (Call r) p u /\ within ctx0 (Call r) p u).
  { intros r Hr Hs. split; [apply run_tame|apply run_within_tame]; try apply good_call; try reflexivity; try exact Hi; cbn [tame strings]; rewrite ?Hr, ?Hs; reflexivity. }
  assert (S : forall k r exec shell, grammar r = (Normal, Seq (Insens (bs k)) (Seq arg_ws (Alt (Call exec) (Call shell)))) ->
    bs k <> [] -> forallb is_alpha (bs k) = true -> ascii_expr (Insens (bs k)) = true -> tame (Call exec) = true -> string_first exec = false ->
    grammar shell = (AtomicRule, any_breakable) -> mirror ctx0 (Call r) p u /\ within ctx0 (Call r) p u).
  { intros k r exec shell Er H1 H2 H3 H4 H5 H6. pose proof (good_rule r) as Hg. rewrite Er in Hg.
    split; [apply call_mirror|apply call_within]; rewrite Er; cbn [fst snd rule_inner]; change {| atom := atom ctx0; look := look ctx0 |} with ctx0.
    - apply shell_mirror; assumption.
    - apply shell_within; assumption. }
  apply alt_within; [reflexivity|apply T; reflexivity|apply T; reflexivity|intros _].
  destruct (S "run"%string R_run R_run_exec R_run_shell eq_refl ltac:(discriminate) eq_refl eq_refl eq_refl eq_refl eq_refl) as [S1 S2].
  apply alt_within; [reflexivity|exact S1|exact S2|intros _].
  apply alt_within; [reflexivity|apply T; reflexivity|apply T; reflexivity|intros _].
  apply alt_within; [reflexivity|apply T; reflexivity|apply T; reflexivity|intros _].
  apply alt_within; [reflexivity|apply T; reflexivity|apply T; reflexivity|intros _].
  destruct (S "entrypoint"%string R_entrypoint R_entrypoint_exec R_entrypoint_shell eq_refl ltac:(discriminate) eq_refl eq_refl eq_refl eq_refl eq_refl) as [S3 S4].
  apply alt_within; [reflexivity|exact S3|exact S4|intros _].
  destruct (S "cmd"%string R_cmd R_cmd_exec R_cmd_shell eq_refl ltac:(discriminate) eq_refl eq_refl eq_refl eq_refl eq_refl) as [S5 S6].
  apply alt_within; [reflexivity|exact S5|exact S6|intros _].
  apply alt_within; [reflexivity|apply env_mirror; exact Hu|apply env_within; exact Hu|intros _]. apply misc_within. exact Hu.
Qed.

Lemma meta_within p u : line_here u -> within ctx0 (Call R_meta_step) p u.
Proof.
  intros [(x & Hx & Hl) Hv]. assert (Hi : here u) by (split; [exists x; exact Hx|exact Hv]). apply call_within.
  change (rule_inner (fst (grammar R_meta_step)) ctx0) with ctx0. cbn [grammar snd].
  apply seq_within; [reflexivity|apply ws_star_mirror|apply quiet_within; reflexivity|]. intros q u1 f E. pose proof (here_after _ _ _ _ _ _ _ Hi E eq_refl) as Hu1.
  assert (Hf : first_here u1).
  { apply blanks_inv in E. destruct E as (b & Hb & -> & _ & _ & _). split; [|apply Hu1]. exists (x ++ b). split; [rewrite Hx, <- app_assoc; reflexivity|].
    exists x, b. auto. }
  apply seq_within; [reflexivity| | |intros; apply quiet_within; reflexivity].
  - apply opt_mirror; [reflexivity|]. apply alt_mirror; [reflexivity|apply step_mirror; exact Hf|]. intros _. apply comment_mirror; apply Hu1.
  - apply opt_within; [reflexivity|]. apply alt_within; [reflexivity|apply step_mirror; exact Hf|apply step_within; exact Hf|]. intros _.
    apply atomic_within; reflexivity.
Qed.

Lemma line_within p u : inside u -> valid_utf8 u = true -> u <> [] -> within ctx0 line p u.
Proof.
  intros Hu Hv Hne. apply seq_within; [reflexivity|apply newline_mirror; assumption|apply quiet_within; reflexivity|]. intros q u1 f E.
  pose proof (here_after _ _ _ _ _ _ _ (conj Hu Hv) E eq_refl) as Hu1. apply meta_within. split; [|apply Hu1].
  apply newline_inv in E. destruct E as (n & Hn & -> & _ & _). destruct Hu as [x Hx]. exists (x ++ n).
  split; [rewrite Hx, <- app_assoc; reflexivity|]. apply newline_ends_line, Hn.
Qed.

(** The lines of [A]; what is tried on those of [R] comes on top. *)
Lemma lines_tries p u : inside u -> valid_utf8 u = true -> forall q u1 f, run ctx0 (Rep line) p u = Done q u1 f ->
  forall t, exists t1, tr_pos t1 <= Nat.max (tr_pos t) (p + length u) /\
    tries ctx0 false (Rep line) p (u ++ R) t = match u1 with [] => tries ctx0 false (Rep line) q R t1 | _ => t1 end.
Proof.
  remember (length u) as m eqn:Em. revert p u Em. induction m as [m IH] using lt_wf_ind. intros p u Em Hu Hv q u1 f H t.
  destruct u as [|x u].
  - rewrite run_rep in H by reflexivity. rewrite run_seq, run_newline in H by reflexivity. cbn [strip_newline] in H. injection H as <- <- <-.
    exists t. split; [lia|reflexivity].
  - assert (Hne : x :: u <> []) by discriminate. pose proof (line_step p (x :: u) Hu Hv Hne) as K. unfold mirror in K.
    pose proof (line_within p (x :: u) Hu Hv Hne false t) as W.
    rewrite run_rep in H by reflexivity. destruct (run ctx0 line p (x :: u)) as [q1 s1 f1| |] eqn:E; [| |discriminate].
    + cbn [mirrors] in K. destruct (run ctx0 (Rep line) q1 s1) as [q2 s2 f2| |] eqn:E2; [|discriminate|discriminate]. injection H as -> -> <-.
      pose proof (run_strict _ _ _ _ _ _ _ E eq_refl) as L. destruct (here_after _ _ _ _ _ _ _ (conj Hu Hv) E eq_refl) as [Hu1 Hv1].
      rewrite tries_rep by reflexivity. rewrite K.
      destruct (IH (length s1) ltac:(lia) q1 s1 eq_refl Hu1 Hv1 q u1 f2 E2 (tries ctx0 false line p ((x :: u) ++ R) t)) as (t1 & L1 & E1).
      exists t1. split; [|exact E1]. destruct (run_consumes _ _ _ _ _ _ _ E) as (w & Ew & Eq). rewrite Ew, app_length in *. lia.
    + injection H as <- <- <-. cbn [mirrors] in K. rewrite tries_rep by reflexivity. rewrite K. eexists. split; [|reflexivity]. lia.
Qed.

End Mirror.
