(** Every quoted text is matched by the rule for strings. *)

From Coq Require Import String.
From Verif Require Import Bytes BytesFacts Grammar Peg PegFacts SpecSyntax SpecClear PegRules PegTokens.
Local Open Scope nat_scope.

Lemma until_all stop w s : (forall u v, w = u ++ v -> v <> [] -> stop (v ++ s) = false) ->
  (match s with [] => True | _ => stop s = true end) ->
  until stop (w ++ s) = w /\ from_stop stop (w ++ s) = s.
Proof.
  induction w as [|x w IH]; intros Hw Hs.
  - cbn [app]. destruct s as [|y s]; [split; reflexivity|]. cbn [until from_stop]. rewrite Hs. auto.
  - cbn [app until from_stop]. pose proof (Hw [] (x :: w) eq_refl ltac:(discriminate)) as E. cbn [app] in E. rewrite E.
    destruct IH as [-> ->]; [|exact Hs|auto]. intros u v E2 Hv. apply (Hw (x :: u) v); [cbn; congruence|exact Hv].
Qed.

(** ** Quoted strings *)

Lemma quoted_body_split q w : quoted_body q w -> exists u v, w = u ++ v /\
  Forall (fun x => x <> q /\ x <> BSLASH /\ x <> 0%N /\ x <> 31%N) u /\
  (v = [] \/ exists c v', v = BSLASH :: c :: v' /\ c <> 0%N /\ c <> 31%N /\ quoted_body q v').
Proof.
  induction 1 as [|c w H1 H2 H3 H4 Hw (u & v & -> & Hu & Hv)|c w H1 H2 Hw IH].
  - exists [], []. auto.
  - exists (c :: u), v. split; [reflexivity|]. split; [constructor; auto|exact Hv].
  - exists [], (BSLASH :: c :: w). split; [reflexivity|]. split; [constructor|]. right. eauto 6.
Qed.

Lemma quoted_body_drop q u v : Forall (fun x => x <> q /\ x <> BSLASH /\ x <> 0%N /\ x <> 31%N) u ->
  quoted_body q (u ++ v) -> quoted_body q v.
Proof.
  induction 1 as [|x u (H1 & H2 & _) Hu IH]; intros H; [exact H|]. cbn [app] in H. apply IH.
  inversion H; subst; [assumption|congruence].
Qed.

Lemma quote_until q u s : Forall (fun x => x <> q /\ x <> BSLASH /\ x <> 0%N /\ x <> 31%N) u ->
  match s with [] => True | _ => quote_stop q s = true end ->
  until (quote_stop q) (u ++ s) = u /\ from_stop (quote_stop q) (u ++ s) = s.
Proof.
  intros Hu Hs. apply until_all; [|exact Hs]. intros a b -> Hb. apply Forall_app in Hu. destruct Hu as [_ Hu].
  destruct b as [|x b]; [congruence|]. inversion Hu as [|? ? (H1 & H2 & H3 & H4) _]; subst. cbn [app quote_stop].
  repeat (apply orb_false_iff; split); apply N.eqb_neq; congruence.
Qed.

Lemma escape_done c p s : exists q s' f, run c (Call R_escape) p (BSLASH :: s) = Done q s' f.
Proof.
  rewrite run_call. change (snd (grammar R_escape)) with
    (Seq (Str [BSLASH]) (Opt (Alt (Str [98%N]) (Alt (Str [116%N]) (Alt (Str [110%N]) (Alt (Str [102%N]) (Alt (Str [114%N])
      (Alt (Str [DQUOTE]) (Alt (Str [BSLASH]) (Alt (Str [SQUOTE]) (Alt (Call R_unicode) NEWLINE))))))))))).
  rewrite run_seq by reflexivity. rewrite class_str. change (BSLASH =? BSLASH)%N with true. cbn iota.
  match goal with |- context [run ?c (Opt ?e) ?q s] =>
    pose proof (opt_not_fail c e q s eq_refl) as K1; pose proof (run_total c (Opt e) q s eq_refl) as K2;
    destruct (run c (Opt e) q s); try congruence end.
  eauto.
Qed.

Lemma prefix_before u v s' t (q : N) : u ++ s' = v ++ q :: t -> (forall x, In x u -> x <> q) ->
  exists v2, v = u ++ v2 /\ s' = v2 ++ q :: t.
Proof.
  revert v. induction u as [|x u IH]; intros v E Hu.
  - exists v. auto.
  - destruct v as [|y v].
    + cbn [app] in E. injection E as -> _. exfalso. apply (Hu q); [left; reflexivity|reflexivity].
    + cbn [app] in E. injection E as -> E. destruct (IH v E) as (v2 & -> & ->); [intros z Hz; apply Hu; right; exact Hz|].
      exists v2. auto.
Qed.

Lemma inner_fwd quo : (quo = DQUOTE \/ quo = SQUOTE) -> forall n w, length w <= n -> forall c p s,
  quoted_body quo w -> valid_utf8 (w ++ quo :: s) = true ->
  exists f, run c (Call (inner_rule quo)) p (w ++ quo :: s) = Done (p + length w) (quo :: s) f.
Proof.
  intros Hq. induction n as [|n IH]; intros w Hl c p s Hw Hv.
  - destruct w; [|cbn in Hl; lia]. cbn [app length]. rewrite run_call, inner_rule_body by exact Hq. cbn [fst snd rule_inner rule_outer].
    assert (G : good (Seq (Rep (plain_quoted quo)) (Opt (Seq (Call R_escape) (Call (inner_rule quo))))) = true) by peg_good.
    rewrite run_seq by exact G.
    rewrite (until_rep _ (quote_stop quo)); [|peg_good|apply quote_stop_ascii; destruct Hq; subst; reflexivity|apply quote_unless|exact Hv].
    destruct (quote_until quo [] (quo :: s) (Forall_nil _)) as [E1 E2]; [cbn; rewrite N.eqb_refl; reflexivity|].
    cbn [app] in E1, E2. rewrite E1, E2. cbn [length]. rewrite run_opt by peg_good. rewrite run_seq by peg_good.
    assert (Ef : run {| atom := true; look := look c |} (Call R_escape) (p + 0) (quo :: s) = Fail).
    { destruct (run {| atom := true; look := look c |} (Call R_escape) (p + 0) (quo :: s)) as [q1 s1 f1| |] eqn:E; [|reflexivity|].
      - apply escape_inv in E. destruct E as (w & E & _). injection E as E _. destruct Hq; subst; discriminate.
      - exfalso. apply (run_total _ _ _ _ (good_call R_escape) E). }
    rewrite Ef. eexists. reflexivity.
  - destruct (quoted_body_split _ _ Hw) as (u & v & -> & Hu & Hcase). rewrite <- app_assoc in *. rewrite app_length in *.
    rewrite run_call, inner_rule_body by exact Hq. cbn [fst snd rule_inner rule_outer].
    assert (G : good (Seq (Rep (plain_quoted quo)) (Opt (Seq (Call R_escape) (Call (inner_rule quo))))) = true) by peg_good.
    rewrite run_seq by exact G.
    assert (Er : run {| atom := true; look := look c |} (Rep (plain_quoted quo)) p (u ++ v ++ quo :: s) = Done (p + length u) (v ++ quo :: s) []).
    { rewrite (until_rep _ (quote_stop quo)); [|peg_good|apply quote_stop_ascii; destruct Hq; subst; reflexivity|apply quote_unless|exact Hv].
      destruct (quote_until quo u (v ++ quo :: s) Hu) as [E1 E2].
      - destruct Hcase as [-> |(x & v' & -> & _)]; cbn; rewrite ?N.eqb_refl; [reflexivity|rewrite orb_true_r; reflexivity].
      - rewrite E1, E2. reflexivity. }
    pose proof (run_valid _ _ _ _ _ _ _ Er Hv ltac:(destruct Hq; subst; reflexivity)) as Hv1.
    rewrite Er. rewrite run_opt by peg_good. rewrite run_seq by peg_good.
    destruct Hcase as [-> |(x & v' & -> & Hx1 & Hx2 & Hv')].
    + cbn [app length].
      assert (Ef : run {| atom := true; look := look c |} (Call R_escape) (p + length u) (quo :: s) = Fail).
      { destruct (run {| atom := true; look := look c |} (Call R_escape) (p + length u) (quo :: s)) as [q1 s1 f1| |] eqn:E; [|reflexivity|].
        - apply escape_inv in E. destruct E as (w & E & _). injection E as E _. destruct Hq; subst; discriminate.
        - exfalso. apply (run_total _ _ _ _ (good_call R_escape) E). }
      rewrite Ef. eexists. rewrite Nat.add_0_r. reflexivity.
    + cbn [app length] in *.
      destruct (escape_done {| atom := true; look := look c |} (p + length u) (x :: v' ++ quo :: s)) as (q1 & s1 & f1 & E).
      pose proof (run_valid _ _ _ _ _ _ _ E Hv1 eq_refl) as Hv2. rewrite E.
      apply escape_inv in E. destruct E as (e & E & -> & Hcase). injection E as E.
      destruct Hcase as [(-> & He)|(y & e' & -> & Hy1 & Hy2 & He)].
      * cbn [app] in E. subst s1. cbn [length].
        assert (Hb : quoted_body quo (x :: v')).
        { apply qb_plain; auto; intros ->; destruct Hq; subst; vm_compute in He; discriminate. }
        destruct (IH (x :: v') ltac:(cbn [length]; lia) {| atom := true; look := look c |} (p + length u + 1 + 0) s Hb Hv2) as (f & Ei).
        cbn [app length] in Ei. rewrite Ei. eexists. f_equal. lia.
      * cbn [app] in E. injection E as <- E. symmetry in E.
        destruct (prefix_before e' v' s1 s quo E) as (v2 & -> & ->).
        { intros z Hz. rewrite Forall_forall in He. apply (hex_plain quo z Hq (He z Hz)). }
        assert (Hb : quoted_body quo v2).
        { apply (quoted_body_drop quo e' v2); [|exact Hv']. rewrite Forall_forall in *. intros z Hz.
          apply (hex_plain quo z Hq (He z Hz)). }
        rewrite app_length in Hl.
        destruct (IH v2 ltac:(lia) {| atom := true; look := look c |} (p + length u + 1 + length (x :: e')) s Hb Hv2) as (f & Ei).
        rewrite Ei. eexists. f_equal. cbn [length]. rewrite app_length. lia.
Qed.

Lemma quoted_rule_fwd quo body c p s : (quo = DQUOTE \/ quo = SQUOTE) -> quoted_body quo body ->
  valid_utf8 ((quo :: body ++ [quo]) ++ s) = true ->
  exists f, run c (Call (quoted_rule quo)) p ((quo :: body ++ [quo]) ++ s) = Done (p + length (quo :: body ++ [quo])) s f.
Proof.
  intros Hq Hb Hv. cbn [app] in *. rewrite <- app_assoc in *. cbn [app] in *.
  rewrite valid_utf8_cons_ascii in Hv by (destruct Hq; subst; reflexivity).
  rewrite run_call, quoted_rule_body by exact Hq. cbn [fst snd].
  rewrite run_seq by peg_good. rewrite class_str, N.eqb_refl. rewrite run_seq by peg_good.
  destruct (inner_fwd quo Hq (length body) body (le_n _) (rule_inner AtomicRule c) (p + 1) s Hb Hv) as (f & ->).
  rewrite class_str, N.eqb_refl. eexists. f_equal. cbn [length]. rewrite app_length. cbn [length]. lia.
Qed.

Lemma quoted_rule_fails quo c p s : (quo = DQUOTE \/ quo = SQUOTE) -> ~ begins_with quo s ->
  run c (Call (quoted_rule quo)) p s = Fail.
Proof.
  intros Hq Hn. rewrite run_call, quoted_rule_body by exact Hq. cbn [fst snd].
  rewrite run_seq by peg_good. rewrite class_str. destruct s as [|x s]; [reflexivity|].
  destruct (quo =? x)%N eqn:E; [|reflexivity]. bool_hyps. subst x. exfalso. apply Hn. exists s. reflexivity.
Qed.

Lemma string_fwd c p w s : look c = false -> quoted_text w -> valid_utf8 (w ++ s) = true ->
  exists ch, run c string_ p (w ++ s) = Done (p + length w) s [Node R_string p (p + length w) ch].
Proof.
  intros Hc (q & body & Hq & -> & Hb & _) Hv. unfold string_. rewrite run_call. cbn [grammar fst snd].
  rewrite run_alt by reflexivity.
  assert (Ht : forall p q f, rule_tokens CompoundRule c R_string p q f = [Node R_string p q f]).
  { intros. cbn. rewrite Hc. reflexivity. }
  destruct Hq; subst q.
  - change R_single_quoted_string with (quoted_rule SQUOTE). rewrite quoted_rule_fails; [|auto|intros [t E]; discriminate].
    change R_double_quoted_string with (quoted_rule DQUOTE).
    destruct (quoted_rule_fwd DQUOTE body (rule_inner CompoundRule c) p s (or_introl eq_refl) Hb Hv) as (f & ->).
    rewrite Ht. eauto.
  - change R_single_quoted_string with (quoted_rule SQUOTE).
    destruct (quoted_rule_fwd SQUOTE body (rule_inner CompoundRule c) p s (or_intror eq_refl) Hb Hv) as (f & ->).
    rewrite Ht. eauto.
Qed.

Lemma string_fails c p s : ~ begins_with_quote s -> run c string_ p s = Fail.
Proof.
  intros Hn. unfold string_. rewrite run_call. cbn [grammar fst snd]. rewrite run_alt by reflexivity.
  change R_single_quoted_string with (quoted_rule SQUOTE). change R_double_quoted_string with (quoted_rule DQUOTE).
  rewrite quoted_rule_fails; [|auto|intros K; apply Hn; right; exact K].
  rewrite quoted_rule_fails; [|auto|intros K; apply Hn; left; exact K]. reflexivity.
Qed.

