(** Soundness of each instruction: see Sound.v. *)

From Coq Require Import String.
From Verif Require Import Bytes BytesFacts Grammar Peg Result Ast Splicer Image Convert
  PegFacts SpecImage ImageFacts SpecSyntax PegRules PegTokens PegQuoted Sound.
Local Open Scope nat_scope.

Section Rules.
Variable unq : bytes -> option bytes.
Variable src : bytes.

Notation yields := (yields unq src).
Notation pos := (pos src).

(** ** Shell texts *)

Definition breakable_step (components : list breakable_component) (field : tree) :
  outcome (list breakable_component) :=
  match t_rule field with
  | R_any_breakable => more <- parse_any_breakable_inner src field;; Ok (components ++ more)
  | R_comment => Ok (components ++ [BComment (SpannedComment (span_of field) (as_str src field))])
  | R_any_content => Ok (components ++ [BString (SpannedString (span_of field) (as_str src field))])
  | r => unexpected_token r
  end.

Lemma breakable_inner_eq t : parse_any_breakable_inner src t = for_each breakable_step (t_children t) [].
Proof.
  destruct t as [r a b l]. cbn [t_children]. change (parse_any_breakable_inner src (Node r a b l)) with
    ((fix loop (l : list tree) (components : list breakable_component) {struct l} :=
     match l with
     | [] => Ok components
     | field :: l' =>
       match t_rule field with
       | R_any_breakable =>
         more <- parse_any_breakable_inner src field;; loop l' (components ++ more)
       | R_comment =>
         loop l' (components ++ [BComment (SpannedComment (span_of field) (as_str src field))])
       | R_any_content =>
         loop l' (components ++ [BString (SpannedString (span_of field) (as_str src field))])
       | r => unexpected_token r
       end
     end) l []).
  match goal with |- ?f l [] = _ => enough (K : forall acc, f l acc = for_each breakable_step l acc) by apply K end.
  induction l as [|t l IH]; intros acc; cbn [for_each]; [reflexivity|].
  unfold breakable_step at 1. destruct (t_rule t); try reflexivity; cbn [bind]; try apply IH.
  destruct (parse_any_breakable_inner src t); cbn [bind]; [apply IH|reflexivity..].
Qed.

Lemma take_blanks b x s : blanks b -> is_blank x = false ->
  take_while is_blank (b ++ x :: s) = b /\ drop_while is_blank (b ++ x :: s) = x :: s.
Proof.
  intros Hb Hx. induction Hb as [|y b Hy Hb [IH1 IH2]]; cbn [app take_while drop_while].
  - rewrite Hx. auto.
  - rewrite Hy, IH1, IH2. auto.
Qed.

Lemma not_comment_like p w s : valid_utf8 (w ++ s) = true ->
  run ctx0 (Seq comment_line (Opt any_breakable)) p (w ++ s) = Fail -> ~ comment_like w.
Proof.
  intros Hv H (b & t & -> & Hb). rewrite run_seq in H by reflexivity.
  rewrite <- app_assoc in H, Hv. cbn [app] in H, Hv. unfold comment_line in H. rewrite run_call in H.
  change (snd (grammar R_comment_line)) with (Seq (Rep ws) (Seq comment (Opt NEWLINE))) in H.
  change (rule_inner (fst (grammar R_comment_line)) ctx0) with ctx0 in H.
  rewrite run_seq in H by reflexivity. rewrite run_ws_star in H.
  destruct (take_blanks b HASH (t ++ s) Hb eq_refl) as [E1 E2]. rewrite E1, E2 in H.
  assert (Hv2 : valid_utf8 (HASH :: t ++ s) = true).
  { clear - Hv Hb. induction Hb as [|y b Hy Hb IH]; [exact Hv|]. apply IH. cbn [app] in Hv.
    rewrite valid_utf8_cons_ascii in Hv; [exact Hv|]. unfold is_blank in Hy. apply orb_true_iff in Hy.
    rewrite !N.eqb_eq in Hy. destruct Hy; subst; reflexivity. }
  rewrite run_seq in H by reflexivity. rewrite (run_comment ctx0 _ _ Hv2) in H.
  change (HASH =? HASH)%N with true in H. cbn iota in H.
  match type of H with context [run ctx0 (Opt NEWLINE) ?q ?s] =>
    pose proof (opt_not_fail ctx0 NEWLINE q s eq_refl) as K1; pose proof (run_total ctx0 (Opt NEWLINE) q s eq_refl) as K2;
    destruct (run ctx0 (Opt NEWLINE) q s); try congruence end.
  match type of H with context [run ctx0 (Opt any_breakable) ?q ?s] =>
    pose proof (opt_not_fail ctx0 any_breakable q s eq_refl) as K3; pose proof (run_total ctx0 (Opt any_breakable) q s eq_refl) as K4;
    destruct (run ctx0 (Opt any_breakable) q s); try congruence end.
Qed.

Lemma any_breakable_inv n : forall s, length s <= n -> forall c p q s' f, look c = false ->
  valid_utf8 s = true -> pos p s -> run c any_breakable p s = Done q s' f ->
  exists w t l, s = w ++ s' /\ q = p + length w /\ f = [t] /\ t_rule t = R_any_breakable /\
    parse_any_breakable_inner src t = Ok l /\ shell_at p w l.
Proof.
  induction n as [|n IH]; intros s Hl c p q s' f Hc Hv Hp H.
  { pose proof (run_strict _ _ _ _ _ _ _ H eq_refl). lia. }
  unfold any_breakable in H. call_open H. cbn [grammar fst snd] in H.
  assert (Ec : rule_inner CompoundRule c = ctx0) by (cbn; rewrite Hc; reflexivity). rewrite Ec in H.
  assert (Et : forall q f, rule_tokens CompoundRule c R_any_breakable p q f = [Node R_any_breakable p q f]).
  { intros. cbn. rewrite Hc. reflexivity. }
  cbn [grammar fst]. rewrite Et. apply alt_inv in H; [|reflexivity]. destruct H as [H|[Hcl H]].
  - seq_open H Hv H1. pose proof (run_strict _ _ _ _ _ _ _ H1 eq_refl) as Hs.
    apply comment_line_inv in H1; [|exact Hv]. destruct H1 as (b & t & m & Hb & Ht & -> & -> & Hm & ->).
    assert (Hpt : pos (p + length b) (t ++ m ++ s0)) by (apply pos_app; exact Hp).
    assert (Hps : pos (p + length (b ++ t ++ m)) s0).
    { apply pos_app. rewrite <- !app_assoc. exact Hp. }
    cbn [wrap emits ctx0 look atom negb andb].
    apply opt_inv in H; [|reflexivity]. destruct H as [H|(_ & -> & -> & ->)].
    + apply (IH s0 ltac:(lia)) in H; [|reflexivity|exact Hv0|exact Hps].
      destruct H as (w & t2 & l & -> & -> & -> & Hr & Hi & Hsh).
      destruct Hm as [Hm|[-> Hm]].
      2:{ exfalso. apply app_eq_nil in Hm. destruct Hm as [-> ->].
          inversion Hsh; subst; repeat match goal with K : _ ++ _ = [] |- _ => apply app_eq_nil in K; destruct K; subst end;
            repeat match goal with K : chunk [] |- _ => destruct K; congruence | K : comment_text [] |- _ => destruct K as (? & ? & _); discriminate end. }
      eexists (b ++ t ++ m ++ w), _, _. split; [rewrite <- !app_assoc; reflexivity|].
      split; [rewrite !app_length; lia|]. split; [reflexivity|]. split; [reflexivity|]. split.
      * rewrite breakable_inner_eq. cbn [t_children app for_each]. unfold breakable_step.
        rewrite Hr. cbn [t_rule bind]. rewrite Hi. cbn [bind for_each app].
        rewrite (as_str_at src _ _ _ _ _ Hpt). reflexivity.
      * change (shell_at p (b ++ t ++ m ++ w) (comment_part (p + length b) t :: l)).
        apply shell_after_comment; auto. rewrite !app_length in Hsh.
        replace (p + length b + length t + length m) with (p + (length b + (length t + length m))) by lia. exact Hsh.
    + eexists (b ++ t ++ m), _, _. split; [rewrite <- !app_assoc; reflexivity|].
      split; [reflexivity|]. split; [reflexivity|]. split; [reflexivity|]. split.
      * rewrite breakable_inner_eq. cbn [t_children app for_each]. unfold breakable_step.
        cbn [t_rule bind app]. rewrite (as_str_at src _ _ _ _ _ Hpt). reflexivity.
      * change (shell_at p (b ++ t ++ m) [comment_part (p + length b) t]).
        destruct Hm as [Hm|[-> _]]; [apply shell_comment_line; auto|]. rewrite app_nil_r. apply shell_comment; auto.
  - seq_open H Hv H1. apply any_content_inv in H1; [|exact Hv].
    destruct H1 as (w & -> & -> & Hw & -> & _). pose proof (pos_app _ _ _ _ Hp) as Hp1.
    assert (Hnc : ~ comment_like w) by (apply (not_comment_like _ _ _ Hv Hcl)).
    cbn [wrap emits ctx0 look atom negb andb].
    apply opt_inv in H; [|reflexivity]. destruct H as [H|(_ & -> & -> & ->)].
    + seq_open H Hv0 H1. apply continuation_inv in H1. destruct H1 as (k & Hk & -> & -> & ->).
      pose proof (pos_app _ _ _ _ Hp1) as Hp2.
      assert (Hlen : length s <= n).
      { rewrite !app_length in Hl. destruct Hk as (? & ? & -> & _). cbn [length] in Hl. lia. }
      apply (IH s Hlen) in H; [|reflexivity|exact Hv1|exact Hp2].
      destruct H as (w2 & t2 & l & -> & -> & -> & Hr & Hi & Hsh).
      eexists (w ++ k ++ w2), _, _. split; [rewrite <- !app_assoc; reflexivity|].
      split; [rewrite !app_length; lia|]. split; [reflexivity|]. split; [reflexivity|]. split.
      * rewrite breakable_inner_eq. cbn [t_children app for_each]. unfold breakable_step.
        rewrite Hr. cbn [t_rule bind]. rewrite Hi. cbn [bind for_each app].
        rewrite (as_str_at src _ _ _ _ _ Hp). reflexivity.
      * change (shell_at p (w ++ k ++ w2) (text_part p w :: l)). apply shell_continued; auto.
    + eexists w, _, _. split; [reflexivity|]. split; [reflexivity|]. split; [reflexivity|]. split; [reflexivity|]. split.
      * rewrite breakable_inner_eq. cbn [t_children app for_each]. unfold breakable_step.
        cbn [t_rule bind app]. rewrite (as_str_at src _ _ _ _ _ Hp). reflexivity.
      * change (shell_at p w [text_part p w]). apply shell_text; auto.
Qed.

(** A rule whose body is [any_breakable] *)
Lemma breakable_rule_inv r p s q s' f : grammar r = (AtomicRule, any_breakable) ->
  valid_utf8 s = true -> pos p s -> run ctx0 (Call r) p s = Done q s' f ->
  exists w t x, s = w ++ s' /\ q = p + length w /\ f = [t] /\ t_rule t = r /\
    parse_any_breakable src t = Ok x /\ breakable_at p w x.
Proof.
  intros Hr Hv Hp H. apply token_inv in H; [|rewrite Hr; discriminate]. destruct H as (f' & H & ->).
  rewrite Hr in H. cbn [fst snd] in H.
  apply (any_breakable_inv (length s) s (le_n _)) in H; [|reflexivity|exact Hv|exact Hp].
  destruct H as (w & t & l & -> & -> & -> & Ht & Hi & Hsh).
  eexists w, _, _. split; [reflexivity|]. split; [reflexivity|]. split; [reflexivity|]. split; [reflexivity|].
  split.
  - unfold parse_any_breakable. rewrite breakable_inner_eq. cbn [t_children for_each]. unfold breakable_step.
    rewrite Ht, Hi. cbn [bind app]. reflexivity.
  - exists l. split; [exact Hsh|reflexivity].
Qed.

(** ** Arrays *)

Definition array_step (elements : list spanned_string) (field : tree) : outcome (list spanned_string) :=
  match t_rule field with
  | R_string => x <- parse_string unq src field;; Ok (elements ++ [x])
  | R_comment => Ok elements
  | r => unexpected_token r
  end.

Lemma array_step_comments : skips_comments array_step.
Proof. intros st t H. unfold array_step. rewrite H. reflexivity. Qed.

Lemma string_not_nil c p q s' f : run c string_ p [] = Done q s' f -> False.
Proof. intros H. pose proof (run_strict _ _ _ _ _ _ _ H eq_refl). cbn in *. lia. Qed.

Lemma array_string_inv p s q s' f st : valid_utf8 s = true -> pos p s -> run ctx0 string_ p s = Done q s' f ->
  exists w, s = w ++ s' /\ q = p + length w /\ quoted_text w /\
    yields (fun st' => exists x, string_at unq p w x /\ st' = st ++ [x]) (for_each array_step f st).
Proof.
  intros Hv Hp H. apply string_inv in H; [|exact Hv|reflexivity]. destruct H as (w & ch & -> & -> & Hw & ->).
  exists w. repeat split; auto. cbn [for_each]. unfold array_step. cbn [t_rule].
  eapply yields_bind with (P := fun st' => exists x, string_at unq p w x /\ st' = st ++ [x]); [|intros a Ha; exact Ha].
  eapply yields_bind; [eapply parse_string_at; exact Hp|]. intros x Hx. cbn. eauto.
Qed.

Definition comma_item : expr := Seq arg_ws_maybe (Seq (Str [COMMA]) (Seq arg_ws_maybe string_)).

Lemma comma_item_inv p s q s' f st : valid_utf8 s = true -> pos p s -> run ctx0 comma_item p s = Done q s' f ->
  exists j g1 k g2 w, s = (g1 ++ COMMA :: g2 ++ w) ++ s' /\ q = p + length (g1 ++ COMMA :: g2 ++ w) /\
    gap j g1 /\ gap k g2 /\ quoted_text w /\
    yields (fun st' => exists x, string_at unq (p + length g1 + 1 + length g2) w x /\ st' = st ++ [x])
      (for_each array_step f st).
Proof.
  intros Hv Hp H. unfold comma_item in H. seq_open H Hv H1. seq_open H Hv0 H2. seq_open H Hv1 H3.
  apply str_inv in H2. destruct H2 as (-> & -> & ->).
  apply gap_maybe_inv_more in H1; [|exact Hv|discriminate]. destruct H1 as (g1 & -> & -> & Hc1 & Hg1).
  pose proof (pos_app _ _ _ _ Hp) as Hp1. pose proof (pos_app _ _ [COMMA] _ Hp1) as Hp2.
  apply gap_maybe_inv_more in H3; [|exact Hv1|intros ->; apply string_not_nil in H; exact H].
  destruct H3 as (g2 & -> & -> & Hc2 & Hg2). pose proof (pos_app _ _ _ _ Hp2) as Hp3.
  apply (array_string_inv _ _ _ _ _ st) in H; [|exact Hv2|exact Hp3]. destruct H as (w & -> & -> & Hw & Hy).
  eexists _, g1, _, g2, w.
  split; [rewrite <- app_assoc; cbn [app]; rewrite <- app_assoc; reflexivity|].
  split; [rewrite app_length; cbn [length]; rewrite app_length; lia|].
  split; [exact Hg1|]. split; [exact Hg2|]. split; [exact Hw|].
  cbn [app]. rewrite for_each_gap by (assumption || apply array_step_comments).
  rewrite for_each_gap by (assumption || apply array_step_comments). exact Hy.
Qed.

Lemma more_strings_inv p s q s' f : valid_utf8 s = true -> pos p s -> run ctx0 (Rep comma_item) p s = Done q s' f ->
  exists w, s = w ++ s' /\ q = p + length w /\
    forall st, yields (fun st' => exists l, more_strings unq p w l /\ st' = st ++ l) (for_each array_step f st).
Proof.
  intros Hv Hp H.
  destruct (rep_ind ctx0 comma_item (fun p w f s' => valid_utf8 (w ++ s') = true -> pos p (w ++ s') ->
    forall st, yields (fun st' => exists l, more_strings unq p w l /\ st' = st ++ l) (for_each array_step f st))
    eq_refl) with (3 := H) as (w & -> & -> & K).
  - intros p0 s0 _ _ _ st. cbn. exists []. split; [constructor|]. rewrite app_nil_r. reflexivity.
  - clear H Hv Hp. intros p0 w1 s1 f1 w2 f2 s0' H -> _ IH Hv Hp st. rewrite <- app_assoc in Hv, Hp.
    specialize (IH (run_valid _ _ _ _ _ _ _ H Hv eq_refl) (pos_app _ _ _ _ Hp)).
    apply (comma_item_inv _ _ _ _ _ st) in H; [|exact Hv|exact Hp].
    destruct H as (j & g1 & k & g2 & w & Es & _ & Hg1 & Hg2 & Hw & Hy).
    apply app_inv_tail in Es. subst w1. rewrite for_each_app. eapply yields_bind; [apply Hy|].
    intros st1 (x & Hx & ->). eapply yields_impl; [apply IH|]. intros st2 (l & Hl & ->).
    exists (x :: l). split; [|rewrite <- app_assoc; reflexivity].
    rewrite <- app_assoc. cbn [app]. rewrite <- app_assoc. eapply more_one; eauto.
    rewrite app_length in Hl. cbn [length] in Hl. rewrite app_length in Hl.
    replace (p0 + length g1 + 1 + length g2 + length w) with (p0 + (length g1 + S (length g2 + length w))) by lia. exact Hl.
  - exists w. repeat split. apply K; assumption.
Qed.

Lemma comma_inv c p s q s' f : run c (Opt (Str [COMMA])) p s = Done q s' f ->
  exists comma, s = comma ++ s' /\ q = p + length comma /\ (comma = [] \/ comma = [COMMA]) /\ f = [].
Proof.
  intros H. apply opt_inv in H; [|reflexivity]. destruct H as [H|(_ & -> & -> & ->)].
  - apply str_inv in H. destruct H as (-> & -> & ->). exists [COMMA]. auto.
  - exists []. rewrite Nat.add_0_r. auto.
Qed.

Lemma array_inv p s q s' f : valid_utf8 s = true -> pos p s -> run ctx0 (Call R_string_array) p s = Done q s' f ->
  exists w, s = w ++ s' /\ q = p + length w /\
    yields (fun l => array_at unq p w (StringArray (at_ p w) l)) (for_each array_step f []).
Proof.
  intros Hv Hp H. call_open H. cbn [grammar fst snd rule_inner rule_outer rule_tokens] in *.
  apply alt_inv in H; [|reflexivity]. destruct H as [H|[_ H]].
  - seq_open H Hv H1. apply str_inv in H1. destruct H1 as (-> & -> & ->).
    pose proof (pos_app _ _ [LBRACK] _ Hp) as Hp1. cbn [length app] in *.
    seq_open H Hv0 H1. seq_open H Hv1 H2.
    apply gap_maybe_inv_more in H1; [|exact Hv0|intros ->; apply string_not_nil in H2; exact H2].
    destruct H1 as (g & -> & -> & Hc & Hg). pose proof (pos_app _ _ _ _ Hp1) as Hp2.
    apply (array_string_inv _ _ _ _ _ []) in H2; [|exact Hv1|exact Hp2]. destruct H2 as (w & -> & -> & Hw & Hy).
    pose proof (pos_app _ _ _ _ Hp2) as Hp3.
    seq_open H Hv2 H3. match type of H3 with run _ _ ?a ?b = ?c => change (run ctx0 (Rep comma_item) a b = c) in H3 end.
    apply more_strings_inv in H3; [|exact Hv2|exact Hp3]. destruct H3 as (m & -> & -> & Hm).
    seq_open H Hv3 H4. seq_open H Hv4 H5. apply str_inv in H. destruct H as (-> & -> & ->).
    apply gap_maybe_inv_more in H5; [|exact Hv4|discriminate]. destruct H5 as (g2 & -> & -> & Hc2 & Hg2).
    apply comma_inv in H4. destruct H4 as (comma & -> & -> & Hcomma & ->).
    exists (LBRACK :: g ++ w ++ m ++ comma ++ g2 ++ [RBRACK]).
    split; [cbn [app]; rewrite <- !app_assoc; reflexivity|].
    split; [cbn [length]; rewrite !app_length; cbn [length]; lia|].
    cbn [app]. rewrite for_each_gap by (assumption || apply array_step_comments). rewrite for_each_app.
    eapply yields_bind; [exact Hy|]. intros st (x & Hx & ->). rewrite for_each_app.
    eapply yields_bind; [apply Hm|]. intros st (l & Hl & ->).
    rewrite app_nil_r, (for_each_comments _ _ _ array_step_comments Hc2). cbn.
    eapply array_strings with (g := g) (g2 := g2) (m := m) (comma := comma) (w := w); eauto.
  - seq_open H Hv H1. apply str_inv in H1. destruct H1 as (-> & -> & ->). cbn [length app] in *.
    seq_open H Hv0 H1. apply str_inv in H. destruct H as (-> & -> & ->).
    apply gap_maybe_inv_more in H1; [|exact Hv0|discriminate]. destruct H1 as (g & -> & -> & Hc & Hg).
    exists (LBRACK :: g ++ [RBRACK]). split; [cbn [app]; rewrite <- !app_assoc; reflexivity|].
    split; [cbn [length]; rewrite !app_length; cbn [length]; lia|].
    rewrite app_nil_r, (for_each_comments _ _ _ array_step_comments Hc). cbn. eapply array_empty; eauto.
Qed.

Lemma array_rule_inv r p s q s' f : grammar r = (Normal, Call R_string_array) ->
  valid_utf8 s = true -> pos p s -> run ctx0 (Call r) p s = Done q s' f ->
  exists w t, s = w ++ s' /\ q = p + length w /\ f = [t] /\ t_rule t = r /\
    yields (array_at unq p w) (parse_string_array unq src t).
Proof.
  intros Hr Hv Hp H. apply token_inv in H; [|rewrite Hr; discriminate]. destruct H as (f' & H & ->).
  rewrite Hr in H. cbn [fst snd rule_inner rule_outer] in H. apply array_inv in H; [|exact Hv|exact Hp].
  destruct H as (w & -> & -> & Hy). eexists w, _. split; [reflexivity|]. split; [reflexivity|]. split; [reflexivity|].
  split; [reflexivity|]. unfold parse_string_array. cbn [t_children].
  eapply yields_bind; [exact Hy|]. intros l Hl. exact Hl.
Qed.

End Rules.
