(** Shell texts, flags and values with the text that follows them: both directions, see
    SpecExact.v. *)

From Coq Require Import String.
From Verif Require Import Bytes BytesFacts Grammar Peg Result Ast Splicer Image Convert
  PegFacts SpecImage SpecSyntax SpecClear SpecExact PegRules PegTokens PegQuoted Sound SoundRules SoundInstr
  Forward Forward2 Forward3 ListFacts Forward4 Exact.
Local Open Scope nat_scope.

Lemma comment_line_exact c p s q s' f : valid_utf8 s = true -> run c comment_line p s = Done q s' f ->
  exists b t n, blanks b /\ comment_text t /\ s = b ++ t ++ n ++ s' /\ q = p + length (b ++ t ++ n) /\
    (newline n \/ (n = [] /\ s' = [])) /\ (n = [CR] -> ~ begins_lf s') /\
    f = wrap c R_comment (p + length b) (p + length b + length t) [].
Proof.
  intros Hv H. pose proof H as H0. apply comment_line_inv in H; [|exact Hv]. destruct H as (b & t & n & Hb & Ht & -> & -> & Hn & ->).
  exists b, t, n. split; [exact Hb|]. split; [exact Ht|]. split; [reflexivity|]. split; [reflexivity|]. split; [exact Hn|]. split; [|reflexivity].
  intros -> [u ->]. change (b ++ t ++ [CR] ++ LF :: u) with (b ++ t ++ [CR; LF] ++ u) in *.
  rewrite comment_line_fwd in H0; [|exact Hb|exact Ht|right; reflexivity|exact Hv|left; reflexivity].
  assert (E : u = LF :: u) by (revert H0; generalize (p + length b + length t + length [CR; LF]) (p + length (b ++ t ++ [CR])) (wrap c R_comment (p + length b) (p + length b + length t) []); intros a1 a2 a3 K; injection K; intros; assumption).
  apply (f_equal (@length N)) in E. cbn in E. lia.
Qed.

(** A shell text never stops before a blank. *)
Definition no_blank (s : bytes) : Prop := match s with c :: _ => is_blank c = false | [] => True end.

Lemma chunk_stop_no_blank s : chunk_stop s = true -> no_blank s.
Proof.
  unfold chunk_stop. destruct s as [|x s]; [intros; exact I|]. cbn [newline_here no_blank]. intros H.
  apply orb_true_iff in H. destruct H as [H|H]; [apply newline_not_blank_byte; exact H|].
  apply continues_ascii in H. subst x. reflexivity.
Qed.

Lemma chunk_exact c p s q s' f : valid_utf8 s = true -> run c (Call R_any_content) p s = Done q s' f ->
  exists w, s = w ++ s' /\ q = p + length w /\ chunk w /\ f = wrap c R_any_content p q [] /\
    (ends_in_backslash w -> ends_here s' -> s' = []) /\ no_blank s'.
Proof.
  intros Hv H. rewrite run_any_content in H by exact Hv.
  pose proof (until_chunk s) as Hw. pose proof (until_app chunk_stop s) as Es. pose proof (until_inside chunk_stop s) as Hi.
  pose proof (from_stop_head chunk_stop s) as Hh.
  destruct (until chunk_stop s) as [|x w]; [discriminate|]. injection H as <- <- <-.
  exists (x :: w). split; [auto|]. split; [reflexivity|]. split; [apply Hw; auto; discriminate|].
  split; [reflexivity|]. split; [|destruct (from_stop chunk_stop s); [exact I|apply chunk_stop_no_blank; exact Hh]].
  intros (t & b & E & Hb) He. specialize (Hi t (BSLASH :: b) E ltac:(discriminate)).
  destruct (from_stop chunk_stop s) as [|y u]; [reflexivity|]. exfalso. cbn in He.
  unfold chunk_stop in Hi. apply orb_false_iff in Hi. destruct Hi as [_ Hi]. cbn [app] in Hi.
  assert (K : continues (BSLASH :: b ++ y :: u) = true); [|congruence].
  apply continues_bs. exists b, [y], u. split; [reflexivity|]. split; [exact Hb|]. unfold is_newline_byte in He.
  apply orb_true_iff in He. rewrite !N.eqb_eq in He. destruct He; subst; constructor.
Qed.

Lemma chunk_over_fwd w s c p : chunk w -> (ends_here s /\ (ends_in_backslash w -> s = [])) \/ continues s = true ->
  valid_utf8 (w ++ s) = true ->
  run c (Call R_any_content) p (w ++ s) = Done (p + length w) s (wrap c R_any_content p (p + length w) []).
Proof.
  intros Hw Hs Hv. destruct Hs as [[He Hb]|Hs]; [|apply chunk_fwd; auto].
  destruct s as [|x s].
  - rewrite run_any_content by exact Hv. destruct (until_all chunk_stop w []) as [-> ->]; [|exact I|destruct w; [destruct Hw; congruence|reflexivity]].
    intros u v -> Hne. rewrite app_nil_r. unfold chunk_stop. destruct Hw as (_ & Hn & _). apply Forall_app in Hn. destruct Hn as [_ Hn].
    destruct v as [|y v]; [congruence|]. inversion Hn as [|? ? H1 H2]; subst. cbn [newline_here]. rewrite H1. cbn [orb].
    apply continues_not. intros (k & t & E & (b & n & -> & _ & Hnl)). cbn [app] in E. injection E as -> ->.
    apply Forall_app in H2. destruct H2 as [H2 _]. apply Forall_app in H2. destruct H2 as [_ H2]. destruct Hnl; inversion H2; discriminate.
  - apply chunk_fwd; [exact Hw| |exact Hv]. left. split; [apply ends_end; exact He|]. intros K. specialize (Hb K). discriminate.
Qed.

Lemma shell_reads_not_lf p w s l : shell_reads p w s l -> forall u, ~ begins_lf (w ++ u).
Proof.
  intros H u. destruct H as [p w s H|p w c w2 s l H|p b t Hb Ht|p b t n s Hb Ht|p b t n w s l Hb Ht].
  - apply chunk_not_lf; exact H.
  - rewrite <- app_assoc. apply chunk_not_lf; exact H.
  - rewrite <- app_assoc. apply blank_comment_not_lf; assumption.
  - rewrite <- !app_assoc. apply blank_comment_not_lf; assumption.
  - rewrite <- !app_assoc. apply blank_comment_not_lf; assumption.
Qed.

Lemma shell_reads_ends p w s l : shell_reads p w s l -> ends_here s.
Proof. induction 1; auto. exact I. Qed.

Lemma breakable_fail_stop c p s : look c = false -> valid_utf8 s = true -> run c any_breakable p s = Fail -> no_blank s.
Proof.
  intros Hc Hv H. unfold any_breakable in H. rewrite run_call in H. cbn [grammar fst snd] in H.
  assert (Ec : rule_inner CompoundRule c = ctx0) by (cbn; rewrite Hc; reflexivity). rewrite Ec in H.
  rewrite run_alt in H by reflexivity.
  match type of H with context [match run ctx0 ?e p s with Done _ _ _ => _ | Fail => _ | OutOfFuel => _ end] =>
    destruct (run ctx0 e p s) as [? ? ?| |] end; [discriminate| |discriminate].
  rewrite run_seq in H by reflexivity. rewrite run_any_content in H by exact Hv.
  destruct s as [|x s]; [exact I|]. cbn [until] in H. destruct (chunk_stop (x :: s)) eqn:E; [apply chunk_stop_no_blank; exact E|].
  exfalso. match type of H with context [run ctx0 (Opt ?e) ?a ?b] => pose proof (run_opt ctx0 e a b eq_refl) as Eo; pose proof (run_total ctx0 e a b eq_refl) as Et; rewrite Eo in H; destruct (run ctx0 e a b); [discriminate|discriminate|congruence] end.
Qed.

Section Shell.
Variable unq : bytes -> option bytes.
Variable src : bytes.
Notation pos := (pos src).
Notation yields := (yields unq src).

Lemma any_breakable_exact n : forall s, length s <= n -> forall c p q s' f, look c = false ->
  valid_utf8 s = true -> pos p s -> run c any_breakable p s = Done q s' f ->
  exists w t l, s = w ++ s' /\ q = p + length w /\ f = [t] /\ t_rule t = R_any_breakable /\
    parse_any_breakable_inner src t = Ok l /\ w <> [] /\ (ends_here s' -> shell_reads p w s' l) /\ no_blank s'.
Proof.
  induction n as [|n IH]; intros s Hl c p q s' f Hc Hv Hp H.
  { pose proof (run_strict _ _ _ _ _ _ _ H eq_refl). lia. }
  unfold any_breakable in H. call_open H. cbn [grammar fst snd] in H.
  assert (Ec : rule_inner CompoundRule c = ctx0) by (cbn; rewrite Hc; reflexivity). rewrite Ec in H.
  assert (Et : forall q f, rule_tokens CompoundRule c R_any_breakable p q f = [Node R_any_breakable p q f]).
  { intros. cbn. rewrite Hc. reflexivity. }
  cbn [grammar fst]. rewrite Et. apply alt_inv in H; [|reflexivity]. destruct H as [H|[Hcl H]].
  - seq_open H Hv H1. pose proof (run_strict _ _ _ _ _ _ _ H1 eq_refl) as Hs.
    apply comment_line_exact in H1; [|exact Hv]. destruct H1 as (b & t & m & Hb & Ht & -> & -> & Hm & Hcr & ->).
    assert (Hpt : pos (p + length b) (t ++ m ++ s0)) by (apply pos_app; exact Hp).
    assert (Hps : pos (p + length (b ++ t ++ m)) s0).
    { apply pos_app. rewrite <- !app_assoc. exact Hp. }
    assert (Hbt : forall r, b ++ t ++ r <> []) by (intros r K; apply app_eq_nil in K; destruct K as [_ K]; destruct Ht as (? & -> & _); discriminate).
    cbn [wrap emits ctx0 look atom negb andb].
    apply opt_inv in H; [|reflexivity]. destruct H as [H|(HF & -> & -> & ->)].
    + apply (IH s0 ltac:(lia)) in H; [|reflexivity|exact Hv0|exact Hps].
      destruct H as (w & t2 & l & -> & -> & -> & Hr & Hi & Hne & Hsh & Hnb).
      destruct Hm as [Hm|[-> Hm]].
      2:{ exfalso. apply app_eq_nil in Hm. destruct Hm as [-> ->]. congruence. }
      eexists (b ++ t ++ m ++ w), _, _. split; [rewrite <- !app_assoc; reflexivity|].
      split; [rewrite !app_length; lia|]. split; [reflexivity|]. split; [reflexivity|]. split; [|split; [apply Hbt|split; [|first [exact Hnb|exact (breakable_fail_stop ctx0 _ _ eq_refl Hv0 HF)]]]].
      * rewrite breakable_inner_eq. cbn [t_children app for_each]. unfold breakable_step.
        rewrite Hr. cbn [t_rule bind]. rewrite Hi. cbn [bind for_each app].
        rewrite (as_str_at src _ _ _ _ _ Hpt). reflexivity.
      * intros He. change (shell_reads p (b ++ t ++ m ++ w) s' (comment_part (p + length b) t :: l)).
        apply reads_after_comment; auto. specialize (Hsh He). rewrite !app_length in Hsh.
        replace (p + length b + length t + length m) with (p + (length b + (length t + length m))) by lia. exact Hsh.
    + eexists (b ++ t ++ m), _, _. split; [rewrite <- !app_assoc; reflexivity|].
      split; [reflexivity|]. split; [reflexivity|]. split; [reflexivity|]. split; [|split; [apply Hbt|split; [|first [exact Hnb|exact (breakable_fail_stop ctx0 _ _ eq_refl Hv0 HF)]]]].
      * rewrite breakable_inner_eq. cbn [t_children app for_each]. unfold breakable_step.
        cbn [t_rule bind app]. rewrite (as_str_at src _ _ _ _ _ Hpt). reflexivity.
      * intros He. change (shell_reads p (b ++ t ++ m) s0 [comment_part (p + length b) t]).
        destruct Hm as [Hm|[-> ->]]; [apply reads_comment_line; auto|]. rewrite app_nil_r. apply reads_comment; auto.
  - seq_open H Hv H1. apply chunk_exact in H1; [|exact Hv].
    destruct H1 as (w & -> & -> & Hw & -> & Hbs & Hnb0). pose proof (pos_app _ _ _ _ Hp) as Hp1.
    assert (Hnc : ~ comment_like w) by (apply (not_comment_like _ _ _ Hv Hcl)).
    assert (Hwn : forall r, w ++ r <> []) by (intros r K; apply app_eq_nil in K; destruct Hw; tauto).
    cbn [wrap emits ctx0 look atom negb andb].
    apply opt_inv in H; [|reflexivity]. destruct H as [H|(_ & -> & -> & ->)].
    + seq_open H Hv0 H1. apply continuation_inv in H1. destruct H1 as (k & Hk & -> & -> & ->).
      pose proof (pos_app _ _ _ _ Hp1) as Hp2.
      assert (Hlen : length s <= n).
      { rewrite !app_length in Hl. destruct Hk as (? & ? & -> & _). cbn [length] in Hl. lia. }
      apply (IH s Hlen) in H; [|reflexivity|exact Hv1|exact Hp2].
      destruct H as (w2 & t2 & l & -> & -> & -> & Hr & Hi & _ & Hsh & Hnb).
      eexists (w ++ k ++ w2), _, _. split; [rewrite <- !app_assoc; reflexivity|].
      split; [rewrite !app_length; lia|]. split; [reflexivity|]. split; [reflexivity|]. split; [|split; [apply Hwn|split; [|exact Hnb]]].
      * rewrite breakable_inner_eq. cbn [t_children app for_each]. unfold breakable_step.
        rewrite Hr. cbn [t_rule bind]. rewrite Hi. cbn [bind for_each app].
        rewrite (as_str_at src _ _ _ _ _ Hp). reflexivity.
      * intros He. change (shell_reads p (w ++ k ++ w2) s' (text_part p w :: l)). apply reads_continued; auto.
    + eexists w, _, _. split; [reflexivity|]. split; [reflexivity|]. split; [reflexivity|]. split; [reflexivity|]. split; [|split; [apply Hw|split; [|exact Hnb0]]].
      * rewrite breakable_inner_eq. cbn [t_children app for_each]. unfold breakable_step.
        cbn [t_rule bind app]. rewrite (as_str_at src _ _ _ _ _ Hp). reflexivity.
      * intros He. change (shell_reads p w s0 [text_part p w]). apply reads_text; auto.
Qed.

Lemma breakable_rule_exact r p s q s' f : grammar r = (AtomicRule, any_breakable) ->
  valid_utf8 s = true -> pos p s -> run ctx0 (Call r) p s = Done q s' f ->
  exists w t x, s = w ++ s' /\ q = p + length w /\ f = [t] /\ t_rule t = r /\
    parse_any_breakable src t = Ok x /\ br_span x = at_ p w /\ (ends_here s' -> breakable_reads p w s' x) /\ no_blank s'.
Proof.
  intros Hr Hv Hp H. apply token_inv in H; [|rewrite Hr; discriminate]. destruct H as (f' & H & ->).
  rewrite Hr in H. cbn [fst snd] in H.
  apply (any_breakable_exact (length s) s (le_n _)) in H; [|reflexivity|exact Hv|exact Hp].
  destruct H as (w & t & l & -> & -> & -> & Ht & Hi & _ & Hsh & Hnb).
  eexists w, _, _. split; [reflexivity|]. split; [reflexivity|]. split; [reflexivity|]. split; [reflexivity|].
  split.
  - unfold parse_any_breakable. rewrite breakable_inner_eq. cbn [t_children for_each]. unfold breakable_step.
    rewrite Ht, Hi. cbn [bind app]. reflexivity.
  - split; [reflexivity|]. split; [|exact Hnb]. intros He. exists l. split; [apply Hsh; exact He|reflexivity].
Qed.

Lemma shell_reads_fwd p w s l : shell_reads p w s l -> forall c, look c = false ->
  valid_utf8 (w ++ s) = true -> pos p (w ++ s) ->
  exists ch, run c any_breakable p (w ++ s) = Done (p + length w) s [Node R_any_breakable p (p + length w) ch] /\
    parse_any_breakable_inner src (Node R_any_breakable p (p + length w) ch) = Ok l.
Proof.
  intros Hw. induction Hw as [p w s Hw Hc Hs Hb|p w k w2 s l Hw Hc Hk Hsh IH|p b t Hb Ht|p b t n s Hb Ht Hn Hs Hcr|p b t n w s l Hb Ht Hn Hsh IH];
    intros c Hlook Hv Hp.
  - unfold any_breakable at 1. rewrite run_call. cbn [grammar fst snd].
    assert (Et : forall q f, rule_tokens CompoundRule c R_any_breakable p q f = [Node R_any_breakable p q f]).
    { intros. cbn. rewrite Hlook. reflexivity. }
    assert (Ec : rule_inner CompoundRule c = ctx0) by (cbn; rewrite Hlook; reflexivity). rewrite Ec.
    rewrite run_alt by reflexivity. rewrite run_seq by reflexivity.
    rewrite comment_line_not; [|exact Hc|apply Hw|apply line_end_drop, ends_end; exact Hs|exact Hv].
    rewrite run_seq by reflexivity. rewrite chunk_over_fwd; [|exact Hw|left; auto|exact Hv].
    rewrite run_opt by reflexivity. rewrite run_seq by reflexivity. rewrite continuation_at_end by (apply ends_end; exact Hs).
    rewrite Et. cbn [wrap emits ctx0 look atom negb andb app]. eexists. split; [reflexivity|].
    rewrite breakable_inner_eq. cbn [t_children for_each]. unfold breakable_step. cbn [t_rule bind app].
    rewrite (as_str_at src _ _ _ _ _ Hp). reflexivity.
  - rewrite <- !app_assoc in *. unfold any_breakable at 1. rewrite run_call. cbn [grammar fst snd].
    assert (Et : forall q f, rule_tokens CompoundRule c R_any_breakable p q f = [Node R_any_breakable p q f]).
    { intros. cbn. rewrite Hlook. reflexivity. }
    assert (Ec : rule_inner CompoundRule c = ctx0) by (cbn; rewrite Hlook; reflexivity). rewrite Ec.
    rewrite run_alt by reflexivity. rewrite run_seq by reflexivity.
    rewrite comment_line_not; [|exact Hc|apply Hw| |exact Hv].
    2:{ destruct Hk as (b & n & -> & _). cbn. discriminate. }
    assert (Ech : run ctx0 (Call R_any_content) p (w ++ k ++ w2 ++ s) = Done (p + length w) (k ++ w2 ++ s) (wrap ctx0 R_any_content p (p + length w) [])).
    { apply chunk_fwd; [exact Hw|right; apply continues_cont; exact Hk|exact Hv]. }
    pose proof (run_valid _ _ _ _ _ _ _ Ech Hv eq_refl) as Hv1. pose proof (pos_app _ _ _ _ Hp) as Hp1.
    rewrite valid_continuation in Hv1 by exact Hk. pose proof (pos_app _ _ _ _ Hp1) as Hp2.
    rewrite run_seq by reflexivity. rewrite Ech. rewrite run_opt by reflexivity. rewrite run_seq by reflexivity.
    rewrite continuation_fwd; [|exact Hk|apply (shell_reads_not_lf _ _ _ _ Hsh)].
    destruct (IH ctx0 eq_refl Hv1 Hp2) as (ch & Er & Ei). rewrite Er, Et.
    cbn [wrap emits ctx0 look atom negb andb app].
    assert (El : p + length w + length k + length w2 = p + length (w ++ k ++ w2)) by (rewrite !app_length; lia).
    rewrite El in Ei |- *.
    eexists. split; [reflexivity|].
    rewrite breakable_inner_eq. cbn [t_children for_each]. unfold breakable_step. cbn [t_rule bind app].
    rewrite Ei. cbn [bind app]. rewrite (as_str_at src _ _ _ _ _ Hp). reflexivity.
  - rewrite <- !app_assoc in *. unfold any_breakable at 1. rewrite run_call. cbn [grammar fst snd].
    assert (Et : forall q f, rule_tokens CompoundRule c R_any_breakable p q f = [Node R_any_breakable p q f]).
    { intros. cbn. rewrite Hlook. reflexivity. }
    assert (Ec : rule_inner CompoundRule c = ctx0) by (cbn; rewrite Hlook; reflexivity). rewrite Ec.
    rewrite run_alt by reflexivity. rewrite run_seq by reflexivity.
    pose proof (comment_line_fwd b t [] [] ctx0 p Hb Ht (or_introl eq_refl)) as E. cbn [app] in E.
    rewrite E; [|exact Hv|right; auto]. clear E.
    rewrite run_opt by reflexivity. rewrite breakable_fails; [|left; reflexivity|reflexivity].
    rewrite Et. cbn [wrap emits ctx0 look atom negb andb app].
    replace (p + length b + length t + length (@nil N)) with (p + length (b ++ t)) by (rewrite !app_length; cbn [length]; lia).
    eexists. split; [reflexivity|].
    rewrite breakable_inner_eq. cbn [t_children for_each]. unfold breakable_step. cbn [t_rule bind app].
    rewrite (as_str_at src _ _ _ _ _ (pos_app _ _ _ _ Hp)). reflexivity.
  - rewrite <- !app_assoc in *. unfold any_breakable at 1. rewrite run_call. cbn [grammar fst snd].
    assert (Et : forall q f, rule_tokens CompoundRule c R_any_breakable p q f = [Node R_any_breakable p q f]).
    { intros. cbn. rewrite Hlook. reflexivity. }
    assert (Ec : rule_inner CompoundRule c = ctx0) by (cbn; rewrite Hlook; reflexivity). rewrite Ec.
    rewrite run_alt by reflexivity. rewrite run_seq by reflexivity.
    rewrite comment_line_fwd; [|exact Hb|exact Ht|right; apply newline_head; exact Hn|exact Hv|].
    2:{ left. apply strip_newline_fwd; [exact Hn|exact Hcr]. }
    rewrite run_opt by reflexivity. rewrite breakable_fails; [|apply ends_end; exact Hs|].
    2:{ rewrite valid_blanks, valid_comment, valid_newline in Hv by assumption. exact Hv. }
    rewrite Et. cbn [wrap emits ctx0 look atom negb andb app].
    replace (p + length b + length t + length n) with (p + length (b ++ t ++ n)) by (rewrite !app_length; lia).
    eexists. split; [reflexivity|].
    rewrite breakable_inner_eq. cbn [t_children for_each]. unfold breakable_step. cbn [t_rule bind app].
    rewrite (as_str_at src _ _ _ _ _ (pos_app _ _ _ _ Hp)). reflexivity.
  - rewrite <- !app_assoc in *. unfold any_breakable at 1. rewrite run_call. cbn [grammar fst snd].
    assert (Et : forall q f, rule_tokens CompoundRule c R_any_breakable p q f = [Node R_any_breakable p q f]).
    { intros. cbn. rewrite Hlook. reflexivity. }
    assert (Ec : rule_inner CompoundRule c = ctx0) by (cbn; rewrite Hlook; reflexivity). rewrite Ec.
    rewrite run_alt by reflexivity. rewrite run_seq by reflexivity.
    rewrite comment_line_fwd; [|exact Hb|exact Ht|right; apply newline_head; exact Hn|exact Hv|].
    2:{ left. apply strip_newline_fwd; [exact Hn|intros _; apply (shell_reads_not_lf _ _ _ _ Hsh)]. }
    pose proof (pos_app _ _ _ _ Hp) as Hp1. pose proof (pos_app _ _ _ _ Hp1) as Hp2. pose proof (pos_app _ _ _ _ Hp2) as Hp3.
    rewrite valid_blanks, valid_comment, valid_newline in Hv by assumption.
    rewrite run_opt by reflexivity. destruct (IH ctx0 eq_refl Hv Hp3) as (ch & Er & Ei). rewrite Er, Et.
    cbn [wrap emits ctx0 look atom negb andb app].
    assert (El : p + length b + length t + length n + length w = p + length (b ++ t ++ n ++ w)) by (rewrite !app_length; lia).
    rewrite El in Ei |- *.
    eexists. split; [reflexivity|].
    rewrite breakable_inner_eq. cbn [t_children for_each]. unfold breakable_step. cbn [t_rule bind app].
    rewrite Ei. cbn [bind app]. rewrite (as_str_at src _ _ _ _ _ Hp1). reflexivity.
Qed.

Lemma breakable_reads_fwd r p w x s : grammar r = (AtomicRule, any_breakable) ->
  breakable_reads p w s x -> valid_utf8 (w ++ s) = true -> pos p (w ++ s) ->
  exists ch, run ctx0 (Call r) p (w ++ s) = Done (p + length w) s [Node r p (p + length w) ch] /\
    parse_any_breakable src (Node r p (p + length w) ch) = Ok x.
Proof.
  intros Hr (l & Hl & ->) Hv Hp. rewrite run_call, Hr. cbn [fst snd].
  destruct (shell_reads_fwd p w s l Hl (rule_inner AtomicRule ctx0) eq_refl Hv Hp) as (ch & -> & Ei).
  eexists. split; [reflexivity|]. unfold parse_any_breakable. rewrite breakable_inner_eq. cbn [t_children for_each].
  unfold breakable_step. cbn [t_rule]. rewrite Ei. reflexivity.
Qed.
End Shell.
