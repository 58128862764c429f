(** From texts to runs of the grammar, continued: words, quoted strings, shell texts
    and arrays. *)

From Coq Require Import String.
From Verif Require Import Bytes BytesFacts Grammar Peg Result Ast Splicer Image Convert
  PegFacts SpecImage SpecSyntax SpecClear PegRules PegTokens PegQuoted Sound SoundRules SoundInstr Forward.
Local Open Scope nat_scope.

(** ** Words *)

Definition word_end (s : bytes) : Prop := match s with [] => True | _ => word_stop s = true end.

Lemma at_line_end_word s : at_line_end s -> word_end s.
Proof.
  intros [-> |H]; [exact I|]. destruct s as [|x s]; [exact I|]. unfold word_end, word_stop. rewrite H. reflexivity.
Qed.

Lemma gap_word_end k g s : gap k g -> g <> [] -> word_end (g ++ s).
Proof.
  intros Hg Hne. destruct Hg as [|k x w Hx Hg|j k c l w Hc Hl Hg]; [congruence| |].
  - cbn [app]. unfold word_end, word_stop. cbn [newline_here is_nil gap_here]. rewrite Hx. cbn [orb]. apply orb_true_r.
  - rewrite <- app_assoc. pose proof (continues_cont c ((l ++ w) ++ s) Hc) as E.
    destruct (c ++ (l ++ w) ++ s) as [|x t]; [discriminate|]. unfold word_end, word_stop. cbn [is_nil gap_here]. rewrite E.
    rewrite !orb_true_r. reflexivity.
Qed.

Lemma blanks_gap b : blanks b -> gap 0 b.
Proof. induction 1; constructor; assumption. Qed.

Lemma blanks_line_word b s : blanks b -> at_line_end s -> word_end (b ++ s).
Proof.
  intros Hb Hs. destruct b as [|x b]; [apply at_line_end_word; exact Hs|].
  apply (gap_word_end 0); [apply blanks_gap; exact Hb|discriminate].
Qed.

Lemma not_continues_word x w s : is_blank x = false -> is_newline_byte x = false -> continues (BSLASH :: x :: w ++ s) = false.
Proof.
  intros Hb Hn. unfold continues. cbn [cont_rest]. change (BSLASH =? BSLASH)%N with true. cbn iota.
  cbn [drop_while take_while]. rewrite Hb. unfold strip_newline. unfold is_newline_byte in Hn.
  apply orb_false_iff in Hn. destruct Hn as [-> ->]. reflexivity.
Qed.

Lemma word_until w s : Forall (fun c => is_blank c = false /\ is_newline_byte c = false) w ->
  ~ ends_in_backslash w -> word_end s -> until word_stop (w ++ s) = w /\ from_stop word_stop (w ++ s) = s.
Proof.
  intros Hw Hb Hs. apply until_all; [|exact Hs]. intros u v -> Hv.
  apply Forall_app in Hw. destruct Hw as [_ Hw]. destruct v as [|x v]; [congruence|].
  inversion Hw as [|? ? [H1 H2] Hw']; subst. cbn [app]. unfold word_stop. cbn [newline_here is_nil gap_here].
  rewrite H1, H2. cbn [orb]. destruct (continues (x :: v ++ s)) eqn:E; [|reflexivity].
  pose proof (continues_ascii _ _ E) as ->. exfalso. destruct v as [|y v].
  - apply Hb. exists u, []. split; [reflexivity|constructor].
  - inversion Hw' as [|? ? [H3 H4] _]; subst. cbn [app] in E. rewrite not_continues_word in E by assumption. discriminate.
Qed.

Lemma word_fwd c p w s : word w -> ~ ends_in_backslash w -> word_end s -> valid_utf8 (w ++ s) = true ->
  run c any_whitespace p (w ++ s) = Done (p + length w) s [].
Proof.
  intros (Hne & Hw & _) Hb Hs Hv. rewrite run_any_whitespace by exact Hv.
  destruct (word_until w s Hw Hb Hs) as [-> ->]. destruct w; [congruence|reflexivity].
Qed.

Lemma word_fails c p s : word_end s -> valid_utf8 s = true -> run c any_whitespace p s = Fail.
Proof.
  intros Hs Hv. rewrite run_any_whitespace by exact Hv. destruct s as [|x s]; [reflexivity|].
  cbn [until]. cbn in Hs. rewrite Hs. reflexivity.
Qed.

Definition label_end (s : bytes) : Prop := match s with [] => True | _ => label_stop s = true end.

Lemma label_word_fwd c p w s : label_word w -> label_end s -> valid_utf8 (w ++ s) = true ->
  run c any_equals p (w ++ s) = Done (p + length w) s [].
Proof.
  intros (Hne & Hw & _) Hs Hv. rewrite run_any_equals by exact Hv.
  destruct (until_all label_stop w s) as [-> ->].
  - intros u v -> Hv'. apply Forall_app in Hw. destruct Hw as [_ Hw]. destruct v as [|x v]; [congruence|].
    inversion Hw as [|? ? (H1 & H2 & H3) _]; subst. cbn [app]. unfold label_stop. cbn [newline_here blank_here].
    rewrite H1, H2. cbn [orb]. apply N.eqb_neq. congruence.
  - exact Hs.
  - destruct w; [congruence|reflexivity].
Qed.

Lemma label_word_fails c p s : label_end s -> valid_utf8 s = true -> run c any_equals p s = Fail.
Proof.
  intros Hs Hv. rewrite run_any_equals by exact Hv. destruct s as [|x s]; [reflexivity|].
  cbn [until]. cbn in Hs. rewrite Hs. reflexivity.
Qed.

(** Characters of a class *)
Lemma class_rep1_fwd e P c p w s : good (rep1 e) = true -> matches_class e P -> w <> [] ->
  Forall (fun x => P x = true) w -> (match s with x :: _ => P x = false | [] => True end) ->
  run c (rep1 e) p (w ++ s) = Done (p + length w) s [].
Proof.
  intros G H Hne Hw Hs. rewrite (class_rep1 e P G H). destruct (take_while_app P w s Hw Hs) as [-> ->].
  destruct w; [congruence|reflexivity].
Qed.

Lemma class_rep1_fails e P c p s : good (rep1 e) = true -> matches_class e P ->
  (match s with x :: _ => P x = false | [] => True end) -> run c (rep1 e) p s = Fail.
Proof.
  intros G H Hs. rewrite (class_rep1 e P G H). destruct s as [|x s]; [reflexivity|]. cbn. rewrite Hs. reflexivity.
Qed.

(** ** Shell texts *)

Lemma begins_with_app c w s : w <> [] -> begins_with c (w ++ s) -> begins_with c w.
Proof. intros Hw [t E]. destruct w as [|x w]; [congruence|]. cbn [app] in E. injection E as -> _. exists w. reflexivity. Qed.

Lemma not_quote_app w s : w <> [] -> ~ begins_with_quote w -> ~ begins_with_quote (w ++ s).
Proof. intros Hw Hn [K|K]; apply (begins_with_app _ _ _ Hw) in K; apply Hn; [left|right]; exact K. Qed.

Lemma no_newline_drop w s : no_newline w -> ~ newline_here (drop_while is_blank (w ++ s)) = true \/
  (blanks w /\ drop_while is_blank (w ++ s) = drop_while is_blank s).
Proof.
  induction 1 as [|x w Hx Hw IH]; [right; split; [constructor|reflexivity]|]. cbn [app drop_while].
  destruct (is_blank x) eqn:Eb.
  - destruct IH as [IH|[IH1 IH2]]; [left; exact IH|right; split; [constructor; assumption|exact IH2]].
  - left. cbn [newline_here]. congruence.
Qed.

(** A chunk ends at the end of the line if it does not end in a backslash, and in
    front of a continuation. *)
Lemma chunk_until w s : chunk w ->
  (at_line_end s /\ ~ ends_in_backslash w) \/ continues s = true ->
  until chunk_stop (w ++ s) = w /\ from_stop chunk_stop (w ++ s) = s.
Proof.
  intros (Hne & Hn & _) Hs. apply until_all.
  - intros u v -> Hv. apply Forall_app in Hn. destruct Hn as [_ Hn]. destruct v as [|x v]; [congruence|].
    inversion Hn as [|? ? H1 H2]; subst. cbn [app]. unfold chunk_stop. cbn [newline_here]. rewrite H1. cbn [orb].
    destruct (continues (x :: v ++ s)) eqn:E; [|reflexivity]. exfalso.
    pose proof (continues_ascii _ _ E) as ->. unfold continues in E. cbn [cont_rest] in E.
    change (BSLASH =? BSLASH)%N with true in E. cbn iota in E.
    destruct (strip_newline (drop_while is_blank (v ++ s))) as [[m t]|] eqn:En; [|discriminate].
    assert (Hh : newline_here (drop_while is_blank (v ++ s)) = true).
    { destruct (newline_here (drop_while is_blank (v ++ s))) eqn:K; [reflexivity|]. apply strip_newline_none in K. congruence. }
    destruct (no_newline_drop v s H2) as [K|[K1 K2]]; [contradiction|].
    destruct Hs as [[Hs Hb]|Hs].
    + apply Hb. exists u, v. auto.
    + rewrite K2 in Hh. pose proof (continues_bslash _ Hs) as (t' & ->). discriminate.
  - destruct Hs as [[[-> |Hs] _]|Hs]; [exact I| |]; destruct s as [|x s]; try exact I; unfold chunk_stop; rewrite Hs; [reflexivity|apply orb_true_r].
Qed.

Lemma chunk_fwd w s c p : chunk w -> (at_line_end s /\ ~ ends_in_backslash w) \/ continues s = true ->
  valid_utf8 (w ++ s) = true ->
  run c (Call R_any_content) p (w ++ s) = Done (p + length w) s (wrap c R_any_content p (p + length w) []).
Proof.
  intros Hw Hs Hv. rewrite run_any_content by exact Hv. destruct (chunk_until w s Hw Hs) as [-> ->].
  destruct w; [destruct Hw; congruence|reflexivity].
Qed.

Lemma comment_line_not w s c p : ~ comment_like w -> w <> [] ->
  (match drop_while is_blank s with x :: _ => x <> HASH | [] => True end) ->
  valid_utf8 (w ++ s) = true -> run c comment_line p (w ++ s) = Fail.
Proof.
  intros Hw Hne Hs Hv. rewrite <- (take_drop is_blank (w ++ s)). apply comment_line_fails; [apply take_while_all| |].
  - pose proof (drop_while_head is_blank (w ++ s)) as Hd.
    assert (K : match drop_while is_blank (w ++ s) with x :: _ => x <> HASH | [] => True end).
    { clear Hd Hne Hv. induction w as [|x w IH]; [exact Hs|]. cbn [app drop_while]. destruct (is_blank x) eqn:E.
      - apply IH. intros (b & t & -> & Hb). apply Hw. exists (x :: b), t. split; [reflexivity|constructor; assumption].
      - intros ->. apply Hw. exists [], w. split; [reflexivity|constructor]. }
    destruct (drop_while is_blank (w ++ s)); tauto.
  - rewrite <- (valid_blanks (take_while is_blank (w ++ s))); [rewrite take_drop; exact Hv|apply take_while_all].
Qed.

Lemma line_end_drop s : at_line_end s -> match drop_while is_blank s with x :: _ => x <> HASH | [] => True end.
Proof.
  intros [-> |H]; [exact I|]. destruct s as [|x s]; [exact I|]. cbn in H. cbn [drop_while].
  destruct (is_blank x) eqn:E.
  - unfold is_newline_byte in H. unfold is_blank in E. apply orb_true_iff in E. rewrite !N.eqb_eq in E. destruct E; subst; discriminate.
  - intros ->. discriminate.
Qed.

Lemma breakable_fails c p s : at_line_end s -> valid_utf8 s = true -> run c any_breakable p s = Fail.
Proof.
  intros Hs Hv. unfold any_breakable. rewrite run_call. cbn [grammar fst snd]. rewrite run_alt by reflexivity.
  rewrite run_seq by reflexivity.
  assert (E : run (rule_inner CompoundRule c) comment_line p s = Fail).
  { pose proof (line_end_drop s Hs) as K. rewrite <- (take_drop is_blank s). apply comment_line_fails; [apply take_while_all| |].
    - pose proof (drop_while_head is_blank s). destruct (drop_while is_blank s); tauto.
    - rewrite <- (valid_blanks (take_while is_blank s)); [rewrite take_drop; exact Hv|apply take_while_all]. }
  rewrite E. rewrite run_seq by reflexivity. rewrite run_any_content by exact Hv.
  destruct Hs as [-> |Hs]; [reflexivity|]. destruct s as [|x s]; [reflexivity|]. cbn [until]. unfold chunk_stop. rewrite Hs. reflexivity.
Qed.

Lemma continuation_fwd k s c p : continuation k -> ~ begins_lf s ->
  run c line_continuation p (k ++ s) = Done (p + length k) s [].
Proof.
  intros (b & n & -> & Hb & Hn) Hs. rewrite run_continuation.
  rewrite cont_rest_fwd; [|assumption..|intros _; exact Hs]. reflexivity.
Qed.

Lemma continuation_at_end s c p : at_line_end s -> run c line_continuation p s = Fail.
Proof.
  intros Hs. rewrite run_continuation. destruct Hs as [-> |Hs]; [reflexivity|]. destruct s as [|x s]; [reflexivity|].
  cbn [cont_rest]. destruct (x =? BSLASH)%N eqn:E; [|reflexivity]. bool_hyps. subst x. discriminate.
Qed.

Lemma chunk_not_lf w s : chunk w -> ~ begins_lf (w ++ s).
Proof.
  intros (Hne & Hn & _) K. apply (begins_with_app _ _ _ Hne) in K. destruct K as [t ->]. inversion Hn. discriminate.
Qed.

Lemma blank_comment_not_lf b t s : blanks b -> comment_text t -> ~ begins_lf (b ++ t ++ s).
Proof.
  intros Hb (u & -> & _) [v E]. destruct Hb as [|x b Hx Hb]; [discriminate|]. cbn [app] in E. injection E as -> _. discriminate.
Qed.

Lemma clear_shell_not_lf p w l s : clear_shell_at p w l -> ~ begins_lf (w ++ s).
Proof.
  intros H. destruct H as [p w H _ _|p w c w2 l H _ _ _|p b t n Hb Ht Hn _|p b t n w l Hb Ht Hn _].
  - apply chunk_not_lf; exact H.
  - rewrite <- app_assoc. apply chunk_not_lf; exact H.
  - rewrite <- !app_assoc. apply blank_comment_not_lf; assumption.
  - rewrite <- !app_assoc. apply blank_comment_not_lf; assumption.
Qed.

Section Shell.
Variable unq : bytes -> option bytes.
Variable src : bytes.
Notation pos := (pos src).

Lemma shell_fwd p w l : clear_shell_at p w l -> forall c s, look c = false -> at_line_end s ->
  valid_utf8 (w ++ s) = true -> pos p (w ++ s) ->
  exists ch, run c any_breakable p (w ++ s) = Done (p + length w) s [Node R_any_breakable p (p + length w) ch] /\
    parse_any_breakable_inner src (Node R_any_breakable p (p + length w) ch) = Ok l.
Proof.
  intros Hw. induction Hw as [p w Hw Hc Hb|p w k w2 l Hw Hc Hk Hsh IH|p b t n Hb Ht Hn Hcr|p b t n w l Hb Ht Hn Hsh IH];
    intros c s Hlook Hs Hv Hp.
  - unfold any_breakable at 1. rewrite run_call. cbn [grammar fst snd].
    assert (Et : forall q f, rule_tokens CompoundRule c R_any_breakable p q f = [Node R_any_breakable p q f]).
    { intros. cbn. rewrite Hlook. reflexivity. }
    assert (Ec : rule_inner CompoundRule c = ctx0) by (cbn; rewrite Hlook; reflexivity). rewrite Ec.
    rewrite run_alt by reflexivity. rewrite run_seq by reflexivity.
    rewrite comment_line_not; [|exact Hc|apply Hw|apply line_end_drop; exact Hs|exact Hv].
    rewrite run_seq by reflexivity. rewrite chunk_fwd; [|exact Hw|left; auto|exact Hv].
    rewrite run_opt by reflexivity. rewrite run_seq by reflexivity. rewrite continuation_at_end by exact Hs.
    rewrite Et. cbn [wrap emits ctx0 look atom negb andb app]. eexists. split; [reflexivity|].
    rewrite breakable_inner_eq. cbn [t_children for_each]. unfold breakable_step. cbn [t_rule bind app].
    rewrite (as_str_at src _ _ _ _ _ Hp). reflexivity.
  - rewrite <- !app_assoc in *. unfold any_breakable at 1. rewrite run_call. cbn [grammar fst snd].
    assert (Et : forall q f, rule_tokens CompoundRule c R_any_breakable p q f = [Node R_any_breakable p q f]).
    { intros. cbn. rewrite Hlook. reflexivity. }
    assert (Ec : rule_inner CompoundRule c = ctx0) by (cbn; rewrite Hlook; reflexivity). rewrite Ec.
    rewrite run_alt by reflexivity. rewrite run_seq by reflexivity.
    rewrite comment_line_not; [|exact Hc|apply Hw| |exact Hv].
    2:{ destruct Hk as (b & n & -> & _). cbn. discriminate. }
    assert (Ech : run ctx0 (Call R_any_content) p (w ++ k ++ w2 ++ s) = Done (p + length w) (k ++ w2 ++ s) (wrap ctx0 R_any_content p (p + length w) [])).
    { apply chunk_fwd; [exact Hw|right; apply continues_cont; exact Hk|exact Hv]. }
    pose proof (run_valid _ _ _ _ _ _ _ Ech Hv eq_refl) as Hv1. pose proof (pos_app _ _ _ _ Hp) as Hp1.
    rewrite valid_continuation in Hv1 by exact Hk. pose proof (pos_app _ _ _ _ Hp1) as Hp2.
    rewrite run_seq by reflexivity. rewrite Ech. rewrite run_opt by reflexivity. rewrite run_seq by reflexivity.
    rewrite continuation_fwd; [|exact Hk|apply (clear_shell_not_lf _ _ _ _ Hsh)].
    destruct (IH ctx0 s eq_refl Hs Hv1 Hp2) as (ch & Er & Ei). rewrite Er, Et.
    cbn [wrap emits ctx0 look atom negb andb app].
    assert (El : p + length w + length k + length w2 = p + length (w ++ k ++ w2)) by (rewrite !app_length; lia).
    rewrite El in Ei |- *.
    eexists. split; [reflexivity|].
    rewrite breakable_inner_eq. cbn [t_children for_each]. unfold breakable_step. cbn [t_rule bind app].
    rewrite Ei. cbn [bind app]. rewrite (as_str_at src _ _ _ _ _ Hp). reflexivity.
  - rewrite <- !app_assoc in *. unfold any_breakable at 1. rewrite run_call. cbn [grammar fst snd].
    assert (Et : forall q f, rule_tokens CompoundRule c R_any_breakable p q f = [Node R_any_breakable p q f]).
    { intros. cbn. rewrite Hlook. reflexivity. }
    assert (Ec : rule_inner CompoundRule c = ctx0) by (cbn; rewrite Hlook; reflexivity). rewrite Ec.
    rewrite run_alt by reflexivity. rewrite run_seq by reflexivity.
    rewrite comment_line_fwd; [|exact Hb|exact Ht|right; apply newline_head; exact Hn|exact Hv|].
    2:{ left. apply strip_newline_fwd; [exact Hn|intros; contradiction]. }
    rewrite run_opt by reflexivity. rewrite breakable_fails; [|exact Hs|].
    2:{ rewrite valid_blanks, valid_comment, valid_newline in Hv by assumption. exact Hv. }
    rewrite Et. cbn [wrap emits ctx0 look atom negb andb app].
    replace (p + length b + length t + length n) with (p + length (b ++ t ++ n)) by (rewrite !app_length; lia).
    eexists. split; [reflexivity|].
    rewrite breakable_inner_eq. cbn [t_children for_each]. unfold breakable_step. cbn [t_rule bind app].
    rewrite (as_str_at src _ _ _ _ _ (pos_app _ _ _ _ Hp)). reflexivity.
  - rewrite <- !app_assoc in *. unfold any_breakable at 1. rewrite run_call. cbn [grammar fst snd].
    assert (Et : forall q f, rule_tokens CompoundRule c R_any_breakable p q f = [Node R_any_breakable p q f]).
    { intros. cbn. rewrite Hlook. reflexivity. }
    assert (Ec : rule_inner CompoundRule c = ctx0) by (cbn; rewrite Hlook; reflexivity). rewrite Ec.
    rewrite run_alt by reflexivity. rewrite run_seq by reflexivity.
    rewrite comment_line_fwd; [|exact Hb|exact Ht|right; apply newline_head; exact Hn|exact Hv|].
    2:{ left. apply strip_newline_fwd; [exact Hn|intros _; apply (clear_shell_not_lf _ _ _ _ Hsh)]. }
    pose proof (pos_app _ _ _ _ Hp) as Hp1. pose proof (pos_app _ _ _ _ Hp1) as Hp2. pose proof (pos_app _ _ _ _ Hp2) as Hp3.
    rewrite valid_blanks, valid_comment, valid_newline in Hv by assumption.
    rewrite run_opt by reflexivity. destruct (IH ctx0 s eq_refl Hs Hv Hp3) as (ch & Er & Ei). rewrite Er, Et.
    cbn [wrap emits ctx0 look atom negb andb app].
    assert (El : p + length b + length t + length n + length w = p + length (b ++ t ++ n ++ w)) by (rewrite !app_length; lia).
    rewrite El in Ei |- *.
    eexists. split; [reflexivity|].
    rewrite breakable_inner_eq. cbn [t_children for_each]. unfold breakable_step. cbn [t_rule bind app].
    rewrite Ei. cbn [bind app]. rewrite (as_str_at src _ _ _ _ _ Hp1). reflexivity.
Qed.

Lemma breakable_rule_fwd r p w x s : grammar r = (AtomicRule, any_breakable) ->
  clear_breakable_at p w x -> at_line_end s -> valid_utf8 (w ++ s) = true -> pos p (w ++ s) ->
  exists ch, run ctx0 (Call r) p (w ++ s) = Done (p + length w) s [Node r p (p + length w) ch] /\
    parse_any_breakable src (Node r p (p + length w) ch) = Ok x.
Proof.
  intros Hr (l & Hl & ->) Hs Hv Hp. rewrite run_call, Hr. cbn [fst snd].
  destruct (shell_fwd p w l Hl (rule_inner AtomicRule ctx0) s eq_refl Hs Hv Hp) as (ch & -> & Ei).
  eexists. split; [reflexivity|]. unfold parse_any_breakable. rewrite breakable_inner_eq. cbn [t_children for_each].
  unfold breakable_step. cbn [t_rule]. rewrite Ei. reflexivity.
Qed.

(** ** Arrays *)

Lemma parse_string_fwd r p w x s ch : pos p (w ++ s) -> string_at unq p w x ->
  parse_string unq src (Node r p (p + length w) ch) = Ok x.
Proof.
  intros Hp (v & Hv & ->). unfold parse_string. rewrite (as_str_at src r p w s ch Hp), span_of_at.
  destruct Hv as [[Hb Hu]|[Hb ->]].
  - apply (starts_quoted_spec unq src) in Hb. rewrite Hb. unfold unquote. rewrite Hu. reflexivity.
  - destruct (starts_quoted w) eqn:E; [apply (starts_quoted_spec unq src) in E; contradiction|reflexivity].
Qed.

Lemma quoted_solid w s : quoted_text w -> gap_stops (w ++ s).
Proof. intros (q & b & Hq & -> & _). destruct Hq; subst; cbn; repeat split; discriminate. Qed.

Lemma quoted_len w : quoted_text w -> 2 <= length w.
Proof. intros (q & b & _ & -> & _). cbn [length]. rewrite app_length. cbn. lia. Qed.

Lemma valid_quoted w s : quoted_text w -> valid_utf8 (w ++ s) = valid_utf8 s.
Proof.
  intros (q & b & Hq & -> & _ & Hb). cbn [app]. rewrite <- app_assoc, valid_utf8_cons_ascii by (destruct Hq; subst; reflexivity).
  rewrite valid_utf8_app by exact Hb. cbn [app]. apply valid_utf8_cons_ascii. destruct Hq; subst; reflexivity.
Qed.

Lemma valid_more p m l s : more_strings unq p m l -> valid_utf8 (m ++ s) = valid_utf8 s.
Proof.
  induction 1 as [|p j g1 k g2 w x m l Hg1 Hg2 Hw Hx Hm IH]; [reflexivity|].
  rewrite <- app_assoc. cbn [app]. rewrite (valid_gap _ _ _ Hg1), valid_utf8_cons_ascii by reflexivity.
  rewrite <- !app_assoc. rewrite (valid_gap _ _ _ Hg2), valid_quoted by assumption. exact IH.
Qed.

Lemma more_strings_fwd p m l : more_strings unq p m l -> forall s, valid_utf8 s = true -> pos p (m ++ s) ->
  run ctx0 comma_item (p + length m) s = Fail ->
  exists f, run ctx0 (Rep comma_item) p (m ++ s) = Done (p + length m) s f /\
    forall st, for_each (array_step unq src) f st = Ok (st ++ l).
Proof.
  induction 1 as [p|p j g1 k g2 w x m l Hg1 Hg2 Hw Hx Hm IH]; intros s Hv Hp Hf.
  - exists []. cbn [app length] in *. rewrite Nat.add_0_r in *. rewrite run_rep by reflexivity. rewrite Hf.
    split; [reflexivity|]. intros st. cbn. rewrite app_nil_r. reflexivity.
  - rewrite <- app_assoc in *. cbn [app] in *. rewrite <- !app_assoc in *.
    assert (Hvm : valid_utf8 (m ++ s) = true) by (rewrite (valid_more _ _ _ _ Hm); exact Hv).
    assert (Hvw : valid_utf8 (w ++ m ++ s) = true) by (rewrite valid_quoted by exact Hw; exact Hvm).
    assert (Hvg : valid_utf8 (g2 ++ w ++ m ++ s) = true) by (rewrite (valid_gap _ _ _ Hg2); exact Hvw).
    pose proof (pos_app _ _ _ _ Hp) as Hp1. pose proof (pos_app _ _ [COMMA] _ Hp1) as Hp2. cbn [length] in Hp2.
    pose proof (pos_app _ _ _ _ Hp2) as Hp3. pose proof (pos_app _ _ _ _ Hp3) as Hp4.
    rewrite run_rep by reflexivity. unfold comma_item at 1. rewrite run_seq by reflexivity.
    destruct (gap_maybe_fwd j g1 (COMMA :: g2 ++ w ++ m ++ s) p Hg1) as (f1 & -> & Hc1 & _).
    { cbn. repeat split; discriminate. } { rewrite valid_utf8_cons_ascii by reflexivity. exact Hvg. }
    rewrite run_seq by reflexivity. rewrite class_str. change (COMMA =? COMMA)%N with true. cbn iota.
    rewrite run_seq by reflexivity.
    destruct (gap_maybe_fwd k g2 (w ++ m ++ s) (p + length g1 + 1) Hg2 (quoted_solid w _ Hw) Hvw) as (f2 & -> & Hc2 & _).
    destruct (string_fwd ctx0 (p + length g1 + 1 + length g2) w (m ++ s) eq_refl Hw Hvw) as (ch & ->).
    destruct (IH s Hv Hp4) as (f3 & E3 & Hc3).
    { rewrite !app_length in Hf. cbn [length] in Hf. rewrite !app_length in Hf.
      match type of Hf with run _ _ ?a _ = _ => match goal with |- run _ _ ?b _ = _ => replace b with a by lia end end. exact Hf. }
    rewrite E3. eexists. split.
    + f_equal. rewrite !app_length. cbn [length]. rewrite !app_length. lia.
    + intros st. rewrite <- !app_assoc. cbn [app]. rewrite for_each_gap by (assumption || apply array_step_comments).
      rewrite <- ?app_assoc. rewrite for_each_gap by (assumption || apply array_step_comments).
      cbn [app for_each]. unfold array_step at 1. cbn [t_rule].
      rewrite (parse_string_fwd _ _ _ x _ _ Hp3 Hx). cbn [bind]. rewrite Hc3, <- app_assoc. reflexivity.
Qed.

Lemma bracket_solid s : gap_stops (RBRACK :: s).
Proof. cbn. repeat split; discriminate. Qed.

Lemma comma_item_fails p k g s : gap k g -> valid_utf8 s = true -> run ctx0 comma_item p (g ++ RBRACK :: s) = Fail.
Proof.
  intros Hg Hv. unfold comma_item. rewrite run_seq by reflexivity.
  destruct (gap_maybe_fwd k g (RBRACK :: s) p Hg (bracket_solid s)) as (f & -> & _).
  { rewrite valid_utf8_cons_ascii by reflexivity. exact Hv. }
  rewrite run_seq by reflexivity. rewrite class_str. reflexivity.
Qed.

Lemma comma_item_fails2 p k g s : gap k g -> valid_utf8 s = true -> run ctx0 comma_item p (COMMA :: g ++ RBRACK :: s) = Fail.
Proof.
  intros Hg Hv. unfold comma_item. rewrite run_seq by reflexivity.
  assert (Hv1 : valid_utf8 (RBRACK :: s) = true) by (rewrite valid_utf8_cons_ascii by reflexivity; exact Hv).
  destruct (gap_maybe_fwd 0 [] (COMMA :: g ++ RBRACK :: s) p) as (f & E & _).
  { constructor. } { cbn. repeat split; discriminate. }
  { rewrite valid_utf8_cons_ascii by reflexivity. rewrite (valid_gap _ _ _ Hg). exact Hv1. }
  cbn [app] in E. rewrite E. rewrite run_seq by reflexivity. rewrite class_str. change (COMMA =? COMMA)%N with true. cbn iota.
  rewrite run_seq by reflexivity.
  destruct (gap_maybe_fwd k g (RBRACK :: s) (p + length (@nil N) + 1) Hg (bracket_solid s) Hv1) as (f2 & -> & _).
  rewrite string_fails; [reflexivity|]. intros [[t K]|[t K]]; discriminate.
Qed.

Lemma string_fails_gap p k g s : gap k g -> valid_utf8 s = true ->
  run ctx0 (Seq arg_ws_maybe (Seq string_ (Seq (Rep comma_item) (Seq (Opt (Str [COMMA])) (Seq arg_ws_maybe (Str [RBRACK])))))) p (g ++ RBRACK :: s) = Fail.
Proof.
  intros Hg Hv. rewrite run_seq by reflexivity.
  destruct (gap_maybe_fwd k g (RBRACK :: s) p Hg (bracket_solid s)) as (f2 & -> & _).
  { rewrite valid_utf8_cons_ascii by reflexivity. exact Hv. }
  rewrite run_seq by reflexivity. rewrite string_fails; [reflexivity|]. intros [[t K]|[t K]]; discriminate.
Qed.

Lemma array_fwd p w a s : array_at unq p w a -> valid_utf8 s = true -> pos p (w ++ s) ->
  exists f, run ctx0 (Call R_string_array) p (w ++ s) = Done (p + length w) s f /\
    exists l, a = StringArray (at_ p w) l /\ for_each (array_step unq src) f [] = Ok l.
Proof.
  intros Ha Hv Hp. rewrite run_call. cbn [grammar fst snd rule_inner rule_outer rule_tokens].
  rewrite run_alt by reflexivity. destruct Ha as [p k g Hg|p k g w x m l comma j g2 text Hg Hw Hx Hm Hcomma Hg2 ->].
  - cbn [app] in *. rewrite <- app_assoc in *. cbn [app] in *.
    rewrite run_seq by reflexivity. rewrite class_str. change (LBRACK =? LBRACK)%N with true. cbn iota.
    change (Seq arg_ws_maybe (Str [COMMA] ~> arg_ws_maybe ~> string_))%peg with comma_item.
    rewrite (string_fails_gap _ k) by assumption.
    rewrite run_seq by reflexivity. rewrite class_str. change (LBRACK =? LBRACK)%N with true. cbn iota.
    rewrite run_seq by reflexivity.
    destruct (gap_maybe_fwd k g (RBRACK :: s) (p + 1) Hg (bracket_solid s)) as (f2 & -> & Hc & _).
    { rewrite valid_utf8_cons_ascii by reflexivity. exact Hv. }
    rewrite class_str. change (RBRACK =? RBRACK)%N with true. cbn iota. eexists. split.
    + f_equal. cbn [length]. rewrite app_length. cbn. lia.
    + exists []. split; [reflexivity|]. cbn [app]. rewrite app_nil_r. apply (for_each_comments _ _ _ (array_step_comments unq src) Hc).
  - cbn [app] in *. rewrite <- !app_assoc in *. cbn [app] in *.
    rewrite run_seq by reflexivity. rewrite class_str. change (LBRACK =? LBRACK)%N with true. cbn iota.
    change (Seq arg_ws_maybe (Str [COMMA] ~> arg_ws_maybe ~> string_))%peg with comma_item.
    assert (Hv5 : valid_utf8 (g2 ++ RBRACK :: s) = true).
    { rewrite (valid_gap _ _ _ Hg2), valid_utf8_cons_ascii by reflexivity. exact Hv. }
    assert (Hv4 : valid_utf8 (comma ++ g2 ++ RBRACK :: s) = true).
    { destruct Hcomma; subst comma; [exact Hv5|]. cbn [app]. rewrite valid_utf8_cons_ascii by reflexivity. exact Hv5. }
    assert (Hv3 : valid_utf8 (m ++ comma ++ g2 ++ RBRACK :: s) = true) by (rewrite (valid_more _ _ _ _ Hm); exact Hv4).
    assert (Hv2 : valid_utf8 (w ++ m ++ comma ++ g2 ++ RBRACK :: s) = true) by (rewrite valid_quoted by exact Hw; exact Hv3).
    pose proof (pos_app _ _ [LBRACK] _ Hp) as Hp1. cbn [length] in Hp1.
    pose proof (pos_app _ _ _ _ Hp1) as Hp2. pose proof (pos_app _ _ _ _ Hp2) as Hp3.
    rewrite run_seq by reflexivity.
    destruct (gap_maybe_fwd k g _ (p + 1) Hg (quoted_solid w _ Hw) Hv2) as (f1 & -> & Hc1 & _).
    rewrite run_seq by reflexivity.
    destruct (string_fwd ctx0 (p + 1 + length g) w _ eq_refl Hw Hv2) as (ch & ->).
    rewrite run_seq by reflexivity.
    destruct (more_strings_fwd _ _ _ Hm (comma ++ g2 ++ RBRACK :: s) Hv4 Hp3) as (f3 & -> & Hf3).
    { destruct Hcomma; subst comma; cbn [app]; [apply (comma_item_fails _ j); assumption|apply (comma_item_fails2 _ j); assumption]. }
    rewrite run_seq by reflexivity. rewrite run_opt by reflexivity.
    assert (Hend : forall q, exists f, run ctx0 (Seq arg_ws_maybe (Str [RBRACK])) q (g2 ++ RBRACK :: s) = Done (q + length g2 + 1) s f /\ comments f).
    { intros q. rewrite run_seq by reflexivity.
      destruct (gap_maybe_fwd j g2 (RBRACK :: s) q Hg2 (bracket_solid s)) as (f2 & -> & Hc & _).
      { rewrite valid_utf8_cons_ascii by reflexivity. exact Hv. }
      rewrite class_str. change (RBRACK =? RBRACK)%N with true. cbn iota. eexists. split; [reflexivity|]. rewrite app_nil_r. exact Hc. }
    assert (Ecomma : match run ctx0 (Str [COMMA]) (p + 1 + length g + length w + length m) (comma ++ g2 ++ RBRACK :: s) with
                     | Fail => Done (p + 1 + length g + length w + length m) (comma ++ g2 ++ RBRACK :: s) []
                     | x => x end = Done (p + 1 + length g + length w + length m + length comma) (g2 ++ RBRACK :: s) []).
    { rewrite class_str. destruct Hcomma; subst comma; cbn [app length].
      - rewrite Nat.add_0_r. pose proof (gap_head _ _ Hg2) as Hh. destruct g2 as [|y g2]; [reflexivity|]. cbn [app].
        destruct (COMMA =? y)%N eqn:E; [|reflexivity]. bool_hyps. subst y. destruct Hh as [Hh|Hh]; discriminate.
      - reflexivity. }
    rewrite Ecomma. destruct (Hend (p + 1 + length g + length w + length m + length comma)) as (f4 & -> & Hc4).
    eexists. split.
    + f_equal. cbn [length]. rewrite !app_length. cbn [length]. lia.
    + exists (x :: l). split; [reflexivity|]. cbn [app]. rewrite for_each_gap by (assumption || apply array_step_comments).
      cbn [app for_each]. unfold array_step at 1. cbn [t_rule].
      rewrite (parse_string_fwd _ _ _ x _ _ Hp2 Hx). cbn [bind app]. rewrite for_each_app, Hf3. cbn [bind].
      rewrite (for_each_comments _ _ _ (array_step_comments unq src) Hc4). reflexivity.
Qed.

Lemma array_rule_fwd r p w a s : grammar r = (Normal, Call R_string_array) -> array_at unq p w a ->
  valid_utf8 s = true -> pos p (w ++ s) ->
  exists ch, run ctx0 (Call r) p (w ++ s) = Done (p + length w) s [Node r p (p + length w) ch] /\
    parse_string_array unq src (Node r p (p + length w) ch) = Ok a.
Proof.
  intros Hr Ha Hv Hp. rewrite run_call, Hr. cbn [fst snd rule_inner rule_outer].
  destruct (array_fwd p w a s Ha Hv Hp) as (f & -> & l & -> & Hl). eexists. split; [reflexivity|].
  unfold parse_string_array. cbn [t_children]. change (for_each _ f []) with (for_each (array_step unq src) f []).
  rewrite Hl. reflexivity.
Qed.

End Shell.
