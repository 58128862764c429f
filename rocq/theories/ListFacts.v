(** Lists of quoted strings: which texts are read as one. *)

From Coq Require Import String.
From Verif Require Import Bytes BytesFacts Grammar Peg PegFacts Result Ast Splicer Image Convert
  SpecImage SpecSyntax SpecClear PegRules PegTokens PegQuoted Sound SoundRules PartsFacts Forward Forward2 Forward3.
Local Open Scope nat_scope.

(** *** From texts to runs *)

Definition easy (w : bytes) : option bytes := Some [].

Lemma easy_string p w : exists x, string_at easy p w x.
Proof.
  unfold string_at. destruct (starts_quoted w) eqn:E.
  - apply (starts_quoted_spec easy []) in E. exists (SpannedString (at_ p w) []), []. split; [left; split; [exact E|reflexivity]|reflexivity].
  - exists (SpannedString (at_ p w) w), w. split; [right|reflexivity]. split; [|reflexivity]. intros K. apply (starts_quoted_spec easy []) in K. congruence.
Qed.

Lemma easy_more m : more_items m -> forall p, exists l, more_strings easy p m l.
Proof.
  induction 1 as [|j g1 k g2 w w2 H1 H2 Hw _ IH]; intros p; [exists []; constructor|].
  destruct (easy_string (p + length g1 + 1 + length g2) w) as (x & Hx).
  destruct (IH (p + length g1 + 1 + length g2 + length w)) as (l & Hl). exists (x :: l). eapply more_one; eassumption.
Qed.

Lemma easy_list w : list_text w -> forall p, exists a, array_at easy p w a.
Proof.
  intros H p. destruct H as [k g Hg|k g w m comma j g2 Hg Hw Hm Hc Hg2]; [eexists; eapply array_empty; eassumption|].
  destruct (easy_string (p + 1 + length g) w) as (x & Hx). destruct (easy_more m Hm (p + 1 + length g + length w)) as (l & Hl).
  eexists. eapply array_strings; [exact Hg|exact Hw|exact Hx|exact Hl|exact Hc|exact Hg2|reflexivity].
Qed.

Lemma list_fwd r p w s : grammar r = (Normal, Call R_string_array) -> list_text w -> valid_utf8 s = true ->
  exists ch, run ctx0 (Call r) p (w ++ s) = Done (p + length w) s [Node r p (p + length w) ch].
Proof.
  intros Hr Hw Hv. destruct (easy_list w Hw p) as (a & Ha).
  destruct (array_rule_fwd easy (repeat 0%N p ++ w ++ s) r p w a s Hr Ha Hv) as (ch & E & _); [|exists ch; exact E].
  unfold pos. rewrite <- (repeat_length 0%N p) at 1. apply skipn_app_exact.
Qed.

Lemma more_of unq p m l : more_strings unq p m l -> more_items m.
Proof. induction 1; econstructor; eassumption. Qed.
Lemma list_of unq p w a : array_at unq p w a -> list_text w.
Proof. destruct 1 as [|p k g w x m l comma j g2 text Hg Hw Hx Hm Hc Hg2 ->]; econstructor; try eassumption. eapply more_of; eassumption. Qed.


Lemma easy_steps src l acc : match for_each (array_step easy src) l acc with
  | Err e => exists r, r <> R_comment /\ e = EGeneric (MUnexpected r) | _ => True end.
Proof.
  revert acc. induction l as [|f l IH]; intros acc; cbn [for_each]; [exact I|]. unfold array_step at 1.
  destruct (t_rule f); cbn [bind unexpected_token]; try (eexists; (split; [|reflexivity]); discriminate); try apply IH.
  unfold parse_string. destruct (starts_quoted (as_str src f)); cbn [bind unquote easy]; apply IH.
Qed.

Lemma easy_errors src t e : parse_string_array easy src t = Err e -> exists r, r <> R_comment /\ e = EGeneric (MUnexpected r).
Proof.
  unfold parse_string_array. change (for_each _ (t_children t) []) with (for_each (array_step easy src) (t_children t) []).
  pose proof (easy_steps src (t_children t) []) as K.
  destruct (for_each (array_step easy src) (t_children t) []); cbn [bind]; intros H; try discriminate. injection H as ->. exact K.
Qed.

Lemma list_inv r p s q s' f : grammar r = (Normal, Call R_string_array) -> valid_utf8 s = true ->
  run ctx0 (Call r) p s = Done q s' f -> exists w, s = w ++ s' /\ q = p + length w /\ list_text w.
Proof.
  intros Hr Hv H. apply (array_rule_inv easy (repeat 0%N p ++ s)) in H; [|exact Hr|exact Hv|].
  2:{ unfold pos. rewrite <- (repeat_length 0%N p) at 1. apply skipn_app_exact. }
  destruct H as (w & t & -> & -> & _ & _ & Hy). exists w. split; [reflexivity|]. split; [reflexivity|].
  destruct (parse_string_array easy _ t) as [a|e| |] eqn:E; cbn in Hy; try contradiction; [exact (list_of _ _ _ _ Hy)|].
  apply easy_errors in E. destruct E as (r0 & N0 & ->). inversion Hy. congruence.
Qed.

(** The rule for lists matches exactly where a list begins. *)
Lemma list_here r p s : grammar r = (Normal, Call R_string_array) -> valid_utf8 s = true ->
  (run ctx0 (Call r) p s = Fail <-> ~ begins_list s).
Proof.
  intros Hr Hv. split.
  - intros E (u & t & -> & Hu). destruct (list_fwd r p u t Hr Hu) as (ch & K); [|congruence].
    destruct (easy_list u Hu p) as (a & Ha). rewrite (valid_utf8_app u t (array_valid easy _ _ _ Ha)) in Hv. exact Hv.
  - intros N. destruct (run ctx0 (Call r) p s) as [q s' f| |] eqn:E; [|reflexivity|].
    + apply list_inv in E; [|exact Hr|exact Hv]. destruct E as (w & -> & _ & Hw). destruct N. exists w, s'. auto.
    + exfalso. apply (run_total ctx0 (Call r) p s); [destruct r; try discriminate Hr; reflexivity|exact E].
Qed.

Lemma gap_begins k g : gap k g -> exists b t, g = b ++ t /\ blanks b /\ (t = [] \/ exists u, t = BSLASH :: u).
Proof.
  induction 1 as [|k c w Hc _ (b & t & -> & Hb & Ht)|j k c l w (b & n & -> & _) _ _ _].
  - exists [], []. repeat split; [constructor|auto].
  - exists (c :: b), t. repeat split; [constructor; assumption|exact Ht].
  - exists [], ((BSLASH :: b ++ n) ++ l ++ w). repeat split; [constructor|right; eexists; reflexivity].
Qed.

Lemma list_begins u : list_text u -> exists b c t, u = LBRACK :: b ++ c :: t /\ blanks b /\ (c = DQUOTE \/ c = SQUOTE \/ c = RBRACK \/ c = BSLASH).
Proof.
  intros H. assert (K : exists k g c t, u = LBRACK :: g ++ c :: t /\ gap k g /\ (c = DQUOTE \/ c = SQUOTE \/ c = RBRACK)).
  { destruct H as [k g Hg|k g w m comma j g2 Hg (q & body & Hq & -> & _) _ _ _].
    - exists k, g, RBRACK, []. auto.
    - exists k, g, q, ((body ++ [q]) ++ m ++ comma ++ g2 ++ [RBRACK]). split; [reflexivity|]. split; [exact Hg|tauto]. }
  destruct K as (k & g & c & t & -> & Hg & Hc). destruct (gap_begins k g Hg) as (b & t0 & -> & Hb & [->|(u & ->)]).
  - exists b, c, t. rewrite app_nil_r. repeat split; [exact Hb|tauto].
  - exists b, BSLASH, (u ++ c :: t). split; [rewrite <- app_assoc; reflexivity|auto].
Qed.

(** A text is never a list if it does not even begin like one. *)
Lemma not_begins_list w : w <> [] -> ~ begins_array w -> never_list w.
Proof.
  intros Hne Hb s Hs _ (u & r & E & Hu). apply list_begins in Hu. destruct Hu as (b & c & t & -> & Hbl & Hc).
  destruct w as [|x w]; [congruence|]. cbn [app] in E. injection E as -> E. rewrite <- app_assoc in E. cbn [app] in E.
  assert (K : exists w2, w = b ++ c :: w2).
  { clear Hb Hne. revert w E. induction Hbl as [|z b Hz Hbl IH]; intros w E; cbn [app] in E.
    - destruct w as [|y w]; cbn [app] in E; [|injection E as -> _; exists w; reflexivity].
      exfalso. destruct Hs as [->|(n & t' & -> & Hn)]; [discriminate|]. injection E as -> _. destruct Hc as [->|[->|[->| ->]]]; discriminate.
    - destruct w as [|y w]; cbn [app] in E.
      + exfalso. destruct Hs as [->|(n & t' & -> & Hn)]; [discriminate|]. injection E as -> _.
        unfold is_blank in Hz. apply orb_true_iff in Hz. rewrite !N.eqb_eq in Hz. destruct Hz; subst; discriminate.
      + injection E as -> E. destruct (IH w E) as (w2 & ->). exists w2. reflexivity. }
  destruct K as (w2 & ->). apply Hb. exists b, c, w2. auto.
Qed.

Lemma line_end_bytes s : at_line_end s -> s = [] \/ (exists n t, s = n :: t /\ is_newline_byte n = true).
Proof. intros [->|H]; [auto|]. destruct s as [|n t]; [auto|]. right. exists n, t. auto. Qed.

Lemma line_end_valid a s : at_line_end s -> valid_utf8 (a ++ s) = true -> valid_utf8 s = true.
Proof.
  intros Hs Hv. apply (valid_utf8_cut _ Hv a s eq_refl). destruct s as [|x s]; [exact I|]. destruct Hs as [K|K]; [discriminate|].
  cbn in K. unfold is_newline_byte in K. apply orb_true_iff in K. rewrite !N.eqb_eq in K. destruct K; subst; reflexivity.
Qed.

Lemma never_begins w : never_list w -> ~ begins_list w.
Proof. intros H K. apply (H []); [left; reflexivity|reflexivity|rewrite app_nil_r; exact K]. Qed.

(** After the first string neither a comma nor the closing bracket follows. *)
Lemma test_never_list k g w j g2 c t : gap k g -> quoted_text w -> gap j g2 -> solid c -> c <> COMMA -> c <> RBRACK -> valid_utf8 (c :: t) = true ->
  never_list (LBRACK :: g ++ w ++ g2 ++ c :: t).
Proof.
  intros Hg Hw Hg2 Hc N1 N2 Hv0 s _ Hvs.
  assert (Hv : valid_utf8 (c :: t ++ s) = true).
  { change (c :: t ++ s) with ((c :: t) ++ s). rewrite valid_utf8_app by exact Hv0. exact Hvs. }
  assert (Es : (LBRACK :: g ++ w ++ g2 ++ c :: t) ++ s = LBRACK :: g ++ w ++ g2 ++ c :: t ++ s) by (cbn [app]; rewrite <- !app_assoc; reflexivity).
  rewrite Es. clear Es. assert (Hv1 : valid_utf8 (g2 ++ c :: t ++ s) = true) by (rewrite (valid_gap _ _ _ Hg2); exact Hv).
  assert (Hv2 : valid_utf8 (w ++ g2 ++ c :: t ++ s) = true) by (rewrite valid_quoted by exact Hw; exact Hv1).
  assert (Hst : gap_stops (c :: t ++ s)) by (exact (solid_stops (c :: t) s (ex_intro _ c (ex_intro _ t (conj eq_refl Hc))))).
  apply (list_here R_run_exec 0); [reflexivity|rewrite valid_utf8_cons_ascii, (valid_gap _ _ _ Hg) by reflexivity; exact Hv2|].
  rewrite run_call. cbn [grammar fst snd rule_inner rule_outer rule_tokens]. rewrite run_call. cbn [grammar fst snd rule_inner rule_outer rule_tokens].
  rewrite run_alt by reflexivity. rewrite run_seq by reflexivity. rewrite class_str. change (LBRACK =? LBRACK)%N with true. cbn iota.
  change (Seq arg_ws_maybe (Str [COMMA] ~> arg_ws_maybe ~> string_))%peg with comma_item.
  rewrite run_seq by reflexivity. destruct (gap_maybe_fwd k g _ (0 + 1) Hg (quoted_solid w _ Hw) Hv2) as (f1 & E1 & _). rewrite E1.
  rewrite run_seq by reflexivity. destruct (string_fwd ctx0 (0 + 1 + length g) w _ eq_refl Hw Hv2) as (ch & ->).
  assert (Ec : forall (x : N) p, x = COMMA \/ x = RBRACK -> run ctx0 (Seq arg_ws_maybe (Str [x])) p (g2 ++ c :: t ++ s) = Fail).
  { intros x p Hx. rewrite run_seq by reflexivity. destruct (gap_maybe_fwd j g2 _ p Hg2 Hst Hv) as (f2 & -> & _). rewrite class_str.
    destruct (x =? c)%N eqn:E; [|reflexivity]. apply N.eqb_eq in E. destruct Hx; congruence. }
  rewrite run_seq by reflexivity. rewrite run_rep by reflexivity. unfold comma_item at 1. rewrite run_seq by reflexivity.
  destruct (gap_maybe_fwd j g2 _ (0 + 1 + length g + length w) Hg2 Hst Hv) as (f2 & E2 & _). rewrite E2.
  rewrite run_seq by reflexivity. rewrite class_str. destruct (N.eqb_spec COMMA c) as [K|_]; [congruence|].
  rewrite run_seq by reflexivity. rewrite run_opt by reflexivity. rewrite class_str.
  assert (Eo : match g2 ++ c :: t ++ s with [] => true | y :: _ => negb (COMMA =? y)%N end = true).
  { pose proof (gap_head _ _ Hg2) as Hh. destruct g2 as [|y g2]; cbn [app]; [destruct (N.eqb_spec COMMA c); [congruence|reflexivity]|].
    destruct (N.eqb_spec COMMA y) as [<-|_]; [|reflexivity]. destruct Hh as [Hh|Hh]; discriminate. }
  destruct (g2 ++ c :: t ++ s) as [|y u] eqn:Eg; [destruct g2; discriminate|]. rewrite negb_true_iff in Eo. rewrite Eo.
  rewrite (Ec RBRACK) by auto. rewrite run_seq by reflexivity. rewrite class_str. change (LBRACK =? LBRACK)%N with true. cbn iota.
  rewrite run_seq by reflexivity. rewrite E1. rewrite class_str.
  destruct Hw as (q & body & Hq & -> & _). cbn [app]. destruct Hq; subst q; reflexivity.
Qed.
