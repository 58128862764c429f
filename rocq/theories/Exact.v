(** Gaps and words with the text that follows them: both directions, see SpecExact.v. *)

From Coq Require Import String.
From Verif Require Import Bytes BytesFacts Grammar Peg Result Ast Splicer Image Convert
  PegFacts SpecImage SpecSyntax SpecClear SpecExact PegRules PegTokens PegQuoted Sound SoundRules SoundInstr
  Forward Forward2 Forward3 ListFacts Forward4.
Local Open Scope nat_scope.

(** ** Ends *)

Lemma ends_end s : ends_here s <-> at_line_end s.
Proof.
  unfold at_line_end. destruct s as [|x s]; cbn [ends_here newline_here]; [tauto|]. split; [auto|intros [K|K]; [discriminate|exact K]].
Qed.

Lemma continues_iff s : continues s = true <-> continues_here s.
Proof.
  unfold continues_here. split.
  - unfold continues. destruct (cont_rest s) as [[n t]|] eqn:E; [|discriminate]. intros _.
    apply cont_rest_some in E. destruct E as (c & Hc & -> & _). exists c, t. auto.
  - intros (c & t & -> & Hc). apply continues_cont. exact Hc.
Qed.

Lemma continues_not s : continues s = false <-> ~ continues_here s.
Proof. rewrite <- continues_iff. destruct (continues s); split; congruence. Qed.

Lemma gap_here_false s : gap_here s = false <->
  ~ continues_here s /\ match s with [] => True | c :: _ => is_blank c = false end.
Proof.
  rewrite <- continues_not. destruct s as [|x s]; cbn [gap_here]; [split; [auto|reflexivity]|].
  rewrite orb_false_iff. tauto.
Qed.

Lemma gap_over_here g s : gap_over g s -> gap_here s = false.
Proof. intros [Hc H]. apply gap_here_false. split; [exact Hc|]. destruct s; [exact I|apply H]. Qed.

Lemma newline_not_blank_byte x : is_newline_byte x = true -> is_blank x = false.
Proof. unfold is_newline_byte. intros H. apply orb_true_iff in H. rewrite !N.eqb_eq in H. destruct H; subst; reflexivity. Qed.

Lemma ends_gap_here s : ends_here s -> gap_here s = false.
Proof.
  intros H. apply gap_here_false. destruct s as [|x s]; [split; [|exact I]|split; [|apply newline_not_blank_byte; exact H]];
  intros (c & t & E & (b & n & -> & _)); [discriminate|]. injection E as -> _. discriminate.
Qed.

Lemma blanks_no_newline b : blanks b -> ~ has_newline b.
Proof.
  intros Hb (c & Hi & Hc). apply newline_not_blank_byte in Hc. unfold blanks in Hb. rewrite Forall_forall in Hb. apply Hb in Hi. congruence.
Qed.

Lemma newline_has n : newline n -> has_newline n.
Proof. intros H. destruct H; [exists LF|exists LF|exists CR]; split; try reflexivity; cbn; auto. Qed.

Lemma has_newline_app_l a b : has_newline a -> has_newline (a ++ b).
Proof. intros (c & Hi & Hc). exists c. split; [apply in_or_app; auto|exact Hc]. Qed.
Lemma has_newline_app_r a b : has_newline b -> has_newline (a ++ b).
Proof. intros (c & Hi & Hc). exists c. split; [apply in_or_app; auto|exact Hc]. Qed.

Lemma continuation_newline c : continuation c -> has_newline c.
Proof. intros (b & n & -> & _ & Hn). change (has_newline ([BSLASH] ++ b ++ n)). apply has_newline_app_r, has_newline_app_r, newline_has, Hn. Qed.

(** ** Gaps *)

Lemma rep_stop c e p s q s' f : good (Rep e) = true -> run c (Rep e) p s = Done q s' f -> run c e q s' = Fail.
Proof.
  intros G H. destruct (rep_ind c e (fun p w f s' => run c e (p + length w) s' = Fail) G) with (3 := H) as (w & -> & -> & K).
  - intros p0 s0 H0. cbn [length]. rewrite Nat.add_0_r. exact H0.
  - intros p0 w1 s1 f1 w2 f2 s2 _ _ _ K. rewrite app_length, Nat.add_assoc. exact K.
  - exact K.
Qed.

Lemma line_item_stop b s p : blanks b -> valid_utf8 s = true -> run ctx0 line_item p (b ++ s) = Fail ->
  match s with x :: _ => x <> HASH /\ is_newline_byte x = false | [] => True end.
Proof.
  intros Hb Hv H. destruct s as [|x s]; [exact I|]. unfold line_item in H. rewrite run_alt in H by reflexivity.
  destruct (run ctx0 comment_line p (b ++ x :: s)) as [q s' f| |] eqn:E; [discriminate| |discriminate]. split.
  - intros ->. unfold comment_line in E. rewrite run_call in E.
    change (snd (grammar R_comment_line)) with (Seq (Rep ws) (Seq comment (Opt NEWLINE))) in E.
    change (rule_inner (fst (grammar R_comment_line)) ctx0) with ctx0 in E. rewrite run_seq in E by reflexivity.
    rewrite blanks_fwd in E; [|exact Hb|reflexivity]. rewrite run_seq in E by reflexivity.
    rewrite run_comment in E by exact Hv. change (HASH =? HASH)%N with true in E. cbn iota in E.
    rewrite run_opt in E by reflexivity. rewrite run_newline in E.
    match type of E with context [strip_newline ?u] => destruct (strip_newline u) as [[? ?]|] end; discriminate.
  - destruct (is_newline_byte x) eqn:Ex; [|reflexivity]. exfalso.
    destruct (strip_newline (x :: s)) as [[n t]|] eqn:En; [|apply strip_newline_none in En; cbn in En; congruence].
    unfold empty_line in H. rewrite run_call in H. change (snd (grammar R_empty_line)) with (Seq (Rep ws) NEWLINE) in H.
    change (rule_inner (fst (grammar R_empty_line)) ctx0) with ctx0 in H. rewrite run_seq in H by reflexivity.
    rewrite blanks_fwd in H; [|exact Hb|apply newline_not_blank_byte; exact Ex]. rewrite run_newline, En in H. discriminate.
Qed.

Lemma gap_item_stop p s q s' f : valid_utf8 s = true -> run ctx0 (Rep arg_ws_item) p s = Done q s' f ->
  exists w, s = w ++ s' /\ q = p + length w /\ gap_over w s'.
Proof.
  intros Hv H.
  destruct (rep_ind ctx0 arg_ws_item (fun p w f s' => valid_utf8 (w ++ s') = true -> gap_here s' = false /\
     (blanks w \/ match s' with x :: _ => x <> HASH /\ is_newline_byte x = false | [] => True end)) eq_refl) with (3 := H)
    as (w & -> & -> & K).
  - intros p0 s0 E Hv0. split; [|left; constructor].
    destruct (succeeds_gap_item ctx0 p0 s0 Hv0) as [(q0 & s1 & f0 & E0 & _)|(_ & E0)]; [congruence|exact E0].
  - clear. intros p w1 s1 f1 w2 f2 s' H -> Hne IH Hv. rewrite <- app_assoc in Hv.
    specialize (IH (run_valid _ _ _ _ _ _ _ H Hv eq_refl)). destruct IH as [Hg [Hb|Hb]]; (split; [exact Hg|]); [|right; exact Hb].
    pose proof (run_valid _ _ _ _ _ _ _ H Hv eq_refl) as Hv2.
    unfold arg_ws_item in H. apply alt_inv in H; [|reflexivity]. destruct H as [H|[_ H]].
    + left. rewrite class_ws in H. destruct w1 as [|x w1]; [congruence|]. cbn [app] in H. destruct (is_blank x) eqn:E; [|discriminate].
      injection H as _ Es _. assert (w1 = []). { apply (f_equal (@length N)) in Es. rewrite !app_length in Es. destruct w1; [reflexivity|cbn in Es; lia]. }
      subst w1. constructor; [exact E|exact Hb].
    + right. seq_open H Hv H1. change (Alt comment_line empty_line) with line_item in H. apply rep_stop in H; [|reflexivity].
      rewrite valid_blanks in Hv2 by exact Hb. exact (line_item_stop w2 s' _ Hb Hv2 H).
  - exists w. split; [reflexivity|]. split; [reflexivity|]. destruct (K Hv) as [Hg Hw]. apply gap_here_false in Hg. destruct Hg as [Hc Hg].
    split; [exact Hc|]. destruct s' as [|x s']; [exact I|]. split; [exact Hg|]. intros Hn. destruct Hw as [Hw|Hw]; [|exact Hw].
    destruct (blanks_no_newline w Hw Hn).
Qed.

Lemma open_last g : open_gap g -> last_gap g.
Proof. intros H. right. exact H. Qed.

Lemma gap_exact p s q s' f : valid_utf8 s = true -> run ctx0 arg_ws p s = Done q s' f ->
  exists g, s = g ++ s' /\ q = p + length g /\ comments f /\ g <> [] /\
    (gap (length f) g \/ (s' = [] /\ open_gap g)) /\ gap_over g s'.
Proof.
  intros Hv H. pose proof H as H0. apply gap_inv in H; [|exact Hv]. destruct H as (g & -> & -> & Hc & Hne & Hg).
  exists g. split; [reflexivity|]. split; [reflexivity|]. split; [exact Hc|]. split; [exact Hne|]. split; [exact Hg|].
  unfold arg_ws in H0. call_open H0. change (run ctx0 (Seq arg_ws_item (Rep arg_ws_item)) p (g ++ s') = Done (p + length g) s' f0) in H0.
  assert (Hs : run ctx0 (Rep arg_ws_item) p (g ++ s') = Done (p + length g) s' f0).
  { rewrite run_rep by reflexivity. rewrite run_seq in H0 by reflexivity.
    destruct (run ctx0 arg_ws_item p (g ++ s')); [exact H0|discriminate|discriminate]. }
  apply gap_item_stop in Hs; [|exact Hv]. destruct Hs as (w & E & _ & Hw). apply app_inv_tail in E. subst w. exact Hw.
Qed.

Lemma gap_exact_more p s q s' f : valid_utf8 s = true -> run ctx0 arg_ws p s = Done q s' f -> s' <> [] ->
  exists g, s = g ++ s' /\ q = p + length g /\ comments f /\ g <> [] /\ gap (length f) g /\ gap_over g s'.
Proof.
  intros Hv H Hne. apply gap_exact in H; [|exact Hv]. destruct H as (g & -> & -> & Hc & Hg & [Hk|[K _]] & Ho); [exists g; auto 6|contradiction].
Qed.

(** Forward *)
Definition stops_clean (s : bytes) : Prop :=
  match s with [] => True | c :: _ => c <> HASH /\ is_newline_byte c = false end.

Lemma gap_blanks_or k g : gap k g -> (blanks g /\ k = 0) \/ has_newline g.
Proof.
  induction 1 as [|k x w Hx Hg [[IH ->]|IH]|j k c l w Hc Hl Hg IH].
  - left. split; [constructor|reflexivity].
  - left. split; [constructor; assumption|reflexivity].
  - right. apply (has_newline_app_r [x]). exact IH.
  - right. apply has_newline_app_l, continuation_newline, Hc.
Qed.

Lemma gap_no_line_over k g s : gap k g -> gap_here s = false -> stops_clean s -> no_line (g ++ s).
Proof.
  intros Hg Hh Hs. apply gap_here_false in Hh. destruct Hh as [_ Hh]. induction Hg as [|k x w Hx Hg IH|j k c l w Hc Hl Hg IH].
  - exists [], s. split; [reflexivity|]. split; [constructor|]. destruct s as [|y s]; [exact I|]. destruct Hs. auto.
  - destruct IH as (b & t & E & Hb & Ht). exists (x :: b), t. cbn [app]. rewrite E. split; [reflexivity|].
    split; [constructor; assumption|exact Ht].
  - exists [], ((c ++ l ++ w) ++ s). split; [reflexivity|]. split; [constructor|].
    destruct Hc as (b & n & -> & _). cbn [app]. split; [reflexivity|]. split; [reflexivity|discriminate].
Qed.

Lemma skipped_begins_lf k w s : skipped_lines k w -> ~ begins_lf s -> begins_lf (w ++ s) -> exists u, w = LF :: u.
Proof.
  intros _ Hs [u E]. destruct w as [|x w]; [|cbn [app] in E; injection E as -> _; exists w; reflexivity].
  exfalso. apply Hs. exists u. exact E.
Qed.

(** Skipped lines before anything *)
Lemma skipped_pre n : forall k l, length l <= n -> skipped_lines k l -> forall s p q s' f0, ~ begins_lf s ->
  valid_utf8 (l ++ s) = true -> run ctx0 (Rep line_item) (p + length l) s = Done q s' f0 ->
  exists f, run ctx0 (Rep line_item) p (l ++ s) = Done q s' (f ++ f0) /\ comments f /\ length f = k.
Proof.
  induction n as [|n IH]; intros k l Hlen Hl s p q s' f0 Hs Hv H0.
  - destruct l; [|cbn in Hlen; lia]. cbn [app length] in *. rewrite Nat.add_0_r in H0. exists [].
    split; [exact H0|]. split; [constructor|].
    inversion Hl as [|k0 b n w0 Hb Hn Hw Ek Ew|k0 b t n w0 Hb Ht Hn Hw Ek Ew]; [reflexivity| |].
    + destruct Hn; destruct b; discriminate.
    + destruct Ht as (u & -> & _). destruct b; discriminate.
  - destruct Hl as [|k b m w Hb Hm Hw|k b t m w Hb Ht Hm Hw].
    + cbn [app length] in *. rewrite Nat.add_0_r in H0. exists []. split; [exact H0|]. split; [constructor|reflexivity].
    + rewrite <- !app_assoc in *. rewrite !app_length in *. pose proof (newline_len m Hm).
      rewrite run_rep by reflexivity. unfold line_item at 1. rewrite run_alt by reflexivity.
      assert (Hvs : valid_utf8 (w ++ s) = true) by (rewrite valid_blanks, valid_newline in Hv by assumption; exact Hv).
      rewrite comment_line_fails; [|exact Hb| |rewrite valid_blanks in Hv by exact Hb; exact Hv].
      2:{ destruct Hm; cbn [app]; split; try discriminate; reflexivity. }
      destruct (begins_lf_dec m (w ++ s) Hm) as [[-> Hlf]|Hlf].
      * destruct (skipped_begins_lf _ _ _ Hw Hs Hlf) as (u & ->). apply skipped_after_lf in Hw.
        cbn [length app] in *.
        change (b ++ CR :: LF :: u ++ s) with (b ++ [CR; LF] ++ u ++ s).
        rewrite empty_line_fwd; [|exact Hb|reflexivity|reflexivity]. cbn [length].
        destruct (IH k u ltac:(lia) Hw s (p + length b + 2) q s' f0 Hs) as (f & -> & Hc & Hk).
        { rewrite valid_utf8_cons_ascii in Hvs by reflexivity. exact Hvs. }
        { rewrite <- H0. f_equal. lia. }
        exists f. cbn [app]. auto.
      * rewrite empty_line_fwd; [|exact Hb|apply newline_head; exact Hm|apply strip_newline_fwd; assumption].
        destruct (IH k w ltac:(lia) Hw s (p + length b + length m) q s' f0 Hs Hvs) as (f & -> & Hc & Hk).
        { rewrite <- H0. f_equal. lia. }
        exists f. cbn [app]. auto.
    + rewrite <- !app_assoc in *. rewrite !app_length in *. pose proof (newline_len m Hm).
      rewrite run_rep by reflexivity. unfold line_item at 1. rewrite run_alt by reflexivity.
      assert (Hvs : valid_utf8 (w ++ s) = true)
        by (rewrite valid_blanks, valid_comment, valid_newline in Hv by assumption; exact Hv).
      destruct (begins_lf_dec m (w ++ s) Hm) as [[-> Hlf]|Hlf].
      * destruct (skipped_begins_lf _ _ _ Hw Hs Hlf) as (u & ->). apply skipped_after_lf in Hw.
        cbn [length app] in *.
        change (b ++ t ++ CR :: LF :: u ++ s) with (b ++ t ++ [CR; LF] ++ u ++ s).
        rewrite comment_line_fwd; [|exact Hb|exact Ht|right; reflexivity|exact Hv|left; reflexivity]. cbn [length].
        destruct (IH k u ltac:(lia) Hw s (p + length b + length t + 2) q s' f0 Hs) as (f & -> & Hc & Hk).
        { rewrite valid_utf8_cons_ascii in Hvs by reflexivity. exact Hvs. }
        { rewrite <- H0. f_equal. lia. }
        rewrite app_assoc. eexists. split; [reflexivity|]. cbn [wrap emits ctx0 look atom negb andb app length]. split; [constructor; [reflexivity|exact Hc]|congruence].
      * rewrite comment_line_fwd; [|exact Hb|exact Ht|right; apply newline_head; exact Hm|exact Hv|left; apply strip_newline_fwd; assumption].
        destruct (IH k w ltac:(lia) Hw s (p + length b + length t + length m) q s' f0 Hs Hvs) as (f & -> & Hc & Hk).
        { rewrite <- H0. f_equal. lia. }
        rewrite app_assoc. eexists. split; [reflexivity|]. cbn [wrap emits ctx0 look atom negb andb app length]. split; [constructor; [reflexivity|exact Hc]|congruence].
Qed.

Lemma no_line_not_lf s : no_line s -> ~ begins_lf s.
Proof.
  intros (b & t & -> & Hb & Ht) [u E]. destruct Hb as [|y b Hy Hb].
  - cbn [app] in E. subst t. destruct Ht as (_ & K & _). discriminate.
  - cbn [app] in E. injection E as -> _. discriminate.
Qed.

(** A continuation, skipped lines, and what follows *)
Lemma cont_item c j l s p : continuation c -> skipped_lines j l -> ~ begins_lf s -> valid_utf8 s = true ->
  forall q s' f0, run ctx0 (Rep line_item) (p + length c + length l) s = Done q s' f0 ->
  exists f, run ctx0 arg_ws_item p (c ++ l ++ s) = Done q s' (f ++ f0) /\ comments f /\ length f = j.
Proof.
  intros (b & n & -> & Hb & Hn) Hl Hs Hv q s' f0 H0.
  unfold arg_ws_item. rewrite run_alt by reflexivity. rewrite class_ws. cbn [app]. change (is_blank BSLASH) with false. cbn iota.
  rewrite run_seq by reflexivity. rewrite run_continuation.
  destruct (begins_lf_dec n (l ++ s) Hn) as [[-> Hlf]|Hlf].
  - destruct (skipped_begins_lf _ _ _ Hl Hs Hlf) as (u & ->). apply skipped_after_lf in Hl. cbn [app].
    assert (E : BSLASH :: (b ++ [CR]) ++ LF :: u ++ s = (BSLASH :: b ++ [CR; LF]) ++ u ++ s).
    { cbn [app]. rewrite <- !app_assoc. reflexivity. }
    rewrite E, cont_rest_fwd; [|exact Hb|constructor|discriminate].
    destruct (skipped_pre (length u) j u (le_n _) Hl s (p + length (BSLASH :: b ++ [CR; LF])) q s' f0 Hs) as (f1 & E1 & Hc1 & Hk1).
    { rewrite (valid_skipped _ _ _ Hl). exact Hv. }
    { rewrite <- H0. f_equal. cbn [length]. rewrite !app_length. cbn [length]. lia. }
    change (Rep (Alt comment_line empty_line)) with (Rep line_item). rewrite E1. exists f1. cbn [app]. auto.
  - change (BSLASH :: (b ++ n) ++ l ++ s) with ((BSLASH :: b ++ n) ++ l ++ s). rewrite cont_rest_fwd by assumption.
    destruct (skipped_pre (length l) j l (le_n _) Hl s (p + length (BSLASH :: b ++ n)) q s' f0 Hs) as (f1 & E1 & Hc1 & Hk1).
    { rewrite (valid_skipped _ _ _ Hl). exact Hv. }
    { exact H0. }
    change (Rep (Alt comment_line empty_line)) with (Rep line_item). rewrite E1. exists f1. cbn [app]. auto.
Qed.

Lemma gap_then_no_line k g s : gap k g -> no_line s -> no_line (g ++ s).
Proof.
  intros Hg Hs. induction Hg as [|k x w Hx Hg IH|j k c l w Hc Hl Hg IH]; [exact Hs| |].
  - destruct IH as (b & t & E & Hb & Ht). exists (x :: b), t. cbn [app]. rewrite E. split; [reflexivity|].
    split; [constructor; assumption|exact Ht].
  - exists [], ((c ++ l ++ w) ++ s). split; [reflexivity|]. split; [constructor|].
    destruct Hc as (b & n & -> & _). cbn [app]. split; [reflexivity|]. split; [reflexivity|discriminate].
Qed.

(** A gap before anything *)
Lemma gap_pre k g : gap k g -> forall s p q s' f0, (has_newline g -> no_line s) -> valid_utf8 s = true ->
  run ctx0 (Rep arg_ws_item) (p + length g) s = Done q s' f0 ->
  exists f, run ctx0 (Rep arg_ws_item) p (g ++ s) = Done q s' (f ++ f0) /\ comments f /\ length f = k.
Proof.
  induction 1 as [|k x w Hx Hg IH|j k c l w Hc Hl Hg IH]; intros s p q s' f0 Hs Hv H0.
  - exists []. cbn [app length] in *. rewrite Nat.add_0_r in H0. split; [exact H0|]. split; [constructor|reflexivity].
  - cbn [app]. rewrite run_rep by reflexivity. unfold arg_ws_item at 1. rewrite run_alt by reflexivity.
    rewrite class_ws, Hx. destruct (IH s (p + 1) q s' f0) as (f & -> & Hc & Hk);
      [intros Hn; apply Hs, (has_newline_app_r [x]), Hn|exact Hv|rewrite <- H0; f_equal; cbn [length]; lia|].
    exists f. cbn [app]. auto.
  - assert (Hnl : no_line (w ++ s)) by (apply (gap_then_no_line k); [exact Hg|apply Hs, has_newline_app_l, continuation_newline, Hc]).
    assert (Hv2 : valid_utf8 (w ++ s) = true) by (rewrite (valid_gap k w s Hg); exact Hv).
    destruct (IH s (p + length c + length l) q s' f0) as (f2 & E2 & Hc2 & Hk2);
      [intros Hn; apply Hs, has_newline_app_r, has_newline_app_r, Hn|exact Hv|rewrite <- H0; f_equal; rewrite !app_length; lia|].
    destruct (cont_item c j l (w ++ s) p Hc Hl (no_line_not_lf _ Hnl) Hv2 (p + length c + length l) (w ++ s) []) as (f1 & E1 & Hc1 & Hk1).
    { rewrite run_rep by reflexivity. rewrite line_item_fails by assumption. reflexivity. }
    rewrite run_rep by reflexivity. rewrite <- !app_assoc, E1, E2, app_nil_r, app_assoc. eexists. split; [reflexivity|].
    split; [apply comments_app; assumption|rewrite app_length; congruence].
Qed.

Lemma gap_over_no_line g s : gap_over g s -> has_newline g -> no_line s.
Proof.
  intros [_ H] Hn. exists [], s. split; [reflexivity|]. split; [constructor|]. destruct s as [|x s]; [exact I|].
  destruct H as [H1 H2]. destruct (H2 Hn). auto.
Qed.

Lemma gap_star_over k g s p : gap k g -> gap_over g s -> valid_utf8 s = true ->
  exists f, run ctx0 (Rep arg_ws_item) p (g ++ s) = Done (p + length g) s f /\ comments f /\ length f = k.
Proof.
  intros Hg Hs Hv. destruct (gap_pre k g Hg s p (p + length g) s []) as (f & E & Hc & Hk).
  - apply gap_over_no_line. exact Hs.
  - exact Hv.
  - rewrite run_rep by reflexivity. rewrite gap_item_fails by (assumption || apply (gap_over_here _ _ Hs)). reflexivity.
  - exists f. rewrite app_nil_r in E. auto.
Qed.

Lemma open_star g p : open_gap g -> valid_utf8 g = true ->
  exists f, run ctx0 (Rep arg_ws_item) p g = Done (p + length g) [] f /\ comments f.
Proof.
  intros (k & g0 & c & j & l & b & t & -> & Hg & Hc & Hl & Hb & Ht) Hv.
  rewrite (valid_gap k _ _ Hg), valid_continuation, (valid_skipped _ _ _ Hl) in Hv by exact Hc.
  assert (Hlf : ~ begins_lf (b ++ t)).
  { intros [u E]. destruct Hb as [|y b Hy Hb]; [destruct Ht as (v & -> & _); discriminate|]. injection E as -> _. discriminate. }
  assert (E0 : run ctx0 (Rep line_item) (p + length g0 + length c + length l) (b ++ t) =
    Done (p + length (g0 ++ c ++ l ++ b ++ t)) [] [Node R_comment (p + length g0 + length c + length l + length b) (p + length (g0 ++ c ++ l ++ b ++ t)) []]).
  { rewrite run_rep by reflexivity. unfold line_item at 1. rewrite run_alt by reflexivity.
    pose proof (comment_line_fwd b t [] [] ctx0 (p + length g0 + length c + length l) Hb Ht (or_introl eq_refl)) as E.
    rewrite !app_nil_r in E. rewrite E; [|exact Hv|right; auto]. rewrite run_rep by reflexivity.
    rewrite line_item_fails; [|exists [], []; repeat constructor|reflexivity].
    rewrite !app_length. cbn [length app wrap emits ctx0 look atom negb andb].
    replace (p + length g0 + length c + length l + length b + length t) with (p + (length g0 + (length c + (length l + (length b + length t))))) by lia.
    rewrite Nat.add_0_r. reflexivity. }
  destruct (cont_item c j l (b ++ t) (p + length g0) Hc Hl Hlf Hv _ _ _ E0) as (f1 & E1 & Hc1 & _).
  assert (Hv2 : valid_utf8 (c ++ l ++ b ++ t) = true) by (rewrite valid_continuation, (valid_skipped _ _ _ Hl) by exact Hc; exact Hv).
  destruct (gap_pre k g0 Hg (c ++ l ++ b ++ t) p (p + length (g0 ++ c ++ l ++ b ++ t)) [] (f1 ++ [Node R_comment (p + length g0 + length c + length l + length b) (p + length (g0 ++ c ++ l ++ b ++ t)) []])) as (f & E & Hcf & _).
  - intros _. exists [], (c ++ l ++ b ++ t). split; [reflexivity|]. split; [constructor|].
    destruct Hc as (b0 & n & -> & _). cbn [app]. split; [reflexivity|]. split; [reflexivity|discriminate].
  - exact Hv2.
  - rewrite run_rep by reflexivity. rewrite E1. rewrite run_rep by reflexivity.
    rewrite gap_item_fails by reflexivity. rewrite app_nil_r. reflexivity.
  - eexists. split; [exact E|]. apply comments_app; [exact Hcf|]. apply comments_app; [exact Hc1|]. repeat constructor.
Qed.

Lemma rep1_of_star c e p s q s' f : good (rep1 e) = true -> run c (Rep e) p s = Done q s' f -> s' <> s -> run c (rep1 e) p s = Done q s' f.
Proof.
  intros G H Hne. unfold rep1. rewrite run_seq by exact G. rewrite run_rep in H by (apply (good_sub _ G)).
  destruct (run c e p s) as [q1 s1 f1| |]; [|congruence|discriminate].
  destruct (run c (Rep e) q1 s1); [exact H|discriminate|discriminate].
Qed.

Lemma app_longer {A} (g s : list A) : g <> [] -> s <> g ++ s.
Proof. intros Hne E. apply (f_equal (@length A)) in E. rewrite app_length in E. destruct g; [congruence|cbn in E; lia]. Qed.

Lemma gap_over_fwd k g s p : gap k g -> g <> [] -> gap_over g s -> valid_utf8 s = true ->
  exists f, run ctx0 arg_ws p (g ++ s) = Done (p + length g) s f /\ comments f /\ length f = k.
Proof.
  intros Hg Hne Hs Hv. destruct (gap_star_over k g s p Hg Hs Hv) as (f & E & Hc & Hk). exists f. split; [|auto].
  unfold arg_ws. rewrite run_call. cbn [grammar fst snd rule_inner rule_outer rule_tokens].
  rewrite (rep1_of_star _ arg_ws_item _ _ _ _ _ eq_refl E (app_longer g s Hne)). reflexivity.
Qed.

Lemma gap_before_fwd g s p : g <> [] -> gap_before g s -> valid_utf8 (g ++ s) = true ->
  exists f, run ctx0 arg_ws p (g ++ s) = Done (p + length g) s f /\ comments f.
Proof.
  intros Hne [[[k Hg]|[-> [[k Hg]|Hg]]] Ho] Hv.
  - rewrite (valid_gap k g s Hg) in Hv. destruct (gap_over_fwd k g s p Hg Hne Ho Hv) as (f & E & Hc & _). eauto.
  - rewrite (valid_gap k g [] Hg) in Hv. destruct (gap_over_fwd k g [] p Hg Hne Ho Hv) as (f & E & Hc & _). eauto.
  - rewrite app_nil_r in *. destruct (open_star g p Hg Hv) as (f & E & Hc). exists f. split; [|exact Hc].
    unfold arg_ws. rewrite run_call. cbn [grammar fst snd rule_inner rule_outer rule_tokens].
    rewrite (rep1_of_star _ arg_ws_item _ _ _ _ _ eq_refl E); [reflexivity|congruence].
Qed.

(** The gap at the beginning of a text is determined by the text. *)
Lemma gap_exact_iff u t p : valid_utf8 u = true ->
  (after_gap u t <-> exists q f, run ctx0 arg_ws p u = Done q t f).
Proof.
  intros Hv. split.
  - intros (g & -> & Hne & Hg). destruct (gap_before_fwd g t p Hne Hg Hv) as (f & E & _). eauto.
  - intros (q & f & E). apply gap_exact in E; [|exact Hv]. destruct E as (g & -> & _ & _ & Hne & Hg & Ho).
    exists g. split; [reflexivity|]. split; [exact Hne|]. split; [|exact Ho].
    destruct Hg as [Hg|[-> Hg]]; [left; eauto|right; split; [reflexivity|apply open_last; exact Hg]].
Qed.

(** ** Words *)

Lemma word_end_iff s : word_end s <-> ends_here s \/ (exists c t, s = c :: t /\ is_blank c = true) \/ continues_here s.
Proof.
  rewrite <- continues_iff. unfold word_end. destruct s as [|x s]; cbn [ends_here]; [tauto|].
  unfold word_stop. cbn [newline_here is_nil gap_here]. rewrite orb_true_iff. cbn [orb]. rewrite orb_true_iff.
  split; [intros [H|[H|H]]; eauto 6|]. intros [H|[(c & t & E & H)|H]]; [auto|injection E as <- <-; auto|auto].
Qed.

Lemma continues_bs s : continues (BSLASH :: s) = true <-> exists b n t, s = b ++ n ++ t /\ blanks b /\ newline n.
Proof.
  rewrite continues_iff. split.
  - intros (c & t & E & (b & n & -> & Hb & Hn)). cbn [app] in E. injection E as ->. exists b, n, t. rewrite <- app_assoc. auto.
  - intros (b & n & t & -> & Hb & Hn). exists (BSLASH :: b ++ n), t. split; [cbn [app]; rewrite <- app_assoc; reflexivity|]. exists b, n. auto.
Qed.

Lemma word_until_over w s : Forall (fun c => is_blank c = false /\ is_newline_byte c = false) w -> word_over w s ->
  until word_stop (w ++ s) = w /\ from_stop word_stop (w ++ s) = s.
Proof.
  intros Hw [Hs Hb]. apply until_all; [|apply word_end_iff; exact Hs]. intros u v -> Hv.
  apply Forall_app in Hw. destruct Hw as [_ Hw]. destruct v as [|x v]; [congruence|].
  inversion Hw as [|? ? [H1 H2] Hw']; subst. cbn [app]. unfold word_stop. cbn [newline_here is_nil gap_here].
  rewrite H1, H2. cbn [orb]. destruct (continues (x :: v ++ s)) eqn:E; [|reflexivity].
  pose proof (continues_ascii _ _ E) as ->. exfalso. destruct v as [|y v].
  - apply Hb. apply continues_bs in E. destruct E as (b & n & t & E & Hbl & Hn). exists u, b, n, t. auto.
  - inversion Hw' as [|? ? [H3 H4] _]; subst. cbn [app] in E. rewrite not_continues_word in E by assumption. discriminate.
Qed.

Lemma word_over_fwd c p w s : word w -> word_over w s -> valid_utf8 (w ++ s) = true ->
  run c any_whitespace p (w ++ s) = Done (p + length w) s [].
Proof.
  intros (Hne & Hw & _) Ho Hv. rewrite run_any_whitespace by exact Hv.
  destruct (word_until_over w s Hw Ho) as [-> ->]. destruct w; [congruence|reflexivity].
Qed.

Lemma until_inside stop s u v : until stop s = u ++ v -> v <> [] -> stop (v ++ from_stop stop s) = false.
Proof.
  revert u. induction s as [|x s IH]; intros u E Hv; cbn [until from_stop] in *; [destruct u; [cbn in E; congruence|discriminate]|].
  destruct (stop (x :: s)) eqn:Es; [destruct u; [cbn in E; congruence|discriminate]|].
  destruct u as [|y u]; cbn [app] in E.
  - subst v. cbn [app]. rewrite until_app. exact Es.
  - injection E as -> E. apply (IH u E Hv).
Qed.

Lemma word_exact c p s q s' f : valid_utf8 s = true -> run c any_whitespace p s = Done q s' f ->
  exists w, s = w ++ s' /\ q = p + length w /\ word w /\ f = [] /\ word_over w s'.
Proof.
  intros Hv H. rewrite run_any_whitespace in H by exact Hv.
  pose proof (until_word s) as Hw. pose proof (until_app word_stop s) as Es. pose proof (from_stop_head word_stop s) as Hh.
  pose proof (until_inside word_stop s) as Hi.
  destruct (until word_stop s) as [|x w]; [discriminate|]. injection H as <- <- <-.
  exists (x :: w). split; [auto|]. split; [reflexivity|]. split; [apply Hw; auto; discriminate|]. split; [reflexivity|].
  split; [apply word_end_iff; destruct (from_stop word_stop s); [exact I|exact Hh]|].
  intros (u & b & n & t & Eu & Et & Hb & Hn). specialize (Hi u [BSLASH] Eu ltac:(discriminate)). rewrite Et in Hi. cbn [app] in Hi.
  unfold word_stop in Hi. cbn [newline_here is_nil gap_here] in Hi. change (is_newline_byte BSLASH) with false in Hi. change (is_blank BSLASH) with false in Hi.
  cbn [orb] in Hi. assert (K : continues (BSLASH :: b ++ n ++ t) = true) by (apply continues_bs; eauto 8). congruence.
Qed.

Lemma label_over_iff s : label_over s <-> label_end s.
Proof.
  unfold label_over, label_end, label_stop. destruct s as [|x s]; [tauto|]. cbn [newline_here blank_here].
  rewrite !orb_true_iff, N.eqb_eq. intuition.
Qed.

Lemma label_word_exact c p s q s' f : valid_utf8 s = true -> run c any_equals p s = Done q s' f ->
  exists w, s = w ++ s' /\ q = p + length w /\ label_word w /\ f = [] /\ label_over s'.
Proof.
  intros Hv H. rewrite run_any_equals in H by exact Hv.
  pose proof (until_label_word s) as Hw. pose proof (until_app label_stop s) as Es. pose proof (from_stop_head label_stop s) as Hh.
  destruct (until label_stop s) as [|x w]; [discriminate|]. injection H as <- <- <-.
  exists (x :: w). split; [auto|]. split; [reflexivity|]. split; [apply Hw; auto; discriminate|]. split; [reflexivity|].
  apply label_over_iff. destruct (from_stop label_stop s); [exact I|exact Hh].
Qed.

Lemma gap_bslash k g : gap k (BSLASH :: g) -> exists c r, BSLASH :: g = c ++ r /\ continuation c.
Proof.
  intros H. remember (BSLASH :: g) as u eqn:E. destruct H as [|k c w Hc _|j k c l w Hc _ _]; [discriminate|injection E as -> _; discriminate|].
  exists c, (l ++ w). auto.
Qed.

(** A word before a gap is never cut short by its own last character. *)
Lemma word_over_gap w k g t : gap k g -> g <> [] ->
  (match t with c :: _ => is_blank c = false /\ is_newline_byte c = false | [] => True end) -> word_over w (g ++ t).
Proof.
  intros Hg Hne Ht. split.
  - pose proof (gap_head _ _ Hg) as Hh. destruct g as [|x g]; [congruence|]. destruct Hh as [Hh| ->]; [right; left; cbn [app]; eauto|].
    right. right. apply gap_bslash in Hg. destruct Hg as (c & r & E & Hc). rewrite E. exists c, (r ++ t). rewrite <- app_assoc. auto.
  - intros (u & b & n & r & -> & E & Hb & Hn). revert b E Hb. induction Hg as [|k c g Hc Hg IH|j k c l g Hc _ _ _]; [congruence| |].
    + intros b E Hb. destruct b as [|y b].
      * cbn [app] in E. destruct Hn; cbn [app] in E; injection E as -> _; discriminate.
      * cbn [app] in E. injection E as -> E. inversion Hb; subst. destruct g as [|z g].
        -- cbn [app] in E. clear IH. destruct t as [|z t]; [destruct Hn; destruct b; discriminate|]. destruct Ht as [Ht1 Ht2].
           destruct b as [|y2 b].
           ++ destruct Hn; cbn [app] in E; injection E as -> _; discriminate.
           ++ cbn [app] in E. injection E as -> E. match goal with K : Forall _ (y2 :: b) |- _ => inversion K; congruence end.
        -- apply (IH ltac:(discriminate) b E). assumption.
    + intros b E Hb. destruct Hc as (b2 & n2 & -> & _). cbn [app] in E. destruct b as [|y b].
      * destruct Hn; discriminate.
      * injection E as <- _. inversion Hb. discriminate.
Qed.

(** ** Things, each after a gap *)
Lemma spaced_reads_nil {A} (at1 : nat -> bytes -> bytes -> A -> Prop) p s l : spaced_reads at1 p [] s l -> l = [].
Proof.
  intros H. remember (@nil N) as w eqn:E. destruct H as [|p k g w x w2 s l Hg Hne]; [reflexivity|]. destruct g; [congruence|discriminate].
Qed.

Section SpacedExact.
Context {A S : Type}.
Variable unq : bytes -> option bytes.
Variable src : bytes.
Variable r : rule.
Variable at1 : nat -> bytes -> bytes -> A -> Prop.
Variable conv : tree -> outcome A.
Variable step : S -> tree -> outcome S.
Variable add : S -> A -> S.
Notation pos := (pos src).
Notation yields := (yields unq src).
Hypothesis r_good : good (Rep (Seq arg_ws (Call r))) = true.
Hypothesis r_good2 : good (Rep (Seq arg_ws (Opt (Call r)))) = true.
Hypothesis step_item : forall st t, t_rule t = r -> step st t = bind (conv t) (fun x => Ok (add st x)).
Hypothesis step_comment : skips_comments step.

Section Inv.
Hypothesis r_strict : nullable (Call r) = false.
Hypothesis r_ascii : ascii_expr (Call r) = true.
Hypothesis conv_at : forall p s q s' f, valid_utf8 s = true -> pos p s ->
  run ctx0 (Call r) p s = Done q s' f ->
  exists w t, s = w ++ s' /\ q = p + length w /\ f = [t] /\ t_rule t = r /\ yields (at1 p w s') (conv t).

Lemma item_exact p s q s' f : valid_utf8 s = true -> pos p s ->
  run ctx0 (Seq arg_ws (Call r)) p s = Done q s' f ->
  exists k g w, s = (g ++ w) ++ s' /\ q = p + length (g ++ w) /\ gap k g /\ g <> [] /\ gap_over g (w ++ s') /\
    forall st, yields (fun st' => exists x, at1 (p + length g) w s' x /\ st' = add st x) (for_each step f st).
Proof.
  intros Hv Hp H. apply seq_inv in H; [|apply (good_sub _ r_good)].
  destruct H as (q1 & s1 & f1 & f2 & H1 & H & ->).
  pose proof (run_valid _ _ _ _ _ _ _ H1 Hv eq_refl) as Hv1.
  pose proof (run_strict _ _ _ _ _ _ _ H r_strict) as Hs.
  apply gap_exact_more in H1; [|exact Hv|intros ->; cbn in Hs; lia].
  destruct H1 as (g & -> & -> & Hc & Hne & Hg & Ho). pose proof (pos_app _ _ _ _ Hp) as Hp1.
  apply conv_at in H; [|exact Hv1|exact Hp1]. destruct H as (w & t & -> & -> & -> & Ht & Hy).
  exists (length f1), g, w. rewrite app_length, <- app_assoc.
  split; [reflexivity|]. split; [lia|]. split; [exact Hg|]. split; [exact Hne|]. split; [exact Ho|].
  intros st. rewrite for_each_gap by assumption. cbn [for_each]. rewrite step_item by exact Ht.
  eapply yields_bind with (P := fun st1 => exists x, at1 (p + length g) w s' x /\ st1 = add st x).
  - eapply yields_bind; [exact Hy|]. intros x Hx. cbn. eauto.
  - intros st' Hst. exact Hst.
Qed.

Lemma spaced_exact p s q s' f : valid_utf8 s = true -> pos p s ->
  run ctx0 (Rep (Seq arg_ws (Call r))) p s = Done q s' f ->
  exists w, s = w ++ s' /\ q = p + length w /\
    forall st, yields (fun st' => exists l, spaced_reads at1 p w s' l /\ st' = fold_left add l st) (for_each step f st).
Proof.
  intros Hv Hp H.
  destruct (rep_ind ctx0 (Seq arg_ws (Call r)) (fun p w f s' => valid_utf8 (w ++ s') = true -> pos p (w ++ s') ->
    forall st, yields (fun st' => exists l, spaced_reads at1 p w s' l /\ st' = fold_left add l st) (for_each step f st))
    r_good) with (3 := H) as (w & -> & -> & K).
  - intros p0 s0 _ _ _ st. cbn. exists []. split; [constructor|reflexivity].
  - clear H Hv Hp. intros p0 w1 s1 f1 w2 f2 s0' H -> _ IH Hv Hp st. rewrite <- app_assoc in Hv, Hp.
    assert (Hv1 : valid_utf8 (w2 ++ s0') = true).
    { eapply run_valid; [exact H|exact Hv|]. cbn. exact r_ascii. }
    specialize (IH Hv1 (pos_app _ _ _ _ Hp)).
    apply item_exact in H; [|exact Hv|exact Hp]. destruct H as (k & g & w & Es & _ & Hg & Hne & Ho & Hy).
    apply app_inv_tail in Es. subst w1. rewrite for_each_app. eapply yields_bind; [apply Hy|].
    intros st1 (x & Hx & ->). eapply yields_impl; [apply IH|]. intros st2 (l & Hl & ->).
    exists (x :: l). split; [|reflexivity]. rewrite <- app_assoc. econstructor; eauto.
    rewrite app_length in Hl. rewrite <- Nat.add_assoc. exact Hl.
  - exists w. repeat split. apply K; assumption.
Qed.

Lemma gap_spaced_exact p s q s' f : valid_utf8 s = true -> pos p s ->
  run ctx0 (Rep (Seq arg_ws (Opt (Call r)))) p s = Done q s' f ->
  exists pairs g, s = pairs ++ g ++ s' /\ q = p + length pairs + length g /\ gap_before g s' /\
    forall st, yields (fun st' => exists l, spaced_reads at1 p pairs (g ++ s') l /\ st' = fold_left add l st) (for_each step f st).
Proof.
  intros Hv Hp H.
  destruct (rep_ind ctx0 (Seq arg_ws (Opt (Call r))) (fun p w f s' => valid_utf8 (w ++ s') = true -> pos p (w ++ s') ->
    (w <> [] -> gap_here (w ++ s') = true) /\
    exists pairs g, w = pairs ++ g /\ gap_before g s' /\
    forall st, yields (fun st' => exists l, spaced_reads at1 p pairs (g ++ s') l /\ st' = fold_left add l st) (for_each step f st))
    r_good2) with (3 := H) as (w & -> & -> & K).
  - intros p0 s0 E Hv0 _. split; [congruence|]. exists [], []. split; [reflexivity|]. split.
    + split; [left; exists 0; constructor|]. rewrite run_seq in E by apply (good_sub _ r_good2).
      assert (Hh : gap_here s0 = false).
      { destruct (succeeds_gap ctx0 p0 s0 Hv0) as [(q0 & s1 & f0 & E0 & Eg)|(_ & E0)]; [|exact E0]. exfalso.
        rewrite E0 in E. pose proof (opt_not_fail ctx0 (Call r) q0 s1 (proj2 (good_sub _ (proj1 (good_sub _ r_good2))))) as K.
        destruct (run ctx0 (Opt (Call r)) q0 s1); congruence. }
      apply gap_here_false in Hh. destruct Hh as [H1 H2]. split; [exact H1|]. destruct s0 as [|x s0]; [exact I|]. split; [exact H2|].
      intros (c & [] & _).
    + intros st. cbn. exists []. split; [constructor|reflexivity].
  - clear H Hv Hp. intros p0 w1 s1 f1 w2 f2 s0' H -> Hw1 IH Hv Hp. rewrite <- app_assoc in Hv, Hp.
    assert (Hv1 : valid_utf8 (w2 ++ s0') = true).
    { eapply run_valid; [exact H|exact Hv|]. cbn. exact r_ascii. }
    specialize (IH Hv1 (pos_app _ _ _ _ Hp)). destruct IH as (Hh & pairs & g & -> & Hg & Hy).
    apply seq_inv in H; [|apply (good_sub _ r_good2)].
    destruct H as (q1 & s1 & f3 & f4 & H1 & H & ->). split.
    { intros _. rewrite <- app_assoc.
      destruct (succeeds_gap ctx0 p0 (w1 ++ (pairs ++ g) ++ s0') Hv) as [(q0 & s2 & f0 & _ & Eg)|(E0 & _)]; [exact Eg|congruence]. }
    pose proof (run_valid _ _ _ _ _ _ _ H1 Hv eq_refl) as Hv2.
    apply opt_inv in H; [|apply (good_sub _ (proj1 (good_sub _ r_good2)))].
    destruct H as [H|(_ & _ & Es & ->)].
    + pose proof (run_strict _ _ _ _ _ _ _ H r_strict) as Hs.
      apply gap_exact_more in H1; [|exact Hv|intros ->; cbn in Hs; lia].
      destruct H1 as (g1 & Eg & -> & Hc & Hne & Hg1 & Ho). rewrite Eg in Hp. pose proof (pos_app _ _ _ _ Hp) as Hp1.
      apply conv_at in H; [|exact Hv2|exact Hp1]. destruct H as (w & t & -> & Eq & -> & Ht & Hyt).
      assert (w1 = g1 ++ w).
      { apply (app_inv_tail ((pairs ++ g) ++ s0')). rewrite <- !app_assoc in *. exact Eg. }
      subst w1.
      exists (g1 ++ w ++ pairs), g. split; [rewrite <- !app_assoc; reflexivity|]. split; [exact Hg|].
      intros st. rewrite <- app_assoc. rewrite for_each_gap by assumption. rewrite for_each_app.
      cbn [for_each]. rewrite step_item by exact Ht.
      eapply yields_bind with (P := fun st1 => exists x, at1 (p0 + length g1) w ((pairs ++ g) ++ s0') x /\ st1 = add st x).
      { eapply yields_bind with (P := fun st1 => exists x, at1 (p0 + length g1) w ((pairs ++ g) ++ s0') x /\ st1 = add st x); [|intros a Ha; exact Ha].
        eapply yields_bind; [exact Hyt|]. intros x Hx. cbn. eauto. }
      intros st1 (x & Hx & ->). eapply yields_impl; [apply Hy|]. intros st2 (l & Hl & ->).
      exists (x :: l). split; [|reflexivity]. rewrite <- app_assoc in Hx, Ho. econstructor; eauto.
      rewrite app_length in Hl. rewrite <- Nat.add_assoc. exact Hl.
    + subst s1. apply gap_exact in H1; [|exact Hv].
      destruct H1 as (g1 & Eg & _ & Hc & Hne & Hg1 & Ho). apply app_inv_tail in Eg. subst g1. rewrite app_nil_r.
      pose proof (gap_over_here _ _ Ho) as Hf.
      assert (En : pairs ++ g = []). { destruct (pairs ++ g) as [|y u] eqn:E; [reflexivity|]. rewrite (Hh ltac:(discriminate)) in Hf. discriminate. }
      apply app_eq_nil in En. destruct En as [-> ->]. exists [], w1. split; [rewrite app_nil_r; reflexivity|]. cbn [app] in *.
      split; [split; [|exact Ho]; destruct Hg1 as [Hg1|[-> Hg1]]; [left; eauto|right; split; [reflexivity|apply open_last; exact Hg1]]|].
      intros st. rewrite for_each_gap by assumption. eapply yields_impl; [apply Hy|].
      intros st' (l & Hl & ->). exists l. split; [|reflexivity].
      apply spaced_reads_nil in Hl.
      subst l. constructor.
  - destruct (K Hv Hp) as (_ & pairs & g & -> & Hg & Hy). exists pairs, g. rewrite app_length, <- app_assoc.
    split; [reflexivity|]. split; [lia|]. auto.
Qed.
End Inv.

Section Fwd.
Hypothesis conv_fwd : forall p w x s, at1 p w s x -> valid_utf8 (w ++ s) = true -> pos p (w ++ s) ->
  exists t, run ctx0 (Call r) p (w ++ s) = Done (p + length w) s [t] /\ t_rule t = r /\ conv t = Ok x.
Hypothesis at1_valid : forall p w x s, at1 p w s x -> valid_utf8 (w ++ s) = valid_utf8 s.

Lemma spaced_reads_valid p w s l : spaced_reads at1 p w s l -> valid_utf8 (w ++ s) = valid_utf8 s.
Proof.
  induction 1 as [|p k g w x w2 s l Hg Hne Ho Hx Hl IH]; [reflexivity|]. rewrite <- !app_assoc.
  rewrite (valid_gap _ _ _ Hg), (at1_valid _ _ _ _ Hx). exact IH.
Qed.

Lemma item_reads_fwd p k g w x s : gap k g -> g <> [] -> gap_over g (w ++ s) -> at1 (p + length g) w s x ->
  valid_utf8 s = true -> pos p (g ++ w ++ s) ->
  exists f1 t, run ctx0 arg_ws p (g ++ w ++ s) = Done (p + length g) (w ++ s) f1 /\
    run ctx0 (Call r) (p + length g) (w ++ s) = Done (p + length g + length w) s [t] /\
    forall st, for_each step (f1 ++ [t]) st = Ok (add st x).
Proof.
  intros Hg Hne Ho Hx Hv Hp. rewrite <- (at1_valid _ _ _ _ Hx) in Hv.
  destruct (gap_over_fwd k g (w ++ s) p Hg Hne Ho Hv) as (f1 & E1 & Hc & _).
  destruct (conv_fwd _ _ _ s Hx Hv (pos_app _ _ _ _ Hp)) as (t & E2 & Ht & Ec).
  exists f1, t. split; [exact E1|]. split; [exact E2|]. intros st. rewrite for_each_gap by assumption. cbn [for_each].
  rewrite step_item, Ec by exact Ht. reflexivity.
Qed.

Lemma spaced_reads_fwd p w s l : spaced_reads at1 p w s l -> valid_utf8 s = true -> pos p (w ++ s) ->
  run ctx0 (Seq arg_ws (Call r)) (p + length w) s = Fail ->
  exists f, run ctx0 (Rep (Seq arg_ws (Call r))) p (w ++ s) = Done (p + length w) s f /\
    forall st, for_each step f st = Ok (fold_left add l st).
Proof.
  induction 1 as [p s|p k g w x w2 s l Hg Hne Ho Hx Hl IH]; intros Hv Hp Hf.
  - cbn [app length] in *. rewrite Nat.add_0_r in *. rewrite run_rep by exact r_good. rewrite Hf. exists []. auto.
  - rewrite <- !app_assoc in *. rewrite run_rep by exact r_good.
    assert (Hv2 : valid_utf8 (w2 ++ s) = true) by (rewrite (spaced_reads_valid _ _ _ _ Hl); exact Hv).
    destruct (item_reads_fwd p k g w x (w2 ++ s) Hg Hne Ho Hx Hv2 Hp) as (f1 & t & E1 & E2 & H1).
    rewrite run_seq by apply (good_sub _ r_good). rewrite E1, E2.
    destruct (IH Hv (pos_app _ _ _ _ (pos_app _ _ _ _ Hp))) as (f2 & -> & H2).
    { rewrite !app_length in Hf. rewrite !Nat.add_assoc in Hf. exact Hf. }
    eexists. split; [rewrite !app_length, !Nat.add_assoc; reflexivity|].
    intros st. rewrite for_each_app, H1. cbn [bind]. rewrite H2. reflexivity.
Qed.

Lemma gap_spaced_fwd p w g s l : spaced_reads at1 p w (g ++ s) l -> gap_before g s -> valid_utf8 (g ++ s) = true ->
  pos p (w ++ g ++ s) -> (forall q, run ctx0 (Call r) q s = Fail) ->
  exists f, run ctx0 (Rep (Seq arg_ws (Opt (Call r)))) p (w ++ g ++ s) = Done (p + length w + length g) s f /\
    forall st, for_each step f st = Ok (fold_left add l st).
Proof.
  pose proof (proj1 (good_sub _ r_good2)) as G1. pose proof (proj2 (good_sub _ G1)) as G2.
  intros Hw Hb Hv Hp Hf. remember (g ++ s) as gs eqn:Egs.
  induction Hw as [p s0|p k h w x w2 s0 l Hg Hne Ho Hx Hl IH]; subst s0.
  - cbn [app length] in *. rewrite Nat.add_0_r.
    assert (Hvs : valid_utf8 s = true).
    { destruct g as [|y g]; [exact Hv|]. destruct (gap_before_fwd (y :: g) s p ltac:(discriminate) Hb Hv) as (f & E & _). exact (run_valid _ _ _ _ _ _ _ E Hv eq_refl). }
    assert (E0 : forall q, run ctx0 (Rep (Seq arg_ws (Opt (Call r)))) q s = Done q s []).
    { intros q. rewrite run_rep by exact r_good2. rewrite run_seq by exact G1.
      rewrite gap_fails; [reflexivity|apply (gap_over_here _ _ (proj2 Hb))|exact Hvs]. }
    destruct g as [|y g]; [exists []; cbn [app length]; rewrite E0, Nat.add_0_r; auto|].
    destruct (gap_before_fwd (y :: g) s p ltac:(discriminate) Hb Hv) as (f & E & Hc).
    rewrite run_rep by exact r_good2. rewrite run_seq by exact G1. rewrite E.
    rewrite run_opt by exact G2. rewrite Hf, E0. exists f. rewrite !app_nil_r. split; [reflexivity|].
    intros st. apply for_each_comments; assumption.
  - rewrite <- !app_assoc in *. rewrite run_rep by exact r_good2.
    assert (Hv2 : valid_utf8 (w2 ++ g ++ s) = true) by (rewrite (spaced_reads_valid _ _ _ _ Hl); exact Hv).
    destruct (item_reads_fwd p k h w x (w2 ++ g ++ s) Hg Hne Ho Hx Hv2 Hp) as (f1 & t & E1 & E2 & H1).
    rewrite run_seq by exact G1. rewrite E1. rewrite run_opt by exact G2. rewrite E2.
    destruct (IH eq_refl Hv (pos_app _ _ _ _ (pos_app _ _ _ _ Hp))) as (f2 & -> & H2).
    eexists. split; [rewrite !app_length, !Nat.add_assoc; reflexivity|].
    intros st. rewrite for_each_app, H1. cbn [bind]. rewrite H2. reflexivity.
Qed.
End Fwd.
End SpacedExact.
