(** From texts to runs of the grammar: gaps, words, quoted strings and shell texts
    are read as they are written. *)

From Coq Require Import String.
From Verif Require Import Bytes BytesFacts Grammar Peg Result Ast Splicer Image Convert
  PegFacts SpecImage SpecSyntax SpecClear PegRules PegTokens PegQuoted Sound SoundRules.
Local Open Scope nat_scope.

(** ** Lines *)

Definition begins_lf (s : bytes) : Prop := begins_with LF s.

Lemma strip_newline_fwd n s : newline n -> (n = [CR] -> ~ begins_lf s) ->
  strip_newline (n ++ s) = Some (length n, s).
Proof.
  intros Hn Hs. destruct Hn; [reflexivity|reflexivity|]. cbn [app strip_newline length].
  change (CR =? LF)%N with false. change (CR =? CR)%N with true. cbn iota.
  destruct s as [|y u]; [reflexivity|]. destruct (y =? LF)%N eqn:E; [|reflexivity].
  bool_hyps. subst y. exfalso. apply Hs; [reflexivity|]. exists u. reflexivity.
Qed.

Lemma newline_fwd n s c p : newline n -> (n = [CR] -> ~ begins_lf s) ->
  run c NEWLINE p (n ++ s) = Done (p + length n) s [].
Proof. intros Hn Hs. rewrite run_newline, strip_newline_fwd by assumption. reflexivity. Qed.

(** A lone CR before LF is read together with it. *)
Lemma newline_crlf s c p : run c NEWLINE p ([CR] ++ LF :: s) = Done (p + 2) s [].
Proof. rewrite run_newline. reflexivity. Qed.

Lemma newline_head n s : newline n -> newline_here (n ++ s) = true.
Proof. intros Hn. destruct Hn; reflexivity. Qed.

Lemma newline_not_blank n s : newline n -> match n ++ s with x :: _ => is_blank x = false | [] => True end.
Proof. intros Hn. destruct Hn; reflexivity. Qed.

Lemma newline_len n : newline n -> 0 < length n.
Proof. intros Hn. destruct Hn; cbn; lia. Qed.

Lemma begins_lf_dec n s : newline n -> (n = [CR] /\ begins_lf s) \/ (n = [CR] -> ~ begins_lf s).
Proof.
  intros Hn. destruct Hn; [right; discriminate|right; discriminate|].
  destruct s as [|y u]; [right; intros _ [t E]; discriminate|].
  destruct (N.eq_dec y LF) as [->|Hy]; [left; split; [reflexivity|exists u; reflexivity]|].
  right. intros _ [t E]. congruence.
Qed.

Lemma blanks_split b s : blanks b -> (match s with x :: _ => is_blank x = false | [] => True end) ->
  take_while is_blank (b ++ s) = b /\ drop_while is_blank (b ++ s) = s.
Proof. intros Hb Hs. apply take_while_app; assumption. Qed.

Lemma blanks_fwd b s c p : blanks b -> (match s with x :: _ => is_blank x = false | [] => True end) ->
  run c (Rep ws) p (b ++ s) = Done (p + length b) s [].
Proof. intros Hb Hs. rewrite run_ws_star. destruct (blanks_split b s Hb Hs) as [-> ->]. reflexivity. Qed.

Lemma no_newline_suffix w u v s : no_newline w -> w = u ++ v -> v <> [] -> newline_here (v ++ s) = false.
Proof.
  intros Hw -> Hv. apply Forall_app in Hw. destruct Hw as [_ Hw].
  destruct v as [|x v]; [congruence|]. inversion Hw; subst. assumption.
Qed.

Definition at_line_end (s : bytes) : Prop := s = [] \/ newline_here s = true.

Lemma comment_fwd t s c p : comment_text t -> at_line_end s -> valid_utf8 (t ++ s) = true ->
  run c comment p (t ++ s) = Done (p + length t) s (wrap c R_comment p (p + length t) []).
Proof.
  intros (u & -> & Hu & Hvu) Hs Hv. rewrite run_comment by exact Hv. cbn [app].
  change (HASH =? HASH)%N with true. cbn iota.
  destruct (until_all newline_here u s) as [-> ->].
  - intros a b E Hb. apply (no_newline_suffix u a b s Hu E Hb).
  - destruct Hs as [-> |Hs]; [exact I|]. destruct s; [exact I|exact Hs].
  - cbn [length]. rewrite <- Nat.add_assoc. reflexivity.
Qed.

Lemma valid_blanks b s : blanks b -> valid_utf8 (b ++ s) = valid_utf8 s.
Proof.
  intros Hb. induction Hb as [|x b Hx Hb IH]; [reflexivity|]. cbn [app].
  rewrite valid_utf8_cons_ascii; [exact IH|]. apply blank_ascii. exact Hx.
Qed.

Lemma valid_newline n s : newline n -> valid_utf8 (n ++ s) = valid_utf8 s.
Proof. intros Hn. destruct Hn; cbn [app]; rewrite ?valid_utf8_cons_ascii by reflexivity; reflexivity. Qed.

Lemma valid_comment t s : comment_text t -> valid_utf8 (t ++ s) = valid_utf8 s.
Proof. intros (u & -> & _ & Hu). cbn [app]. rewrite valid_utf8_cons_ascii by reflexivity. apply valid_utf8_app. exact Hu. Qed.

Lemma valid_continuation k s : continuation k -> valid_utf8 (k ++ s) = valid_utf8 s.
Proof.
  intros (b & n & -> & Hb & Hn). cbn [app]. rewrite valid_utf8_cons_ascii by reflexivity.
  rewrite <- app_assoc, valid_blanks, valid_newline by assumption. reflexivity.
Qed.

Lemma blanks_hash b t s : blanks b -> comment_text t ->
  match t ++ s with x :: _ => is_blank x = false | [] => True end.
Proof. intros _ (u & -> & _). reflexivity. Qed.

(** A comment line; [n] is what is taken of the line's end. *)
Lemma comment_line_fwd b t n s c p : blanks b -> comment_text t -> at_line_end (n ++ s) ->
  valid_utf8 (b ++ t ++ n ++ s) = true ->
  (strip_newline (n ++ s) = Some (length n, s) \/ (n = [] /\ s = [])) ->
  run c comment_line p (b ++ t ++ n ++ s) =
    Done (p + length b + length t + length n) s (wrap c R_comment (p + length b) (p + length b + length t) []).
Proof.
  intros Hb Ht Hs Hv Hn. unfold comment_line. rewrite run_call.
  change (snd (grammar R_comment_line)) with (Seq (Rep ws) (Seq comment (Opt NEWLINE))).
  change (rule_inner (fst (grammar R_comment_line)) c) with c. rewrite run_seq by reflexivity.
  rewrite blanks_fwd; [|exact Hb|apply (blanks_hash b); assumption].
  rewrite valid_blanks in Hv by exact Hb. rewrite run_seq by reflexivity.
  rewrite comment_fwd by assumption. rewrite run_opt by reflexivity. rewrite run_newline.
  destruct Hn as [-> |[-> ->]].
  - cbn [grammar fst rule_tokens]. rewrite app_nil_r. reflexivity.
  - cbn. rewrite app_nil_r, Nat.add_0_r. reflexivity.
Qed.

Lemma comment_line_fails b s c p : blanks b ->
  (match s with x :: _ => x <> HASH /\ is_blank x = false | [] => True end) -> valid_utf8 s = true ->
  run c comment_line p (b ++ s) = Fail.
Proof.
  intros Hb Hs Hv. unfold comment_line. rewrite run_call.
  change (snd (grammar R_comment_line)) with (Seq (Rep ws) (Seq comment (Opt NEWLINE))).
  change (rule_inner (fst (grammar R_comment_line)) c) with c. rewrite run_seq by reflexivity.
  rewrite blanks_fwd; [|exact Hb|destruct s; tauto].
  rewrite run_seq by reflexivity. rewrite run_comment by exact Hv. destruct s as [|x s]; [reflexivity|].
  destruct (x =? HASH)%N eqn:E; [|reflexivity]. bool_hyps. tauto.
Qed.

Lemma empty_line_fwd b n s c p : blanks b -> newline_here (n ++ s) = true ->
  strip_newline (n ++ s) = Some (length n, s) ->
  run c empty_line p (b ++ n ++ s) = Done (p + length b + length n) s [].
Proof.
  intros Hb Hh Hn. unfold empty_line. rewrite run_call.
  change (snd (grammar R_empty_line)) with (Seq (Rep ws) NEWLINE).
  change (rule_inner (fst (grammar R_empty_line)) c) with c. rewrite run_seq by reflexivity.
  rewrite blanks_fwd; [|exact Hb|].
  - rewrite run_newline, Hn. reflexivity.
  - destruct (n ++ s) as [|x u]; [exact I|]. cbn in Hh. unfold is_newline_byte in Hh. unfold is_blank.
    apply orb_true_iff in Hh. rewrite !N.eqb_eq in Hh. destruct Hh; subst; reflexivity.
Qed.

Lemma empty_line_fails b s c p : blanks b -> newline_here s = false -> blank_here s = false ->
  run c empty_line p (b ++ s) = Fail.
Proof.
  intros Hb Hs Hbl. unfold empty_line. rewrite run_call.
  change (snd (grammar R_empty_line)) with (Seq (Rep ws) NEWLINE).
  change (rule_inner (fst (grammar R_empty_line)) c) with c. rewrite run_seq by reflexivity.
  rewrite blanks_fwd; [|exact Hb|destruct s; [exact I|exact Hbl]].
  rewrite run_newline. apply strip_newline_none in Hs. rewrite Hs. reflexivity.
Qed.

(** ** Gaps *)

(** Blanks before something that is neither a comment nor the end of a line *)
Definition no_line (s : bytes) : Prop :=
  exists b t, s = b ++ t /\ blanks b /\ match t with
    | x :: _ => is_blank x = false /\ is_newline_byte x = false /\ x <> HASH | [] => True end.

Definition line_item : expr := Alt comment_line empty_line.

Lemma line_item_fails s p : no_line s -> valid_utf8 s = true -> run ctx0 line_item p s = Fail.
Proof.
  intros (b & t & -> & Hb & Ht) Hv. rewrite valid_blanks in Hv by exact Hb. unfold line_item. rewrite run_alt by reflexivity.
  rewrite comment_line_fails; [|exact Hb|destruct t; tauto|exact Hv].
  apply empty_line_fails; [exact Hb|destruct t; [reflexivity|apply Ht]|destruct t; [reflexivity|apply Ht]].
Qed.

Lemma skipped_after_lf k w : skipped_lines k (LF :: w) -> skipped_lines k w.
Proof.
  intros H. inversion H as [|k0 b n w0 Hb Hn Hw Ek Ew|k0 b t n w0 Hb Ht Hn Hw Ek Ew].
  - destruct Hb as [|x b Hx Hb]; [|cbn [app] in Ew; injection Ew as -> _; discriminate].
    cbn [app] in Ew. destruct Hn; cbn [app] in Ew; [|discriminate|discriminate]. injection Ew as ->. subst. exact Hw.
  - destruct Hb as [|x b Hx Hb]; [|cbn [app] in Ew; injection Ew as -> _; discriminate].
    destruct Ht as (u & -> & _). discriminate.
Qed.

Lemma skipped_no_line_lf k w s : skipped_lines k w -> no_line s -> begins_lf (w ++ s) -> exists u, w = LF :: u.
Proof.
  intros Hw (b & t & -> & Hb & Ht) [u E]. destruct w as [|x w]; [|cbn [app] in E; injection E as -> _; exists w; reflexivity].
  exfalso. cbn [app] in E. destruct Hb as [|y b Hy Hb].
  - cbn [app] in E. subst t. destruct Ht as (_ & K & _). discriminate.
  - cbn [app] in E. injection E as -> _. discriminate.
Qed.

Lemma skipped_fwd n : forall k l, length l <= n -> skipped_lines k l -> forall s p, no_line s ->
  valid_utf8 (l ++ s) = true ->
  exists f, run ctx0 (Rep line_item) p (l ++ s) = Done (p + length l) s f /\ comments f /\ length f = k.
Proof.
  induction n as [|n IH]; intros k l Hlen Hl s p Hs Hv.
  - destruct l; [|cbn in Hlen; lia]. cbn [app length] in *. exists [].
    rewrite run_rep by reflexivity. rewrite line_item_fails by assumption. rewrite Nat.add_0_r.
    split; [reflexivity|]. split; [constructor|]. 
    inversion Hl as [|k0 b n w0 Hb Hn Hw Ek Ew|k0 b t n w0 Hb Ht Hn Hw Ek Ew]; [reflexivity| |].
    + destruct Hn; destruct b; discriminate.
    + destruct Ht as (u & -> & _). destruct b; discriminate.
  - destruct Hl as [|k b m w Hb Hm Hw|k b t m w Hb Ht Hm Hw].
    + cbn [app length] in *. exists []. rewrite run_rep by reflexivity. rewrite line_item_fails by assumption.
      rewrite Nat.add_0_r. split; [reflexivity|]. split; [constructor|reflexivity].
    + rewrite <- !app_assoc in *. rewrite !app_length in *. pose proof (newline_len m Hm).
      rewrite run_rep by reflexivity. unfold line_item at 1. rewrite run_alt by reflexivity.
      assert (Hvs : valid_utf8 (w ++ s) = true) by (rewrite valid_blanks, valid_newline in Hv by assumption; exact Hv).
      rewrite comment_line_fails; [|exact Hb| |rewrite valid_blanks in Hv by exact Hb; exact Hv].
      2:{ destruct Hm; cbn [app]; split; try discriminate; reflexivity. }
      destruct (begins_lf_dec m (w ++ s) Hm) as [[-> Hlf]|Hlf].
      * destruct (skipped_no_line_lf _ _ _ Hw Hs Hlf) as (u & ->). apply skipped_after_lf in Hw.
        cbn [length app] in *.
        change (b ++ CR :: LF :: u ++ s) with (b ++ [CR; LF] ++ u ++ s).
        rewrite empty_line_fwd; [|exact Hb|reflexivity|reflexivity]. cbn [length].
        destruct (IH k u ltac:(lia) Hw s (p + length b + 2) Hs) as (f & -> & Hc & Hk).
        { rewrite valid_utf8_cons_ascii in Hvs by reflexivity. exact Hvs. }
        exists f. cbn [app]. split; [f_equal; lia|auto].
      * rewrite empty_line_fwd; [|exact Hb|apply newline_head; exact Hm|apply strip_newline_fwd; assumption].
        destruct (IH k w ltac:(lia) Hw s (p + length b + length m) Hs Hvs) as (f & -> & Hc & Hk).
        exists f. cbn [app]. split; [f_equal; lia|auto].
    + rewrite <- !app_assoc in *. rewrite !app_length in *. pose proof (newline_len m Hm).
      rewrite run_rep by reflexivity. unfold line_item at 1. rewrite run_alt by reflexivity.
      assert (Hvs : valid_utf8 (w ++ s) = true)
        by (rewrite valid_blanks, valid_comment, valid_newline in Hv by assumption; exact Hv).
      destruct (begins_lf_dec m (w ++ s) Hm) as [[-> Hlf]|Hlf].
      * destruct (skipped_no_line_lf _ _ _ Hw Hs Hlf) as (u & ->). apply skipped_after_lf in Hw.
        cbn [length app] in *.
        change (b ++ t ++ CR :: LF :: u ++ s) with (b ++ t ++ [CR; LF] ++ u ++ s).
        rewrite comment_line_fwd; [|exact Hb|exact Ht|right; reflexivity|exact Hv|left; reflexivity]. cbn [length].
        destruct (IH k u ltac:(lia) Hw s (p + length b + length t + 2) Hs) as (f & -> & Hc & Hk).
        { rewrite valid_utf8_cons_ascii in Hvs by reflexivity. exact Hvs. }
        eexists. split; [f_equal; lia|]. cbn [wrap emits ctx0 look atom negb andb app length]. split; [constructor; [reflexivity|exact Hc]|congruence].
      * rewrite comment_line_fwd; [|exact Hb|exact Ht|right; apply newline_head; exact Hm|exact Hv|left; apply strip_newline_fwd; assumption].
        destruct (IH k w ltac:(lia) Hw s (p + length b + length t + length m) Hs Hvs) as (f & -> & Hc & Hk).
        eexists. split; [f_equal; lia|]. cbn [wrap emits ctx0 look atom negb andb app length]. split; [constructor; [reflexivity|exact Hc]|congruence].
Qed.

Lemma cont_rest_fwd b n s : blanks b -> newline n -> (n = [CR] -> ~ begins_lf s) ->
  cont_rest ((BSLASH :: b ++ n) ++ s) = Some (length (BSLASH :: b ++ n), s).
Proof.
  intros Hb Hn Hs. cbn [app cont_rest]. change (BSLASH =? BSLASH)%N with true. cbn iota.
  rewrite <- app_assoc. destruct (blanks_split b (n ++ s) Hb (newline_not_blank n s Hn)) as [-> ->].
  rewrite strip_newline_fwd by assumption. cbn [length]. rewrite app_length. reflexivity.
Qed.

Lemma continues_cont k s : continuation k -> continues (k ++ s) = true.
Proof.
  intros (b & n & -> & Hb & Hn). unfold continues. cbn [app cont_rest]. change (BSLASH =? BSLASH)%N with true. cbn iota.
  rewrite <- app_assoc. destruct (blanks_split b (n ++ s) Hb (newline_not_blank n s Hn)) as [-> ->].
  pose proof (newline_head n s Hn) as K. destruct (strip_newline (n ++ s)) as [[m u]|] eqn:E; [reflexivity|].
  apply strip_newline_none in E. congruence.
Qed.

Lemma solid_not_lf c t : solid c -> ~ begins_lf (c :: t).
Proof. intros (_ & H & _) [u E]. injection E as -> _. discriminate. Qed.

(** A gap, then something [s] that does not continue it *)
Definition gap_stops (s : bytes) : Prop :=
  match s with x :: _ => solid x | [] => True end.

Lemma gap_stops_here s : gap_stops s -> gap_here s = false.
Proof.
  destruct s as [|x s]; [reflexivity|]. intros (H1 & H2 & H3 & H4). cbn [gap_here]. rewrite H1. cbn [orb].
  destruct (continues (x :: s)) eqn:E; [|reflexivity]. apply continues_ascii in E. congruence.
Qed.

Lemma gap_item_fails c s p : gap_here s = false -> valid_utf8 s = true -> run c arg_ws_item p s = Fail.
Proof.
  intros Hs Hv. destruct (succeeds_gap_item c p s Hv) as [(q & s' & f & _ & E)|(E & _)]; [congruence|exact E].
Qed.

Lemma gap_fails c s p : gap_here s = false -> valid_utf8 s = true -> run c arg_ws p s = Fail.
Proof.
  intros Hs Hv. destruct (succeeds_gap c p s Hv) as [(q & s' & f & _ & E)|(E & _)]; [congruence|exact E].
Qed.

Lemma gap_no_line k g s : gap k g -> gap_stops s -> no_line (g ++ s).
Proof.
  intros Hg Hs. induction Hg as [|k x w Hx Hg IH|j k c l w Hc Hl Hg IH].
  - exists [], s. split; [reflexivity|]. split; [constructor|]. destruct s as [|y s]; [exact I|].
    destruct Hs as (H1 & H2 & H3 & _). auto.
  - destruct IH as (b & t & E & Hb & Ht). exists (x :: b), t. cbn [app]. rewrite E. split; [reflexivity|].
    split; [constructor; assumption|exact Ht].
  - exists [], ((c ++ l ++ w) ++ s). split; [reflexivity|]. split; [constructor|].
    destruct Hc as (b & n & -> & _). cbn [app]. split; [reflexivity|]. split; [reflexivity|discriminate].
Qed.

Lemma gap_head k g : gap k g -> match g with x :: _ => is_blank x = true \/ x = BSLASH | [] => True end.
Proof.
  intros H. destruct H as [|k x w Hx _|j k c l w (b & n & -> & _) _ _]; [exact I|left; exact Hx|right; reflexivity].
Qed.

Lemma valid_app_r a b : valid_utf8 (a ++ b) = true -> valid_utf8 a = true -> valid_utf8 b = true.
Proof. intros H Ha. rewrite valid_utf8_app in H by exact Ha. exact H. Qed.

Lemma valid_skipped k l s : skipped_lines k l -> valid_utf8 (l ++ s) = valid_utf8 s.
Proof.
  induction 1 as [|k b n w Hb Hn Hw IH|k b t n w Hb Ht Hn Hw IH]; [reflexivity| |]; rewrite <- !app_assoc.
  - rewrite valid_blanks, valid_newline by assumption. exact IH.
  - rewrite valid_blanks, valid_comment, valid_newline by assumption. exact IH.
Qed.

Lemma valid_gap k g s : gap k g -> valid_utf8 (g ++ s) = valid_utf8 s.
Proof.
  induction 1 as [|k x w Hx Hg IH|j k c l w Hc Hl Hg IH]; [reflexivity| |].
  - cbn [app]. rewrite valid_utf8_cons_ascii by (apply blank_ascii; exact Hx). exact IH.
  - rewrite <- !app_assoc, valid_continuation, (valid_skipped _ _ _ Hl) by exact Hc. exact IH.
Qed.

Lemma gap_star_fwd k g : gap k g -> forall s p, gap_stops s -> valid_utf8 s = true ->
  exists f, run ctx0 (Rep arg_ws_item) p (g ++ s) = Done (p + length g) s f /\ comments f /\ length f = k.
Proof.
  induction 1 as [|k x w Hx Hg IH|j k c l w Hc Hl Hg IH]; intros s p Hs Hv.
  - exists []. cbn [app length]. rewrite run_rep by reflexivity.
    rewrite gap_item_fails by (assumption || apply gap_stops_here; assumption). rewrite Nat.add_0_r.
    split; [reflexivity|]. split; [constructor|reflexivity].
  - cbn [app]. rewrite run_rep by reflexivity. unfold arg_ws_item at 1. rewrite run_alt by reflexivity.
    rewrite class_ws, Hx. destruct (IH s (p + 1) Hs Hv) as (f & -> & Hc & Hk). exists f.
    cbn [app length]. split; [f_equal; lia|auto].
  - assert (Hv2 : valid_utf8 (w ++ s) = true) by (rewrite (valid_gap k w s Hg); exact Hv).
    pose proof (gap_no_line k w s Hg Hs) as Hnl.
    rewrite run_rep by reflexivity. unfold arg_ws_item at 1. rewrite run_alt by reflexivity.
    rewrite class_ws. destruct Hc as (b & n & -> & Hb & Hn).
    rewrite <- !app_assoc. cbn [app]. change (is_blank BSLASH) with false. cbn iota.
    rewrite run_seq by reflexivity. rewrite run_continuation.
    assert (El : forall t, BSLASH :: (b ++ n) ++ t = (BSLASH :: b ++ n) ++ t) by reflexivity.
    destruct (begins_lf_dec n (l ++ w ++ s) Hn) as [[-> Hlf]|Hlf].
    + destruct (skipped_no_line_lf _ _ _ Hl Hnl Hlf) as (u & ->). apply skipped_after_lf in Hl.
      cbn [app].
      change (BSLASH :: (b ++ [CR]) ++ LF :: u ++ w ++ s) with ((BSLASH :: b ++ [CR]) ++ LF :: u ++ w ++ s).
      assert (E : (BSLASH :: b ++ [CR]) ++ LF :: u ++ w ++ s = (BSLASH :: b ++ [CR; LF]) ++ u ++ w ++ s).
      { cbn [app]. rewrite <- !app_assoc. reflexivity. }
      rewrite E, cont_rest_fwd; [|exact Hb|constructor|discriminate].
      destruct (skipped_fwd (length u) j u (le_n _) Hl (w ++ s) (p + length (BSLASH :: b ++ [CR; LF])) Hnl) as (f1 & E1 & Hc1 & Hk1).
      { rewrite (valid_skipped _ _ _ Hl). exact Hv2. }
      change (Rep (Alt comment_line empty_line)) with (Rep line_item). rewrite E1.
      destruct (IH s (p + length (BSLASH :: b ++ [CR; LF]) + length u) Hs Hv) as (f2 & -> & Hc2 & Hk2).
      exists (f1 ++ f2). cbn [app]. split; [f_equal; cbn [length]; rewrite !app_length; cbn [length]; rewrite app_length; cbn [length]; lia|].
      split; [apply comments_app; assumption|rewrite app_length; congruence].
    + rewrite El, cont_rest_fwd by assumption.
      destruct (skipped_fwd (length l) j l (le_n _) Hl (w ++ s) (p + length (BSLASH :: b ++ n)) Hnl) as (f1 & E1 & Hc1 & Hk1).
      { rewrite (valid_skipped _ _ _ Hl). exact Hv2. }
      change (Rep (Alt comment_line empty_line)) with (Rep line_item). rewrite E1.
      destruct (IH s (p + length (BSLASH :: b ++ n) + length l) Hs Hv) as (f2 & -> & Hc2 & Hk2).
      exists (f1 ++ f2). cbn [app]. split; [f_equal; cbn [length]; rewrite !app_length; lia|].
      split; [apply comments_app; assumption|rewrite app_length; congruence].
Qed.

Lemma gap_fwd k g s p : gap k g -> g <> [] -> gap_stops s -> valid_utf8 s = true ->
  exists f, run ctx0 arg_ws p (g ++ s) = Done (p + length g) s f /\ comments f /\ length f = k.
Proof.
  intros Hg Hne Hs Hv. destruct (gap_star_fwd k g Hg s p Hs Hv) as (f & E & Hc & Hk). exists f.
  split; [|auto]. unfold arg_ws. rewrite run_call. cbn [grammar fst snd rule_inner rule_outer rule_tokens].
  unfold rep1. rewrite run_seq by reflexivity. rewrite run_rep in E by reflexivity.
  destruct (run ctx0 arg_ws_item p (g ++ s)) as [q s1 f1| |] eqn:Ei.
  - destruct (run ctx0 (Rep arg_ws_item) q s1); [exact E|discriminate|discriminate].
  - injection E as _ E _. destruct g; [congruence|]. exfalso.
    apply (f_equal (@length N)) in E. rewrite app_length in E. cbn in E. lia.
  - discriminate.
Qed.

Lemma gap_maybe_fwd k g s p : gap k g -> gap_stops s -> valid_utf8 s = true ->
  exists f, run ctx0 arg_ws_maybe p (g ++ s) = Done (p + length g) s f /\ comments f /\ length f = k.
Proof.
  intros Hg Hs Hv. destruct (gap_star_fwd k g Hg s p Hs Hv) as (f & E & Hc & Hk). exists f.
  split; [|auto]. unfold arg_ws_maybe. rewrite run_call. cbn [grammar fst snd rule_inner rule_outer rule_tokens].
  rewrite E. reflexivity.
Qed.

(** Blanks before the end of a line *)
Lemma blank_gap_fwd b s c p : blanks b -> b <> [] -> at_line_end s -> valid_utf8 s = true ->
  run c arg_ws p (b ++ s) = Done (p + length b) s [].
Proof.
  intros Hb Hne Hs Hv. unfold arg_ws. rewrite run_call. cbn [grammar fst snd rule_inner rule_outer rule_tokens].
  assert (K : forall b, blanks b -> forall p, run c (Rep arg_ws_item) p (b ++ s) = Done (p + length b) s []).
  { induction 1 as [|x b' Hx Hb' IH]; intros p'; rewrite run_rep by reflexivity.
    - cbn [app length]. rewrite gap_item_fails; [rewrite Nat.add_0_r; reflexivity| |exact Hv].
      destruct Hs as [-> |Hs]; [reflexivity|]. destruct s as [|y s]; [reflexivity|]. cbn in Hs. cbn [gap_here].
      destruct (is_blank y) eqn:E; [|destruct (continues (y :: s)) eqn:E2; [apply continues_ascii in E2; subst; discriminate|reflexivity]].
      unfold is_newline_byte in Hs. unfold is_blank in E. apply orb_true_iff in E. rewrite !N.eqb_eq in E. destruct E; subst; discriminate.
    - cbn [app length]. unfold arg_ws_item at 1. rewrite run_alt by reflexivity. rewrite class_ws, Hx. rewrite IH.
      cbn [app]. f_equal. lia. }
  destruct Hb as [|x b Hx Hb]; [congruence|]. unfold rep1. rewrite run_seq by reflexivity.
  cbn [app length]. unfold arg_ws_item at 1. rewrite run_alt by reflexivity. rewrite class_ws, Hx, (K b Hb). cbn [app]. f_equal. lia.
Qed.
