(** Rewriting the image of a FROM in any document that parses: see Swap.v for the
    grammar and ConvertMove.v for the conversion. *)

From Coq Require Import String.
From Verif Require Import Bytes BytesFacts Grammar Peg Result Ast Splicer Image Convert Dockerfile
  PegFacts SpecImage ImageFacts SpecSyntax SpecMove PegRules PegTokens PegQuoted Sound SoundInstr SoundDoc Shift Swap ConvertMove.
Local Open Scope nat_scope.

(** ** Gaps *)

Definition ends_broken (w : bytes) : Prop := exists a z, w = a ++ [z] /\ is_break z = true.

Lemma ends_app a b : ends_broken b -> ends_broken (a ++ b).
Proof. intros (x & z & -> & H). exists (a ++ x), z. rewrite app_assoc. auto. Qed.

Lemma newline_ends n : newline n -> ends_broken n.
Proof. intros []; [exists [], LF|exists [CR], LF|exists [], CR]; split; reflexivity. Qed.

Lemma skipped_ends k l : skipped_lines k l -> l = [] \/ ends_broken l.
Proof.
  induction 1 as [|k b n w Hb Hn Hw IH|k b t n w Hb Ht Hn Hw IH]; [left; reflexivity| |]; right.
  - apply ends_app. destruct IH as [->|IH]; [rewrite app_nil_r; apply newline_ends; exact Hn|apply ends_app; exact IH].
  - do 2 apply ends_app. destruct IH as [->|IH]; [rewrite app_nil_r; apply newline_ends; exact Hn|apply ends_app; exact IH].
Qed.

Lemma gap_ends k w : gap k w -> w = [] \/ ends_broken w.
Proof.
  induction 1 as [|k c w Hc Hw IH|j k c l w Hc Hl Hw IH]; [left; reflexivity| |]; right.
  - change (c :: w) with ([c] ++ w). destruct IH as [->|IH]; [|apply ends_app; exact IH].
    exists [], c. split; [reflexivity|]. unfold is_break. rewrite Hc. reflexivity.
  - assert (Ec : ends_broken c).
    { destruct Hc as (b & n & -> & _ & Hn). change (BSLASH :: b ++ n) with ((BSLASH :: b) ++ n). apply ends_app, newline_ends, Hn. }
    destruct IH as [->|IH]; [|do 2 apply ends_app; exact IH]. rewrite app_nil_r.
    destruct (skipped_ends _ _ Hl) as [->|El]; [rewrite app_nil_r; exact Ec|apply ends_app; exact El].
Qed.

Lemma gap_head k x w : gap k (x :: w) -> is_blank x = true \/ x = BSLASH.
Proof.
  intros H. inversion H as [|k' c w' Hc Hw|j k' c l w' Hc Hl Hw Hk E]; subst; [left; assumption|].
  destruct Hc as (b & n & -> & _). injection E as <- _. right. reflexivity.
Qed.

Definition head_ok (B : bytes) : Prop := match B with c :: _ => image_char c = false /\ c <> EQUALS | [] => True end.

Lemma head_blank c t : is_blank c = true -> head_ok (c :: t).
Proof. unfold is_blank. intros H. bool_hyps. destruct H; bool_hyps; subst; split; (reflexivity || discriminate). Qed.

(** ** The tokens of a FROM *)

Lemma comments_not r f : comments f -> r <> R_comment -> Forall (fun t => t_rule t <> r) f.
Proof. intros H Hr. eapply Forall_impl; [|exact H]. cbn. congruence. Qed.

Lemma flags_not p s q s' f : valid_utf8 s = true -> run ctx0 (Rep (Seq arg_ws (Call R_from_flag))) p s = Done q s' f ->
  Forall (fun t => t_rule t <> R_from_image) f.
Proof.
  intros Hv H. destruct (rep_ind ctx0 (Seq arg_ws (Call R_from_flag)) (fun p w f s' => valid_utf8 (w ++ s') = true ->
    Forall (fun t => t_rule t <> R_from_image) f) eq_refl) with (3 := H) as (w & -> & -> & K).
  - intros. constructor.
  - clear. intros p w1 s1 f1 w2 f2 s' H -> Hne IH Hv. rewrite <- app_assoc in Hv.
    specialize (IH (run_valid _ _ _ _ _ _ _ H Hv eq_refl)). apply Forall_app. split; [|exact IH].
    seq_open H Hv H1. apply gap_inv in H1; [|exact Hv]. destruct H1 as (w & _ & _ & Hc & _).
    apply Forall_app. split; [apply comments_not; [exact Hc|discriminate]|].
    apply token_inv in H; [|discriminate]. destruct H as (f' & _ & ->). constructor; [discriminate|constructor].
  - apply K. exact Hv.
Qed.

Lemma alias_not p s q s' f : valid_utf8 s = true -> run ctx0 (Opt (Call R_from_alias_outer)) p s = Done q s' f ->
  Forall (fun t => t_rule t <> R_from_image) f /\ ((s' = s /\ q = p) \/ head_ok s).
Proof.
  intros Hv H. apply opt_inv in H; [|reflexivity]. destruct H as [H|(_ & -> & -> & ->)]; [|split; [constructor|left; auto]].
  call_open H. cbn [grammar fst snd rule_inner rule_outer rule_tokens] in *.
  seq_open H Hv H1. seq_open H Hv0 H2. seq_open H Hv1 H3.
  apply token_inv in H; [|discriminate]. destruct H as (fa & H & ->).
  apply gap_inv in H3; [|exact Hv1]. destruct H3 as (g2 & _ & _ & Hc2 & _).
  pose proof (run_strict _ _ _ _ _ _ _ H2 eq_refl) as L.
  apply (keyword_inv "as") in H2; [|reflexivity]. destruct H2 as (k & -> & -> & Hk & ->).
  apply gap_inv_more in H1; [|exact Hv|].
  2: { intros K. apply (f_equal (@length N)) in K. rewrite app_length in *. cbn [length] in K. lia. }
  destruct H1 as (g1 & -> & _ & Hc1 & Hne & Hg1). split.
  - repeat (apply Forall_app; split); try (apply comments_not; [assumption|discriminate]); [constructor|].
    constructor; [discriminate|constructor].
  - right. destruct g1 as [|x g1]; [congruence|]. destruct (gap_head _ _ _ Hg1) as [K| ->]; [apply head_blank; exact K|].
    cbn. split; [reflexivity|discriminate].
Qed.

Lemma keyword_head w s : keyword "from" w -> exists c t, w ++ s = c :: t /\ lower_byte c = 102%N.
Proof. intros H. destruct w as [|c w]; [discriminate|]. unfold keyword in H. cbn in H. injection H as H _. exists c, (w ++ s). auto. Qed.

Lemma from_tokens p s q s' f : valid_utf8 s = true -> run ctx0 (Call R_from) p s = Done q s' f ->
  exists K X B c1 c2, s = K ++ X ++ B /\ image_text X /\ valid_utf8 K = true /\ valid_utf8 B = true /\
    (exists k0 K1 z, K = k0 :: K1 ++ [z] /\ lower_byte k0 = 102%N /\ is_break z = true) /\
    ((s' = B /\ match B with c :: _ => image_char c = false | [] => True end) \/ head_ok B) /\
    (forall P, p = length P -> from_head P K X B) /\
    f = [Node R_from p q (c1 ++ Node R_from_image (p + length K) (p + length K + length X) [] :: c2)] /\
    Forall (fun t => t_rule t <> R_from_image) c1 /\ Forall (fun t => t_rule t <> R_from_image) c2 /\
    Forall (tree_within p (p + length K)) c1 /\ Forall (tree_within (p + length K + length X) q) c2 /\
    p + length K + length X <= q.
Proof.
  intros Hv H. apply token_inv in H; [|discriminate]. destruct H as (f' & H & ->).
  cbn [grammar fst snd rule_inner rule_outer] in H. change (rule_outer Normal ctx0) with ctx0 in H.
  pose proof (run_ordered _ _ _ _ _ _ _ H) as Ho.
  apply seq_inv in H; [|reflexivity]. destruct H as (p1 & s1 & f1 & f2 & R1 & H & ->).
  apply seq_inv in H; [|reflexivity]. destruct H as (p2 & s2 & f3 & f4 & R2 & H & ->).
  apply seq_inv in H; [|reflexivity]. destruct H as (p3 & s3 & f5 & f6 & R3 & H & ->).
  apply seq_inv in H; [|reflexivity]. destruct H as (p4 & s4 & f7 & f8 & R4 & R5 & ->).
  pose proof (run_valid _ _ _ _ _ _ _ R1 Hv eq_refl) as V1.
  pose proof (run_valid _ _ _ _ _ _ _ R2 V1 eq_refl) as V2.
  pose proof (run_valid _ _ _ _ _ _ _ R3 V2 eq_refl) as V3.
  pose proof (run_valid _ _ _ _ _ _ _ R4 V3 eq_refl) as V4.
  pose proof (flags_not _ _ _ _ _ V1 R2) as N2.
  pose proof (alias_not _ _ _ _ _ V4 R5) as [N5 HB].
  pose proof (run_strict _ _ _ _ _ _ _ R4 eq_refl) as L4.
  assert (N3 : Forall (fun t => t_rule t <> R_from_image) f5).
  { pose proof R3 as K. apply gap_inv in K; [|exact V2]. destruct K as (w & _ & _ & Hc & _). apply comments_not; [exact Hc|discriminate]. }
  assert (Hk : exists kw, s = kw ++ s1 /\ p1 = p + length kw /\ keyword "from" kw /\ f1 = []).
  { pose proof R1 as K. apply (keyword_inv "from") in K; [|reflexivity]. exact K. }
  destruct Hk as (kw & -> & -> & Hkw & ->).
  destruct (run_consumes _ _ _ _ _ _ _ R2) as (fl & -> & ->).
  assert (Hg : exists w, s2 = w ++ s3 /\ p3 = p + length kw + length fl + length w /\ w <> [] /\ exists k, gap k w).
  { pose proof R3 as K. apply gap_inv_more in K; [|exact V2|intros ->; cbn in L4; lia].
    destruct K as (w & E1 & E2 & _ & Hne & Hg). exists w. split; [exact E1|]. split; [exact E2|]. eauto. }
  destruct Hg as (w & -> & -> & Hne & k & Hg).
  apply token_inv in R4; [|discriminate]. destruct R4 as (fi & R4 & ->). cbn [grammar fst snd] in R4.
  apply (class_rep1_inv _ image_char) in R4; [|reflexivity|apply class_image].
  destruct R4 as (img & -> & -> & Hin & Hi & -> & Hx).
  pose proof (run_consumes _ _ _ _ _ _ _ R5) as (al & _ & Eq).
  exists (kw ++ fl ++ w), img, s4, (f3 ++ f5), f8.
  assert (Lk : p + length (kw ++ fl ++ w) = p + length kw + length fl + length w) by (rewrite !app_length; lia).
  assert (Ef : [] ++ f3 ++ f5 ++ [Node R_from_image (p + length kw + length fl + length w) (p + length kw + length fl + length w + length img) []] ++ f8 =
    (f3 ++ f5) ++ Node R_from_image (p + length (kw ++ fl ++ w)) (p + length (kw ++ fl ++ w) + length img) [] :: f8).
  { rewrite Lk. cbn [app]. rewrite <- !app_assoc. reflexivity. }
  rewrite Ef in Ho |- *. destruct (ordered_split _ _ _ _ _ Ho) as (O1 & O2 & O3). cbn [t_start t_stop] in O1, O3.
  split; [rewrite <- !app_assoc; reflexivity|]. split; [split; assumption|].
  split. { apply (valid_utf8_app_l _ (img ++ s4)); [rewrite <- !app_assoc; exact Hv|exact V3]. }
  split; [exact V4|]. split.
  { destruct (keyword_head kw fl Hkw) as (c & t & Ec & Hc). destruct (gap_ends _ _ Hg) as [->|(a & z & Ea & Hz)]; [congruence|].
    exists c, (t ++ a), z. split; [|split; assumption]. rewrite app_assoc, Ec, Ea. cbn [app]. rewrite <- app_assoc. reflexivity. }
  split. { destruct HB as [[-> _]|HB]; [left; split; [reflexivity|exact Hx]|right; exact HB]. }
  split. { intros P ->. exists (length P + length kw), (fl ++ w ++ img ++ s4), [], (length P + length kw + length fl), (w ++ img ++ s4), f3, f5.
    split; [rewrite <- !app_assoc; exact R1|]. split; [exact R2|]. unfold before. rewrite app_length, Lk. exact R3. }
  split; [reflexivity|]. split; [apply Forall_app; split; assumption|]. split; [exact N5|]. split; [exact O1|]. split; [exact O3|].
  rewrite Lk. lia.
Qed.

(** ** Where a FROM is in a document *)

Lemma step_token p s q s' f t : run ctx0 (Opt (Alt (Call R_step) comment)) p s = Done q s' f -> In t f -> t_rule t = R_from ->
  run ctx0 (Call R_from) p s = Done q s' [t].
Proof.
  intros H Ht Hr. apply opt_inv in H; [|reflexivity]. destruct H as [H|(_ & _ & _ & ->)]; [|destruct Ht].
  apply alt_inv in H; [|reflexivity]. destruct H as [H|[_ H]].
  - apply call_inv in H. destruct H as (f' & H & ->). cbn [grammar fst snd rule_inner rule_tokens] in *.
    apply alt_inv in H; [|reflexivity]. destruct H as [H|[_ H]].
    + pose proof H as K. apply token_inv in K; [|discriminate]. destruct K as (l & _ & ->). destruct Ht as [<-|[]]. exact H.
    + exfalso. do 7 (apply alt_inv in H; [|reflexivity]; destruct H as [H|[_ H]];
        [apply token_inv in H; [|discriminate]; destruct H as (l & _ & ->); destruct Ht as [<-|[]]; discriminate|]).
      apply token_inv in H; [|discriminate]; destruct H as (l & _ & ->); destruct Ht as [<-|[]]; discriminate.
  - exfalso. apply token_inv in H; [|discriminate]; destruct H as (l & _ & ->); destruct Ht as [<-|[]]; discriminate.
Qed.

Lemma meta_token p s q s' f t : run ctx0 (Call R_meta_step) p s = Done q s' f -> In t f -> t_rule t = R_from ->
  exists b s1 q1 b2, s = b ++ s1 /\ blanks b /\ run ctx0 (Call R_from) (p + length b) s1 = Done q1 (b2 ++ s') [t] /\ blanks b2.
Proof.
  intros H Ht Hr. apply call_inv in H. destruct H as (f' & H & ->). cbn [grammar fst snd rule_inner rule_tokens] in *.
  apply seq_inv in H; [|reflexivity]. destruct H as (q1 & s1 & f1 & f2 & H1 & H & ->).
  apply seq_inv in H; [|reflexivity]. destruct H as (q2 & s2 & f3 & f4 & H2 & H3 & ->).
  apply blanks_inv in H1. destruct H1 as (b & Hb & -> & -> & -> & _).
  apply blanks_inv in H3. destruct H3 as (b2 & Hb2 & -> & -> & -> & _).
  rewrite app_nil_r in Ht. cbn [app] in Ht. exists b, s1, q2, b2. split; [reflexivity|]. split; [exact Hb|].
  split; [eapply step_token; eassumption|exact Hb2].
Qed.

Notation line := (Seq NEWLINE (Call R_meta_step)).

Lemma lines_first p s q f : run ctx0 (Rep line) p s = Done q [] f -> s = [] \/ newline_here s = true.
Proof.
  intros H. rewrite run_rep in H by reflexivity. destruct (run ctx0 line p s) as [q1 s1 f1| |] eqn:E; [|injection H as _ <- _; auto|discriminate].
  right. apply seq_inv in E; [|reflexivity]. destruct E as (q2 & s2 & f2 & f3 & E & _). rewrite run_newline in E.
  destruct (newline_here s) eqn:K; [reflexivity|]. apply strip_newline_none in K. rewrite K in E. discriminate.
Qed.

Lemma lines_token t : t_rule t = R_from -> forall p s q f, run ctx0 (Rep line) p s = Done q [] f -> In t f ->
  exists u n s1 q1 s2 f1, s = u ++ n ++ s1 /\ newline n /\ run ctx0 (Call R_meta_step) (p + length u + length n) s1 = Done q1 s2 f1 /\
    In t f1 /\ (s2 = [] \/ newline_here s2 = true).
Proof.
  intros Hr p s. remember (length s) as m eqn:Em. revert p s Em. induction m as [m IH] using lt_wf_ind. intros p s Em q f H Ht.
  rewrite run_rep in H by reflexivity. destruct (run ctx0 line p s) as [q1 s1 f1| |] eqn:E; [|injection H as _ _ <-; destruct Ht|discriminate].
  destruct (run ctx0 (Rep line) q1 s1) as [q2 s2 f2| |] eqn:E2; try discriminate. injection H as <- -> <-.
  pose proof (run_strict _ _ _ _ _ _ _ E eq_refl) as L. apply in_app_or in Ht. destruct Ht as [Ht|Ht].
  - apply seq_inv in E; [|reflexivity]. destruct E as (q3 & s3 & f3 & f4 & E3 & E4 & ->).
    apply newline_inv in E3. destruct E3 as (n & Hn & -> & -> & ->). cbn [app] in Ht.
    exists [], n, s3, q1, s1, f4. cbn [app length]. rewrite Nat.add_0_r. split; [reflexivity|]. split; [exact Hn|]. split; [exact E4|].
    split; [exact Ht|]. apply (lines_first _ _ _ _ E2).
  - destruct (run_consumes _ _ _ _ _ _ _ E) as (w & -> & ->).
    destruct (IH (length s1) ltac:(lia) (p + length w) s1 eq_refl q2 f2 E2 Ht) as (u & n & s3 & q3 & s4 & f3 & -> & Hn & R & Hin & Hs).
    exists (w ++ u), n, s3, q3, s4, f3. rewrite app_length, <- app_assoc. split; [reflexivity|]. split; [exact Hn|].
    split; [|split; assumption]. rewrite Nat.add_assoc. exact R.
Qed.

Lemma blank_or_end b s' : blanks b -> s' = [] \/ newline_here s' = true ->
  match b ++ s' with c :: _ => is_break c = true | [] => True end.
Proof.
  intros Hb Hs. destruct Hb as [|c b Hc Hb].
  - cbn [app]. destruct s' as [|c s']; [exact I|]. destruct Hs as [Hs|Hs]; [discriminate|]. cbn in Hs. unfold is_break. rewrite Hs. apply orb_true_r.
  - cbn [app]. unfold is_break. rewrite Hc. reflexivity.
Qed.

Lemma document_token input q f t : valid_utf8 input = true ->
  run ctx0 (Call R_dockerfile) 0 input = Done q [] [Node R_dockerfile 0 q f] -> In t f -> t_rule t = R_from ->
  exists P U w s q1 s2, input = P ++ s /\ P = U ++ w /\ blanks w /\
    (U = [] \/ exists U0 n, U = U0 ++ [n] /\ is_newline_byte n = true) /\
    run ctx0 (Call R_from) (length P) s = Done q1 s2 [t] /\ match s2 with c :: _ => is_break c = true | [] => True end.
Proof.
  intros Hv R Ht Hr. apply call_inv in R. destruct R as (f' & R & Ef).
  cbn [grammar fst snd rule_inner rule_tokens wrap emits ctx0 look atom] in Ef. injection Ef as <-.
  cbn [grammar fst snd rule_inner] in R. change (rule_outer Normal ctx0) with ctx0 in R.
  apply seq_inv in R; [|reflexivity]. destruct R as (q0 & s0 & f0 & f1 & R0 & R & ->).
  rewrite run_soi in R0. cbn [Nat.eqb] in R0. injection R0 as <- <- <-. cbn [app] in Ht.
  apply seq_inv in R; [|reflexivity]. destruct R as (q1 & s1 & f2 & f3 & R1 & R & ->).
  apply seq_inv in R; [|reflexivity]. destruct R as (q2 & s2 & f4 & f5 & R2 & R3 & ->).
  assert (s2 = []) as ->.
  { apply call_inv in R3. destruct R3 as (fe & R3 & _). cbn [grammar fst snd] in R3. rewrite run_eoi in R3.
    destruct s2; [reflexivity|discriminate]. }
  assert (Ht5 : ~ In t f5).
  { intros K. apply token_inv in R3; [|discriminate]. destruct R3 as (l & _ & ->). destruct K as [<-|[]]. discriminate. }
  apply in_app_or in Ht. destruct Ht as [Ht|Ht]; [|apply in_app_or in Ht; destruct Ht as [Ht|Ht]; [|contradiction]].
  - destruct (meta_token _ _ _ _ _ _ R1 Ht Hr) as (b & s3 & q3 & b2 & -> & Hb & RF & Hb2). cbn [Nat.add] in RF.
    exists b, [], b, s3, q3, (b2 ++ s1). split; [reflexivity|]. split; [reflexivity|]. split; [exact Hb|]. split; [left; reflexivity|].
    split; [exact RF|]. apply blank_or_end; [exact Hb2|apply (lines_first _ _ _ _ R2)].
  - destruct (lines_token t Hr _ _ _ _ R2 Ht) as (u & n & s3 & q3 & s4 & f6 & -> & Hn & RM & Hin & Hs).
    destruct (meta_token _ _ _ _ _ _ RM Hin Hr) as (b & s5 & q5 & b2 & -> & Hb & RF & Hb2).
    destruct (run_consumes _ _ _ _ _ _ _ R1) as (w1 & -> & ->). cbn [Nat.add] in *.
    exists (w1 ++ u ++ n ++ b), (w1 ++ u ++ n), b, s5, q5, (b2 ++ s4).
    split; [rewrite <- !app_assoc; reflexivity|]. split; [rewrite <- !app_assoc; reflexivity|]. split; [exact Hb|]. split.
    { right. destruct Hn; [exists (w1 ++ u), LF|exists (w1 ++ u ++ [CR]), LF|exists (w1 ++ u), CR]; (split; [rewrite <- !app_assoc; reflexivity|reflexivity]). }
    split; [|apply blank_or_end; assumption]. rewrite !app_length, !Nat.add_assoc. exact RF.
Qed.
