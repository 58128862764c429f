(** From runs of the grammar to exact readings: the instructions, see SpecExact.v. *)

From Coq Require Import String.
From Verif Require Import Bytes BytesFacts Grammar Peg Result Ast Splicer Image Convert ImageFacts Dockerfile DocFacts
  PegFacts SpecImage SpecSyntax SpecClear SpecExact PegRules PegTokens PegQuoted Sound SoundRules SoundInstr
  Forward Forward2 Forward3 ListFacts Forward4 Exact Exact2 Exact3.
Local Open Scope nat_scope.

Lemma quoted_ahead_iff r k c p s : grammar r = (k, string_) -> look (rule_inner k c) = false -> valid_utf8 s = true ->
  (run c (Call r) p s = Fail <-> ~ quoted_ahead s).
Proof.
  intros Hr Hc Hv. split.
  - intros HF (q & t & -> & Hq). rewrite run_call, Hr in HF. cbn [fst snd] in HF.
    destruct (string_fwd (rule_inner k c) p q t Hc Hq Hv) as (ch & E). rewrite E in HF. discriminate.
  - intros N. apply fails_or; [destruct r; reflexivity|]. intros q s' f H. apply N.
    apply call_inv in H. destruct H as (f' & H & _). rewrite Hr in H. cbn [fst snd] in H.
    apply string_inv in H; [|exact Hv|exact Hc]. destruct H as (w & ch & -> & _ & Hw & _). exists w, s'. auto.
Qed.

Lemma closed_stop s : closed_end s -> no_blank s -> ends_here s.
Proof.
  intros (b & t & -> & Hb & Ht) H. destruct Hb as [|x b Hx Hb]; [apply ends_end; exact Ht|]. cbn in H. congruence.
Qed.

Section Inv.
Variable unq : bytes -> option bytes.
Variable src : bytes.
Notation pos := (pos src).
Notation yields := (yields unq src).
Notation arg_step := (arg_step unq src).
Notation label_step := (label_step unq src).
Notation labels_step := (labels_step unq src).
Notation copy_step := (copy_step unq src).
Notation pair_step := (pair_step unq src).
Notation single_step := (single_step unq src).
Notation pairs_step := (pairs_step unq src).

(** ** ARG *)

Lemma arg_value_exact p s q s' f : valid_utf8 s = true -> pos p s ->
  run ctx0 (Alt (Call R_arg_quoted_value) (Call R_arg_value)) p s = Done q s' f ->
  exists w, s = w ++ s' /\ q = p + length w /\ value_reads w s' /\
    forall n v, yields (fun st => exists x, string_at unq p w x /\ st = (n, Some x)) (for_each arg_step f (n, v)).
Proof.
  intros Hv Hp H. apply alt_inv in H; [|reflexivity]. destruct H as [H|[HF H]].
  - apply (quoted_rule_token_inv _ CompoundRule) in H; [|reflexivity|discriminate|discriminate|exact Hv].
    destruct H as (w & ch & -> & -> & Hw & ->). exists w. split; [reflexivity|]. split; [reflexivity|]. split; [left; exact Hw|].
    intros n v. cbn [for_each SoundInstr.arg_step t_rule].
    eapply yields_bind; [|intros a Ha; exact Ha].
    eapply yields_bind; [eapply parse_string_at; exact Hp|]. intros x Hx. cbn. eauto.
  - apply (quoted_ahead_iff _ CompoundRule) in HF; [|reflexivity|reflexivity|exact Hv].
    apply (word_rule_exact _ CompoundRule) in H; [|reflexivity|discriminate|exact Hv].
    destruct H as (w & ch & -> & -> & Hw & -> & Ho). exists w. split; [reflexivity|]. split; [reflexivity|]. split; [right; auto|].
    intros n v. cbn [for_each SoundInstr.arg_step t_rule].
    eapply yields_bind; [|intros a Ha; exact Ha].
    eapply yields_bind; [eapply parse_string_at; exact Hp|]. intros x Hx. cbn. eauto.
Qed.

Lemma arg_exact p s q s' f : valid_utf8 s = true -> pos p s -> run ctx0 (Call R_arg) p s = Done q s' f ->
  exists w t, s = w ++ s' /\ q = p + length w /\ f = [t] /\ t_rule t = R_arg /\
    yields (arg_reads unq p w s') (arg_of unq src t).
Proof.
  intros Hv Hp H. apply token_inv in H; [|discriminate]. destruct H as (f' & H & ->).
  cbn [grammar fst snd rule_inner rule_outer] in H.
  seq_open H Hv H1. seq_open H Hv0 H2. seq_open H Hv1 H3.
  apply (keyword_inv "arg") in H1; [|reflexivity]. destruct H1 as (kw & -> & -> & Hkw & ->).
  pose proof (pos_app _ _ _ _ Hp) as Hp1. pose proof (run_strict _ _ _ _ _ _ _ H3 eq_refl) as Hs.
  apply gap_inv_more in H2; [|exact Hv0|intros ->; cbn in Hs; lia].
  destruct H2 as (g & -> & -> & Hc & Hgn & Hg). pose proof (pos_app _ _ _ _ Hp1) as Hp2.
  apply arg_name_inv in H3. destruct H3 as (name & ch & -> & -> & Hn & ->). pose proof (pos_app _ _ _ _ Hp2) as Hp3.
  assert (En : forall st, for_each arg_step [Node R_arg_name (p + length kw + length g) (p + length kw + length g + length name) ch] (None, st)
     = Ok (Some (SpannedString (at_ (p + length kw + length g) name) name), st)).
  { intros st. cbn [for_each SoundInstr.arg_step t_rule]. rewrite (parse_string_plain unq src _ _ _ _ _ Hp2); [reflexivity|].
    apply word_class_not_quoted. destruct Hn as (c & t & -> & Hc1 & Ht). constructor; [apply is_alpha_word; exact Hc1|exact Ht]. }
  unfold arg_of. apply opt_inv in H; [|reflexivity]. destruct H as [H|(_ & -> & -> & ->)].
  - seq_open H Hv2 H4. apply str_inv in H4. destruct H4 as (-> & -> & ->). cbn [length] in *.
    pose proof (pos_app _ _ [EQUALS] _ Hp3) as Hp4.
    apply arg_value_exact in H; [|exact Hv3|exact Hp4]. destruct H as (value & -> & -> & Hval & Hy).
    eexists (kw ++ g ++ name ++ EQUALS :: value), _.
    split; [rewrite <- !app_assoc; reflexivity|]. split; [rewrite !app_length; cbn [length]; lia|].
    split; [reflexivity|]. split; [reflexivity|].
    match goal with |- context [for_each ?f _ (None, None)] => change f with arg_step end.
    cbn [t_children app]. rewrite for_each_gap by (assumption || apply arg_step_comments).
    match goal with |- context [for_each arg_step (?x :: ?l)] => change (x :: l) with ([x] ++ l) end.
    rewrite for_each_app, En. cbn [bind]. eapply yields_bind; [apply Hy|]. intros st (x & Hx & ->). cbn.
    eexists kw, _, g, name, (EQUALS :: value). split; [reflexivity|]. split; [exact Hkw|]. split; [exact Hg|]. split; [exact Hgn|].
    split; [exact Hn|]. split; [reflexivity|]. split; [cbn; span_eq|].
    right. exists value, x. auto.
  - eexists (kw ++ g ++ name ++ []), _.
    split; [rewrite app_nil_r, <- !app_assoc; reflexivity|]. split; [rewrite !app_length; cbn [length]; lia|].
    split; [reflexivity|]. split; [reflexivity|].
    match goal with |- context [for_each ?f _ (None, None)] => change f with arg_step end.
    cbn [t_children app]. rewrite for_each_gap by (assumption || apply arg_step_comments).
    rewrite app_nil_r, En. cbn.
    eexists kw, _, g, name, []. rewrite app_nil_r. split; [reflexivity|]. split; [exact Hkw|]. split; [exact Hg|]. split; [exact Hgn|].
    split; [exact Hn|]. split; [reflexivity|]. split; [cbn; span_eq|]. left. auto.
Qed.

(** ** LABEL *)

Lemma equals_rule_exact r k p s q s' f : grammar r = (k, any_equals) -> k <> Silent -> valid_utf8 s = true ->
  run ctx0 (Call r) p s = Done q s' f ->
  exists w ch, s = w ++ s' /\ q = p + length w /\ label_word w /\ f = [Node r p q ch] /\ label_over s'.
Proof.
  intros Hr Hk Hv H. apply token_inv in H; [|rewrite Hr; exact Hk]. destruct H as (f' & H & ->).
  rewrite Hr in H. cbn [fst snd] in H. apply label_word_exact in H; [|exact Hv].
  destruct H as (w & -> & -> & Hw & _ & Ho). exists w, f'. auto.
Qed.

Lemma label_name_exact rq rn k p s q s' f :
  (rq = R_label_quoted_name /\ rn = R_label_name /\ k = CompoundRule \/
   rq = R_label_single_quoted_name /\ rn = R_label_single_name /\ k = Normal) ->
  valid_utf8 s = true -> pos p s ->
  run ctx0 (Alt (Call rq) (Call rn)) p s = Done q s' f ->
  exists w, s = w ++ s' /\ q = p + length w /\ w <> [] /\
    forall n v, yields (fun st => exists x, label_name_reads unq p w s' x /\ st = (Some x, v)) (for_each label_step f (n, v)).
Proof.
  intros Hr Hv Hp H.
  assert (Hq : grammar rq = (k, string_)) by (destruct Hr as [(-> & -> & ->)|(-> & -> & ->)]; reflexivity).
  apply alt_inv in H; [|destruct Hr as [(-> & -> & _)|(-> & -> & _)]; reflexivity].
  destruct H as [H|[HF H]].
  - apply (quoted_rule_token_inv _ k) in H;
      [|destruct Hr as [(-> & -> & ->)|(-> & -> & ->)]; reflexivity
       |destruct Hr as [(-> & -> & ->)|(-> & -> & ->)]; discriminate
       |destruct Hr as [(-> & -> & ->)|(-> & -> & ->)]; discriminate|exact Hv].
    destruct H as (w & ch & -> & -> & Hw & ->). exists w. split; [reflexivity|]. split; [reflexivity|].
    split; [destruct Hw as (? & ? & _ & -> & _); discriminate|].
    intros n v. cbn [for_each].
    eapply yields_bind with (P := fun st => exists x, label_name_reads unq p w s' x /\ st = (Some x, v)); [|intros a Ha; exact Ha].
    assert (E : label_step (n, v) (Node rq p (p + length w) ch) =
      (x <- unquote_clean unq src (Node rq p (p + length w) ch);; Ok (Some x, v))).
    { destruct Hr as [(-> & -> & _)|(-> & -> & _)]; reflexivity. }
    rewrite E. eapply yields_bind; [eapply unquote_clean_at; [exact Hp|exact Hw]|]. intros x Hx.
    cbn. exists x. split; [left; exact Hx|reflexivity].
  - apply (quoted_ahead_iff _ k) in HF; [|exact Hq|destruct Hr as [(_ & _ & ->)|(_ & _ & ->)]; reflexivity|exact Hv].
    apply (equals_rule_exact _ k) in H;
      [|destruct Hr as [(-> & -> & ->)|(-> & -> & ->)]; reflexivity
       |destruct Hr as [(-> & -> & ->)|(-> & -> & ->)]; discriminate|exact Hv].
    destruct H as (w & ch & -> & -> & Hw & -> & Ho). exists w. split; [reflexivity|]. split; [reflexivity|].
    split; [apply Hw|].
    intros n v. cbn [for_each].
    eapply yields_bind with (P := fun st => exists x, label_name_reads unq p w s' x /\ st = (Some x, v)); [|intros a Ha; exact Ha].
    assert (E : label_step (n, v) (Node rn p (p + length w) ch) =
      (x <- parse_string unq src (Node rn p (p + length w) ch);; Ok (Some x, v))).
    { destruct Hr as [(-> & -> & _)|(-> & -> & _)]; reflexivity. }
    rewrite E. eapply yields_bind; [eapply parse_string_at; exact Hp|]. intros x Hx.
    cbn. exists x. split; [right; auto|reflexivity].
Qed.

Lemma label_value_exact p s q s' f : valid_utf8 s = true -> pos p s ->
  run ctx0 (Alt (Call R_label_quoted_value) (Call R_label_value)) p s = Done q s' f ->
  exists w, s = w ++ s' /\ q = p + length w /\ w <> [] /\
    forall n v, yields (fun st => exists x, label_value_reads unq p w s' x /\ st = (n, Some x)) (for_each label_step f (n, v)).
Proof.
  intros Hv Hp H. apply alt_inv in H; [|reflexivity]. destruct H as [H|[HF H]].
  - apply (quoted_rule_token_inv _ CompoundRule) in H; [|reflexivity|discriminate|discriminate|exact Hv].
    destruct H as (w & ch & -> & -> & Hw & ->). exists w. split; [reflexivity|]. split; [reflexivity|].
    split; [destruct Hw as (? & ? & _ & -> & _); discriminate|].
    intros n v. cbn [for_each SoundInstr.label_step t_rule].
    eapply yields_bind with (P := fun st => exists x, label_value_reads unq p w s' x /\ st = (n, Some x)); [|intros a Ha; exact Ha].
    eapply yields_bind; [eapply unquote_clean_at; [exact Hp|exact Hw]|]. intros x Hx. cbn.
    exists x. split; [left; exact Hx|reflexivity].
  - apply (quoted_ahead_iff _ CompoundRule) in HF; [|reflexivity|reflexivity|exact Hv].
    apply (word_rule_exact _ CompoundRule) in H; [|reflexivity|discriminate|exact Hv].
    destruct H as (w & ch & -> & -> & Hw & -> & Ho). exists w. split; [reflexivity|]. split; [reflexivity|].
    split; [apply Hw|].
    intros n v. cbn [for_each SoundInstr.label_step t_rule].
    eapply yields_bind with (P := fun st => exists x, label_value_reads unq p w s' x /\ st = (n, Some x)); [|intros a Ha; exact Ha].
    eapply yields_bind; [eapply parse_string_at; exact Hp|]. intros x Hx. cbn.
    exists x. split; [right; auto|reflexivity].
Qed.

Lemma label_pair_exact p s q s' f : valid_utf8 s = true -> pos p s -> run ctx0 (Call R_label_pair) p s = Done q s' f ->
  exists w t, s = w ++ s' /\ q = p + length w /\ f = [t] /\ t_rule t = R_label_pair /\
    yields (label_pair_reads unq p w s') (label_of unq src t).
Proof.
  intros Hv Hp H. apply token_inv in H; [|discriminate]. destruct H as (f' & H & ->).
  cbn [grammar fst snd rule_inner rule_outer] in H. seq_open H Hv H1. seq_open H Hv0 H2.
  apply (label_name_exact _ _ CompoundRule) in H1; [|auto|exact Hv|exact Hp].
  destruct H1 as (n & -> & -> & _ & Hn). pose proof (pos_app _ _ _ _ Hp) as Hp1.
  apply str_inv in H2. destruct H2 as (-> & -> & ->). cbn [length] in *.
  pose proof (pos_app _ _ [EQUALS] _ Hp1) as Hp2.
  apply label_value_exact in H; [|exact Hv1|exact Hp2]. destruct H as (v & -> & -> & _ & Hy).
  eexists (n ++ EQUALS :: v), _. split; [rewrite <- !app_assoc; reflexivity|].
  split; [rewrite app_length; cbn [length]; lia|]. split; [reflexivity|]. split; [reflexivity|].
  unfold label_of. match goal with |- context [for_each ?f _ (None, None)] => change f with label_step end.
  cbn [t_children app].
  eapply yields_bind with (P := fun st => exists x y, label_name_reads unq p n (EQUALS :: v ++ s') x /\ label_value_reads unq (p + length n + 1) v s' y /\ st = (Some x, Some y)).
  - rewrite for_each_app. eapply yields_bind; [apply Hn|]. intros st (x & Hx & ->).
    eapply yields_impl; [apply Hy|]. intros st (y & Hyy & ->). eauto.
  - intros st (x & y & Hx & Hyy & ->). cbn. exists n, v. split; [reflexivity|]. split; [exact Hx|]. split; [exact Hyy|]. cbn. span_eq.
Qed.

Lemma label_single_exact p s q s' f : valid_utf8 s = true -> pos p s -> run ctx0 (Call R_label_single) p s = Done q s' f ->
  exists w t, s = w ++ s' /\ q = p + length w /\ f = [t] /\ t_rule t = R_label_single /\
    yields (label_single_reads unq p w s') (label_of unq src t).
Proof.
  intros Hv Hp H. apply token_inv in H; [|discriminate]. destruct H as (f' & H & ->).
  cbn [grammar fst snd rule_inner rule_outer] in H. seq_open H Hv H1. seq_open H Hv0 H2. seq_open H Hv1 H3.
  pose proof (run_strict _ _ _ _ _ _ _ H2 eq_refl) as Hs. pose proof (run_strict _ _ _ _ _ _ _ H eq_refl) as Hs2.
  apply gap_exact_more in H1; [|exact Hv|intros ->; cbn in Hs; lia].
  destruct H1 as (g1 & -> & -> & Hc1 & Hg1n & Hg1 & Ho1). pose proof (pos_app _ _ _ _ Hp) as Hp1.
  apply (label_name_exact _ _ Normal) in H2; [|auto|exact Hv0|exact Hp1].
  destruct H2 as (n & -> & -> & _ & Hn). pose proof (pos_app _ _ _ _ Hp1) as Hp2.
  apply gap_exact_more in H3; [|exact Hv1|intros ->; cbn in Hs2; lia].
  destruct H3 as (g2 & -> & -> & Hc2 & Hg2n & Hg2 & Ho2). pose proof (pos_app _ _ _ _ Hp2) as Hp3.
  apply label_value_exact in H; [|exact Hv2|exact Hp3]. destruct H as (v & -> & -> & _ & Hy).
  eexists (g1 ++ n ++ g2 ++ v), _. split; [rewrite <- !app_assoc; reflexivity|].
  split; [rewrite !app_length; lia|]. split; [reflexivity|]. split; [reflexivity|].
  unfold label_of. match goal with |- context [for_each ?f _ (None, None)] => change f with label_step end.
  cbn [t_children app].
  eapply yields_bind with (P := fun st => exists x y, label_name_reads unq (p + length g1) n (g2 ++ v ++ s') x /\
     label_value_reads unq (p + length g1 + length n + length g2) v s' y /\ st = (Some x, Some y)).
  - rewrite for_each_gap by (assumption || apply label_step_comments).
    rewrite for_each_app. eapply yields_bind; [apply Hn|]. intros st (x & Hx & ->).
    rewrite for_each_gap by (assumption || apply label_step_comments).
    eapply yields_impl; [apply Hy|]. intros st (y & Hyy & ->). eauto.
  - intros st (x & y & Hx & Hyy & ->). cbn. eexists _, g1, n, _, g2, v. split; [reflexivity|]. split; [exact Hg1|]. split; [exact Hg1n|].
    split; [exact Hg2|]. split; [exact Hg2n|]. split; [exact Ho1|]. split; [exact Hx|]. split; [exact Ho2|]. split; [exact Hyy|]. cbn. span_eq.
Qed.

Lemma label_exact p s q s' f : valid_utf8 s = true -> pos p s -> run ctx0 (Call R_label) p s = Done q s' f ->
  exists w t, s = w ++ s' /\ q = p + length w /\ f = [t] /\ t_rule t = R_label /\
    yields (label_reads unq p w s') (label_instruction_of unq src t).
Proof.
  intros Hv Hp H. apply token_inv in H; [|discriminate]. destruct H as (f' & H & ->).
  cbn [grammar fst snd rule_inner rule_outer] in H. seq_open H Hv H1.
  apply (keyword_inv "label") in H1; [|reflexivity]. destruct H1 as (kw & -> & -> & Hkw & ->).
  pose proof (pos_app _ _ _ _ Hp) as Hp1. unfold label_instruction_of.
  apply alt_inv in H; [|reflexivity]. destruct H as [H|[_ H]].
  - apply label_single_exact in H; [|exact Hv0|exact Hp1]. destruct H as (r & t & -> & -> & -> & Ht & Hy).
    eexists (kw ++ r), _. split; [rewrite <- app_assoc; reflexivity|]. split; [rewrite !app_length; lia|].
    split; [reflexivity|]. split; [reflexivity|]. cbn [t_children app for_each]. rewrite Ht.
    destruct (label_of unq src t) as [x|e| |]; cbn in *; try exact Hy.
    exists kw, r. split; [reflexivity|]. split; [exact Hkw|]. split; [span_eq|].
    left. exists x. auto.
  - apply rep1_rep in H; [|reflexivity|reflexivity]. destruct H as [H Hlt].
    apply (gap_spaced_exact unq src R_label_pair (label_pair_reads unq) (label_of unq src) labels_step (fun a x => a ++ [x])) in H;
      try reflexivity; [|intros l t Ht; unfold SoundInstr.labels_step; rewrite Ht; reflexivity|apply labels_step_comments|apply label_pair_exact|exact Hv0|exact Hp1].
    destruct H as (pairs & g & -> & -> & Hg & Hy).
    eexists (kw ++ pairs ++ g), _. split; [rewrite <- !app_assoc; reflexivity|]. split; [rewrite !app_length; lia|].
    split; [reflexivity|]. split; [reflexivity|].
    match goal with |- context [for_each ?f _ []] => change f with labels_step end. cbn [t_children app].
    eapply yields_bind; [apply Hy|]. intros st (l & Hl & ->). rewrite fold_snoc. cbn.
    exists kw, (pairs ++ g). split; [reflexivity|]. split; [exact Hkw|].
    split; [cbn; span_eq|]. right. exists pairs, g. split; [reflexivity|]. split; [|split; [exact Hl|exact Hg]].
    intros E. rewrite app_assoc, E in Hlt. cbn in Hlt. lia.
Qed.

(** ** RUN, CMD, ENTRYPOINT *)

Lemma command_exact k r rx rs p s q s' f :
  grammar r = (Normal, Seq (Insens (bs k)) (Seq arg_ws (Alt (Call rx) (Call rs)))) ->
  good (Seq (Insens (bs k)) (Seq arg_ws (Alt (Call rx) (Call rs)))) = true ->
  ascii_expr (Insens (bs k)) = true -> to_lower (bs k) = bs k ->
  (k = "run"%string \/ k = "cmd"%string \/ k = "entrypoint"%string) ->
  grammar rx = (Normal, Call R_string_array) -> grammar rs = (AtomicRule, any_breakable) ->
  rx <> rs -> rx <> R_comment -> rs <> R_comment -> nullable (Alt (Call rx) (Call rs)) = false ->
  valid_utf8 s = true -> pos p s -> run ctx0 (Call r) p s = Done q s' f ->
  exists w t, s = w ++ s' /\ q = p + length w /\ f = [t] /\ t_rule t = r /\ span_of t = at_ p w /\
    yields (fun e => closed_end s' -> command_reads unq k p w s' (at_ p w) e) (shell_or_exec_of unq src rx rs t).
Proof.
  intros Hr G Ha Hlow Hk Hrx Hrs Hne1 Hne2 Hne3 Hnull Hv Hp H.
  apply token_inv in H; [|rewrite Hr; discriminate]. destruct H as (f' & H & ->).
  rewrite Hr in H. cbn [fst snd rule_inner rule_outer] in H.
  apply seq_inv in H; [|exact G]. destruct H as (q1 & s1 & f1 & f2 & H1 & H & ->).
  pose proof (run_valid _ _ _ _ _ _ _ H1 Hv Ha) as Hv1.
  apply (keyword_inv k) in H1; [|exact Hlow]. destruct H1 as (kw & -> & -> & Hkw & ->).
  pose proof (pos_app _ _ _ _ Hp) as Hp1.
  apply seq_inv in H; [|apply (good_sub _ G)]. destruct H as (q2 & s2 & f3 & f4 & H1 & H & ->).
  pose proof (run_valid _ _ _ _ _ _ _ H1 Hv1 eq_refl) as Hv2.
  pose proof (run_strict _ _ _ _ _ _ _ H Hnull) as Hs.
  apply gap_exact_more in H1; [|exact Hv1|intros ->; cbn in Hs; lia].
  destruct H1 as (g & -> & -> & Hc & Hgn & Hg & Hover). pose proof (pos_app _ _ _ _ Hp1) as Hp2.
  assert (K : exists w t, s2 = w ++ s' /\ q = p + length kw + length g + length w /\ f4 = [t] /\
    yields (fun e => closed_end s' -> match e with
      | Exec a => array_at unq (p + length kw + length g) w a
      | Shell x => ~ begins_list (w ++ s') /\ breakable_reads (p + length kw + length g) w s' x
      end)
      (if rule_eq_dec (t_rule t) rx then a <- parse_string_array unq src t;; Ok (Exec a)
       else if rule_eq_dec (t_rule t) rs then s <- parse_any_breakable src t;; Ok (Shell s)
       else unexpected_token (t_rule t))).
  { apply alt_inv in H; [|apply (good_sub _ (proj2 (good_sub _ G)))]. destruct H as [H|[HF H]].
    - apply (array_rule_inv unq src) in H; [|exact Hrx|exact Hv2|exact Hp2].
      destruct H as (w & t & -> & -> & -> & Ht & Hy). exists w, t. split; [reflexivity|]. split; [reflexivity|]. split; [reflexivity|].
      destruct (rule_eq_dec (t_rule t) rx) as [_|K]; [|contradiction].
      eapply yields_bind; [exact Hy|]. intros a Ha2. cbn. intros _. exact Ha2.
    - apply (list_here rx) in HF; [|exact Hrx|exact Hv2].
      apply (breakable_rule_exact unq src) in H; [|exact Hrs|exact Hv2|exact Hp2].
      destruct H as (w & t & x & -> & -> & -> & Ht & Hy & _ & Hx & Hnb). exists w, t. split; [reflexivity|]. split; [reflexivity|]. split; [reflexivity|].
      destruct (rule_eq_dec (t_rule t) rx) as [K|_]; [congruence|].
      destruct (rule_eq_dec (t_rule t) rs) as [_|K]; [|contradiction]. rewrite Hy. cbn. intros Hcl.
      split; [exact HF|]. apply Hx. apply closed_stop; assumption. }
  destruct K as (w & t & -> & -> & -> & Hy).
  eexists (kw ++ g ++ w), _. split; [rewrite <- !app_assoc; reflexivity|].
  assert (El : p + length kw + length g + length w = p + length (kw ++ g ++ w)) by (rewrite !app_length; lia).
  rewrite El. split; [reflexivity|]. split; [reflexivity|]. split; [reflexivity|]. split; [reflexivity|].
  unfold shell_or_exec_of. cbn [t_children app]. destruct f3 as [|c0 f3].
  - cbn [app]. eapply yields_impl; [exact Hy|]. intros e He Hcl. exists kw, g, w.
    split; [reflexivity|]. split; [exact Hkw|]. split; [exact Hg|]. split; [exact Hgn|]. split; [exact Hover|]. split; [|reflexivity].
    exact (He Hcl).
  - cbn [app]. inversion Hc as [|? ? Hc0 _]. subst.
    destruct (rule_eq_dec (t_rule c0) rx) as [K|_]; [congruence|].
    destruct (rule_eq_dec (t_rule c0) rs) as [K|_]; [congruence|]. rewrite Hc0. cbn.
    apply (cause_comment unq src (kw ++ g)).
    + eapply pos_found. rewrite <- app_assoc. exact Hp.
    + exists kw, (length f3), g. split; [reflexivity|]. split; [|exact Hg].
      destruct Hk as [->|[->| ->]]; auto.
Qed.

(** ** COPY *)

Lemma path_exact p s q s' f : valid_utf8 s = true -> pos p s -> run ctx0 (Call R_copy_pathspec) p s = Done q s' f ->
  exists w t, s = w ++ s' /\ q = p + length w /\ f = [t] /\ t_rule t = R_copy_pathspec /\
    yields (path_reads unq p w s') (parse_string unq src t).
Proof.
  intros Hv Hp H. apply (word_rule_exact _ AtomicRule) in H; [|reflexivity|discriminate|exact Hv].
  destruct H as (w & ch & -> & -> & Hw & -> & Ho). eexists w, _. split; [reflexivity|]. split; [reflexivity|].
  split; [reflexivity|]. split; [reflexivity|].
  eapply yields_impl; [eapply parse_string_at; exact Hp|]. intros x Hx. split; [split; assumption|exact Ho].
Qed.

Lemma copy_exact p s q s' f : valid_utf8 s = true -> pos p s -> run ctx0 (Call R_copy) p s = Done q s' f ->
  exists w t, s = w ++ s' /\ q = p + length w /\ f = [t] /\ t_rule t = R_copy /\
    yields (copy_reads unq p w s') (copy_of unq src t).
Proof.
  intros Hv Hp H. apply token_inv in H; [|discriminate]. destruct H as (f' & H & ->).
  cbn [grammar fst snd rule_inner rule_outer] in H.
  seq_open H Hv H1. seq_open H Hv0 H2. seq_open H Hv1 H3. seq_open H Hv2 H4.
  apply (keyword_inv "copy") in H1; [|reflexivity]. destruct H1 as (kw & -> & -> & Hkw & ->).
  pose proof (pos_app _ _ _ _ Hp) as Hp1.
  pose proof (rep_stop ctx0 (Seq arg_ws (Call R_copy_flag)) _ _ _ _ _ eq_refl H2) as Hstop.
  apply (spaced_exact unq src R_copy_flag (flag_reads unq) (copy_flag_of unq src) copy_step add_copy_flag) in H2;
    try reflexivity; [|intros [a b] t Ht; unfold SoundInstr.copy_step; rewrite Ht; reflexivity|apply copy_step_comments|apply copy_flag_exact|exact Hv0|exact Hp1].
  destruct H2 as (fl & -> & -> & Hfl). pose proof (pos_app _ _ _ _ Hp1) as Hp2.
  apply (flag_ahead_iff R_copy_flag R_copy_flag_name R_copy_flag_value) in Hstop; try reflexivity; [|exact Hv1].
  assert (Hitem : forall st t, t_rule t = R_copy_pathspec -> copy_step st t = bind (parse_string unq src t) (fun x => Ok (add_path st x))).
  { intros [a b] t Ht. unfold SoundInstr.copy_step. rewrite Ht. reflexivity. }
  apply (item_exact unq src R_copy_pathspec (path_reads unq) (parse_string unq src) copy_step add_path eq_refl Hitem (copy_step_comments unq src) eq_refl path_exact) in H3;
    [|exact Hv1|exact Hp2].
  destruct H3 as (k1 & g1 & w1 & -> & -> & Hg1 & Hg1n & Ho1 & Hy1). pose proof (pos_app _ _ _ _ Hp2) as Hp3.
  apply (item_exact unq src R_copy_pathspec (path_reads unq) (parse_string unq src) copy_step add_path eq_refl Hitem (copy_step_comments unq src) eq_refl path_exact) in H4;
    [|exact Hv2|exact Hp3].
  destruct H4 as (k2 & g2 & w2 & -> & -> & Hg2 & Hg2n & Ho2 & Hy2). pose proof (pos_app _ _ _ _ Hp3) as Hp4.
  apply (spaced_exact unq src R_copy_pathspec (path_reads unq) (parse_string unq src) copy_step add_path eq_refl Hitem (copy_step_comments unq src) eq_refl eq_refl path_exact) in H;
    [|exact Hv3|exact Hp4].
  destruct H as (more & -> & -> & Hm).
  eexists (kw ++ fl ++ (g1 ++ w1) ++ (g2 ++ w2) ++ more), _.
  split; [rewrite <- !app_assoc; reflexivity|]. split; [rewrite !app_length; lia|].
  split; [reflexivity|]. split; [reflexivity|]. unfold copy_of.
  match goal with |- context [for_each ?f _ ([], [])] => change f with copy_step end.
  eapply yields_bind with (P := fun st => exists l x1 x2 l2, spaced (flag_at unq) (p + length kw) fl l /\
     path_reads unq (p + length kw + length fl + length g1) w1 ((g2 ++ w2) ++ more ++ s') x1 /\
     path_reads unq (p + length kw + length fl + length (g1 ++ w1) + length g2) w2 (more ++ s') x2 /\
     spaced_reads (path_reads unq) (p + length kw + length fl + length (g1 ++ w1) + length (g2 ++ w2)) more s' l2 /\
     st = (l, x1 :: x2 :: l2)).
  - cbn [t_children app]. rewrite for_each_app. eapply yields_bind; [apply Hfl|]. intros st (l & Hl & ->).
    rewrite fold_copy_flag. cbn [app]. rewrite for_each_app. eapply yields_bind; [apply Hy1|].
    intros st (x1 & Hx1 & ->). rewrite for_each_app. eapply yields_bind; [apply Hy2|].
    intros st (x2 & Hx2 & ->). cbn [add_path app]. eapply yields_impl; [apply Hm|].
    intros st (l2 & Hl2 & ->). rewrite fold_add_path. apply flags_plain in Hl. exists l, x1, x2, l2. auto 6.
  - intros st (l & x1 & x2 & l2 & Hl & Hx1 & Hx2 & Hl2 & ->). cbn beta iota.
    change (length (x1 :: x2 :: l2) <? 2) with false. cbn iota.
    destruct (exists_last (l := x1 :: x2 :: l2) ltac:(discriminate)) as (srcs & dest & E). rewrite E, pop_snoc.
    assert (Hsrc : srcs <> []) by (intros ->; discriminate).
    cbn. exists kw, fl, ((g1 ++ w1) ++ (g2 ++ w2) ++ more). split; [reflexivity|]. split; [exact Hkw|].
    split; [exact Hl|]. rewrite <- !app_assoc in *. split; [exact Hstop|]. split.
    { cbn. rewrite <- E. eapply spaced_reads_one; [exact Hg1|exact Hg1n|rewrite <- !app_assoc; exact Ho1|rewrite <- !app_assoc; exact Hx1|].
      rewrite app_length in Hx2, Hl2. rewrite app_length in Hl2. eapply spaced_reads_one; [exact Hg2|exact Hg2n|exact Ho2| |].
      - refine (eq_ind _ (fun n => path_reads unq n w2 (more ++ s') x2) Hx2 _ _); lia.
      - refine (eq_ind _ (fun n => spaced_reads (path_reads unq) n more s' l2) Hl2 _ _); lia. }
    split; [exact Hsrc|]. cbn. span_eq.
Qed.

(** ** ENV *)

Lemma env_pair_exact p s q s' f : valid_utf8 s = true -> pos p s -> run ctx0 (Call R_env_pair) p s = Done q s' f ->
  exists w t, s = w ++ s' /\ q = p + length w /\ f = [t] /\ t_rule t = R_env_pair /\
    yields (env_pair_reads unq p w s') (env_pair_of unq src t).
Proof.
  intros Hv Hp H. apply token_inv in H; [|discriminate]. destruct H as (f' & H & ->).
  cbn [grammar fst snd rule_inner rule_outer] in H. seq_open H Hv H1. seq_open H Hv0 H2.
  apply env_name_inv in H1; [|reflexivity]. destruct H1 as (n & c1 & -> & -> & Hn & ->).
  pose proof (pos_app _ _ _ _ Hp) as Hp1. apply str_inv in H2. destruct H2 as (-> & -> & ->). cbn [length] in *.
  pose proof (pos_app _ _ [EQUALS] _ Hp1) as Hp2. cbn [length] in Hp2.
  assert (En : forall v, pair_step (None, v) (Node R_env_name p (p + length n) c1) =
     Ok (Some (SpannedString (at_ p n) n), v)).
  { intros v. cbn [SoundInstr.pair_step t_rule]. rewrite (parse_string_plain unq src _ _ _ _ _ Hp); [reflexivity|].
    apply word_class_not_quoted. apply Hn. }
  unfold env_pair_of. apply alt_inv in H; [|reflexivity]. destruct H as [H|[HF H]].
  - apply compound_inv in H; [|reflexivity|reflexivity]. destruct H as (fq & H & ->). cbn [grammar snd] in H.
    apply string_inv in H; [|exact Hv1|reflexivity]. destruct H as (v & ch & -> & -> & Hq & ->).
    eexists (n ++ EQUALS :: v), _. split; [rewrite <- !app_assoc; reflexivity|].
    split; [rewrite app_length; cbn [length]; lia|]. split; [reflexivity|]. split; [reflexivity|].
    match goal with |- context [for_each ?f _ (None, None)] => change f with pair_step end.
    cbn [t_children app for_each]. rewrite En. cbn [bind].
    pose proof (quoted_breakable_at unq src R_env_pair_quoted_value _ _ _ [Node R_string (p + length n + 1) (p + length n + 1 + length v) ch] Hp2 Hq) as Hy.
    cbn [SoundInstr.pair_step t_rule].
    match type of Hy with Sound.yields _ _ _ (bind ?o _) => destruct o as [u|e| |] end; cbn [bind ok_or] in *; try exact Hy.
    cbn. exists n, v. split; [reflexivity|]. split; [exact Hn|]. split; [reflexivity|]. split; [left; exact Hy|].
    cbn. span_eq.
  - apply (quoted_ahead_iff _ CompoundRule) in HF; [|reflexivity|reflexivity|exact Hv1].
    apply compound_inv in H; [|reflexivity|reflexivity]. destruct H as (fq & H & ->). cbn [grammar snd] in H.
    apply word_exact in H; [|exact Hv1]. destruct H as (v & -> & -> & Hw & -> & Ho).
    eexists (n ++ EQUALS :: v), _. split; [rewrite <- !app_assoc; reflexivity|].
    split; [rewrite app_length; cbn [length]; lia|]. split; [reflexivity|]. split; [reflexivity|].
    match goal with |- context [for_each ?f _ (None, None)] => change f with pair_step end.
    cbn [t_children app for_each]. rewrite En. cbn [bind SoundInstr.pair_step t_rule ok_or].
    rewrite (as_str_at src _ _ _ _ _ Hp2). cbn. exists n, v. split; [reflexivity|]. split; [exact Hn|].
    split; [reflexivity|]. split; [|cbn; span_eq].
    right. split; [exact Hw|]. split; [exact HF|]. split; [exact Ho|reflexivity].
Qed.

Lemma env_value_exact p4 s q s' f : valid_utf8 s = true -> pos p4 s ->
  run ctx0 (Alt (Call R_env_single_quoted_value) (Call R_env_single_value)) p4 s = Done q s' f ->
  exists v t, s = v ++ s' /\ q = p4 + length v /\ f = [t] /\
    forall key, yields (fun st => exists x, (closed_end s' -> quoted_value_at unq p4 v x \/ (~ quoted_ahead (v ++ s') /\ breakable_reads p4 v s' x)) /\
      br_span x = at_ p4 v /\ st = (key, Some x))
        (single_step (key, None) t).
Proof.
  intros Hv3 Hp4 H. apply alt_inv in H; [|reflexivity]. destruct H as [H|[HF H]].
  - apply (quoted_rule_token_inv _ CompoundRule) in H; [|reflexivity|discriminate|discriminate|exact Hv3].
    destruct H as (v & ch & -> & -> & Hq & ->). eexists v, _. split; [reflexivity|]. split; [reflexivity|].
    split; [reflexivity|]. intros key. cbn [SoundInstr.single_step t_rule].
    pose proof (quoted_breakable_at unq src R_env_single_quoted_value _ _ _ ch Hp4 Hq) as Hy.
    match type of Hy with Sound.yields _ _ _ (bind ?o _) => destruct o as [u|e| |] end; cbn [bind ok_or] in *; try exact Hy.
    cbn. eexists. split; [intros _; left; exact Hy|]. split; reflexivity.
  - apply (quoted_ahead_iff _ CompoundRule) in HF; [|reflexivity|reflexivity|exact Hv3].
    apply (breakable_rule_exact unq src) in H; [|reflexivity|exact Hv3|exact Hp4].
    destruct H as (v & t & x & -> & -> & -> & Ht & Hy & Hsp & Hx & Hnb). exists v, t. split; [reflexivity|].
    split; [reflexivity|]. split; [reflexivity|]. intros key. unfold SoundInstr.single_step. rewrite Ht, Hy. cbn.
    exists x. split; [|split; [exact Hsp|reflexivity]]. intros Hcl. right. split; [exact HF|]. apply Hx. apply closed_stop; assumption.
Qed.

Lemma env_exact p s q s' f : valid_utf8 s = true -> pos p s -> run ctx0 (Call R_env) p s = Done q s' f ->
  exists w t, s = w ++ s' /\ q = p + length w /\ f = [t] /\ t_rule t = R_env /\
    yields (fun x => closed_end s' -> env_reads unq p w s' x) (env_of unq src t).
Proof.
  intros Hv Hp H. apply token_inv in H; [|discriminate]. destruct H as (f' & H & ->).
  cbn [grammar fst snd rule_inner rule_outer] in H. seq_open H Hv H1.
  apply (keyword_inv "env") in H1; [|reflexivity]. destruct H1 as (kw & -> & -> & Hkw & ->).
  pose proof (pos_app _ _ _ _ Hp) as Hp1.
  apply alt_inv in H; [|reflexivity]. destruct H as [H|[_ H]].
  - apply token_inv in H; [|discriminate]. destruct H as (fs & H & ->).
    cbn [grammar fst snd rule_inner rule_outer] in H. seq_open H Hv0 H1. seq_open H Hv1 H2. seq_open H Hv2 H3.
    pose proof (run_strict _ _ _ _ _ _ _ H2 eq_refl) as Hs. pose proof (run_strict _ _ _ _ _ _ _ H eq_refl) as Hs2.
    apply gap_inv_more in H1; [|exact Hv0|intros ->; cbn in Hs; lia].
    destruct H1 as (g1 & -> & -> & Hc1 & Hg1n & Hg1). pose proof (pos_app _ _ _ _ Hp1) as Hp2.
    apply env_name_inv in H2; [|reflexivity]. destruct H2 as (n & c1 & -> & -> & Hn & ->).
    pose proof (pos_app _ _ _ _ Hp2) as Hp3.
    apply gap_exact_more in H3; [|exact Hv2|intros ->; cbn in Hs2; lia].
    destruct H3 as (g2 & -> & -> & Hc2 & Hg2n & Hg2 & Ho2). pose proof (pos_app _ _ _ _ Hp3) as Hp4.
    assert (En : forall v, single_step (None, v) (Node R_env_name (p + length kw + length g1) (p + length kw + length g1 + length n) c1) =
       Ok (Some (SpannedString (at_ (p + length kw + length g1) n) n), v)).
    { intros v. cbn [SoundInstr.single_step t_rule]. rewrite (parse_string_plain unq src _ _ _ _ _ Hp2); [reflexivity|].
      apply word_class_not_quoted. apply Hn. }
    set (p4 := p + length kw + length g1 + length n + length g2) in *.
    apply env_value_exact in H; [|exact Hv3|exact Hp4].
    destruct H as (v & t & -> & -> & -> & Hy).
    eexists (kw ++ g1 ++ n ++ g2 ++ v), _. split; [rewrite <- !app_assoc; reflexivity|].
    split; [unfold p4; rewrite !app_length; lia|]. split; [reflexivity|]. split; [reflexivity|].
    unfold env_of. cbn [t_children app t_rule]. unfold env_single_of.
    match goal with |- context [for_each ?f _ (None, None)] => change f with single_step end.
    eapply yields_bind with (P := fun st => exists x, (closed_end s' -> quoted_value_at unq p4 v x \/ (~ quoted_ahead (v ++ s') /\ breakable_reads p4 v s' x)) /\ br_span x = at_ p4 v /\
      st = (Some (SpannedString (at_ (p + length kw + length g1) n) n), Some x)).
    + cbn [t_children app]. rewrite for_each_gap by (assumption || apply single_step_comments).
      cbn [for_each]. rewrite En. cbn [bind]. rewrite for_each_gap by (assumption || apply single_step_comments).
      cbn [for_each]. eapply yields_bind; [apply Hy|]. intros st Hst. exact Hst.
    + intros st (x & Hx & Hsp & ->). cbn. intros Hcl. specialize (Hx Hcl).
      exists kw, (g1 ++ n ++ g2 ++ v). split; [reflexivity|]. split; [exact Hkw|].
      split. { unfold p4. cbn. span_eq. }
      left. eexists. split; [|reflexivity]. eexists _, g1, n, _, g2, v.
      split; [reflexivity|]. split; [exact Hg1|]. split; [exact Hg1n|]. split; [exact Hg2|]. split; [exact Hg2n|].
      split; [exact Hn|]. split; [reflexivity|]. split; [exact Ho2|]. split; [exact Hx|].
      cbn. rewrite Hsp. unfold at_, p4. cbn. rewrite !app_length. f_equal; lia.
  - apply token_inv in H; [|discriminate]. destruct H as (fs & H & ->).
    cbn [grammar fst snd rule_inner rule_outer] in H.
    apply rep1_rep in H; [|reflexivity|reflexivity]. destruct H as [H Hlt].
    apply (gap_spaced_exact unq src R_env_pair (env_pair_reads unq) (env_pair_of unq src) pairs_step (fun a x => a ++ [x])) in H;
      try reflexivity; [|intros l t Ht; unfold SoundInstr.pairs_step; rewrite Ht; reflexivity|apply pairs_step_comments|apply env_pair_exact|exact Hv0|exact Hp1].
    destruct H as (pairs & g & -> & -> & Hg & Hy).
    eexists (kw ++ pairs ++ g), _. split; [rewrite <- !app_assoc; reflexivity|]. split; [rewrite !app_length; lia|].
    split; [reflexivity|]. split; [reflexivity|]. unfold env_of. cbn [t_children app t_rule]. unfold env_pairs_of.
    match goal with |- context [for_each ?f _ []] => change f with pairs_step end. cbn [t_children].
    eapply yields_bind; [apply Hy|]. intros st (l & Hl & ->). rewrite fold_snoc. cbn. intros _.
    exists kw, (pairs ++ g). split; [reflexivity|]. split; [exact Hkw|].
    split; [cbn; span_eq|]. right. exists pairs, g. split; [reflexivity|]. split; [|split; [exact Hl|exact Hg]].
    intros E. rewrite app_assoc, E in Hlt. cbn in Hlt. lia.
Qed.
End Inv.
