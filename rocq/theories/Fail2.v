(** Errors about digests and comments, both ways: see SpecFail.v. *)

From Coq Require Import String.
From Verif Require Import Bytes BytesFacts Grammar Peg Result Ast Splicer Image Convert ImageFacts Dockerfile DocFacts
  PegFacts SpecImage SpecSyntax SpecClear SpecExact SpecFail PegRules PegTokens PegQuoted Sound SoundRules SoundInstr
  Forward Forward2 Forward3 ListFacts Forward4 Exact Exact2 Exact3 Exact4 Exact5 Fail1.
Local Open Scope nat_scope.

Notation digest_error := (EGeneric (MText digest_message)).
Notation comment_error := (EGeneric (MUnexpected R_comment)).

Lemma escape_only unq src {A} (P : A -> Prop) o e : yields unq src P o -> plain o -> o = Err e -> e = EUnescape.
Proof.
  intros Hy Hp E. specialize (Hp e E). rewrite E in Hy. cbn in Hy. destruct Hp as [H1 H2]. destruct Hy; congruence.
Qed.

Lemma lenient_cause src e : cause lenient src e -> e <> EUnescape.
Proof. intros H E. destruct H as [w _ (_ & u & _ & K)| |]; discriminate. Qed.

Lemma lenient_ok src {A} (P : A -> Prop) o : yields lenient src P o -> plain o -> exists a, o = Ok a /\ P a.
Proof.
  intros Hy Hp. destruct o as [a|e| |]; cbn in Hy; try contradiction; [eauto|]. exfalso.
  apply (lenient_cause _ _ Hy). apply (escape_only lenient src P (Err e)); auto.
Qed.

Lemma gap_comment_ne n g : gap (S n) g -> g <> [].
Proof.
  intros H E. remember (S n) as k eqn:Ek. destruct H as [|k c w|j k c l w (b & m & -> & _)]; discriminate.
Qed.

Section Inv.
Variable unq : bytes -> option bytes.
Variable src : bytes.
Notation pos := (pos src).
Notation yields := (yields unq src).
Notation from_step := (from_step unq src).
Notation flag_reads := (flag_reads unq).

(** ** From runs of the grammar *)

Lemma from_err p s q s' f : valid_utf8 s = true -> pos p s -> run ctx0 (Call R_from) p s = Done q s' f ->
  exists w t, s = w ++ s' /\ q = p + length w /\ f = [t] /\ t_rule t = R_from /\
    forall n e, from_of unq src t n = Err e -> e = EUnescape \/ (e = digest_error /\ from_undigested unq p w).
Proof.
  intros Hv Hp H. apply token_inv in H; [|discriminate]. destruct H as (f' & H & ->).
  cbn [grammar fst snd rule_inner rule_outer] in H.
  seq_open H Hv H1. seq_open H Hv0 H2. seq_open H Hv1 H3. seq_open H Hv2 H4.
  apply (keyword_inv "from") in H1; [|reflexivity]. destruct H1 as (kw & -> & -> & Hkw & ->).
  pose proof (pos_app _ _ _ _ Hp) as Hp1.
  pose proof H2 as H2s.
  apply (spaced_inv unq src R_from_flag (flag_at unq) (from_flag_of unq src) from_step add_flag) in H2s;
    [|reflexivity|reflexivity|reflexivity|apply from_flag_inv
     |intros [[i a] fl] t Ht; unfold from_step; rewrite Ht; reflexivity|apply from_step_comments|exact Hv0|exact Hp1].
  destruct H2s as (fl & -> & -> & Hfl). pose proof (pos_app _ _ _ _ Hp1) as Hp2.
  pose proof (run_strict _ _ _ _ _ _ _ H4 eq_refl) as Hs.
  apply gap_inv_more in H3; [|exact Hv1|intros ->; cbn in Hs; lia].
  destruct H3 as (g & -> & -> & Hc & Hgn & Hg). pose proof (pos_app _ _ _ _ Hp2) as Hp3.
  apply token_inv in H4; [|discriminate]. destruct H4 as (fi & H4 & ->). cbn [grammar fst snd] in H4.
  apply (class_rep1_inv _ image_char) in H4; [|reflexivity|apply class_image].
  destruct H4 as (img & -> & -> & Hin & Hi & -> & _). pose proof (pos_app _ _ _ _ Hp3) as Hp4.
  apply (alias_inv unq src) in H; [|exact Hv3|exact Hp4]. destruct H as (al & -> & -> & x & Hx & Hal).
  eexists (kw ++ fl ++ g ++ img ++ al), _.
  split; [rewrite <- !app_assoc; reflexivity|]. split; [rewrite !app_length; lia|].
  split; [reflexivity|]. split; [reflexivity|]. intros n e He.
  unfold from_of in He. match type of He with context [for_each ?f _ (None, None, [])] => change f with from_step in He end.
  cbn [t_children app] in He. rewrite for_each_app in He. specialize (Hfl (None, None, [])).
  pose proof (from_fields_plain unq src _ (run_pure _ _ _ _ _ _ _ H2) (None, None, [])) as Hpl.
  destruct (for_each from_step f1 (None, None, [])) as [st|e1| |]; cbn [Sound.yields] in Hfl; try contradiction.
  2:{ cbn [bind] in He. injection He as <-. left. apply (escape_only unq src (fun _ : (option tree * option tree * list flag) => True) (Err e1)); auto. }
  destruct Hfl as (l & Hl & ->). rewrite fold_add_flag in He. cbn [bind app] in He.
  rewrite for_each_gap in He by (assumption || apply from_step_comments).
  cbn [app for_each SoundInstr.from_step t_rule bind] in He.
  destruct (Hal (Some (Node R_from_image (p + length kw + length fl + length g) (p + length kw + length fl + length g + length img) [])) l) as [E Ex].
  rewrite E in He. cbn [bind] in He. rewrite (parse_string_plain unq src _ _ _ _ _ Hp3) in He by
      (apply (class_not_quoted image_char img Hi); reflexivity).
  cbn [bind ss_content] in He. pose proof (proj1 (image_parse_spec img _) eq_refl) as Himg.
  destruct (i_hash (image_parse img)) as [h|] eqn:Eh.
  - destruct (digest_ok h) eqn:Ed.
    + cbn [bind] in He. destruct x as [y|]; cbn [bind] in He; [rewrite Ex in He|]; discriminate.
    + injection He as <-. right. split; [reflexivity|]. eexists kw, fl, l, _, g, img, al, x.
      split; [reflexivity|]. split; [exact Hkw|]. split; [exact Hl|]. split; [exact Hg|]. split; [exact Hgn|]. split; [|exact Hx].
      split; [split; [exact Hin|exact Hi]|]. exists (image_parse img), h. split; [exact Himg|]. split; [exact Eh|].
      intros K. apply digest_ok_spec in K. congruence.
  - cbn [bind] in He. destruct x as [y|]; cbn [bind] in He; [rewrite Ex in He|]; discriminate.
Qed.

Lemma command_err k r rx rs p s q s' f :
  grammar r = (Normal, Seq (Insens (bs k)) (Seq arg_ws (Alt (Call rx) (Call rs)))) ->
  good (Seq (Insens (bs k)) (Seq arg_ws (Alt (Call rx) (Call rs)))) = true ->
  ascii_expr (Insens (bs k)) = true -> to_lower (bs k) = bs k ->
  (k = "run"%string \/ k = "cmd"%string \/ k = "entrypoint"%string) ->
  grammar rx = (Normal, Call R_string_array) -> grammar rs = (AtomicRule, any_breakable) ->
  rx <> rs -> rx <> R_comment -> rs <> R_comment -> nullable (Alt (Call rx) (Call rs)) = false ->
  valid_utf8 s = true -> pos p s -> run ctx0 (Call r) p s = Done q s' f ->
  exists w t, s = w ++ s' /\ q = p + length w /\ f = [t] /\ t_rule t = r /\ span_of t = at_ p w /\
    forall e, closed_end s' -> shell_or_exec_of unq src rx rs t = Err e ->
      e = EUnescape \/ (e = comment_error /\ comment_before p w s').
Proof.
  intros Hr G Ha Hlow Hk Hrx Hrs Hne1 Hne2 Hne3 Hnull Hv Hp H.
  apply token_inv in H; [|rewrite Hr; discriminate]. destruct H as (f' & H & ->).
  rewrite Hr in H. cbn [fst snd rule_inner rule_outer] in H.
  apply seq_inv in H; [|exact G]. destruct H as (q1 & s1 & f1 & f2 & H1 & H & ->).
  pose proof (run_valid _ _ _ _ _ _ _ H1 Hv Ha) as Hv1.
  apply (keyword_inv k) in H1; [|exact Hlow]. destruct H1 as (kw & -> & -> & Hkw & ->).
  pose proof (pos_app _ _ _ _ Hp) as Hp1.
  apply seq_inv in H; [|apply (good_sub _ G)]. destruct H as (q2 & s2 & f3 & f4 & H1 & H & ->).
  pose proof (run_valid _ _ _ _ _ _ _ H1 Hv1 eq_refl) as Hv2.
  pose proof (run_strict _ _ _ _ _ _ _ H Hnull) as Hs.
  apply gap_exact_more in H1; [|exact Hv1|intros ->; cbn in Hs; lia].
  destruct H1 as (g & -> & -> & Hc & Hgn & Hg & Hover). pose proof (pos_app _ _ _ _ Hp1) as Hp2.
  assert (K : exists w t, s2 = w ++ s' /\ q = p + length kw + length g + length w /\ f4 = [t] /\
    (closed_end s' -> (exists a, array_at lenient (p + length kw + length g) w a) \/
      (~ begins_list (w ++ s') /\ exists x, breakable_reads (p + length kw + length g) w s' x)) /\
    forall e, (if rule_eq_dec (t_rule t) rx then a <- parse_string_array unq src t;; Ok (Exec a)
       else if rule_eq_dec (t_rule t) rs then s <- parse_any_breakable src t;; Ok (Shell s)
       else unexpected_token (t_rule t)) = Err e -> e = EUnescape).
  { apply alt_inv in H; [|apply (good_sub _ (proj2 (good_sub _ G)))]. destruct H as [H|[HF H]].
    - pose proof H as HL. apply (array_rule_inv unq src) in H; [|exact Hrx|exact Hv2|exact Hp2].
      destruct H as (w & t & -> & -> & -> & Ht & Hy). exists w, t. split; [reflexivity|]. split; [reflexivity|]. split; [reflexivity|]. split.
      + intros _. left. apply (array_rule_inv lenient src) in HL; [|exact Hrx|exact Hv2|exact Hp2].
        destruct HL as (w' & t' & Ew & _ & _ & _ & Hy'). apply app_inv_tail in Ew. subst w'.
        apply lenient_ok in Hy'; [|apply array_plain]. destruct Hy' as (a & _ & Ha'). eauto.
      + intros e He. destruct (rule_eq_dec (t_rule t) rx) as [_|K]; [|contradiction].
        destruct (parse_string_array unq src t) as [a|e'| |] eqn:Ea; try discriminate. injection He as <-.
        rewrite <- Ea in Hy. apply (escape_only unq src _ _ e' Hy (array_plain unq src t) Ea).
    - apply (list_here rx) in HF; [|exact Hrx|exact Hv2].
      apply (breakable_rule_exact unq src) in H; [|exact Hrs|exact Hv2|exact Hp2].
      destruct H as (w & t & x & -> & -> & -> & Ht & Hy & _ & Hx & Hnb). exists w, t. split; [reflexivity|]. split; [reflexivity|]. split; [reflexivity|].
      split.
      + intros Hcl. right. split; [exact HF|]. exists x. apply Hx. apply closed_stop; assumption.
      + intros e He. destruct (rule_eq_dec (t_rule t) rx) as [K|_]; [congruence|].
        destruct (rule_eq_dec (t_rule t) rs) as [_|K]; [|contradiction]. rewrite Hy in He. discriminate. }
  destruct K as (w & t & -> & -> & -> & Htxt & He).
  eexists (kw ++ g ++ w), _. split; [rewrite <- !app_assoc; reflexivity|].
  assert (El : p + length kw + length g + length w = p + length (kw ++ g ++ w)) by (rewrite !app_length; lia).
  rewrite El. split; [reflexivity|]. split; [reflexivity|]. split; [reflexivity|]. split; [reflexivity|].
  unfold shell_or_exec_of. cbn [t_children app]. intros e Hcl Hs1. destruct f3 as [|c0 f3]; [left; apply He; exact Hs1|]. right.
  cbn [app] in Hs1. inversion Hc as [|? ? Hc0 _]. subst.
  destruct (rule_eq_dec (t_rule c0) rx) as [K|_]; [congruence|].
  destruct (rule_eq_dec (t_rule c0) rs) as [K|_]; [congruence|]. rewrite Hc0 in Hs1. injection Hs1 as <-. split; [reflexivity|].
  exists k, kw, (length f3), g, w. split; [exact Hk|]. split; [reflexivity|]. split; [exact Hkw|]. split; [exact Hg|].
  split; [exact Hover|]. apply Htxt. exact Hcl.
Qed.

(** ** To runs of the grammar *)

Lemma undigested_fwd p w s : from_undigested unq p w -> closed_end s -> valid_utf8 (w ++ s) = true -> pos p (w ++ s) ->
  exists t, run ctx0 (Call R_from) p (w ++ s) = Done (p + length w) s [t] /\ t_rule t = R_from /\
    forall n, from_of unq src t n = Err digest_error.
Proof.
  intros (kw & fl & l0 & k & g & img & al & a0 & -> & Hkw & Hfl & Hg & Hne & [[Hin Hi] (ir & h & Hparsed & Hh & Hdig)] & Hal) Hs Hv Hp.
  rewrite <- !app_assoc in *.
  rewrite (Forward3.keyword_valid "from") in Hv by first [assumption | repeat constructor].
  assert (Hflr : spaced_reads flag_reads (p + length kw) fl (g ++ img ++ al ++ s) l0).
  { destruct Hi as [|y img Hy Hi]; [congruence|]. apply image_solid in Hy. cbn [app]. apply (flags_over unq _ _ _ k); auto; apply Hy. }
  rewrite (spaced_reads_valid _ (flag_reads_valid unq) _ _ _ _ Hflr) in Hv. pose proof Hv as Hvg.
  rewrite (valid_gap _ _ _ Hg) in Hv. pose proof Hv as Hvi. rewrite (Forward3.class_valid _ _ _ image_ascii Hi) in Hv.
  pose proof Hv as Hva. rewrite (alias_valid _ _ _ _ Hal) in Hv.
  pose proof (pos_app _ _ _ _ Hp) as Hp1. pose proof (pos_app _ _ _ _ Hp1) as Hp2.
  pose proof (pos_app _ _ _ _ Hp2) as Hp3. pose proof (pos_app _ _ _ _ Hp3) as Hp4.
  assert (Hist : gap_stops (img ++ al ++ s)) by (apply (class_stops image_char); [apply image_solid|exact Hin|exact Hi]).
  destruct (spaced_reads_fwd src R_from_flag flag_reads (from_flag_of unq src) from_step add_flag eq_refl
    ltac:(intros [[i a] l] t Ht; unfold SoundInstr.from_step; rewrite Ht; reflexivity)
    (from_step_comments unq src) (from_flag_reads_fwd unq src) (flag_reads_valid unq) _ _ _ _ Hflr Hvg Hp1) as (f1 & E1 & Hf1).
  { apply (flag_ahead_iff R_from_flag R_from_flag_name R_from_flag_value); try reflexivity; [exact Hvg|].
    apply (image_no_flag k g img al a0 _ s Hg Hne Hin Hi Hal Hs Hvg). }
  destruct (gap_fwd k g (img ++ al ++ s) (p + length kw + length fl) Hg Hne Hist Hvi) as (f2 & E2 & Hc2 & _).
  assert (E3 : run ctx0 (Call R_from_image) (p + length kw + length fl + length g) (img ++ al ++ s) =
    Done (p + length kw + length fl + length g + length img) (al ++ s)
     [Node R_from_image (p + length kw + length fl + length g) (p + length kw + length fl + length g + length img) []]).
  { apply token_fwd; [discriminate|]. cbn [grammar fst snd].
    apply (class_rep1_fwd _ image_char); [reflexivity|apply class_image|exact Hin|exact Hi|apply (alias_head _ _ _ _ Hal Hs)]. }
  destruct (alias_fwd unq src _ _ _ s Hal Hs Hv Hp4) as (f4 & E4 & field & Hf4 & Hfield).
  eexists. split.
  { apply token_fwd; [discriminate|]. cbn [grammar fst snd rule_inner rule_outer].
    rewrite run_seq by reflexivity. rewrite keyword_fwd; [|exact Hkw|reflexivity].
    rewrite run_seq by reflexivity. rewrite E1. rewrite run_seq by reflexivity. rewrite E2.
    rewrite run_seq by reflexivity. rewrite E3. rewrite E4.
    replace (p + length (kw ++ fl ++ g ++ img ++ al)) with (p + length kw + length fl + length g + length img + length al) by (rewrite !app_length; lia).
    reflexivity. }
  split; [reflexivity|]. intros n. unfold from_of.
  match goal with |- context [for_each ?f _ (None, None, [])] => change f with from_step end.
  cbn [t_children app]. rewrite for_each_app, Hf1, fold_add_flag. cbn [bind app].
  rewrite for_each_gap by (assumption || apply from_step_comments). cbn [app for_each].
  change (from_step (None, None, l0) (Node R_from_image (p + length kw + length fl + length g) (p + length kw + length fl + length g + length img) []))
    with (Ok (Some (Node R_from_image (p + length kw + length fl + length g) (p + length kw + length fl + length g + length img) []), @None tree, l0)).
  cbn [bind]. rewrite Hf4. cbn [bind].
  rewrite (parse_string_plain unq src _ _ _ _ _ Hp3) by (apply (class_not_quoted image_char img Hi); reflexivity).
  cbn [bind ss_content]. pose proof (proj2 (image_parse_spec img _) Hparsed) as Ei. rewrite Ei.
  rewrite Hh. destruct (digest_ok h) eqn:Ed; [apply digest_ok_spec in Ed; contradiction|]. reflexivity.
Qed.

Lemma comment_fwd_command k r rx rs p kw n g cmd s :
  grammar r = (Normal, Seq (Insens (bs k)) (Seq arg_ws (Alt (Call rx) (Call rs)))) ->
  good (Seq (Insens (bs k)) (Seq arg_ws (Alt (Call rx) (Call rs)))) = true ->
  grammar rx = (Normal, Call R_string_array) -> grammar rs = (AtomicRule, any_breakable) -> rx <> rs ->
  to_lower (bs k) = bs k -> Forall (fun c => is_alpha c = true) (bs k) ->
  rx <> R_comment -> rs <> R_comment -> keyword k kw -> gap (S n) g -> gap_over g (cmd ++ s) ->
  ((exists a, array_at lenient (p + length kw + length g) cmd a) \/
   (~ begins_list (cmd ++ s) /\ exists x, breakable_reads (p + length kw + length g) cmd s x)) ->
  valid_utf8 (kw ++ g ++ cmd ++ s) = true -> pos p (kw ++ g ++ cmd ++ s) ->
  exists t, run ctx0 (Call r) p (kw ++ g ++ cmd ++ s) = Done (p + length (kw ++ g ++ cmd)) s [t] /\ t_rule t = r /\
    shell_or_exec_of unq src rx rs t = Err comment_error.
Proof.
  intros Hr G Hx Hsh Hxs Hlow Halpha Hrx Hrs Hkw Hg Ho He Hv Hp.
  pose proof (gap_comment_ne n g Hg) as Hne.
  pose proof (good_sub _ G) as [_ G1]. pose proof (good_sub _ G1) as [_ G2].
  rewrite (Forward3.keyword_valid k), (valid_gap _ _ _ Hg) in Hv by assumption.
  pose proof (pos_app _ _ _ _ (pos_app _ _ _ _ Hp)) as Hp2.
  assert (M : exists t, run ctx0 (Alt (Call rx) (Call rs)) (p + length kw + length g) (cmd ++ s) =
      Done (p + length kw + length g + length cmd) s [t]).
  { rewrite run_alt by exact G2. destruct He as [(a & He)|(Hnb & x & Hb)].
    - assert (Hvs : valid_utf8 s = true) by (rewrite (array_valid lenient _ _ _ _ He) in Hv; exact Hv).
      destruct (array_rule_fwd lenient src rx _ cmd a s Hx He Hvs Hp2) as (ch & -> & E). eauto.
    - rewrite (proj2 (list_here rx _ (cmd ++ s) Hx Hv) Hnb).
      destruct (breakable_reads_fwd src rs _ cmd x s Hsh Hb Hv Hp2) as (ch & -> & E). eauto. }
  destruct M as (t & E).
  destruct (gap_over_fwd (S n) g (cmd ++ s) (p + length kw) Hg Hne Ho Hv) as (f1 & E1 & Hc & Hf1).
  eexists. split.
  { apply token_fwd; rewrite Hr; [discriminate|]. cbn [fst snd rule_inner rule_outer].
    rewrite run_seq by exact G. rewrite keyword_fwd by assumption. rewrite run_seq by exact G1. rewrite E1, E.
    match goal with |- Done ?a _ _ = Done ?b _ _ => replace b with a by (rewrite !app_length; lia) end. reflexivity. }
  split; [reflexivity|]. unfold shell_or_exec_of. cbn [t_children app].
  destruct f1 as [|c0 f1]; [discriminate|]. inversion Hc as [|? ? Hc0 _]. subst. cbn [app].
  destruct (rule_eq_dec (t_rule c0) rx) as [K|_]; [congruence|].
  destruct (rule_eq_dec (t_rule c0) rs) as [K|_]; [congruence|]. rewrite Hc0. reflexivity.
Qed.
End Inv.
