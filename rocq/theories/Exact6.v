(** The choice of the instruction, lines and documents, in both directions: see SpecExact.v. *)

From Coq Require Import String.
From Verif Require Import Bytes BytesFacts Grammar Peg Result Ast Splicer Image Convert ImageFacts Dockerfile SpecDoc DocFacts
  PegFacts SpecImage SpecSyntax SpecClear SpecExact PegRules PegTokens PegQuoted Sound SoundRules SoundInstr SoundDoc
  Forward Forward2 Forward3 ListFacts Forward4 Forward5 Idle Exact Exact2 Exact3 Exact4 Exact5.
Local Open Scope nat_scope.

(** ** When the syntax of a keyword applies *)

(** The text after the keyword [k] is read by the syntax of that keyword. *)
Definition applies (k : string) (u : bytes) : Prop :=
  (k = "from" /\ from_begins u)%string \/ (k = "copy" /\ copy_begins u)%string \/
  (k = "arg" /\ exists c t, after_gap u (c :: t) /\ is_alpha c = true)%string \/
  ((k = "label" \/ k = "env") /\ exists t, after_gap u t)%string \/
  ((k = "run" \/ k = "cmd" \/ k = "entrypoint") /\ exists t, after_gap u t /\ ~ ends_here t)%string.

Lemma ends_here_dec s : {ends_here s} + {~ ends_here s}.
Proof. destruct s as [|c s]; [left; exact I|]. cbn. destruct (is_newline_byte c); [left|right]; congruence. Qed.

Lemma applies_not k u : passed_over k u <-> ~ applies k u.
Proof.
  split.
  - intros (H1 & H2 & H3 & H4 & H5) [(K & H)|[(K & H)|[(K & c & t & H & Hc)|[(K & t & H)|(K & t & H & Ht)]]]].
    + exact (H1 K H).
    + exact (H2 K H).
    + rewrite (H3 K _ _ H) in Hc. discriminate.
    + exact (H4 K _ H).
    + exact (Ht (H5 K _ H)).
  - intros N. split; [intros K H; apply N; left; auto|]. split; [intros K H; apply N; right; left; auto|].
    split; [intros K c t H; destruct (is_alpha c) eqn:Hc; [|reflexivity]; exfalso; apply N; right; right; left; split; [exact K|]; exists c, t; auto|].
    split; [intros K t H; apply N; right; right; right; left; split; [exact K|]; exists t; auto|].
    intros K t H. destruct (ends_here_dec t) as [E|E]; [exact E|]. exfalso. apply N. right; right; right; right. split; [exact K|]. exists t; auto.
Qed.

Definition done (r : rule) (p : nat) (s : bytes) : Prop := exists q s' f, run ctx0 (Call r) p s = Done q s' f.

Lemma done_seq r k e p kw u : grammar r = (Normal, Seq (Insens (bs k)) e) -> good (Seq (Insens (bs k)) e) = true ->
  keyword k kw -> to_lower (bs k) = bs k ->
  (done r p (kw ++ u) <-> exists q s' f, run ctx0 e (p + length kw) u = Done q s' f).
Proof.
  intros Hr G Hkw Hl. unfold done. split.
  - intros (q & s' & f & H). apply token_inv in H; [|rewrite Hr; discriminate]. destruct H as (f' & H & _).
    rewrite Hr in H. cbn [fst snd rule_inner rule_outer] in H. apply seq_inv in H; [|exact G].
    destruct H as (q1 & s1 & f1 & f2 & H1 & H & _). rewrite keyword_fwd in H1 by assumption.
    assert (E1 : q1 = p + length kw) by congruence. assert (E2 : s1 = u) by congruence. subst. eauto.
  - intros (q & s' & f & H). eexists _, _, _. apply token_fwd; rewrite Hr; [discriminate|]. cbn [fst snd rule_inner rule_outer].
    rewrite run_seq by exact G. rewrite keyword_fwd by assumption.
    change (rule_inner Normal ctx0) with ctx0. rewrite H. reflexivity.
Qed.

Lemma arg_applies p kw u : valid_utf8 u = true -> keyword "arg" kw ->
  (done R_arg p (kw ++ u) <-> exists c t, after_gap u (c :: t) /\ is_alpha c = true).
Proof.
  intros Hv Hkw. rewrite (done_seq R_arg "arg" _ p kw u eq_refl eq_refl Hkw eq_refl). split.
  - intros (q & s' & f & H). apply seq_inv in H; [|reflexivity]. destruct H as (q1 & s1 & f1 & f2 & H1 & H & _).
    assert (K : after_gap u s1) by (apply (gap_exact_iff u s1 (p + length kw) Hv); eauto).
    apply seq_inv in H; [|reflexivity]. destruct H as (q2 & s2 & f3 & f4 & H2 & _ & _).
    apply arg_name_inv in H2. destruct H2 as (name & ch & -> & _ & (c & t & -> & Hc & _) & _).
    exists c, (t ++ s2). auto.
  - intros (c & t & H & Hc). apply (gap_exact_iff u _ (p + length kw) Hv) in H. destruct H as (q & f & H).
    rewrite run_seq by reflexivity. rewrite H. rewrite run_seq by reflexivity.
    pose proof (run_total ctx0 (Call R_arg_name) q (c :: t) eq_refl) as T.
    destruct (run ctx0 (Call R_arg_name) q (c :: t)) as [q2 s2 f2| |] eqn:E; [| |congruence].
    + rewrite run_opt by reflexivity.
      match goal with |- context [run ctx0 ?e q2 s2] => pose proof (run_total ctx0 e q2 s2 eq_refl) as T2; destruct (run ctx0 e q2 s2) end; [eauto|eauto|congruence].
    + exfalso. rewrite run_call in E. cbn [grammar fst snd rule_inner rule_outer] in E. rewrite run_seq in E by reflexivity.
      rewrite class_alpha in E. cbn iota in E. rewrite Hc in E.
      rewrite (class_rep _ is_word) in E; [discriminate|reflexivity|apply class_word].
Qed.

Lemma rep_done c e p s : good (Rep e) = true -> exists q s' f, run c (Rep e) p s = Done q s' f.
Proof.
  intros G. pose proof (run_total c (Rep e) p s G) as T. pose proof (rep_not_fail c e p s G) as F.
  destruct (run c (Rep e) p s) as [q s' f| |]; [eauto|congruence|congruence].
Qed.

Lemma opt_done c e p s : good (Opt e) = true -> exists q s' f, run c (Opt e) p s = Done q s' f.
Proof.
  intros G. rewrite run_opt by exact G. pose proof (run_total c e p s (good_sub _ G)) as T.
  destruct (run c e p s) as [q s' f| |]; [eauto|eauto|congruence].
Qed.

(** One or more gaps with or without something behind each *)
Lemma gaps_done r p u : good (rep1 (Seq arg_ws (Opt (Call r)))) = true -> valid_utf8 u = true ->
  ((exists q s' f, run ctx0 (rep1 (Seq arg_ws (Opt (Call r)))) p u = Done q s' f) <-> exists t, after_gap u t).
Proof.
  intros G Hv. unfold rep1 in *. pose proof (good_sub _ G) as [G1 G2]. pose proof (good_sub _ G1) as [_ G3]. split.
  - intros (q & s' & f & H). apply seq_inv in H; [|exact G]. destruct H as (q1 & s1 & f1 & f2 & H & _ & _).
    apply seq_inv in H; [|exact G1]. destruct H as (q2 & s2 & f3 & f4 & H & _ & _). exists s2.
    apply (gap_exact_iff u s2 p Hv). eauto.
  - intros (t & H). apply (gap_exact_iff u t p Hv) in H. destruct H as (q & f & H).
    destruct (opt_done ctx0 (Call r) q t G3) as (q2 & t2 & f2 & H2).
    destruct (rep_done ctx0 (Seq arg_ws (Opt (Call r))) q2 t2 G2) as (q3 & t3 & f3 & H3).
    rewrite run_seq by exact G. rewrite run_seq by exact G1. rewrite H, H2, H3. eauto.
Qed.

Lemma label_applies p kw u : valid_utf8 u = true -> keyword "label" kw ->
  (done R_label p (kw ++ u) <-> exists t, after_gap u t).
Proof.
  intros Hv Hkw. rewrite (done_seq R_label "label" _ p kw u eq_refl eq_refl Hkw eq_refl).
  rewrite <- (gaps_done R_label_pair (p + length kw) u eq_refl Hv). split.
  - intros (q & s' & f & H). apply alt_inv in H; [|reflexivity]. destruct H as [H|[_ H]]; [|eauto].
    apply (gaps_done R_label_pair (p + length kw) u eq_refl Hv). apply token_inv in H; [|discriminate]. destruct H as (f' & H & _).
    cbn [grammar fst snd rule_inner rule_outer] in H. apply seq_inv in H; [|reflexivity].
    destruct H as (q1 & s1 & f1 & f2 & H & _ & _). exists s1. apply (gap_exact_iff u s1 (p + length kw) Hv). eauto.
  - intros (q & s' & f & H). rewrite run_alt by reflexivity. rewrite H.
    pose proof (run_total ctx0 (Call R_label_single) (p + length kw) u eq_refl) as T.
    destruct (run ctx0 (Call R_label_single) (p + length kw) u); [eauto|eauto|congruence].
Qed.

Lemma env_applies p kw u : valid_utf8 u = true -> keyword "env" kw ->
  (done R_env p (kw ++ u) <-> exists t, after_gap u t).
Proof.
  intros Hv Hkw. rewrite (done_seq R_env "env" _ p kw u eq_refl eq_refl Hkw eq_refl).
  rewrite <- (gaps_done R_env_pair (p + length kw) u eq_refl Hv). split.
  - intros (q & s' & f & H). apply alt_inv in H; [|reflexivity]. destruct H as [H|[_ H]].
    + apply (gaps_done R_env_pair (p + length kw) u eq_refl Hv). apply token_inv in H; [|discriminate]. destruct H as (f' & H & _).
      cbn [grammar fst snd rule_inner rule_outer] in H. apply seq_inv in H; [|reflexivity].
      destruct H as (q1 & s1 & f1 & f2 & H & _ & _). exists s1. apply (gap_exact_iff u s1 (p + length kw) Hv). eauto.
    + apply token_inv in H; [|discriminate]. destruct H as (f' & H & _).
      cbn [grammar fst snd rule_inner rule_outer] in H. eauto.
  - intros (q & s' & f & H). rewrite run_alt by reflexivity.
    pose proof (run_total ctx0 (Call R_env_single) (p + length kw) u eq_refl) as T.
    destruct (run ctx0 (Call R_env_single) (p + length kw) u); [eauto| |congruence].
    eexists _, _, _. apply token_fwd; [discriminate|]. exact H.
Qed.

Lemma command_applies k r rx rs p kw u :
  grammar r = (Normal, Seq (Insens (bs k)) (Seq arg_ws (Alt (Call rx) (Call rs)))) ->
  good (Seq (Insens (bs k)) (Seq arg_ws (Alt (Call rx) (Call rs)))) = true -> to_lower (bs k) = bs k ->
  grammar rx = (Normal, Call R_string_array) -> grammar rs = (AtomicRule, any_breakable) ->
  nullable (Alt (Call rx) (Call rs)) = false ->
  valid_utf8 u = true -> keyword k kw ->
  (done r p (kw ++ u) <-> exists t, after_gap u t /\ ~ ends_here t).
Proof.
  intros Hr G Hl Hrx Hrs Hnull Hv Hkw. rewrite (done_seq r k _ p kw u Hr G Hkw Hl).
  pose proof (good_sub _ G) as [_ G1]. pose proof (good_sub _ G1) as [_ G2]. split.
  - intros (q & s' & f & H). apply seq_inv in H; [|exact G1]. destruct H as (q1 & t & f1 & f2 & H1 & H & _).
    pose proof (run_valid _ _ _ _ _ _ _ H1 Hv eq_refl) as Hvt.
    exists t. split; [apply (gap_exact_iff u t (p + length kw) Hv); eauto|]. intros He. apply ends_end in He.
    apply alt_inv in H; [|exact G2]. destruct H as [H|[_ H]].
    + assert (K : run ctx0 (Call rx) q1 t = Fail); [|congruence]. apply (list_here rx); [exact Hrx|exact Hvt|].
      intros (w & t2 & -> & Hw). destruct Hw; destruct He as [K|K]; discriminate.
    + assert (K : run ctx0 (Call rs) q1 t = Fail); [|congruence]. rewrite run_call, Hrs. cbn [fst snd].
      rewrite breakable_fails by assumption. reflexivity.
  - intros (t & H & Hne). pose proof H as (g & Eg & Hgn & Hgb). apply (gap_exact_iff u t (p + length kw) Hv) in H. destruct H as (q & f & H).
    pose proof (run_valid _ _ _ _ _ _ _ H Hv eq_refl) as Hvt.
    rewrite run_seq by exact G1. rewrite H. rewrite run_alt by exact G2.
    pose proof (run_total ctx0 (Call rx) q t (proj1 (good_sub _ G2))) as T.
    destruct (run ctx0 (Call rx) q t); [eauto| |congruence].
    pose proof (run_total ctx0 (Call rs) q t (proj2 (good_sub _ G2))) as T2.
    destruct (run ctx0 (Call rs) q t) eqn:E; [eauto| |congruence]. exfalso. apply Hne. apply ends_end.
    rewrite run_call, Hrs in E. cbn [fst snd] in E.
    eapply breakable_failed; [exact Hvt|apply (gap_over_here _ _ (proj2 Hgb))|].
    destruct (run (rule_inner AtomicRule ctx0) any_breakable q t) eqn:E2; [discriminate|exact E2|discriminate].
Qed.

Lemma copy_applies p kw u : valid_utf8 u = true -> keyword "copy" kw -> (done R_copy p (kw ++ u) <-> copy_begins u).
Proof.
  intros Hv Hkw. rewrite (done_seq R_copy "copy" _ p kw u eq_refl eq_refl Hkw eq_refl). split.
  - intros (q & s' & f & H). seq_open H Hv H2.
    apply (flags_text_exact R_copy_flag R_copy_flag_name R_copy_flag_value) in H2; try reflexivity; [|exact Hv].
    destruct H2 as (fl & -> & Hfl). seq_open H Hv0 H3. seq_open H Hv1 H4.
    seq_open H3 Hv0 H5. pose proof (run_strict _ _ _ _ _ _ _ H3 eq_refl) as Hs.
    apply gap_exact_more in H5; [|exact Hv0|intros ->; cbn in Hs; lia]. destruct H5 as (g1 & -> & -> & _ & Hg1n & Hg1 & Ho1).
    apply (word_rule_exact _ AtomicRule) in H3; [|reflexivity|discriminate|assumption]. destruct H3 as (w1 & ch1 & -> & -> & Hw1 & _ & How1).
    seq_open H4 Hv1 H6. pose proof (run_strict _ _ _ _ _ _ _ H4 eq_refl) as Hs2.
    apply gap_exact_more in H6; [|exact Hv1|intros ->; cbn in Hs2; lia]. destruct H6 as (g2 & -> & -> & _ & Hg2n & Hg2 & Ho2).
    apply (word_rule_exact _ AtomicRule) in H4; [|reflexivity|discriminate|assumption]. destruct H4 as (w2 & ch2 & -> & -> & Hw2 & _ & How2).
    eexists fl, _, g1, w1, g2, w2, _. split; [reflexivity|]. split; [exact Hfl|]. split; [reflexivity|]. split; [exact Hg1n|].
    split; [split; [left; eauto|exact Ho1]|]. split; [exact Hw1|]. split; [exact How1|]. split; [exact Hg2n|].
    split; [split; [left; eauto|exact Ho2]|]. split; [exact Hw2|exact How2].
  - intros (fl & t & g1 & w1 & g2 & w2 & r & -> & Hfl & -> & Hg1n & Hg1 & Hw1 & How1 & Hg2n & Hg2 & Hw2 & How2).
    rewrite flags_before_valid in Hv by exact Hfl.
    destruct (flags_text_fwd R_copy_flag R_copy_flag_name R_copy_flag_value eq_refl eq_refl eq_refl eq_refl eq_refl eq_refl
      _ _ Hfl (p + length kw) Hv) as (f1 & E1).
    assert (Hv1 : valid_utf8 (w1 ++ g2 ++ w2 ++ r) = true) by (eapply gap_before_valid; eassumption).
    assert (Hv2 : valid_utf8 (g2 ++ w2 ++ r) = true) by (rewrite Forward3.word_valid in Hv1 by exact Hw1; exact Hv1).
    assert (Hv3 : valid_utf8 (w2 ++ r) = true) by (eapply gap_before_valid; eassumption).
    destruct (gap_before_fwd g1 _ (p + length kw + length fl) Hg1n Hg1 Hv) as (f2 & E2 & _).
    destruct (gap_before_fwd g2 _ (p + length kw + length fl + length g1 + length w1) Hg2n Hg2 Hv2) as (f3 & E3 & _).
    destruct (rep_done ctx0 (Seq arg_ws (Call R_copy_pathspec)) (p + length kw + length fl + length g1 + length w1 + length g2 + length w2) r eq_refl) as (q & s' & f4 & E4).
    rewrite run_seq by reflexivity. rewrite E1.
    rewrite (run_seq _ (Seq arg_ws (Call R_copy_pathspec))) by reflexivity. rewrite (run_seq _ arg_ws) by reflexivity. rewrite E2.
    rewrite (word_rule_over_fwd R_copy_pathspec AtomicRule); [|reflexivity|discriminate|assumption..].
    rewrite (run_seq _ (Seq arg_ws (Call R_copy_pathspec))) by reflexivity. rewrite (run_seq _ arg_ws) by reflexivity. rewrite E3.
    rewrite (word_rule_over_fwd R_copy_pathspec AtomicRule); [|reflexivity|discriminate|assumption..].
    rewrite E4. eauto.
Qed.

(** Each keyword *)
Lemma rule_applies k r p kw u : In (k, r) keyword_rules -> keyword k kw -> valid_utf8 u = true ->
  (done r p (kw ++ u) <-> applies k u).
Proof.
  intros Hin Hkw Hv. unfold applies. cbn in Hin.
  destruct Hin as [E|Hin]; [injection E as <- <-|].
  { rewrite (from_applies kw u p Hkw) by (rewrite (Forward3.keyword_valid "from"); first [assumption|repeat constructor]).
    intuition congruence. }
  destruct Hin as [E|Hin]; [injection E as <- <-|].
  { rewrite (command_applies "run" R_run R_run_exec R_run_shell) by (reflexivity || assumption). intuition congruence. }
  destruct Hin as [E|Hin]; [injection E as <- <-|].
  { rewrite arg_applies by assumption. intuition congruence. }
  destruct Hin as [E|Hin]; [injection E as <- <-|].
  { rewrite label_applies by assumption. intuition congruence. }
  destruct Hin as [E|Hin]; [injection E as <- <-|].
  { rewrite copy_applies by assumption. intuition congruence. }
  destruct Hin as [E|Hin]; [injection E as <- <-|].
  { rewrite (command_applies "entrypoint" R_entrypoint R_entrypoint_exec R_entrypoint_shell) by (reflexivity || assumption). intuition congruence. }
  destruct Hin as [E|Hin]; [injection E as <- <-|].
  { rewrite (command_applies "cmd" R_cmd R_cmd_exec R_cmd_shell) by (reflexivity || assumption). intuition congruence. }
  destruct Hin as [E|Hin]; [injection E as <- <-|contradiction].
  rewrite env_applies by assumption. intuition congruence.
Qed.

Lemma rule_passed k r p kw u : In (k, r) keyword_rules -> keyword k kw -> valid_utf8 u = true ->
  (run ctx0 (Call r) p (kw ++ u) = Fail <-> passed_over k u).
Proof.
  intros Hin Hkw Hv. rewrite applies_not, <- (rule_applies k r p kw u Hin Hkw Hv). unfold done. split.
  - intros E (q & s' & f & K). congruence.
  - intros N. apply fails_or; [|intros q s' f E; apply N; eauto].
    cbn in Hin. repeat (destruct Hin as [E|Hin]; [injection E as <- <-; reflexivity|]). contradiction.
Qed.

(** A name that is no keyword *)
Lemma not_keyword_passed k u : ~ In k reserved -> passed_over k u.
Proof.
  intros N. apply applies_not. unfold applies. intros H. apply N. unfold reserved. cbn [In].
  destruct H as [(-> & _)|[(-> & _)|[(-> & _)|[([-> | ->] & _)|([-> |[-> | ->]] & _)]]]]; tauto.
Qed.

Lemma reserved_rule k : In k reserved -> exists r, In (k, r) keyword_rules.
Proof.
  unfold reserved, keyword_rules. cbn [In]. intros H.
  repeat (destruct H as [<-|H]; [eexists; repeat (first [left; reflexivity|right])|]). contradiction.
Qed.

Lemma In_reserved_dec (k : string) : {In k reserved} + {~ In k reserved}.
Proof. apply in_dec. apply string_dec. Qed.
