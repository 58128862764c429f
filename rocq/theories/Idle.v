(** Text that is only blanks, line continuations and comments up to the end of a line:
    read as a shell text it has no strings but blank ones.  And why the instructions
    with a syntax of their own are passed over for [misc]. *)

From Coq Require Import String.
From Verif Require Import Bytes BytesFacts Grammar Peg PegFacts Result Ast Image SpecImage SpecSyntax Splicer Convert
  Dockerfile PegRules PegTokens PegQuoted Sound SoundRules SoundInstr SpecClear Forward Forward2 Forward3 Forward4 Forward5 Local.
Local Open Scope nat_scope.

(** What follows a comment: without the newline that ends it *)
Definition after_comment (t : bytes) : bytes :=
  match strip_newline (from_stop newline_here t) with
  | Some (_, v) => v
  | None => from_stop newline_here t
  end.

Inductive idle : bytes -> Prop :=
| idle_end s : at_line_end s -> idle s
| idle_blank c s : is_blank c = true -> idle s -> idle (c :: s)
| idle_cont s n u : cont_rest s = Some (n, u) -> idle u -> idle s
| idle_comment t : idle (after_comment t) -> idle (HASH :: t).

Lemma cont_rest_head s n u : cont_rest s = Some (n, u) -> exists t, s = BSLASH :: t.
Proof.
  destruct s as [|x s]; [discriminate|]. cbn [cont_rest]. destruct (x =? BSLASH)%N eqn:E; [|discriminate].
  apply N.eqb_eq in E. subst. eauto.
Qed.

Lemma idle_drop s : idle s -> idle (drop_while is_blank s).
Proof.
  induction 1 as [s Hs|c s Hc H IH|s n u E H IH|t H IH].
  - destruct s as [|x s]; [constructor; exact Hs|]. cbn [drop_while]. destruct (is_blank x) eqn:B; [|constructor; exact Hs].
    exfalso. destruct Hs as [Hs|Hs]; [discriminate|]. cbn [newline_here] in Hs. unfold is_newline_byte in Hs. unfold is_blank in B.
    apply orb_true_iff in B. rewrite !N.eqb_eq in B. destruct B; subst; discriminate.
  - cbn [drop_while]. rewrite Hc. exact IH.
  - destruct (cont_rest_head _ _ _ E) as (t & ->). cbn [drop_while]. change (is_blank BSLASH) with false. cbn iota.
    eapply idle_cont; eassumption.
  - cbn [drop_while]. change (is_blank HASH) with false. cbn iota. apply idle_comment. exact H.
Qed.

(** After the blanks *)
Lemma idle_cases x u : idle (x :: u) -> is_blank x = false ->
  newline_here (x :: u) = true \/ (exists n v, cont_rest (x :: u) = Some (n, v) /\ idle v) \/
  (x = HASH /\ idle (after_comment u)).
Proof.
  intros H B. inversion H as [s Hs|c s Hc K|s n v E K|t K]; subst.
  - left. destruct Hs as [Hs|Hs]; [discriminate|exact Hs].
  - congruence.
  - right. left. eauto.
  - right. right. auto.
Qed.

Lemma idle_blanks b s : blanks b -> idle s -> idle (b ++ s).
Proof. induction 1; intros; [assumption|]. cbn [app]. apply idle_blank; auto. Qed.

Lemma run_comment_line c p s : valid_utf8 s = true -> exists q f, run c comment_line p s =
  match drop_while is_blank s with
  | x :: t => if (x =? HASH)%N then Done q (after_comment t) f else Fail
  | [] => Fail
  end.
Proof.
  intros Hv. unfold comment_line. rewrite run_call.
  change (snd (grammar R_comment_line)) with (Seq (Rep ws) (Seq comment (Opt NEWLINE))).
  change (rule_inner (fst (grammar R_comment_line)) c) with c.
  rewrite run_seq by reflexivity. rewrite run_ws_star. rewrite run_seq by reflexivity.
  assert (Hv2 : valid_utf8 (drop_while is_blank s) = true).
  { rewrite <- (valid_blanks (take_while is_blank s)); [rewrite take_drop; exact Hv|apply take_while_all]. }
  rewrite run_comment by exact Hv2. destruct (drop_while is_blank s) as [|x t]; [exists 0, []; reflexivity|].
  destruct (x =? HASH)%N; [|exists 0, []; reflexivity].
  rewrite run_opt by reflexivity. rewrite run_newline. unfold after_comment.
  destruct (strip_newline (from_stop newline_here t)) as [[n v]|]; do 2 eexists; reflexivity.
Qed.

(** A gap before the end of a line *)
Lemma idle_lines n : forall s, length s <= n -> forall p q s' f, valid_utf8 s = true ->
  run ctx0 (Rep (Alt comment_line empty_line)) p s = Done q s' f -> idle s' -> idle s.
Proof.
  induction n as [|n IH]; intros s Hl p q s' f Hv H Hs'.
  - destruct s; [constructor; left; reflexivity|cbn in Hl; lia].
  - rewrite run_rep in H by reflexivity. destruct (run ctx0 (Alt comment_line empty_line) p s) as [q1 s1 f1| |] eqn:E; [| |discriminate].
    2:{ injection H as <- <- <-. exact Hs'. }
    pose proof (run_strict _ _ _ _ _ _ _ E eq_refl) as Hlt.
    assert (Hv1 : valid_utf8 s1 = true) by (eapply run_valid; [exact E|exact Hv|reflexivity]).
    destruct (run ctx0 (Rep (Alt comment_line empty_line)) q1 s1) as [q2 s2 f2| |] eqn:R; try discriminate.
    injection H as <- <- <-.
    assert (Hi : idle s1) by (eapply IH; [|exact Hv1|exact R|exact Hs']; lia).
    apply alt_inv in E; [|reflexivity]. destruct E as [E|[_ E]].
    + destruct (run_comment_line ctx0 p s Hv) as (q0 & f0 & K). rewrite E in K.
      rewrite <- (take_drop is_blank s). apply idle_blanks; [apply take_while_all|].
      destruct (drop_while is_blank s) as [|x t]; [discriminate|]. destruct (x =? HASH)%N eqn:X; [|discriminate].
      apply N.eqb_eq in X. subst x. injection K as _ -> _. apply idle_comment. exact Hi.
    + apply empty_line_inv in E. destruct E as (b & m & Hb & Hm & -> & _). apply idle_blanks; [exact Hb|].
      apply idle_end. right. destruct Hm; reflexivity.
Qed.

Lemma idle_gap n : forall s, length s <= n -> forall p q s' f, valid_utf8 s = true ->
  run ctx0 (Rep arg_ws_item) p s = Done q s' f -> at_line_end s' -> idle s.
Proof.
  induction n as [|n IH]; intros s Hl p q s' f Hv H Hs'.
  - destruct s; [constructor; left; reflexivity|cbn in Hl; lia].
  - rewrite run_rep in H by reflexivity. destruct (run ctx0 arg_ws_item p s) as [q1 s1 f1| |] eqn:E; [| |discriminate].
    2:{ injection H as <- <- <-. constructor. exact Hs'. }
    pose proof (run_strict _ _ _ _ _ _ _ E eq_refl) as Hlt.
    assert (Hv1 : valid_utf8 s1 = true) by (eapply run_valid; [exact E|exact Hv|reflexivity]).
    destruct (run ctx0 (Rep arg_ws_item) q1 s1) as [q2 s2 f2| |] eqn:R; try discriminate.
    injection H as <- <- <-.
    assert (Hi : idle s1) by (eapply IH; [|exact Hv1|exact R|exact Hs']; lia).
    unfold arg_ws_item in E. apply alt_inv in E; [|reflexivity]. destruct E as [E|[_ E]].
    + rewrite (class_ws ctx0 p s) in E. destruct s as [|x s]; [discriminate|]. destruct (is_blank x) eqn:B; [|discriminate].
      injection E as _ <- _. apply idle_blank; assumption.
    + apply seq_inv in E; [|reflexivity]. destruct E as (q3 & s3 & f3 & f4 & E1 & E2 & _).
      assert (Hv3 : valid_utf8 s3 = true) by (eapply run_valid; [exact E1|exact Hv|reflexivity]).
      rewrite run_continuation in E1. destruct (cont_rest s) as [[m u]|] eqn:C; [|discriminate].
      injection E1 as <- <- <-. eapply idle_cont; [exact C|]. eapply idle_lines; [apply le_n|exact Hv3|exact E2|exact Hi].
Qed.

Lemma until_blanks stop s : (forall c t, is_blank c = true -> stop (c :: t) = false) ->
  (match drop_while is_blank s with x :: t => stop (x :: t) = true | [] => True end) ->
  until stop s = take_while is_blank s /\ from_stop stop s = drop_while is_blank s.
Proof.
  intros Hb. induction s as [|x s IH]; intros H; [split; reflexivity|].
  cbn [until from_stop take_while drop_while] in *. destruct (is_blank x) eqn:B.
  - rewrite (Hb x s B). destruct (IH H) as [-> ->]. split; reflexivity.
  - rewrite H. split; reflexivity.
Qed.

Lemma chunk_goes_on c t : is_blank c = true -> chunk_stop (c :: t) = false.
Proof.
  intros B. unfold chunk_stop. apply orb_false_iff. split.
  - cbn [newline_here]. unfold is_newline_byte. unfold is_blank in B.
    apply orb_true_iff in B. rewrite !N.eqb_eq in B. destruct B; subst; reflexivity.
  - destruct (continues (c :: t)) eqn:E; [|reflexivity]. apply continues_ascii in E. subst. discriminate.
Qed.

(** No text but blanks *)
Definition no_text (l : list breakable_component) : Prop :=
  forall x, In (BString x) l -> blanks (ss_content x).

Section Src.
Variable src : bytes.

Lemma idle_breakable n : forall s, length s <= n -> forall c p q s' f, look c = false ->
  valid_utf8 s = true -> pos src p s -> idle s -> run c any_breakable p s = Done q s' f ->
  exists t l, f = [t] /\ t_rule t = R_any_breakable /\ parse_any_breakable_inner src t = Ok l /\ no_text l.
Proof.
  induction n as [|n IH]; intros s Hl c p q s' f Hc Hv Hp Hi H.
  { pose proof (run_strict _ _ _ _ _ _ _ H eq_refl). lia. }
  unfold any_breakable in H. call_open H. cbn [grammar fst snd] in H.
  assert (Ec : rule_inner CompoundRule c = ctx0) by (cbn; rewrite Hc; reflexivity). rewrite Ec in H.
  assert (Et : forall q f, rule_tokens CompoundRule c R_any_breakable p q f = [Node R_any_breakable p q f]).
  { intros. cbn. rewrite Hc. reflexivity. }
  cbn [grammar fst]. rewrite Et.
  assert (Es : s = take_while is_blank s ++ drop_while is_blank s) by (symmetry; apply take_drop).
  pose proof (idle_drop s Hi) as Hd.
  pose proof (drop_while_head is_blank s) as Hh.
  apply alt_inv in H; [|reflexivity]. destruct H as [H|[Hcl H]].
  - seq_open H Hv H1. pose proof (run_strict _ _ _ _ _ _ _ H1 eq_refl) as Hs.
    destruct (run_comment_line ctx0 p s Hv) as (q9 & f9 & K). rewrite H1 in K.
    destruct (drop_while is_blank s) as [|x t0]; [discriminate|]. destruct (x =? HASH)%N eqn:X; [|discriminate].
    apply N.eqb_eq in X. subst x. injection K as _ Es0 _. clear q9 f9.
    assert (Hi0 : idle s0).
    { subst s0. apply idle_cases in Hd; [|reflexivity]. destruct Hd as [Hd|[(m & v & Hd & _)|[_ Hd]]]; [discriminate|discriminate|exact Hd]. }
    clear Es Es0 Hd Hh. apply comment_line_inv in H1; [|exact Hv]. destruct H1 as (b & t & m & Hb & Ht & -> & -> & Hm & ->).
    assert (Hpt : pos src (p + length b) (t ++ m ++ s0)) by (apply pos_app; exact Hp).
    assert (Hps : pos src (p + length (b ++ t ++ m)) s0).
    { apply pos_app. rewrite <- !app_assoc. exact Hp. }
    cbn [wrap emits ctx0 look atom negb andb].
    apply opt_inv in H; [|reflexivity]. destruct H as [H|(_ & -> & -> & ->)].
    + apply (IH s0 ltac:(lia)) in H; [|reflexivity|exact Hv0|exact Hps|exact Hi0].
      destruct H as (t2 & l & -> & Hr & Hin & Hl2). do 2 eexists. split; [reflexivity|]. split; [reflexivity|]. split.
      * rewrite breakable_inner_eq. cbn [t_children app for_each]. unfold breakable_step.
        rewrite Hr. cbn [t_rule bind]. rewrite Hin. cbn [bind for_each app]. reflexivity.
      * intros y [Hy|Hy]; [discriminate|]. apply Hl2. exact Hy.
    + do 2 eexists. split; [reflexivity|]. split; [reflexivity|]. split.
      * rewrite breakable_inner_eq. cbn [t_children app for_each]. unfold breakable_step.
        cbn [t_rule bind app]. reflexivity.
      * intros y [Hy|[]]. discriminate.
  - assert (Hx : match drop_while is_blank s with x :: t => x <> HASH | [] => True end).
    { rewrite run_seq in Hcl by reflexivity. destruct (run_comment_line ctx0 p s Hv) as (q9 & f9 & K). rewrite K in Hcl.
      destruct (drop_while is_blank s) as [|x t0]; [exact I|]. intros ->. change (HASH =? HASH)%N with true in Hcl. cbn iota in Hcl.
      pose proof (opt_not_fail ctx0 any_breakable q9 (after_comment t0) eq_refl) as K3. pose proof (run_total ctx0 (Opt any_breakable) q9 (after_comment t0) eq_refl) as K4.
      destruct (run ctx0 (Opt any_breakable) q9 (after_comment t0)); congruence. }
    assert (Hst : match drop_while is_blank s with x :: t => chunk_stop (x :: t) = true /\ (forall m v, cont_rest (x :: t) = Some (m, v) -> idle v) | [] => True end).
    { destruct (drop_while is_blank s) as [|x t0]; [exact I|]. destruct (idle_cases x t0 Hd Hh) as [K|[(m & v & K & K2)|[K _]]]; [| |contradiction].
      - unfold chunk_stop. rewrite K. split; [reflexivity|]. intros m v Q. destruct (cont_rest_head _ _ _ Q) as (t1 & Q1). injection Q1 as -> _. discriminate.
      - unfold chunk_stop, continues. rewrite K. split; [apply orb_true_r|]. intros m' v' Q. injection Q as <- <-. exact K2. }
    destruct (until_blanks chunk_stop s chunk_goes_on) as [U1 U2].
    { destruct (drop_while is_blank s); [exact I|apply Hst]. }
    seq_open H Hv H1. rewrite run_any_content in H1 by exact Hv. rewrite U1, U2 in H1.
    pose proof (take_while_all is_blank s) as Hb. remember (take_while is_blank s) as b eqn:Eb. destruct b as [|y b]; [discriminate|].
    injection H1 as <- <- <-. rewrite Es in Hp. pose proof (pos_app _ _ _ _ Hp) as Hp1.
    cbn [wrap emits ctx0 look atom negb andb].
    apply opt_inv in H; [|reflexivity]. destruct H as [H|(_ & -> & -> & ->)].
    + seq_open H Hv0 H1. rewrite run_continuation in H1. destruct (cont_rest (drop_while is_blank s)) as [[m u]|] eqn:C; [|discriminate].
      injection H1 as <- <- <-.
      assert (Hu : idle u). { destruct (drop_while is_blank s) as [|z t0]; [discriminate|]. eapply Hst. exact C. }
      destruct (cont_rest_some _ _ _ C) as (k & Hk & Ed & <-). rewrite Ed in Hp1. pose proof (pos_app _ _ _ _ Hp1) as Hp2.
      assert (Hlen : length u <= n).
      { rewrite Es, Ed in Hl. rewrite !app_length in Hl. cbn [length] in Hl. lia. }
      apply (IH u Hlen) in H; [|reflexivity|exact Hv1|exact Hp2|exact Hu].
      destruct H as (t2 & l & -> & Hr & Hin & Hl2). do 2 eexists. split; [reflexivity|]. split; [reflexivity|]. split.
      * rewrite breakable_inner_eq. cbn [t_children app for_each]. unfold breakable_step.
        rewrite Hr. cbn [t_rule bind]. rewrite Hin. cbn [bind for_each app].
        rewrite (as_str_at src _ _ _ _ _ Hp). reflexivity.
      * intros x [Hy|Hy]; [|apply Hl2; exact Hy]. injection Hy as <-. exact Hb.
    + do 2 eexists. split; [reflexivity|]. split; [reflexivity|]. split.
      * rewrite breakable_inner_eq. cbn [t_children app for_each]. unfold breakable_step.
        cbn [t_rule bind app]. rewrite (as_str_at src _ _ _ _ _ Hp). reflexivity.
      * intros x [Hy|[]]. injection Hy as <-. exact Hb.
Qed.
End Src.

(** ** Why an alternative was passed over *)

Lemma seq_go c e1 e2 p s q s1 f1 : good (Seq e1 e2) = true -> run c e1 p s = Done q s1 f1 -> run c (Seq e1 e2) p s = Fail ->
  run c e2 q s1 = Fail.
Proof. intros G H K. rewrite run_seq, H in K by exact G. destruct (run c e2 q s1); [discriminate|reflexivity|discriminate]. Qed.

Lemma call_fail c r p s : run c (Call r) p s = Fail -> run (rule_inner (fst (grammar r)) c) (snd (grammar r)) p s = Fail.
Proof. rewrite run_call. destruct (run _ (snd (grammar r)) p s); [discriminate|reflexivity|discriminate]. Qed.

Lemma alt_fail c e1 e2 p s : good (Alt e1 e2) = true -> run c (Alt e1 e2) p s = Fail -> run c e1 p s = Fail /\ run c e2 p s = Fail.
Proof. intros G H. rewrite run_alt in H by exact G. destruct (run c e1 p s); [discriminate|auto|discriminate]. Qed.

Lemma gap_starts c p s : gap_here s = true -> valid_utf8 s = true -> exists q s1 f, run c arg_ws p s = Done q s1 f.
Proof. intros Hs Hv. destruct (succeeds_gap c p s Hv) as [(q & s' & f & R & _)|(_ & E)]; [eauto|congruence]. Qed.

Lemma gap_left p s q s1 f : valid_utf8 s = true -> run ctx0 arg_ws p s = Done q s1 f ->
  run ctx0 (Rep arg_ws_item) p s = Done q s1 f /\ valid_utf8 s1 = true /\ gap_here s1 = false.
Proof.
  intros Hv H. assert (Hv1 : valid_utf8 s1 = true) by (eapply run_valid; [exact H|exact Hv|reflexivity]).
  unfold arg_ws in H. call_open H. cbn [grammar fst snd rule_inner rule_outer rule_tokens] in *. unfold rep1 in H.
  change (rule_outer Silent ctx0) with ctx0 in H.
  assert (Hs : run ctx0 (Rep arg_ws_item) p s = Done q s1 f0).
  { rewrite run_rep by reflexivity. rewrite run_seq in H by reflexivity.
    destruct (run ctx0 arg_ws_item p s); [exact H|discriminate|discriminate]. }
  split; [exact Hs|]. split; [exact Hv1|]. clear H.
  assert (K : forall n s, length s <= n -> forall p f, valid_utf8 s = true -> run ctx0 (Rep arg_ws_item) p s = Done q s1 f -> gap_here s1 = false).
  { clear. induction n as [|n IH]; intros s Hl p f Hv H.
    - destruct s; [|cbn in Hl; lia]. rewrite run_rep, gap_item_fails in H by reflexivity. injection H as _ <- _. reflexivity.
    - rewrite run_rep in H by reflexivity. destruct (succeeds_gap_item ctx0 p s Hv) as [(q2 & s2 & f2 & R & _)|(R & E)]; rewrite R in H.
      + pose proof (run_strict _ _ _ _ _ _ _ R eq_refl) as L.
        destruct (run ctx0 (Rep arg_ws_item) q2 s2) as [q3 s3 f3| |] eqn:R2; try discriminate. injection H as -> -> _.
        eapply (IH s2); [lia| |exact R2]. eapply run_valid; [exact R|exact Hv|reflexivity].
      + injection H as _ <- _. exact E. }
  eapply K; [apply le_n|exact Hv|exact Hs].
Qed.

Lemma breakable_failed c p s : valid_utf8 s = true -> gap_here s = false -> run c any_breakable p s = Fail -> at_line_end s.
Proof.
  intros Hv Hg H. apply call_fail in H. cbn [grammar fst snd] in H. apply alt_fail in H; [|reflexivity]. destruct H as [_ H].
  rewrite run_seq in H by reflexivity. rewrite run_any_content in H by exact Hv.
  destruct s as [|x s]; [left; reflexivity|]. right. cbn [until] in H.
  destruct (chunk_stop (x :: s)) eqn:E.
  - unfold chunk_stop in E. apply orb_true_iff in E. destruct E as [E|E]; [exact E|]. cbn [gap_here] in Hg. rewrite E, orb_true_r in Hg. discriminate.
  - exfalso. match type of H with context [run ?c (Opt ?e) ?q ?s] =>
      pose proof (opt_not_fail c e q s eq_refl) as K1; pose proof (run_total c (Opt e) q s eq_refl) as K2;
      destruct (run c (Opt e) q s); try congruence end.
Qed.

(** RUN, CMD, ENTRYPOINT: only a gap up to the end of the line *)
Lemma command_failed k r rx rs kw rest p : grammar r = (Normal, Seq (Insens (bs k)) (Seq arg_ws (Alt (Call rx) (Call rs)))) ->
  grammar rs = (AtomicRule, any_breakable) -> to_lower (bs k) = bs k -> good (snd (grammar r)) = true ->
  keyword k kw -> valid_utf8 rest = true -> gap_here rest = true -> run ctx0 (Call r) p (kw ++ rest) = Fail -> idle rest.
Proof.
  intros Hr Hs Hk G K Hv Hg H. apply call_fail in H. rewrite Hr in H, G. cbn [fst snd rule_inner] in H, G.
  apply (seq_go _ _ _ _ _ _ _ _ G (keyword_fwd k kw rest ctx0 p K Hk)) in H. apply good_sub in G. destruct G as [_ G].
  destruct (gap_starts ctx0 (p + length kw) rest Hg Hv) as (q & s1 & f & R).
  apply (seq_go _ _ _ _ _ _ _ _ G R) in H. apply good_sub in G. destruct G as [_ G].
  apply alt_fail in H; [|exact G]. destruct H as [_ H]. apply call_fail in H. rewrite Hs in H. cbn [fst snd] in H.
  destruct (gap_left _ _ _ _ _ Hv R) as (R' & Hv1 & Hg1).
  eapply idle_gap; [apply le_n|exact Hv|exact R'|]. eapply breakable_failed; eassumption.
Qed.

(** LABEL, ENV: no gap *)
Lemma rep1_gap_fails e p s : good (rep1 (Seq arg_ws (Opt e))) = true -> valid_utf8 s = true -> gap_here s = true ->
  run ctx0 (rep1 (Seq arg_ws (Opt e))) p s <> Fail.
Proof.
  intros G Hv Hg H. destruct (gap_starts ctx0 p s Hg Hv) as (q & s1 & f & R). unfold rep1 in *.
  assert (G2 : good (Seq arg_ws (Opt e)) = true) by (apply good_sub in G; apply G).
  assert (G3 : good (Opt e) = true) by (apply good_sub in G2; apply G2).
  assert (G4 : good (Rep (Seq arg_ws (Opt e))) = true) by (apply good_sub in G; apply G).
  destruct (run ctx0 (Seq arg_ws (Opt e)) p s) as [q2 s2 f2| |] eqn:E.
  - apply (seq_go _ _ _ _ _ _ _ _ G E) in H. rewrite run_rep in H by exact G4.
    destruct (run ctx0 (Seq arg_ws (Opt e)) q2 s2) as [q3 s3 f3| |]; try discriminate.
    pose proof (rep_not_fail ctx0 (Seq arg_ws (Opt e)) q3 s3 G4) as N.
    destruct (run ctx0 (Rep (Seq arg_ws (Opt e))) q3 s3); [discriminate|congruence|discriminate].
  - apply (seq_go _ _ _ _ _ _ _ _ G2 R) in E. apply opt_not_fail in E; [exact E|exact G3].
  - rewrite run_seq, E in H by exact G. discriminate.
Qed.

Lemma label_failed kw rest p : keyword "label" kw -> valid_utf8 rest = true -> run ctx0 (Call R_label) p (kw ++ rest) = Fail -> gap_here rest = false.
Proof.
  intros K Hv H. destruct (gap_here rest) eqn:Hg; [exfalso|reflexivity]. apply call_fail in H. cbn [grammar fst snd rule_inner] in H.
  eapply seq_go in H; [|reflexivity|apply keyword_fwd; [exact K|reflexivity]]. apply alt_fail in H; [|reflexivity]. destruct H as [_ H].
  revert H. apply rep1_gap_fails; [reflexivity|exact Hv|exact Hg].
Qed.

Lemma env_failed kw rest p : keyword "env" kw -> valid_utf8 rest = true -> run ctx0 (Call R_env) p (kw ++ rest) = Fail -> gap_here rest = false.
Proof.
  intros K Hv H. destruct (gap_here rest) eqn:Hg; [exfalso|reflexivity]. apply call_fail in H. cbn [grammar fst snd rule_inner] in H.
  eapply seq_go in H; [|reflexivity|apply keyword_fwd; [exact K|reflexivity]]. apply alt_fail in H; [|reflexivity]. destruct H as [_ H].
  apply call_fail in H. cbn [grammar fst snd rule_inner] in H.
  revert H. apply rep1_gap_fails; [reflexivity|exact Hv|exact Hg].
Qed.

(** ARG: no name after the gap *)
Lemma arg_failed kw k g c t p : keyword "arg" kw -> gap k g -> g <> [] -> valid_utf8 (c :: t) = true ->
  run ctx0 (Call R_arg) p (kw ++ g ++ c :: t) = Fail -> is_alpha c = false.
Proof.
  intros K Hg Hne Hv H. destruct (is_alpha c) eqn:Ha; [exfalso|reflexivity]. apply call_fail in H. cbn [grammar fst snd rule_inner] in H.
  eapply seq_go in H; [|reflexivity|apply keyword_fwd; [exact K|reflexivity]].
  destruct (gap_fwd k g (c :: t) (p + length kw) Hg Hne (alpha_solid c Ha) Hv) as (f & R & _).
  eapply seq_go in H; [|reflexivity|exact R].
  destruct (run ctx0 (Call R_arg_name) (p + length kw + length g) (c :: t)) as [q s1 f1| |] eqn:E.
  - eapply seq_go in H; [|reflexivity|exact E]. apply opt_not_fail in H; [exact H|reflexivity].
  - apply call_fail in E. cbn [grammar fst snd] in E. eapply seq_go in E; [|reflexivity|rewrite class_alpha, Ha; reflexivity].
    revert E. apply rep_not_fail. reflexivity.
  - revert E. apply run_total. reflexivity.
Qed.

(** FROM: no image after the gap *)
Lemma no_flag r k g s p : run ctx0 (Call r) (p + length g) s = Fail -> good (Rep (Seq arg_ws (Call r))) = true ->
  gap k g -> g <> [] -> gap_stops s -> valid_utf8 s = true ->
  run ctx0 (Rep (Seq arg_ws (Call r))) p (g ++ s) = Done p (g ++ s) [].
Proof.
  intros F G Hg Hne Hs Hv. rewrite run_rep by exact G. pose proof G as G2. apply good_sub in G2. destruct G2 as [G2 _].
  destruct (gap_fwd k g s p Hg Hne Hs Hv) as (f & R & _).
  rewrite run_seq, R, F by exact G2. reflexivity.
Qed.

Lemma from_failed kw k g c t p : keyword "from" kw -> gap k g -> g <> [] -> valid_utf8 (c :: t) = true ->
  run ctx0 (Call R_from) p (kw ++ g ++ c :: t) = Fail -> image_char c = true -> c = DASH.
Proof.
  intros K Hg Hne Hv H Hi. destruct (N.eq_dec c DASH) as [E|Hd]; [exact E|exfalso]. apply call_fail in H. cbn [grammar fst snd rule_inner] in H.
  eapply seq_go in H; [|reflexivity|apply keyword_fwd; [exact K|reflexivity]].
  assert (Hst : gap_stops (c :: t)) by (apply image_solid; exact Hi).
  eapply seq_go in H; [|reflexivity|apply (no_flag R_from_flag k); [|reflexivity|assumption..]].
  2:{ rewrite run_call. cbn [grammar fst snd]. rewrite run_seq by reflexivity. rewrite run_str. cbn [match_str].
      rewrite (proj2 (N.eqb_neq DASH c)) by congruence. reflexivity. }
  destruct (gap_fwd k g (c :: t) (p + length kw) Hg Hne Hst Hv) as (f & R & _).
  eapply seq_go in H; [|reflexivity|exact R].
  destruct (run ctx0 (Call R_from_image) (p + length kw + length g) (c :: t)) as [q s1 f1| |] eqn:E.
  - eapply seq_go in H; [|reflexivity|exact E]. apply opt_not_fail in H; [exact H|reflexivity].
  - apply call_fail in E. cbn [grammar fst snd] in E. rewrite (class_rep1 _ image_char) in E; [|reflexivity|apply class_image].
    cbn [take_while] in E. rewrite Hi in E. discriminate.
  - revert E. apply run_total. reflexivity.
Qed.

(** COPY: not two words after the gap *)
Lemma copy_failed kw k g w k2 g2 c t p : keyword "copy" kw -> gap k g -> g <> [] -> word w -> begins_solid w -> ~ ends_in_backslash w ->
  gap k2 g2 -> g2 <> [] -> solid c -> valid_utf8 (w ++ g2 ++ c :: t) = true ->
  run ctx0 (Call R_copy) p (kw ++ g ++ w ++ g2 ++ c :: t) = Fail -> begins_with DASH w.
Proof.
  intros K Hg Hne Hw Hb He Hg2 Hne2 Hc Hv H. destruct Hb as (c0 & w0 & Ew & Hc0).
  destruct (N.eq_dec c0 DASH) as [E|Hd]; [subst; eexists; reflexivity|exfalso]. apply call_fail in H. cbn [grammar fst snd rule_inner] in H.
  change (rule_outer Normal ctx0) with ctx0 in H.
  eapply seq_go in H; [|reflexivity|apply keyword_fwd; [exact K|reflexivity]].
  assert (Hst : gap_stops (w ++ g2 ++ c :: t)) by (subst w; exact Hc0).
  assert (Hv2 : valid_utf8 (g2 ++ c :: t) = true) by (eapply valid_app_r; [exact Hv|apply Hw]).
  assert (Hv3 : valid_utf8 (c :: t) = true).
  { revert Hv2. rewrite (valid_gap k2); auto. }
  eapply seq_go in H; [|reflexivity|apply (no_flag R_copy_flag k); [|reflexivity|assumption..]].
  2:{ rewrite run_call. cbn [grammar fst snd]. rewrite run_seq by reflexivity. rewrite run_str. subst w. cbn [app match_str].
      rewrite (proj2 (N.eqb_neq DASH c0)) by congruence. reflexivity. }
  destruct (gap_fwd k g _ (p + length kw) Hg Hne Hst Hv) as (f & R & _).
  eapply seq_go in H; [|reflexivity|].
  2:{ rewrite run_seq by reflexivity. rewrite R. rewrite (word_rule_fwd _ AtomicRule); [reflexivity|reflexivity|discriminate|exact Hw|exact He| |exact Hv].
      apply (gap_word_end k2); assumption. }
  destruct (gap_fwd k2 g2 (c :: t) (p + length kw + length g + length w) Hg2 Hne2 Hc Hv3) as (f2 & R2 & _).
  destruct (run ctx0 (Seq arg_ws (Call R_copy_pathspec)) (p + length kw + length g + length w) (g2 ++ c :: t)) as [q s1 f1| |] eqn:E.
  - eapply seq_go in H; [|reflexivity|exact E]. revert H. apply rep_not_fail. reflexivity.
  - eapply seq_go in E; [|reflexivity|exact R2]. apply call_fail in E. cbn [grammar fst snd] in E. rewrite run_any_whitespace in E by exact Hv3.
    cbn [until] in E. assert (W : word_stop (c :: t) = false).
    { destruct Hc as (H1 & H2 & H3 & H4). unfold word_stop. cbn [newline_here is_nil]. rewrite H2. cbn [orb].
      apply gap_stops_here. repeat split; assumption. }
    rewrite W in E. discriminate.
  - revert E. apply run_total. reflexivity.
Qed.

(** What is known of a step that gave an unknown instruction *)
Lemma misc_step unq src p s q s' t m : valid_utf8 s = true -> pos src p s ->
  run ctx0 (Call R_step) p s = Done q s' [t] -> instruction_of unq src t = Ok (IMisc m) ->
  exists name w, s = name ++ w ++ s' /\ ss_content (misc_name m) = name /\ valid_utf8 (w ++ s') = true /\ w <> [] /\
    br_span (misc_arguments m) = at_ (p + length name) w /\
    (idle (w ++ s') -> no_text (br_components (misc_arguments m))) /\
    Forall (fun r => run ctx0 (Call r) p s = Fail) [R_from; R_run; R_arg; R_label; R_copy; R_entrypoint; R_cmd; R_env].
Proof.
  intros Hv Hp H Hm. apply call_inv in H. destruct H as (f1 & H & K). cbn [grammar fst snd rule_inner rule_tokens] in *. subst f1.
  change (rule_outer Silent ctx0) with ctx0 in H.
  assert (Q : forall A (o : outcome A) (f : A -> instruction), (x <- o;; Ok (f x)) = Ok (IMisc m) -> exists x, f x = IMisc m).
  { intros A o f E. destruct o; cbn [bind] in E; try discriminate. injection E as E. eauto. }
  do 8 (apply alt_inv in H; [|reflexivity]; destruct H as [H|[?F H]];
    [exfalso; apply token_inv in H; [|discriminate]; destruct H as (l & _ & K); injection K as ->;
     unfold instruction_of in Hm; cbn [t_rule] in Hm; apply Q in Hm; destruct Hm; discriminate|]).
  apply token_inv in H; [|discriminate]. destruct H as (l & H & K). injection K as ->.
  cbn [grammar fst snd rule_inner] in H. change (rule_outer Normal ctx0) with ctx0 in H.
  seq_open H Hv H1. apply letters_rule_inv in H1; [|reflexivity]. destruct H1 as (name & c1 & -> & -> & Hn & -> & Hnext).
  pose proof (pos_app _ _ _ _ Hp) as Hp1. pose proof H as HB.
  apply (breakable_rule_inv src) in H; [|reflexivity|exact Hv0|exact Hp1].
  destruct H as (w & t & x & -> & -> & -> & Ht & Hy & Hx).
  unfold instruction_of in Hm. cbn [t_rule] in Hm. unfold misc_of in Hm. cbn [t_children app for_each t_rule] in Hm.
  rewrite (parse_string_plain unq src _ _ _ _ _ Hp) in Hm by (apply letters_not_quoted; exact Hn).
  cbn [bind] in Hm. rewrite Ht, Hy in Hm. cbn in Hm. injection Hm as <-. cbn [misc_name misc_arguments ss_content].
  exists name, w. split; [reflexivity|]. split; [reflexivity|]. split; [exact Hv0|].
  destruct Hx as (l & Hsh & ->). cbn [br_span br_components].
  split. { pose proof (run_strict _ _ _ _ _ _ _ HB eq_refl) as L. rewrite app_length in L. intros ->. cbn in L. lia. }
  split; [reflexivity|]. split; [|repeat constructor; assumption].
  intros Hi. apply token_inv in HB; [|discriminate]. destruct HB as (f' & HB & E). injection E as ->.
  cbn [grammar fst snd] in HB.
  destruct (idle_breakable src _ _ (le_n _) (rule_inner AtomicRule ctx0) _ _ _ _ eq_refl Hv0 Hp1 Hi HB) as (t2 & l2 & -> & Hr2 & Hi2 & Hno).
  unfold parse_any_breakable in Hy. rewrite breakable_inner_eq in Hy. cbn [t_children for_each] in Hy. unfold breakable_step in Hy.
  rewrite Hr2, Hi2 in Hy. cbn [bind app] in Hy. injection Hy as <-. exact Hno.
Qed.
