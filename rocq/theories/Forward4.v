(** From texts to runs of the grammar, continued: ARG, COPY, LABEL, ENV and the
    commands. *)

From Coq Require Import String.
From Verif Require Import Bytes BytesFacts Grammar Peg Result Ast Splicer Image Convert Dockerfile
  PegFacts SpecImage ImageFacts SpecSyntax SpecClear PegRules PegTokens PegQuoted Sound SoundRules SoundInstr Forward Forward2 Forward3 ListFacts.
Local Open Scope nat_scope.

Lemma compound_fwd r c p s q s' f : fst (grammar r) = CompoundRule -> look c = false ->
  run (rule_inner CompoundRule c) (snd (grammar r)) p s = Done q s' f ->
  run c (Call r) p s = Done q s' [Node r p q f].
Proof.
  intros Hr Hc H. rewrite run_call, Hr, H. unfold rule_tokens, wrap. cbn. rewrite ?Hc. reflexivity.
Qed.

Lemma rep1_of_rep c e p s q s' f : good (rep1 e) = true -> run c (Rep e) p s = Done q s' f -> q <> p ->
  run c (rep1 e) p s = Done q s' f.
Proof.
  intros G H Hq. unfold rep1. rewrite run_seq by exact G.
  rewrite run_rep in H by (apply (good_sub _ G)). destruct (run c e p s); [exact H|congruence|discriminate].
Qed.

Lemma blanks_star_fwd c b u : blanks b -> gap_here u = false -> valid_utf8 u = true -> forall p,
  run c (Rep arg_ws_item) p (b ++ u) = Done (p + length b) u [].
Proof.
  intros Hb Hu Hv. induction Hb as [|x b Hx Hb IH]; intros p; rewrite run_rep by reflexivity.
  - cbn [app length]. rewrite gap_item_fails by assumption. rewrite Nat.add_0_r. reflexivity.
  - cbn [app length]. unfold arg_ws_item at 1. rewrite run_alt by reflexivity. rewrite class_ws, Hx.
    rewrite IH. cbn [app]. f_equal. lia.
Qed.

Lemma line_end_gap_here s : at_line_end s -> gap_here s = false.
Proof.
  intros [-> |H]; [reflexivity|]. destruct s as [|x s]; [reflexivity|]. cbn in H. cbn [gap_here].
  destruct (is_blank x) eqn:E.
  - unfold is_blank in E. apply orb_true_iff in E. rewrite !N.eqb_eq in E. destruct E; subst; discriminate.
  - destruct (continues (x :: s)) eqn:E2; [|reflexivity]. apply continues_ascii in E2. subst. discriminate.
Qed.

Lemma line_end_label s : at_line_end s -> label_end s.
Proof.
  intros [-> |H]; [exact I|]. destruct s as [|x s]; [exact I|]. unfold label_end, label_stop. rewrite H. reflexivity.
Qed.

Lemma without_breaks_fun w u v : without_breaks w u -> without_breaks w v -> u = v.
Proof.
  intros H. revert v. induction H as [|w u H IH|c w u Hc H IH]; intros v Hv.
  - inversion Hv. reflexivity.
  - inversion Hv as [|w' v' H'|c w' v' Hc' H']; subst; [apply IH; assumption|].
    exfalso. apply (Hc' w). reflexivity.
  - inversion Hv as [|w' v' H'|c' w' v' Hc' H']; subst.
    + exfalso. apply (Hc w'). reflexivity.
    + f_equal. apply IH. assumption.
Qed.

Section Instr2.
Variable unq : bytes -> option bytes.
Variable src : bytes.
Notation pos := (pos src).
Notation arg_step := (arg_step unq src).
Notation label_step := (label_step unq src).
Notation labels_step := (labels_step unq src).
Notation copy_step := (copy_step unq src).
Notation pair_step := (pair_step unq src).
Notation single_step := (single_step unq src).
Notation pairs_step := (pairs_step unq src).

(** ** ARG *)

Lemma value_valid w s : quoted_text w \/ clear_value w -> valid_utf8 (w ++ s) = valid_utf8 s.
Proof. intros [H|(H & _)]; [apply valid_quoted; exact H|apply word_valid; exact H]. Qed.

(** A quoted string, or a word. *)
Lemma value_fwd rq rv kq kv p w s : grammar rq = (kq, string_) -> grammar rv = (kv, any_whitespace) ->
  kq = CompoundRule -> kv <> Silent -> good (Alt (Call rq) (Call rv)) = true ->
  quoted_text w \/ clear_value w -> word_end s -> valid_utf8 (w ++ s) = true ->
  (quoted_text w /\ exists ch, run ctx0 (Alt (Call rq) (Call rv)) p (w ++ s) = Done (p + length w) s [Node rq p (p + length w) ch]) \/
  (clear_value w /\ exists ch, run ctx0 (Alt (Call rq) (Call rv)) p (w ++ s) = Done (p + length w) s [Node rv p (p + length w) ch]).
Proof.
  intros Hq Hr Ek Hk G Hw Hs Hv. rewrite run_alt by exact G. destruct Hw as [Hw|Hw].
  - left. split; [exact Hw|]. destruct (quoted_token_fwd rq kq ctx0 p w s Hq (or_introl Ek) eq_refl Hw Hv) as (ch & ->). eauto.
  - right. split; [exact Hw|]. destruct Hw as (Hw & Hnq & Hb).
    rewrite (quoted_token_fails rq kq) by (assumption || (apply not_quote_app; [apply Hw|exact Hnq])).
    rewrite (word_rule_fwd rv kv) by assumption. eauto.
Qed.

Lemma arg_fwd p w x s : clear_arg_at unq p w x -> closed_end s -> valid_utf8 (w ++ s) = true -> pos p (w ++ s) ->
  exists t, run ctx0 (Call R_arg) p (w ++ s) = Done (p + length w) s [t] /\ t_rule t = R_arg /\
    instruction_of unq src t = Ok (IArg x).
Proof.
  intros (kw & k & g & name & rest & -> & Hkw & Hg & Hne & Hn & Ename & Esp & Hrest) Hs Hv Hp.
  rewrite <- !app_assoc in *.
  rewrite (keyword_valid "arg") in Hv by first [assumption | repeat constructor]. rewrite (valid_gap _ _ _ Hg) in Hv.
  destruct Hn as (c0 & nt & En & Hc0 & Hnt). assert (Hnw : Forall (fun c => is_word c = true) name).
  { rewrite En. constructor; [apply is_alpha_word; exact Hc0|exact Hnt]. }
  assert (Hvr : valid_utf8 (rest ++ s) = true) by (rewrite (class_valid _ _ _ word_ascii Hnw) in Hv; exact Hv).
  pose proof (pos_app _ _ _ _ Hp) as Hp1. pose proof (pos_app _ _ _ _ Hp1) as Hp2. pose proof (pos_app _ _ _ _ Hp2) as Hp3.
  destruct (gap_fwd k g (name ++ rest ++ s) (p + length kw) Hg Hne) as (f1 & E1 & Hc1 & _);
    [rewrite En; cbn; apply alpha_solid; exact Hc0|exact Hv|].
  assert (Hhead : match rest ++ s with y :: _ => is_word y = false | [] => True end).
  { destruct Hrest as [[-> _]|(value & v & -> & _)]; [|reflexivity]. apply closed_class; [exact Hs|apply word_solid]. }
  assert (E2 : run ctx0 (Call R_arg_name) (p + length kw + length g) (name ++ rest ++ s) =
    Done (p + length kw + length g + length name) (rest ++ s)
      [Node R_arg_name (p + length kw + length g) (p + length kw + length g + length name) []]).
  { apply token_fwd; [discriminate|]. cbn [grammar fst snd rule_inner rule_outer]. rewrite run_seq by reflexivity.
    rewrite class_alpha, En. cbn [app]. rewrite Hc0. rewrite (class_rep _ is_word); [|reflexivity|apply class_word].
    destruct (take_while_app is_word nt (rest ++ s) Hnt Hhead) as [K1 K2].
    rewrite K1, K2. cbn [app length]. f_equal. lia. }
  assert (Estep : forall st, arg_step (None, st) (Node R_arg_name (p + length kw + length g) (p + length kw + length g + length name) []) = Ok (Some (arg_name x), st)).
  { intros st. cbn [SoundInstr.arg_step t_rule]. rewrite (parse_string_plain unq src _ _ _ _ _ Hp2); [|apply word_class_not_quoted; exact Hnw].
    cbn [bind]. rewrite Ename. reflexivity. }
  assert (E3 : exists f3, run ctx0 (Opt (Seq (Str [EQUALS]) (Alt (Call R_arg_quoted_value) (Call R_arg_value))))
      (p + length kw + length g + length name) (rest ++ s) = Done (p + length kw + length g + length name + length rest) s f3 /\
      for_each arg_step f3 (Some (arg_name x), None) = Ok (Some (arg_name x), arg_value x)).
  { rewrite run_opt by reflexivity. rewrite run_seq by reflexivity. rewrite class_str.
    destruct Hrest as [[-> Ev]|(value & v & -> & Hval & Hx & Ev)].
    - cbn [app length] in *. assert (K : match s with y :: _ => (EQUALS =? y)%N = false | [] => True end).
      { apply closed_head in Hs. destruct s as [|y s]; [exact I|]. destruct (EQUALS =? y)%N eqn:E; [|reflexivity].
        apply N.eqb_eq in E. subst y. destruct Hs; discriminate. }
      exists []. rewrite Nat.add_0_r, Ev. split; [|reflexivity]. destruct s as [|y s]; [reflexivity|]. rewrite K. reflexivity.
    - cbn [app length] in *. change (EQUALS =? EQUALS)%N with true. cbn iota.
      rewrite valid_utf8_cons_ascii in Hvr by reflexivity. pose proof (pos_app _ _ [EQUALS] _ Hp3) as Hp4. cbn [length] in Hp4.
      destruct (value_fwd R_arg_quoted_value R_arg_value CompoundRule CompoundRule (p + length kw + length g + length name + 1) value s
        eq_refl eq_refl eq_refl ltac:(discriminate) eq_refl Hval (closed_word_end _ Hs) Hvr) as [(_ & ch & ->)|(_ & ch & ->)];
      (eexists; split; [f_equal; lia|]); cbn [app for_each SoundInstr.arg_step t_rule];
      rewrite (parse_string_fwd unq src _ _ _ v _ _ Hp4 Hx); cbn [bind]; rewrite Ev; reflexivity. }
  destruct E3 as (f3 & E3 & Hf3). eexists. split.
  { apply token_fwd; [discriminate|]. cbn [grammar fst snd rule_inner rule_outer].
    rewrite run_seq by reflexivity. rewrite keyword_fwd; [|exact Hkw|reflexivity].
    rewrite run_seq by reflexivity. rewrite E1. rewrite run_seq by reflexivity. rewrite E2, E3.
    replace (p + length (kw ++ g ++ name ++ rest)) with (p + length kw + length g + length name + length rest) by (rewrite !app_length; lia).
    reflexivity. }
  split; [reflexivity|]. unfold instruction_of, arg_of. cbn [t_rule].
  match goal with |- context [for_each ?f _ (None, None)] => change f with arg_step end.
  cbn [t_children app]. rewrite for_each_gap by (assumption || apply arg_step_comments).
  cbn [app for_each]. rewrite Estep. cbn [bind]. rewrite Hf3. cbn [bind ok_or].
  destruct x as [sp nm vl]. cbn in *. rewrite Esp. unfold span_of, at_. cbn [t_start t_stop]. repeat f_equal; rewrite ?app_length; lia.
Qed.

(** ** COPY *)

Lemma path_fwd p w x s : clear_path_at unq p w x -> word_end s -> valid_utf8 (w ++ s) = true -> pos p (w ++ s) ->
  exists t, run ctx0 (Call R_copy_pathspec) p (w ++ s) = Done (p + length w) s [t] /\ t_rule t = R_copy_pathspec /\
    parse_string unq src t = Ok x.
Proof.
  intros ((Hw & Hx) & _ & Hb & _) Hs Hv Hp. eexists. split; [apply (word_rule_fwd _ AtomicRule); [reflexivity|discriminate|assumption..]|].
  split; [reflexivity|]. apply (parse_string_fwd unq src _ _ _ _ _ _ Hp Hx).
Qed.

Lemma path_solid p w x s : clear_path_at unq p w x -> gap_stops (w ++ s).
Proof. intros (_ & H & _). apply solid_stops. exact H. Qed.
Lemma path_valid p w x s : clear_path_at unq p w x -> valid_utf8 (w ++ s) = valid_utf8 s.
Proof. intros ((H & _) & _). apply word_valid. exact H. Qed.

Lemma spaced_cons_inv {A} (at1 : nat -> bytes -> A -> Prop) p w x l : spaced at1 p w (x :: l) ->
  exists k g v w2, w = g ++ v ++ w2 /\ gap k g /\ g <> [] /\ at1 (p + length g) v x /\
    spaced at1 (p + length g + length v) w2 l.
Proof. intros H. inversion H; subst. eexists _, _, _, _. repeat split; eassumption. Qed.

Lemma copy_fwd p w x s : clear_copy_at unq p w x -> closed_end s -> valid_utf8 (w ++ s) = true -> pos p (w ++ s) ->
  exists t, run ctx0 (Call R_copy) p (w ++ s) = Done (p + length w) s [t] /\ t_rule t = R_copy /\
    instruction_of unq src t = Ok (ICopy x).
Proof.
  intros (kw & fl & paths & -> & Hkw & Hfl & Hpaths & Hsrcs & Esp) Hs Hv Hp.
  destruct (copy_sources x) as [|x1 srcs] eqn:Esrc; [congruence|].
  assert (El : exists x2 l, (x1 :: srcs) ++ [copy_destination x] = x1 :: x2 :: l).
  { destruct srcs as [|x2 srcs]; [exists (copy_destination x), []; reflexivity|]. exists x2, (srcs ++ [copy_destination x]). reflexivity. }
  destruct El as (x2 & l & El). rewrite El in Hpaths.
  apply spaced_cons_inv in Hpaths. destruct Hpaths as (k1 & g1 & w1 & r1 & -> & Hg1 & Hn1 & Hx1 & Hpaths).
  apply spaced_cons_inv in Hpaths. destruct Hpaths as (k2 & g2 & w2 & r2 & -> & Hg2 & Hn2 & Hx2 & Hl).
  rewrite <- !app_assoc in *.
  rewrite (keyword_valid "copy") in Hv by first [assumption | repeat constructor].
  rewrite (spaced_valid _ (flag_valid unq) _ _ _ _ Hfl) in Hv.
  assert (Hv1 : valid_utf8 (w1 ++ g2 ++ w2 ++ r2 ++ s) = true) by (rewrite (valid_gap _ _ _ Hg1) in Hv; exact Hv).
  assert (Hv2 : valid_utf8 (g2 ++ w2 ++ r2 ++ s) = true) by (rewrite (path_valid _ _ _ _ Hx1) in Hv1; exact Hv1).
  assert (Hv3 : valid_utf8 (r2 ++ s) = true) by (rewrite (valid_gap _ _ _ Hg2), (path_valid _ _ _ _ Hx2) in Hv2; exact Hv2).
  assert (Hv4 : valid_utf8 s = true) by (rewrite (spaced_valid _ path_valid _ _ _ _ Hl) in Hv3; exact Hv3).
  pose proof (pos_app _ _ _ _ Hp) as Hp1. pose proof (pos_app _ _ _ _ Hp1) as Hp2.
  pose proof (pos_app _ _ _ _ (pos_app _ _ _ _ Hp2)) as Hp3. pose proof (pos_app _ _ _ _ (pos_app _ _ _ _ Hp3)) as Hp4.
  pose proof (closed_word_end _ Hs) as Hse.
  destruct (spaced_fwd src R_copy_flag (clear_flag_at unq) (copy_flag_of unq src) copy_step add_copy_flag eq_refl
    (copy_flag_fwd unq src) (flag_solid unq) (flag_valid unq) ltac:(intros [a b] t Ht; unfold SoundInstr.copy_step; rewrite Ht; reflexivity)
    (copy_step_comments unq src) _ _ _ Hfl (g1 ++ w1 ++ g2 ++ w2 ++ r2 ++ s) (gap_word_end _ _ _ Hg1 Hn1) Hv Hp1) as (f1 & E1 & Hf1).
  { rewrite run_seq by reflexivity.
    destruct (gap_fwd k1 g1 _ (p + length kw + length fl) Hg1 Hn1 (path_solid _ _ _ _ Hx1) Hv1) as (f & -> & _).
    rewrite (flag_fails R_copy_flag (Seq (Call R_copy_flag_name) (Seq (Str [EQUALS]) (Call R_copy_flag_value)))); [reflexivity|reflexivity|].
    intros t K. destruct Hx1 as ((Hw1 & _) & _ & _ & Hd). destruct Hw1 as (Hne1 & _).
    destruct w1 as [|y1 [|y2 w1]]; [congruence| |injection K as -> -> _; apply (Hd w1); reflexivity].
    cbn [app] in K. injection K as -> K. apply (gap_class (N.eqb DASH) _ _ (w2 ++ r2 ++ s)) in Hg2; [|exact Hn2|].
    - rewrite K in Hg2. discriminate.
    - intros c Hc. apply N.eqb_eq in Hc. subst c. repeat split; discriminate. }
  assert (Hitem : forall st t, t_rule t = R_copy_pathspec -> copy_step st t = bind (parse_string unq src t) (fun x => Ok (add_path st x))).
  { intros [a b] t Ht. unfold SoundInstr.copy_step. rewrite Ht. reflexivity. }
  destruct (item_fwd src R_copy_pathspec (clear_path_at unq) (parse_string unq src) copy_step add_path eq_refl
    path_fwd path_solid path_valid Hitem (copy_step_comments unq src) _ _ _ _ _ (g2 ++ w2 ++ r2 ++ s) Hg1 Hn1 Hx1
    (gap_word_end _ _ _ Hg2 Hn2) Hv2 Hp2) as (f2 & E2 & Hf2).
  destruct (item_fwd src R_copy_pathspec (clear_path_at unq) (parse_string unq src) copy_step add_path eq_refl
    path_fwd path_solid path_valid Hitem (copy_step_comments unq src) _ _ _ _ _ (r2 ++ s) Hg2 Hn2 Hx2
    (spaced_word_end _ _ _ _ _ Hl Hse) Hv3 Hp3) as (f3 & E3 & Hf3).
  destruct (spaced_fwd src R_copy_pathspec (clear_path_at unq) (parse_string unq src) copy_step add_path eq_refl
    path_fwd path_solid path_valid Hitem (copy_step_comments unq src) _ _ _ Hl s Hse Hv4 Hp4) as (f4 & E4 & Hf4).
  { apply closed_seq_fails; [reflexivity|exact Hs|exact Hv4|]. intros q t Ht Hvt. rewrite run_call. cbn [grammar fst snd].
    rewrite word_fails; [reflexivity|apply at_line_end_word; exact Ht|exact Hvt]. }
  eexists. split.
  { apply token_fwd; [discriminate|]. cbn [grammar fst snd rule_inner rule_outer].
    rewrite run_seq by reflexivity. rewrite keyword_fwd; [|exact Hkw|reflexivity].
    rewrite run_seq by reflexivity. rewrite E1.
    rewrite (run_seq _ (Seq arg_ws (Call R_copy_pathspec))) by reflexivity. rewrite E2.
    rewrite (run_seq _ (Seq arg_ws (Call R_copy_pathspec))) by reflexivity. rewrite E3, E4.
    match goal with |- Done ?a _ _ = Done ?b _ _ => replace b with a by (rewrite !app_length; lia) end. reflexivity. }
  split; [reflexivity|]. unfold instruction_of, copy_of. cbn [t_rule].
  match goal with |- context [for_each ?f _ ([], [])] => change f with copy_step end.
  cbn [t_children app]. rewrite !for_each_app, Hf1, fold_copy_flag. cbn [bind app]. rewrite !for_each_app, Hf2. cbn [bind].
  rewrite !for_each_app, Hf3. cbn [bind add_path app]. rewrite Hf4, fold_add_path. cbn [bind app].
  change (length (x1 :: x2 :: l) <? 2) with false. cbn iota. rewrite <- El, pop_snoc. cbn [bind].
  destruct x as [sp fs ss ds]. cbn in *. rewrite Esp. subst ss. unfold span_of, at_. cbn [t_start t_stop].
  repeat f_equal; rewrite ?app_length; lia.
Qed.

(** ** LABEL *)

Lemma unquote_clean_fwd r p w x s ch : pos p (w ++ s) -> clean_quoted_at unq p w x ->
  unquote_clean unq src (Node r p (p + length w) ch) = Ok x.
Proof.
  intros Hp (u & v & Hq & Hb & Hu & ->). unfold unquote_clean. rewrite (as_str_at src _ _ _ _ _ Hp), span_of_at.
  rewrite (without_breaks_fun _ _ _ (remove_breaks_spec w) Hb). unfold unquote. rewrite Hu. reflexivity.
Qed.

Lemma clean_quoted_quoted p w x : clean_quoted_at unq p w x -> quoted_text w.
Proof. intros (u & v & H & _). exact H. Qed.

Lemma label_name_solid p w x s : clear_label_name_at unq p w x -> gap_stops (w ++ s).
Proof. intros [H|(_ & H & _)]; [apply quoted_solid, (clean_quoted_quoted _ _ _ H)|apply solid_stops; exact H]. Qed.
Lemma label_name_valid p w x s : clear_label_name_at unq p w x -> valid_utf8 (w ++ s) = valid_utf8 s.
Proof. intros [H|(H & _)]; [apply valid_quoted, (clean_quoted_quoted _ _ _ H)|apply label_word_valid; exact H]. Qed.
Lemma label_value_valid p w x s : clear_label_value_at unq p w x -> valid_utf8 (w ++ s) = valid_utf8 s.
Proof. intros [H|((H & _) & _)]; [apply valid_quoted, (clean_quoted_quoted _ _ _ H)|apply word_valid; exact H]. Qed.

Lemma label_name_fwd rq rn k p w x s :
  (rq = R_label_quoted_name /\ rn = R_label_name /\ k = CompoundRule \/
   rq = R_label_single_quoted_name /\ rn = R_label_single_name /\ k = Normal) ->
  clear_label_name_at unq p w x -> label_end s -> valid_utf8 (w ++ s) = true -> pos p (w ++ s) ->
  exists t, run ctx0 (Alt (Call rq) (Call rn)) p (w ++ s) = Done (p + length w) s [t] /\
    forall n v, label_step (n, v) t = Ok (Some x, v).
Proof.
  intros Hr Hx Hs Hv Hp.
  assert (Hq : grammar rq = (k, string_)) by (destruct Hr as [(-> & -> & ->)|(-> & -> & ->)]; reflexivity).
  assert (Hn : grammar rn = (k, any_equals)) by (destruct Hr as [(-> & -> & ->)|(-> & -> & ->)]; reflexivity).
  assert (Hk : k <> Silent) by (destruct Hr as [(-> & -> & ->)|(-> & -> & ->)]; discriminate).
  rewrite run_alt by (destruct Hr as [(-> & -> & _)|(-> & -> & _)]; reflexivity).
  destruct Hx as [Hx|(Hw & _ & Hnq & Hx)].
  - destruct (quoted_token_fwd rq k ctx0 p w s Hq) as (ch & ->);
      [destruct Hr as [(_ & _ & ->)|(_ & _ & ->)]; auto|reflexivity|apply (clean_quoted_quoted _ _ _ Hx)|exact Hv|].
    eexists. split; [reflexivity|]. intros n v.
    assert (E : label_step (n, v) (Node rq p (p + length w) ch) =
      (x <- unquote_clean unq src (Node rq p (p + length w) ch);; Ok (Some x, v))).
    { destruct Hr as [(-> & -> & _)|(-> & -> & _)]; reflexivity. }
    rewrite E, (unquote_clean_fwd _ _ _ _ _ _ Hp Hx). reflexivity.
  - rewrite (quoted_token_fails rq k) by (assumption || (apply not_quote_app; [apply Hw|exact Hnq])).
    rewrite (label_rule_fwd rn k) by assumption. eexists. split; [reflexivity|]. intros n v.
    assert (E : label_step (n, v) (Node rn p (p + length w) []) =
      (x <- parse_string unq src (Node rn p (p + length w) []);; Ok (Some x, v))).
    { destruct Hr as [(-> & -> & _)|(-> & -> & _)]; reflexivity. }
    rewrite E, (parse_string_fwd unq src _ _ _ _ _ _ Hp Hx). reflexivity.
Qed.

Lemma label_value_fwd p w x s : clear_label_value_at unq p w x -> word_end s -> valid_utf8 (w ++ s) = true -> pos p (w ++ s) ->
  exists t, run ctx0 (Alt (Call R_label_quoted_value) (Call R_label_value)) p (w ++ s) = Done (p + length w) s [t] /\
    forall n v, label_step (n, v) t = Ok (n, Some x).
Proof.
  intros Hx Hs Hv Hp. rewrite run_alt by reflexivity. destruct Hx as [Hx|((Hw & Hnq & Hb) & Hx)].
  - destruct (quoted_token_fwd R_label_quoted_value CompoundRule ctx0 p w s eq_refl) as (ch & ->);
      [auto|reflexivity|apply (clean_quoted_quoted _ _ _ Hx)|exact Hv|].
    eexists. split; [reflexivity|]. intros n v. cbn [SoundInstr.label_step t_rule].
    rewrite (unquote_clean_fwd _ _ _ _ _ _ Hp Hx). reflexivity.
  - rewrite (quoted_token_fails R_label_quoted_value CompoundRule); [|reflexivity|apply not_quote_app; [apply Hw|exact Hnq]].
    rewrite (word_rule_fwd R_label_value CompoundRule); [|reflexivity|discriminate|assumption..].
    eexists. split; [reflexivity|]. intros n v. cbn [SoundInstr.label_step t_rule].
    rewrite (parse_string_fwd unq src _ _ _ _ _ _ Hp Hx). reflexivity.
Qed.

Lemma label_pair_fwd p w x s : clear_label_pair_at unq p w x -> word_end s -> valid_utf8 (w ++ s) = true -> pos p (w ++ s) ->
  exists t, run ctx0 (Call R_label_pair) p (w ++ s) = Done (p + length w) s [t] /\ t_rule t = R_label_pair /\
    label_of unq src t = Ok x.
Proof.
  intros (n & v & -> & Hn & Hval & Esp) Hs Hv Hp. rewrite <- !app_assoc in *. cbn [app] in *.
  assert (Hv2 : valid_utf8 (v ++ s) = true).
  { rewrite (label_name_valid _ _ _ _ Hn), valid_utf8_cons_ascii in Hv by reflexivity. exact Hv. }
  pose proof (pos_app _ _ _ _ Hp) as Hp1. pose proof (pos_app _ _ [EQUALS] _ Hp1) as Hp2. cbn [length] in Hp2.
  destruct (label_name_fwd R_label_quoted_name R_label_name CompoundRule p n (lb_name x) (EQUALS :: v ++ s)
    ltac:(auto) Hn eq_refl Hv Hp) as (t1 & E1 & H1).
  destruct (label_value_fwd _ _ _ s Hval Hs Hv2 Hp2) as (t2 & E2 & H2).
  eexists. split.
  { apply token_fwd; [discriminate|]. cbn [grammar fst snd rule_inner rule_outer].
    rewrite run_seq by reflexivity. rewrite E1. rewrite run_seq by reflexivity. rewrite class_str.
    change (EQUALS =? EQUALS)%N with true. cbn iota. rewrite E2.
    match goal with |- Done ?a _ _ = Done ?b _ _ => replace b with a by (rewrite !app_length; cbn [length]; lia) end. reflexivity. }
  split; [reflexivity|]. unfold label_of.
  match goal with |- context [for_each ?f _ (None, None)] => change f with label_step end.
  cbn [t_children app for_each]. rewrite H1. cbn [bind]. rewrite H2. cbn [bind ok_or].
  destruct x as [sp nm vl]. cbn in *. rewrite Esp. unfold span_of, at_. cbn [t_start t_stop].
  repeat f_equal; rewrite ?app_length; cbn [length]; lia.
Qed.

Lemma label_pair_solid p w x s : clear_label_pair_at unq p w x -> gap_stops (w ++ s).
Proof. intros (n & v & -> & Hn & _). rewrite <- app_assoc. apply (label_name_solid _ _ _ _ Hn). Qed.
Lemma label_pair_valid p w x s : clear_label_pair_at unq p w x -> valid_utf8 (w ++ s) = valid_utf8 s.
Proof.
  intros (n & v & -> & Hn & Hval & _). rewrite <- app_assoc. rewrite (label_name_valid _ _ _ _ Hn). cbn [app].
  rewrite valid_utf8_cons_ascii by reflexivity. apply (label_value_valid _ _ _ _ Hval).
Qed.

Lemma quote_not_end s : at_line_end s -> ~ begins_with_quote s.
Proof. intros [-> |H] [[t K]|[t K]]; subst; discriminate. Qed.

Lemma label_name_at_end rq rn k c p s : grammar rq = (k, string_) -> grammar rn = (k, any_equals) ->
  good (Alt (Call rq) (Call rn)) = true -> at_line_end s -> valid_utf8 s = true ->
  run c (Alt (Call rq) (Call rn)) p s = Fail.
Proof.
  intros Hq Hn G Hs Hv. rewrite run_alt by exact G. rewrite (quoted_token_fails rq k) by (assumption || (apply quote_not_end; exact Hs)).
  rewrite run_call, Hn. cbn [fst snd]. rewrite label_word_fails; [reflexivity|apply line_end_label; exact Hs|exact Hv].
Qed.

Lemma label_pair_end p s : at_line_end s -> valid_utf8 s = true -> run ctx0 (Call R_label_pair) p s = Fail.
Proof.
  intros Hs Hv. rewrite run_call. cbn [grammar fst snd]. rewrite run_seq by reflexivity.
  rewrite (label_name_at_end _ _ CompoundRule) by (assumption || reflexivity). reflexivity.
Qed.

(** name=value is not read as name value. *)
Lemma label_single_fails p pairs l b s : spaced (clear_label_pair_at unq) p pairs l -> blanks b -> at_line_end s ->
  valid_utf8 (pairs ++ b ++ s) = true -> pos p (pairs ++ b ++ s) -> run ctx0 (Call R_label_single) p (pairs ++ b ++ s) = Fail.
Proof.
  intros Hl Hb Hs Hv Hp. rewrite run_call. cbn [grammar fst snd rule_inner rule_outer].
  destruct Hl as [p|p k g w x w2 l Hg Hne Hx Hl].
  - cbn [app] in *. rewrite closed_seq_fails; [reflexivity|reflexivity|exists b, s; auto|exact Hv|].
    intros q t Ht Hvt. rewrite run_seq by reflexivity. rewrite (label_name_at_end _ _ Normal) by (assumption || reflexivity). reflexivity.
  - rewrite <- !app_assoc in *. rewrite (valid_gap _ _ _ Hg) in Hv. rewrite run_seq by reflexivity.
    destruct (gap_fwd k g _ p Hg Hne (label_pair_solid _ _ _ _ Hx) Hv) as (f & -> & _).
    pose proof (pos_app _ _ _ _ Hp) as Hp1. destruct Hx as (n & v & -> & Hn & Hval & _).
    rewrite <- !app_assoc in *. cbn [app] in *. rewrite run_seq by reflexivity.
    destruct (label_name_fwd R_label_single_quoted_name R_label_single_name Normal _ n (lb_name x) (EQUALS :: v ++ w2 ++ b ++ s)
      ltac:(auto) Hn eq_refl Hv Hp1) as (t1 & -> & _).
    rewrite run_seq by reflexivity. rewrite gap_fails; [reflexivity|reflexivity|].
    rewrite (label_name_valid _ _ _ _ Hn) in Hv. exact Hv.
Qed.

Lemma labels_fwd p w x s : clear_labels_at unq p w x -> at_line_end s -> valid_utf8 (w ++ s) = true -> pos p (w ++ s) ->
  exists t, run ctx0 (Call R_label) p (w ++ s) = Done (p + length w) s [t] /\ t_rule t = R_label /\
    instruction_of unq src t = Ok (ILabel x).
Proof.
  intros (kw & pairs & b & -> & Hkw & Esp & Hl & Hb & Hne) Hs Hv Hp. rewrite <- !app_assoc in *.
  rewrite (keyword_valid "label") in Hv by first [assumption | repeat constructor].
  assert (Hvs : valid_utf8 s = true) by (rewrite (spaced_valid _ label_pair_valid _ _ _ _ Hl), valid_blanks in Hv by exact Hb; exact Hv).
  pose proof (pos_app _ _ _ _ Hp) as Hp1.
  destruct (spaced_blanks_fwd src R_label_pair (clear_label_pair_at unq) (label_of unq src) labels_step (fun a x => a ++ [x]) eq_refl eq_refl
    label_pair_fwd label_pair_solid label_pair_valid ltac:(intros a t Ht; unfold SoundInstr.labels_step; rewrite Ht; reflexivity)
    (labels_step_comments unq src) _ _ _ Hl b s Hb Hs Hvs Hp1 (fun q => label_pair_end q s Hs Hvs)) as (f1 & E1 & Hf1).
  eexists. split.
  { apply token_fwd; [discriminate|]. cbn [grammar fst snd rule_inner rule_outer].
    rewrite run_seq by reflexivity. rewrite keyword_fwd; [|exact Hkw|reflexivity].
    rewrite run_alt by reflexivity. rewrite (label_single_fails _ _ _ _ _ Hl Hb Hs Hv Hp1).
    apply rep1_of_rep in E1; [|reflexivity|].
    - rewrite E1. match goal with |- Done ?a _ _ = Done ?b _ _ => replace b with a by (rewrite !app_length; lia) end. reflexivity.
    - intros K. apply Hne. destruct pairs; [destruct b; [reflexivity|]|]; cbn in K; lia. }
  split; [reflexivity|]. unfold instruction_of, label_instruction_of. cbn [t_rule t_children app].
  match goal with |- context [for_each ?f _ []] => change f with labels_step end.
  rewrite Hf1, fold_snoc. cbn [bind app]. destruct x as [sp ls]. cbn in *. rewrite Esp. unfold span_of, at_. cbn [t_start t_stop].
  repeat f_equal; rewrite ?app_length; lia.
Qed.

Lemma label_single_fwd p w x s : clear_label_single_at unq p w x -> closed_end s -> valid_utf8 (w ++ s) = true -> pos p (w ++ s) ->
  exists t, run ctx0 (Call R_label) p (w ++ s) = Done (p + length w) s [t] /\ t_rule t = R_label /\
    instruction_of unq src t = Ok (ILabel x).
Proof.
  intros (kw & j & g1 & n & k & c & g2 & v & lb & -> & Hkw & Hg1 & Hn1 & Hc & Hg2 & Hn & Hvs & Hval & Esp & ->) Hs Hv Hp.
  rewrite <- !app_assoc in *.
  rewrite (keyword_valid "label"), (valid_gap _ _ _ Hg1) in Hv by first [assumption | repeat constructor].
  assert (Hv1 : valid_utf8 ((c :: g2) ++ v ++ s) = true) by (rewrite (label_name_valid _ _ _ _ Hn) in Hv; exact Hv).
  assert (Hv2 : valid_utf8 (v ++ s) = true) by (rewrite (valid_gap _ _ _ Hg2) in Hv1; exact Hv1).
  pose proof (pos_app _ _ _ _ Hp) as Hp1. pose proof (pos_app _ _ _ _ Hp1) as Hp2.
  pose proof (pos_app _ _ _ _ Hp2) as Hp3. pose proof (pos_app _ _ _ _ Hp3) as Hp4.
  destruct (gap_fwd j g1 _ (p + length kw) Hg1 Hn1 (label_name_solid _ _ _ _ Hn) Hv) as (f1 & E1 & Hc1 & _).
  destruct (label_name_fwd R_label_single_quoted_name R_label_single_name Normal _ n (lb_name lb) ((c :: g2) ++ v ++ s)
      ltac:(auto) Hn) as (t1 & E2 & H2); [cbn; unfold label_stop; cbn; rewrite Hc, orb_true_r; reflexivity|exact Hv|exact Hp2|].
  destruct (gap_fwd k (c :: g2) _ (p + length kw + length g1 + length n) Hg2 ltac:(discriminate) (solid_stops v s Hvs) Hv2) as (f3 & E3 & Hc3 & _).
  destruct (label_value_fwd _ _ _ s Hval (closed_word_end _ Hs) Hv2 Hp4) as (t4 & E4 & H4).
  assert (E : exists f, run ctx0 (Call R_label_single) (p + length kw) (g1 ++ n ++ (c :: g2) ++ v ++ s) =
      Done (p + length kw + length (g1 ++ n ++ (c :: g2) ++ v)) s
        [Node R_label_single (p + length kw) (p + length kw + length (g1 ++ n ++ (c :: g2) ++ v)) f] /\
      label_of unq src (Node R_label_single (p + length kw) (p + length kw + length (g1 ++ n ++ (c :: g2) ++ v)) f) = Ok lb).
  { eexists. split.
    - apply token_fwd; [discriminate|]. cbn [grammar fst snd rule_inner rule_outer].
      rewrite run_seq by reflexivity. rewrite E1. rewrite run_seq by reflexivity. rewrite E2.
      rewrite run_seq by reflexivity. rewrite E3, E4.
      match goal with |- Done ?a _ _ = Done ?b _ _ => replace b with a by (rewrite !app_length; lia) end. reflexivity.
    - unfold label_of.
      match goal with |- context [for_each ?f _ (None, None)] => change f with label_step end.
      cbn [t_children]. rewrite for_each_gap by (assumption || apply label_step_comments). cbn [app for_each].
      rewrite H2. cbn [bind]. rewrite for_each_gap by (assumption || apply label_step_comments). cbn [for_each].
      rewrite H4. cbn [bind ok_or]. destruct lb as [sp nm vl]. cbn [lb_span lb_name lb_value] in *. rewrite Esp. reflexivity. }
  destruct E as (f & E & Ef). eexists. split.
  { apply token_fwd; [discriminate|]. cbn [grammar fst snd rule_inner rule_outer].
    rewrite run_seq by reflexivity. rewrite keyword_fwd; [|exact Hkw|reflexivity].
    rewrite run_alt by reflexivity. rewrite E. rewrite (app_length kw), Nat.add_assoc. reflexivity. }
  split; [reflexivity|]. unfold instruction_of, label_instruction_of. cbn [t_rule t_children app for_each].
  cbn [app] in Ef. rewrite Ef. cbn [bind app]. unfold span_of, at_. cbn [t_start t_stop].
  repeat f_equal; cbn [app]; rewrite ?(app_length kw); lia.
Qed.

(** ** RUN, CMD, ENTRYPOINT *)

Lemma comments_none f : length f = 0 -> @nil tree = f.
Proof. destruct f; [reflexivity|discriminate]. Qed.

Lemma array_valid p w a s : array_at unq p w a -> valid_utf8 (w ++ s) = valid_utf8 s.
Proof.
  intros Ha. destruct Ha as [p k g Hg|p k g w x m l comma j g2 text Hg Hw Hx Hm Hcomma Hg2 ->].
  - cbn [app]. rewrite <- app_assoc, valid_utf8_cons_ascii, (valid_gap _ _ _ Hg) by reflexivity. cbn [app].
    apply valid_utf8_cons_ascii. reflexivity.
  - cbn [app]. rewrite <- !app_assoc, valid_utf8_cons_ascii, (valid_gap _ _ _ Hg) by reflexivity.
    rewrite valid_quoted by exact Hw. rewrite (valid_more _ _ _ _ _ Hm).
    assert (E : valid_utf8 (comma ++ g2 ++ [RBRACK] ++ s) = valid_utf8 (g2 ++ [RBRACK] ++ s)).
    { destruct Hcomma; subst comma; [reflexivity|]. cbn [app]. apply valid_utf8_cons_ascii. reflexivity. }
    rewrite E, (valid_gap _ _ _ Hg2). cbn [app]. apply valid_utf8_cons_ascii. reflexivity.
Qed.

Lemma command_fwd k r rx rs p w sp e s :
  grammar r = (Normal, Seq (Insens (bs k)) (Seq arg_ws (Alt (Call rx) (Call rs)))) ->
  good (Seq (Insens (bs k)) (Seq arg_ws (Alt (Call rx) (Call rs)))) = true ->
  grammar rx = (Normal, Call R_string_array) -> grammar rs = (AtomicRule, any_breakable) -> rx <> rs ->
  to_lower (bs k) = bs k -> Forall (fun c => is_alpha c = true) (bs k) ->
  (clear_exec_at unq k p w sp e /\ closed_end s) \/ (clear_command_at k p w sp e /\ at_line_end s) ->
  valid_utf8 (w ++ s) = true -> pos p (w ++ s) ->
  exists t, run ctx0 (Call r) p (w ++ s) = Done (p + length w) s [t] /\ t_rule t = r /\ span_of t = sp /\
    shell_or_exec_of unq src rx rs t = Ok e.
Proof.
  intros Hr G Hx Hsh Hxs Hlow Halpha H Hv Hp.
  pose proof (good_sub _ G) as [_ G1]. pose proof (good_sub _ G1) as [_ G2].
  assert (M : exists kw g cmd, w = kw ++ g ++ cmd /\ keyword k kw /\ gap 0 g /\ g <> [] /\ gap_stops (cmd ++ s) /\
    valid_utf8 (cmd ++ s) = true /\ sp = at_ p w /\
    exists t, run ctx0 (Alt (Call rx) (Call rs)) (p + length kw + length g) (cmd ++ s) =
      Done (p + length kw + length g + length cmd) s [t] /\
      ((t_rule t = rx /\ exists a, parse_string_array unq src t = Ok a /\ e = Exec a) \/
       (t_rule t = rs /\ exists a, parse_any_breakable src t = Ok a /\ e = Shell a))).
  { destruct H as [((kw & g & cmd & a & -> & Hkw & Hg & Hne & Ha & -> & Esp) & Hs)|((kw & g & cmd & x & -> & Hkw & Hg & Hne & Hso & Hnb & Hcmd & -> & Esp) & Hs)];
      rewrite <- !app_assoc in *; rewrite (keyword_valid k), (valid_gap _ _ _ Hg) in Hv by assumption;
      pose proof (pos_app _ _ _ _ (pos_app _ _ _ _ Hp)) as Hp2; exists kw, g, cmd; (split; [reflexivity|]); (split; [exact Hkw|]);
      (split; [exact Hg|]); (split; [exact Hne|]).
    - assert (Hst : exists t, cmd = LBRACK :: t) by (destruct Ha as [|? ? ? ? ? ? ? ? ? ? ? _ _ _ _ _ _ ->]; eauto).
      split; [destruct Hst as (t & ->); cbn; repeat split; discriminate|]. split; [exact Hv|]. split; [exact Esp|].
      rewrite run_alt by exact G2. assert (Hvs : valid_utf8 s = true) by (rewrite (array_valid _ _ _ _ Ha) in Hv; exact Hv).
      destruct (array_rule_fwd unq src rx _ cmd a s Hx Ha Hvs Hp2) as (ch & -> & E). eexists. split; [reflexivity|]. left. split; [reflexivity|]. eauto.
    - split; [apply solid_stops; exact Hso|]. split; [exact Hv|]. split; [exact Esp|].
      rewrite run_alt by exact G2. rewrite (proj2 (list_here rx _ (cmd ++ s) Hx Hv)); [|apply Hnb; [apply line_end_bytes; assumption|eapply line_end_valid; eassumption]].
      destruct (breakable_rule_fwd src rs _ cmd x s Hsh Hcmd Hs Hv Hp2) as (ch & -> & E). eexists. split; [reflexivity|]. right. split; [reflexivity|]. eauto. }
  clear H Hv. destruct M as (kw & g & cmd & -> & Hkw & Hg & Hne & Hst & Hv & -> & t & E & Ht).
  rewrite <- !app_assoc in *.
  destruct (gap_fwd 0 g (cmd ++ s) (p + length kw) Hg Hne Hst Hv) as (f1 & E1 & _ & Hf1).
  apply comments_none in Hf1. subst f1.
  eexists. split.
  { apply token_fwd; rewrite Hr; [discriminate|]. cbn [fst snd rule_inner rule_outer].
    rewrite run_seq by exact G. rewrite keyword_fwd by assumption. rewrite run_seq by exact G1. rewrite E1, E.
    match goal with |- Done ?a _ _ = Done ?b _ _ => replace b with a by (rewrite !app_length; lia) end. reflexivity. }
  split; [reflexivity|]. split; [unfold span_of, at_; cbn [t_start t_stop]; f_equal; rewrite !app_length; lia|].
  unfold shell_or_exec_of. cbn [t_children app]. destruct Ht as [(Ht & a & Ea & ->)|(Ht & a & Ea & ->)]; rewrite Ht.
  - destruct (rule_eq_dec rx rx) as [_|K]; [|congruence]. rewrite Ea. reflexivity.
  - destruct (rule_eq_dec rs rx) as [K|_]; [congruence|]. destruct (rule_eq_dec rs rs) as [_|K]; [|congruence]. rewrite Ea. reflexivity.
Qed.

Lemma run_fwd p w x s :
  (clear_exec_at unq "run" p w (run_span x) (run_expr x) /\ closed_end s) \/ (clear_command_at "run" p w (run_span x) (run_expr x) /\ at_line_end s) ->
  valid_utf8 (w ++ s) = true -> pos p (w ++ s) ->
  exists t, run ctx0 (Call R_run) p (w ++ s) = Done (p + length w) s [t] /\ t_rule t = R_run /\
    instruction_of unq src t = Ok (IRun x).
Proof.
  intros H Hv Hp. apply (command_fwd "run" R_run R_run_exec R_run_shell) in H; try reflexivity; try discriminate; try (repeat constructor; fail); try assumption.
  destruct H as (t & E & Ht & Esp & Ex). exists t. split; [exact E|]. split; [exact Ht|].
  unfold instruction_of, run_of. rewrite Ht, Ex, Esp. destruct x; reflexivity.
Qed.

Lemma entrypoint_fwd p w x s :
  (clear_exec_at unq "entrypoint" p w (entrypoint_span x) (entrypoint_expr x) /\ closed_end s) \/
  (clear_command_at "entrypoint" p w (entrypoint_span x) (entrypoint_expr x) /\ at_line_end s) ->
  valid_utf8 (w ++ s) = true -> pos p (w ++ s) ->
  exists t, run ctx0 (Call R_entrypoint) p (w ++ s) = Done (p + length w) s [t] /\ t_rule t = R_entrypoint /\
    instruction_of unq src t = Ok (IEntrypoint x).
Proof.
  intros H Hv Hp. apply (command_fwd "entrypoint" R_entrypoint R_entrypoint_exec R_entrypoint_shell) in H; try reflexivity; try discriminate; try (repeat constructor; fail); try assumption.
  destruct H as (t & E & Ht & Esp & Ex). exists t. split; [exact E|]. split; [exact Ht|].
  unfold instruction_of, entrypoint_of. rewrite Ht, Ex, Esp. destruct x; reflexivity.
Qed.

Lemma cmd_fwd p w x s :
  (clear_exec_at unq "cmd" p w (cmd_span x) (cmd_expr x) /\ closed_end s) \/ (clear_command_at "cmd" p w (cmd_span x) (cmd_expr x) /\ at_line_end s) ->
  valid_utf8 (w ++ s) = true -> pos p (w ++ s) ->
  exists t, run ctx0 (Call R_cmd) p (w ++ s) = Done (p + length w) s [t] /\ t_rule t = R_cmd /\
    instruction_of unq src t = Ok (ICmd x).
Proof.
  intros H Hv Hp. apply (command_fwd "cmd" R_cmd R_cmd_exec R_cmd_shell) in H; try reflexivity; try discriminate; try (repeat constructor; fail); try assumption.
  destruct H as (t & E & Ht & Esp & Ex). exists t. split; [exact E|]. split; [exact Ht|].
  unfold instruction_of, cmd_of. rewrite Ht, Ex, Esp. destruct x; reflexivity.
Qed.

(** ** ENV *)

Lemma env_name_fwd c p w s : look c = false -> env_name_text w -> (match s with x :: _ => is_word x = false | [] => True end) ->
  run c (Call R_env_name) p (w ++ s) = Done (p + length w) s [Node R_env_name p (p + length w) []].
Proof.
  intros Hc [Hne Hw] Hs. apply compound_fwd; [reflexivity|exact Hc|]. cbn [grammar snd].
  apply (class_rep1_fwd _ is_word); auto. apply class_word.
Qed.

Lemma env_name_fails c p s : (match s with x :: _ => is_word x = false | [] => True end) -> run c (Call R_env_name) p s = Fail.
Proof.
  intros Hs. rewrite run_call. cbn [grammar fst snd]. rewrite (class_rep1_fails _ is_word); [reflexivity|reflexivity|apply class_word|exact Hs].
Qed.

Lemma env_name_end c p s : at_line_end s -> run c (Call R_env_name) p s = Fail.
Proof. intros Hs. apply env_name_fails. apply closed_class; [apply at_line_end_closed; exact Hs|apply word_solid]. Qed.

Lemma env_pair_fwd p w x s : clear_env_pair_at unq p w x -> word_end s -> valid_utf8 (w ++ s) = true -> pos p (w ++ s) ->
  exists t, run ctx0 (Call R_env_pair) p (w ++ s) = Done (p + length w) s [t] /\ t_rule t = R_env_pair /\
    env_pair_of unq src t = Ok x.
Proof.
  intros (n & v & -> & Hn & Ek & Hval & Esp) Hs Hv Hp. rewrite <- !app_assoc in *. cbn [app] in *.
  assert (Hv2 : valid_utf8 (v ++ s) = true).
  { rewrite (class_valid _ _ _ word_ascii (proj2 Hn)), valid_utf8_cons_ascii in Hv by reflexivity. exact Hv. }
  pose proof (pos_app _ _ _ _ Hp) as Hp1. pose proof (pos_app _ _ [EQUALS] _ Hp1) as Hp2. cbn [length] in Hp2.
  assert (E : exists t, run {| atom := true; look := false |} (Alt (Call R_env_pair_quoted_value) (Call R_env_pair_value)) (p + length n + 1) (v ++ s) =
    Done (p + length n + 1 + length v) s [t] /\ forall k, pair_step (k, None) t = Ok (k, Some (ev_value x))).
  { rewrite run_alt by reflexivity. destruct Hval as [(u & Hq & Hu & Hval)|((Hw & Hnq & Hb) & Hval)].
    - destruct (quoted_token_fwd R_env_pair_quoted_value CompoundRule {| atom := true; look := false |} (p + length n + 1) v s eq_refl) as (ch & ->);
        [auto|reflexivity|exact Hq|exact Hv2|].
      eexists. split; [reflexivity|]. intros k. cbn [SoundInstr.pair_step t_rule]. rewrite (as_str_at src _ _ _ _ _ Hp2).
      unfold unquote. rewrite Hu. cbn [bind ok_or]. rewrite Hval. reflexivity.
    - rewrite (quoted_token_fails R_env_pair_quoted_value CompoundRule); [|reflexivity|apply not_quote_app; [apply Hw|exact Hnq]].
      eexists. split; [apply compound_fwd; [reflexivity|reflexivity|]; cbn [grammar snd]; apply word_fwd; assumption|].
      intros k. cbn [SoundInstr.pair_step t_rule]. rewrite (as_str_at src _ _ _ _ _ Hp2), Hval. reflexivity. }
  destruct E as (t & E & Ht). eexists. split.
  { apply token_fwd; [discriminate|]. cbn [grammar fst snd rule_inner rule_outer].
    rewrite run_seq by reflexivity. rewrite env_name_fwd; [|reflexivity|exact Hn|reflexivity].
    rewrite run_seq by reflexivity. rewrite class_str.
    change (EQUALS =? EQUALS)%N with true. cbn iota. change (atom ctx0) with false. 
    match goal with |- context [run ?c (Alt _ _)] => change c with {| atom := true; look := false |} end. rewrite E.
    match goal with |- Done ?a _ _ = Done ?b _ _ => replace b with a by (rewrite !app_length; cbn [length]; lia) end. reflexivity. }
  split; [reflexivity|]. unfold env_pair_of.
  match goal with |- context [for_each ?f _ (None, None)] => change f with pair_step end.
  cbn [t_children app for_each]. cbn [SoundInstr.pair_step t_rule].
  rewrite (parse_string_plain unq src _ _ _ _ _ Hp) by (apply word_class_not_quoted; apply Hn). cbn [bind].
  rewrite Ht. cbn [bind ok_or]. destruct x as [sp nm vl]. cbn in *. rewrite Esp, Ek. unfold span_of, at_. cbn [t_start t_stop].
  repeat f_equal; rewrite ?app_length; cbn [length]; lia.
Qed.

Lemma env_pair_solid p w x s : clear_env_pair_at unq p w x -> gap_stops (w ++ s).
Proof. intros (n & v & -> & [Hne Hn] & _). rewrite <- app_assoc. apply (class_stops is_word); [apply word_solid|exact Hne|exact Hn]. Qed.
Lemma env_pair_valid p w x s : clear_env_pair_at unq p w x -> valid_utf8 (w ++ s) = valid_utf8 s.
Proof.
  intros (n & v & -> & [_ Hn] & _ & Hval & _). rewrite <- app_assoc. rewrite (class_valid _ _ _ word_ascii Hn). cbn [app].
  rewrite valid_utf8_cons_ascii by reflexivity. destruct Hval as [(u & Hq & _)|((Hw & _) & _)]; [apply valid_quoted; exact Hq|apply word_valid; exact Hw].
Qed.

Lemma env_pair_end p s : at_line_end s -> run ctx0 (Call R_env_pair) p s = Fail.
Proof.
  intros Hs. rewrite run_call. cbn [grammar fst snd]. rewrite run_seq by reflexivity.
  rewrite env_name_end by exact Hs. reflexivity.
Qed.

Lemma env_single_fails p pairs l b s : spaced (clear_env_pair_at unq) p pairs l -> blanks b -> at_line_end s ->
  valid_utf8 (pairs ++ b ++ s) = true -> run ctx0 (Call R_env_single) p (pairs ++ b ++ s) = Fail.
Proof.
  intros Hl Hb Hs Hv. rewrite run_call. cbn [grammar fst snd rule_inner rule_outer].
  destruct Hl as [p|p k g w x w2 l Hg Hne Hx Hl].
  - cbn [app] in *. rewrite closed_seq_fails; [reflexivity|reflexivity|exists b, s; auto|exact Hv|].
    intros q t Ht Hvt. rewrite run_seq by reflexivity. rewrite env_name_end by exact Ht. reflexivity.
  - rewrite <- !app_assoc in *. rewrite (valid_gap _ _ _ Hg) in Hv. rewrite run_seq by reflexivity.
    destruct (gap_fwd k g _ p Hg Hne (env_pair_solid _ _ _ _ Hx) Hv) as (f & -> & _).
    destruct Hx as (n & v & -> & Hn & _).
    rewrite <- !app_assoc in *. cbn [app] in *. rewrite run_seq by reflexivity.
    rewrite env_name_fwd; [|reflexivity|exact Hn|reflexivity].
    rewrite run_seq by reflexivity. rewrite gap_fails; [reflexivity|reflexivity|].
    rewrite (class_valid _ _ _ word_ascii (proj2 Hn)) in Hv. exact Hv.
Qed.

Lemma envs_fwd p w x s : clear_envs_at unq p w x -> at_line_end s -> valid_utf8 (w ++ s) = true -> pos p (w ++ s) ->
  exists t, run ctx0 (Call R_env) p (w ++ s) = Done (p + length w) s [t] /\ t_rule t = R_env /\
    instruction_of unq src t = Ok (IEnv x).
Proof.
  intros (kw & pairs & b & -> & Hkw & Esp & Hl & Hb & Hne) Hs Hv Hp. rewrite <- !app_assoc in *.
  rewrite (keyword_valid "env") in Hv by first [assumption | repeat constructor].
  assert (Hvs : valid_utf8 s = true) by (rewrite (spaced_valid _ env_pair_valid _ _ _ _ Hl), valid_blanks in Hv by exact Hb; exact Hv).
  pose proof (pos_app _ _ _ _ Hp) as Hp1.
  destruct (spaced_blanks_fwd src R_env_pair (clear_env_pair_at unq) (env_pair_of unq src) pairs_step (fun a x => a ++ [x]) eq_refl eq_refl
    env_pair_fwd env_pair_solid env_pair_valid ltac:(intros a t Ht; unfold SoundInstr.pairs_step; rewrite Ht; reflexivity)
    (pairs_step_comments unq src) _ _ _ Hl b s Hb Hs Hvs Hp1 (fun q => env_pair_end q s Hs)) as (f1 & E1 & Hf1).
  apply rep1_of_rep in E1; [|reflexivity|intros K; apply Hne; destruct pairs; [destruct b; [reflexivity|]|]; cbn in K; lia].
  eexists. split.
  { apply token_fwd; [discriminate|]. cbn [grammar fst snd rule_inner rule_outer].
    rewrite run_seq by reflexivity. rewrite keyword_fwd; [|exact Hkw|reflexivity].
    rewrite run_alt by reflexivity. rewrite (env_single_fails _ _ _ _ _ Hl Hb Hs Hv).
    rewrite run_call. cbn [grammar fst snd rule_inner rule_outer rule_tokens]. rewrite E1.
    match goal with |- Done ?a _ _ = Done ?b _ _ => replace b with a by (rewrite !app_length; lia) end. reflexivity. }
  split; [reflexivity|]. match goal with |- context [wrap ctx0 ?r ?a ?b ?f] => change (wrap ctx0 r a b f) with [Node r a b f] end.
  unfold instruction_of, env_of. cbn [t_rule t_children app]. unfold env_pairs_of.
  match goal with |- context [for_each ?f _ []] => change f with pairs_step end. cbn [t_children].
  rewrite Hf1, fold_snoc. cbn [bind app]. destruct x as [sp ls]. cbn in *. rewrite Esp. unfold span_of, at_. cbn [t_start t_stop].
  repeat f_equal; rewrite ?app_length; lia.
Qed.

Lemma env_single_fwd p w x s : (clear_env_quoted_at unq p w x /\ closed_end s) \/ (clear_env_shell_at p w x /\ at_line_end s) ->
  valid_utf8 (w ++ s) = true -> pos p (w ++ s) ->
  exists t, run ctx0 (Call R_env) p (w ++ s) = Done (p + length w) s [t] /\ t_rule t = R_env /\
    instruction_of unq src t = Ok (IEnv x).
Proof.
  intros H Hv Hp.
  assert (M : exists kw j g1 n k g2 v e, w = kw ++ g1 ++ n ++ g2 ++ v /\ keyword "env" kw /\
    gap j g1 /\ g1 <> [] /\ gap k g2 /\ g2 <> [] /\
    env_name_text n /\ ev_key e = SpannedString (at_ (p + length kw + length g1) n) n /\
    gap_stops (v ++ s) /\ ev_span e = at_ (p + length kw + length g1) (n ++ g2 ++ v) /\
    x = EnvInstruction (at_ p w) [e] /\
    br_span (ev_value e) = at_ (p + length kw + length g1 + length n + length g2) v /\
    exists t, run ctx0 (Alt (Call R_env_single_quoted_value) (Call R_env_single_value)) (p + length kw + length g1 + length n + length g2) (v ++ s) =
      Done (p + length kw + length g1 + length n + length g2 + length v) s [t] /\
      forall k, single_step (k, None) t = Ok (k, Some (ev_value e))).
  { destruct H as [((kw & j & g1 & n & k & g2 & v & e & -> & Hkw & Hg1 & Hn1 & Hg2 & Hn2 & Hn & Ek & Hval & Esp & ->) & Hs)
      |((kw & j & g1 & n & k & g2 & v & e & -> & Hkw & Hg1 & Hn1 & Hg2 & Hn2 & Hn & Ek & Hso & Hnq & Hval & Esp & ->) & Hs)];
    exists kw, j, g1, n, k, g2, v, e; rewrite <- !app_assoc in *;
    rewrite (keyword_valid "env"), (valid_gap _ _ _ Hg1), (class_valid _ _ _ word_ascii (proj2 Hn)), (valid_gap _ _ _ Hg2) in Hv by first [assumption|repeat constructor];
    pose proof (pos_app _ _ _ _ (pos_app _ _ _ _ (pos_app _ _ _ _ (pos_app _ _ _ _ Hp)))) as Hp4;
    (split; [reflexivity|]); (split; [exact Hkw|]); (split; [exact Hg1|]); (split; [exact Hn1|]); (split; [exact Hg2|]);
    (split; [exact Hn2|]); (split; [exact Hn|]); (split; [exact Ek|]).
    - destruct Hval as (u & Hq & Hu & Hval). split; [apply quoted_solid; exact Hq|]. split; [exact Esp|]. split; [reflexivity|].
      split; [rewrite Hval; reflexivity|]. rewrite run_alt by reflexivity.
      destruct (quoted_token_fwd R_env_single_quoted_value CompoundRule ctx0 (p + length kw + length g1 + length n + length g2) v s eq_refl) as (ch & ->);
        [auto|reflexivity|exact Hq|exact Hv|].
      eexists. split; [reflexivity|]. intros k0. cbn [SoundInstr.single_step t_rule]. rewrite (as_str_at src _ _ _ _ _ Hp4).
      unfold unquote. rewrite Hu. cbn [bind ok_or]. rewrite Hval. reflexivity.
    - split; [apply solid_stops; exact Hso|]. split; [exact Esp|]. split; [reflexivity|].
      split; [destruct Hval as (? & _ & ->); reflexivity|]. rewrite run_alt by reflexivity.
      rewrite (quoted_token_fails R_env_single_quoted_value CompoundRule);
        [|reflexivity|apply not_quote_app; [destruct Hso as (? & ? & -> & _); discriminate|exact Hnq]].
      destruct (breakable_rule_fwd src R_env_single_value _ v _ s eq_refl Hval Hs Hv Hp4) as (ch & -> & E).
      eexists. split; [reflexivity|]. intros k0. cbn [SoundInstr.single_step t_rule]. rewrite E. reflexivity. }
  clear H. destruct M as (kw & j & g1 & n & k & g2 & v & e & -> & Hkw & Hg1 & Hn1 & Hg2 & Hn2 & Hn & Ek & Hst & Esp & -> & Ebr & t & Et & Ht).
  rewrite <- !app_assoc in *.
  rewrite (keyword_valid "env"), (valid_gap _ _ _ Hg1) in Hv by first [assumption|repeat constructor].
  assert (Hv2 : valid_utf8 (v ++ s) = true) by (rewrite (class_valid _ _ _ word_ascii (proj2 Hn)), (valid_gap _ _ _ Hg2) in Hv; exact Hv).
  pose proof (pos_app _ _ _ _ (pos_app _ _ _ _ Hp)) as Hp2.
  destruct (gap_fwd j g1 _ (p + length kw) Hg1 Hn1 (class_stops is_word n (g2 ++ v ++ s) word_solid (proj1 Hn) (proj2 Hn)) Hv) as (f1 & E1 & Hc1 & _).
  destruct (gap_fwd k g2 _ (p + length kw + length g1 + length n) Hg2 Hn2 Hst Hv2) as (f3 & E3 & Hc3 & _).
  eexists. split.
  { apply token_fwd; [discriminate|]. cbn [grammar fst snd rule_inner rule_outer].
    rewrite run_seq by reflexivity. rewrite keyword_fwd; [|exact Hkw|reflexivity].
    rewrite run_alt by reflexivity. rewrite run_call. cbn [grammar fst snd rule_inner rule_outer rule_tokens].
    rewrite run_seq by reflexivity. rewrite E1.
    rewrite run_seq by reflexivity. rewrite env_name_fwd; [|reflexivity|exact Hn|apply (gap_class _ k); [exact Hg2|exact Hn2|apply word_solid]].
    rewrite run_seq by reflexivity. rewrite E3, Et.
    match goal with |- Done ?a _ _ = Done ?b _ _ => replace b with a by (rewrite !app_length; lia) end. reflexivity. }
  split; [reflexivity|]. match goal with |- context [wrap ctx0 ?r ?a ?b ?f] => change (wrap ctx0 r a b f) with [Node r a b f] end.
  unfold instruction_of, env_of. cbn [t_rule t_children app]. unfold env_single_of.
  match goal with |- context [for_each ?f _ (None, None)] => change f with single_step end. cbn [t_children].
  rewrite for_each_gap by (assumption || apply single_step_comments). cbn [app for_each].
  cbn [SoundInstr.single_step t_rule].
  rewrite (parse_string_plain unq src _ _ _ _ _ Hp2) by (apply word_class_not_quoted; apply Hn). cbn [bind].
  rewrite for_each_gap by (assumption || apply single_step_comments). cbn [for_each].
  rewrite Ht. cbn [bind ok_or]. destruct e as [sp nm vl]. cbn [ev_key ev_value ev_span br_span ss_span] in *. rewrite Ebr, Esp, Ek.
  unfold span_of, at_. cbn [t_start t_stop s_start s_end ss_span]. rewrite ?app_length, ?Nat.add_assoc. reflexivity.
Qed.

(** ** Any other name *)

Lemma misc_fwd p w x s : clear_misc_at p w x -> at_line_end s -> valid_utf8 (w ++ s) = true -> pos p (w ++ s) ->
  exists t, run ctx0 (Call R_misc) p (w ++ s) = Done (p + length w) s [t] /\ t_rule t = R_misc /\
    instruction_of unq src t = Ok (IMisc x).
Proof.
  intros (name & args & -> & Hn & Hres & Hhead & Hcl & En & Hargs & Esp) Hs Hv Hp. rewrite <- !app_assoc in *.
  pose proof (pos_app _ _ _ _ Hp) as Hp1.
  assert (Hv1 : valid_utf8 (args ++ s) = true) by (rewrite (class_valid _ _ _ alpha_ascii (proj2 Hn)) in Hv; exact Hv).
  destruct (breakable_rule_fwd src R_misc_arguments _ args _ s eq_refl Hargs Hs Hv1 Hp1) as (ch & E & Ex).
  assert (Hhead2 : match args ++ s with y :: _ => is_alpha y = false | [] => True end).
  { destruct args as [|y args]; [|exact Hhead]. cbn [app]. apply closed_class; [apply at_line_end_closed; exact Hs|apply alpha_solid]. }
  eexists. split.
  { apply token_fwd; [discriminate|]. cbn [grammar fst snd rule_inner rule_outer].
    rewrite run_seq by reflexivity. rewrite letters_fwd; [|reflexivity|exact Hn|exact Hhead2]. rewrite E.
    match goal with |- Done ?a _ _ = Done ?b _ _ => replace b with a by (rewrite !app_length; lia) end. reflexivity. }
  split; [reflexivity|]. unfold instruction_of, misc_of. cbn [t_rule t_children app for_each].
  rewrite (parse_string_plain unq src _ _ _ _ _ Hp) by (apply letters_not_quoted; exact Hn). cbn [bind].
  rewrite Ex. cbn [bind ok_or]. destruct x as [sp nm ar]. cbn in *. rewrite Esp, En. unfold span_of, at_. cbn [t_start t_stop].
  repeat f_equal; rewrite ?app_length; lia.
Qed.
End Instr2.
