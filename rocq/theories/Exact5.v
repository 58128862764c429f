(** From exact readings to runs of the grammar: the instructions, see SpecExact.v. *)

From Coq Require Import String.
From Verif Require Import Bytes BytesFacts Grammar Peg Result Ast Splicer Image Convert ImageFacts Dockerfile DocFacts
  PegFacts SpecImage SpecSyntax SpecClear SpecExact PegRules PegTokens PegQuoted Sound SoundRules SoundInstr
  Forward Forward2 Forward3 ListFacts Forward4 Exact Exact2 Exact3 Exact4.
Local Open Scope nat_scope.

Lemma over_stop g s : closed_end s -> gap_over g s -> ends_here s.
Proof.
  intros Hc [_ H]. apply closed_stop; [exact Hc|]. destruct s; [exact I|]. cbn. apply H.
Qed.

Section Fwd.
Variable unq : bytes -> option bytes.
Variable src : bytes.
Notation pos := (pos src).
Notation arg_step := (arg_step unq src).
Notation label_step := (label_step unq src).
Notation labels_step := (labels_step unq src).
Notation copy_step := (copy_step unq src).
Notation pair_step := (pair_step unq src).
Notation single_step := (single_step unq src).
Notation pairs_step := (pairs_step unq src).

(** ** ARG *)

(** A quoted string, or a word. *)
Lemma value_reads_fwd rq rv kq kv p w s : grammar rq = (kq, string_) -> grammar rv = (kv, any_whitespace) ->
  kq = CompoundRule -> kv <> Silent -> good (Alt (Call rq) (Call rv)) = true ->
  value_reads w s -> valid_utf8 (w ++ s) = true ->
  (quoted_text w /\ exists ch, run ctx0 (Alt (Call rq) (Call rv)) p (w ++ s) = Done (p + length w) s [Node rq p (p + length w) ch]) \/
  (word w /\ exists ch, run ctx0 (Alt (Call rq) (Call rv)) p (w ++ s) = Done (p + length w) s [Node rv p (p + length w) ch]).
Proof.
  intros Hq Hr Ek Hk G Hw Hv. rewrite run_alt by exact G. destruct Hw as [Hw|(Hw & Hnq & Ho)].
  - left. split; [exact Hw|]. destruct (quoted_token_fwd rq kq ctx0 p w s Hq (or_introl Ek) eq_refl Hw Hv) as (ch & ->). eauto.
  - right. split; [exact Hw|].
    rewrite (proj2 (quoted_ahead_iff rq kq ctx0 p (w ++ s) Hq ltac:(subst; reflexivity) Hv) Hnq).
    rewrite (word_rule_over_fwd rv kv) by assumption. eauto.
Qed.

Lemma arg_reads_fwd p w x s : arg_reads unq p w s x -> closed_end s -> valid_utf8 (w ++ s) = true -> pos p (w ++ s) ->
  exists t, run ctx0 (Call R_arg) p (w ++ s) = Done (p + length w) s [t] /\ t_rule t = R_arg /\
    instruction_of unq src t = Ok (IArg x).
Proof.
  intros (kw & k & g & name & rest & -> & Hkw & Hg & Hne & Hn & Ename & Esp & Hrest) Hs Hv Hp.
  rewrite <- !app_assoc in *.
  rewrite (Forward3.keyword_valid "arg") in Hv by first [assumption | repeat constructor]. rewrite (valid_gap _ _ _ Hg) in Hv.
  destruct Hn as (c0 & nt & En & Hc0 & Hnt). assert (Hnw : Forall (fun c => is_word c = true) name).
  { rewrite En. constructor; [apply is_alpha_word; exact Hc0|exact Hnt]. }
  assert (Hvr : valid_utf8 (rest ++ s) = true) by (rewrite (Forward3.class_valid _ _ _ word_ascii Hnw) in Hv; exact Hv).
  pose proof (pos_app _ _ _ _ Hp) as Hp1. pose proof (pos_app _ _ _ _ Hp1) as Hp2. pose proof (pos_app _ _ _ _ Hp2) as Hp3.
  destruct (gap_fwd k g (name ++ rest ++ s) (p + length kw) Hg Hne) as (f1 & E1 & Hc1 & _);
    [rewrite En; cbn; apply alpha_solid; exact Hc0|exact Hv|].
  assert (Hhead : match rest ++ s with y :: _ => is_word y = false | [] => True end).
  { destruct Hrest as [[-> _]|(value & v & -> & _)]; [|reflexivity]. apply closed_class; [exact Hs|apply word_solid]. }
  assert (E2 : run ctx0 (Call R_arg_name) (p + length kw + length g) (name ++ rest ++ s) =
    Done (p + length kw + length g + length name) (rest ++ s)
      [Node R_arg_name (p + length kw + length g) (p + length kw + length g + length name) []]).
  { apply token_fwd; [discriminate|]. cbn [grammar fst snd rule_inner rule_outer]. rewrite run_seq by reflexivity.
    rewrite class_alpha, En. cbn [app]. rewrite Hc0. rewrite (class_rep _ is_word); [|reflexivity|apply class_word].
    destruct (take_while_app is_word nt (rest ++ s) Hnt Hhead) as [K1 K2].
    rewrite K1, K2. cbn [app length]. f_equal. lia. }
  assert (Estep : forall st, arg_step (None, st) (Node R_arg_name (p + length kw + length g) (p + length kw + length g + length name) []) = Ok (Some (arg_name x), st)).
  { intros st. cbn [SoundInstr.arg_step t_rule]. rewrite (parse_string_plain unq src _ _ _ _ _ Hp2); [|apply word_class_not_quoted; exact Hnw].
    cbn [bind]. rewrite Ename. reflexivity. }
  assert (E3 : exists f3, run ctx0 (Opt (Seq (Str [EQUALS]) (Alt (Call R_arg_quoted_value) (Call R_arg_value))))
      (p + length kw + length g + length name) (rest ++ s) = Done (p + length kw + length g + length name + length rest) s f3 /\
      for_each arg_step f3 (Some (arg_name x), None) = Ok (Some (arg_name x), arg_value x)).
  { rewrite run_opt by reflexivity. rewrite run_seq by reflexivity. rewrite class_str.
    destruct Hrest as [[-> Ev]|(value & v & -> & Hval & Hx & Ev)].
    - cbn [app length] in *. assert (K : match s with y :: _ => (EQUALS =? y)%N = false | [] => True end).
      { apply closed_head in Hs. destruct s as [|y s]; [exact I|]. destruct (EQUALS =? y)%N eqn:E; [|reflexivity].
        apply N.eqb_eq in E. subst y. destruct Hs; discriminate. }
      exists []. rewrite Nat.add_0_r, Ev. split; [|reflexivity]. destruct s as [|y s]; [reflexivity|]. rewrite K. reflexivity.
    - cbn [app length] in *. change (EQUALS =? EQUALS)%N with true. cbn iota.
      rewrite valid_utf8_cons_ascii in Hvr by reflexivity. pose proof (pos_app _ _ [EQUALS] _ Hp3) as Hp4. cbn [length] in Hp4.
      destruct (value_reads_fwd R_arg_quoted_value R_arg_value CompoundRule CompoundRule (p + length kw + length g + length name + 1) value s
        eq_refl eq_refl eq_refl ltac:(discriminate) eq_refl Hval Hvr) as [(_ & ch & ->)|(_ & ch & ->)];
      (eexists; split; [f_equal; lia|]); cbn [app for_each SoundInstr.arg_step t_rule];
      rewrite (parse_string_fwd unq src _ _ _ v _ _ Hp4 Hx); cbn [bind]; rewrite Ev; reflexivity. }
  destruct E3 as (f3 & E3 & Hf3). eexists. split.
  { apply token_fwd; [discriminate|]. cbn [grammar fst snd rule_inner rule_outer].
    rewrite run_seq by reflexivity. rewrite keyword_fwd; [|exact Hkw|reflexivity].
    rewrite run_seq by reflexivity. rewrite E1. rewrite run_seq by reflexivity. rewrite E2, E3.
    replace (p + length (kw ++ g ++ name ++ rest)) with (p + length kw + length g + length name + length rest) by (rewrite !app_length; lia).
    reflexivity. }
  split; [reflexivity|]. unfold instruction_of, arg_of. cbn [t_rule].
  match goal with |- context [for_each ?f _ (None, None)] => change f with arg_step end.
  cbn [t_children app]. rewrite for_each_gap by (assumption || apply arg_step_comments).
  cbn [app for_each]. rewrite Estep. cbn [bind]. rewrite Hf3. cbn [bind ok_or].
  destruct x as [sp nm vl]. cbn in *. rewrite Esp. unfold span_of, at_. cbn [t_start t_stop]. repeat f_equal; rewrite ?app_length; lia.
Qed.

(** ** COPY *)

Lemma path_reads_fwd p w x s : path_reads unq p w s x -> valid_utf8 (w ++ s) = true -> pos p (w ++ s) ->
  exists t, run ctx0 (Call R_copy_pathspec) p (w ++ s) = Done (p + length w) s [t] /\ t_rule t = R_copy_pathspec /\
    parse_string unq src t = Ok x.
Proof.
  intros ((Hw & Hx) & Ho) Hv Hp. eexists. split; [apply (word_rule_over_fwd _ AtomicRule); [reflexivity|discriminate|assumption..]|].
  split; [reflexivity|]. apply (parse_string_fwd unq src _ _ _ _ _ _ Hp Hx).
Qed.
Lemma path_reads_valid p w x s : path_reads unq p w s x -> valid_utf8 (w ++ s) = valid_utf8 s.
Proof. intros ((H & _) & _). apply Forward3.word_valid. exact H. Qed.

Lemma spaced_reads_cons_inv {A} (at1 : nat -> bytes -> bytes -> A -> Prop) p w s x l : spaced_reads at1 p w s (x :: l) ->
  exists k g v w2, w = g ++ v ++ w2 /\ gap k g /\ g <> [] /\ gap_over g (v ++ w2 ++ s) /\ at1 (p + length g) v (w2 ++ s) x /\
    spaced_reads at1 (p + length g + length v) w2 s l.
Proof.
  intros H. remember (x :: l) as l0 eqn:E. destruct H as [|p k g w x0 w2 s l0 Hg Hne Ho Hx H]; [discriminate|].
  injection E as -> ->. exists k, g, w, w2. auto 9.
Qed.

Lemma path_end s p : closed_end s -> valid_utf8 s = true -> run ctx0 (Seq arg_ws (Call R_copy_pathspec)) p s = Fail.
Proof.
  intros Hs Hv. apply closed_seq_fails; [reflexivity|exact Hs|exact Hv|]. intros q t Ht Hvt. rewrite run_call. cbn [grammar fst snd].
  rewrite word_fails; [reflexivity|apply at_line_end_word; exact Ht|exact Hvt].
Qed.

Lemma copy_reads_fwd p w x s : copy_reads unq p w s x -> closed_end s -> valid_utf8 (w ++ s) = true -> pos p (w ++ s) ->
  exists t, run ctx0 (Call R_copy) p (w ++ s) = Done (p + length w) s [t] /\ t_rule t = R_copy /\
    instruction_of unq src t = Ok (ICopy x).
Proof.
  intros (kw & fl & paths & -> & Hkw & Hfl & Hnf & Hpaths & Hsrcs & Esp) Hs Hv Hp.
  destruct (copy_sources x) as [|x1 srcs] eqn:Esrc; [congruence|].
  assert (El : exists x2 l, (x1 :: srcs) ++ [copy_destination x] = x1 :: x2 :: l).
  { destruct srcs as [|x2 srcs]; [exists (copy_destination x), []; reflexivity|]. exists x2, (srcs ++ [copy_destination x]). reflexivity. }
  destruct El as (x2 & l & El). rewrite El in Hpaths.
  apply spaced_reads_cons_inv in Hpaths. destruct Hpaths as (k1 & g1 & w1 & r1 & -> & Hg1 & Hn1 & Ho1 & Hx1 & Hpaths).
  apply spaced_reads_cons_inv in Hpaths. destruct Hpaths as (k2 & g2 & w2 & r2 & -> & Hg2 & Hn2 & Ho2 & Hx2 & Hl).
  rewrite <- !app_assoc in *.
  rewrite (Forward3.keyword_valid "copy") in Hv by first [assumption | repeat constructor].
  assert (Hw1 : word w1) by apply Hx1.
  assert (Hflr : spaced_reads (flag_reads unq) (p + length kw) fl (g1 ++ w1 ++ g2 ++ w2 ++ r2 ++ s) (copy_flags x)).
  { destruct Hw1 as (Hwn & Hwf & _). destruct Hwf as [|y w1 Hy Hwf]; [congruence|]. cbn [app]. apply (flags_over _ _ _ _ k1); auto; apply Hy. }
  rewrite (spaced_reads_valid _ (flag_reads_valid unq) _ _ _ _ Hflr) in Hv.
  assert (Hv1 : valid_utf8 (w1 ++ g2 ++ w2 ++ r2 ++ s) = true) by (rewrite (valid_gap _ _ _ Hg1) in Hv; exact Hv).
  assert (Hv2 : valid_utf8 (g2 ++ w2 ++ r2 ++ s) = true) by (rewrite (path_reads_valid _ _ _ _ Hx1) in Hv1; exact Hv1).
  assert (Hv3 : valid_utf8 (r2 ++ s) = true) by (rewrite (valid_gap _ _ _ Hg2), (path_reads_valid _ _ _ _ Hx2) in Hv2; exact Hv2).
  assert (Hv4 : valid_utf8 s = true) by (rewrite (spaced_reads_valid _ path_reads_valid _ _ _ _ Hl) in Hv3; exact Hv3).
  pose proof (pos_app _ _ _ _ Hp) as Hp1. pose proof (pos_app _ _ _ _ Hp1) as Hp2.
  pose proof (pos_app _ _ _ _ (pos_app _ _ _ _ Hp2)) as Hp3. pose proof (pos_app _ _ _ _ (pos_app _ _ _ _ Hp3)) as Hp4.
  destruct (spaced_reads_fwd src R_copy_flag (flag_reads unq) (copy_flag_of unq src) copy_step add_copy_flag eq_refl
    ltac:(intros [a b] t Ht; unfold SoundInstr.copy_step; rewrite Ht; reflexivity)
    (copy_step_comments unq src) (copy_flag_reads_fwd unq src) (flag_reads_valid unq) _ _ _ _ Hflr Hv Hp1) as (f1 & E1 & Hf1).
  { apply (flag_ahead_iff R_copy_flag R_copy_flag_name R_copy_flag_value); try reflexivity; assumption. }
  assert (Hitem : forall st t, t_rule t = R_copy_pathspec -> copy_step st t = bind (parse_string unq src t) (fun x => Ok (add_path st x))).
  { intros [a b] t Ht. unfold SoundInstr.copy_step. rewrite Ht. reflexivity. }
  destruct (item_reads_fwd src R_copy_pathspec (path_reads unq) (parse_string unq src) copy_step add_path Hitem (copy_step_comments unq src)
    path_reads_fwd path_reads_valid _ _ _ _ _ (g2 ++ w2 ++ r2 ++ s) Hg1 Hn1 Ho1 Hx1 Hv2 Hp2) as (fa & ta & Ea1 & Ea2 & Hfa).
  destruct (item_reads_fwd src R_copy_pathspec (path_reads unq) (parse_string unq src) copy_step add_path Hitem (copy_step_comments unq src)
    path_reads_fwd path_reads_valid _ _ _ _ _ (r2 ++ s) Hg2 Hn2 Ho2 Hx2 Hv3 Hp3) as (fb & tb & Eb1 & Eb2 & Hfb).
  destruct (spaced_reads_fwd src R_copy_pathspec (path_reads unq) (parse_string unq src) copy_step add_path eq_refl Hitem (copy_step_comments unq src)
    path_reads_fwd path_reads_valid _ _ _ _ Hl Hv4 Hp4 (path_end _ _ Hs Hv4)) as (f4 & E4 & Hf4).
  eexists. split.
  { apply token_fwd; [discriminate|]. cbn [grammar fst snd rule_inner rule_outer].
    rewrite run_seq by reflexivity. rewrite keyword_fwd; [|exact Hkw|reflexivity].
    rewrite run_seq by reflexivity. rewrite E1.
    rewrite (run_seq _ (Seq arg_ws (Call R_copy_pathspec))) by reflexivity.
    rewrite (run_seq _ arg_ws) by reflexivity. rewrite Ea1, Ea2.
    rewrite (run_seq _ (Seq arg_ws (Call R_copy_pathspec))) by reflexivity.
    rewrite (run_seq _ arg_ws) by reflexivity. rewrite Eb1, Eb2, E4.
    match goal with |- Done ?a _ _ = Done ?b _ _ => replace b with a by (rewrite !app_length; lia) end. reflexivity. }
  split; [reflexivity|]. unfold instruction_of, copy_of. cbn [t_rule].
  match goal with |- context [for_each ?f _ ([], [])] => change f with copy_step end.
  cbn [t_children app]. rewrite (for_each_app _ f1), Hf1, fold_copy_flag. cbn [bind app]. rewrite (for_each_app _ (fa ++ [ta])), Hfa. cbn [bind].
  rewrite (for_each_app _ (fb ++ [tb])), Hfb. cbn [bind add_path app]. rewrite Hf4, fold_add_path. cbn [bind app].
  change (length (x1 :: x2 :: l) <? 2) with false. cbn iota. rewrite <- El, pop_snoc. cbn [bind].
  destruct x as [sp fs ss ds]. cbn in *. rewrite Esp. subst ss. unfold span_of, at_. cbn [t_start t_stop].
  repeat f_equal; rewrite ?app_length; lia.
Qed.

(** ** LABEL *)

Lemma label_name_reads_valid p w x s : label_name_reads unq p w s x -> valid_utf8 (w ++ s) = valid_utf8 s.
Proof. intros [H|(H & _)]; [apply valid_quoted, (clean_quoted_quoted _ _ _ _ H)|apply label_word_valid; exact H]. Qed.
Lemma label_value_reads_valid p w x s : label_value_reads unq p w s x -> valid_utf8 (w ++ s) = valid_utf8 s.
Proof. intros [H|(H & _)]; [apply valid_quoted, (clean_quoted_quoted _ _ _ _ H)|apply Forward3.word_valid; exact H]. Qed.

Lemma label_name_reads_fwd rq rn k p w x s :
  (rq = R_label_quoted_name /\ rn = R_label_name /\ k = CompoundRule \/
   rq = R_label_single_quoted_name /\ rn = R_label_single_name /\ k = Normal) ->
  label_name_reads unq p w s x -> valid_utf8 (w ++ s) = true -> pos p (w ++ s) ->
  exists t, run ctx0 (Alt (Call rq) (Call rn)) p (w ++ s) = Done (p + length w) s [t] /\
    forall n v, label_step (n, v) t = Ok (Some x, v).
Proof.
  intros Hr Hx Hv Hp.
  assert (Hq : grammar rq = (k, string_)) by (destruct Hr as [(-> & -> & ->)|(-> & -> & ->)]; reflexivity).
  assert (Hn : grammar rn = (k, any_equals)) by (destruct Hr as [(-> & -> & ->)|(-> & -> & ->)]; reflexivity).
  assert (Hk : k <> Silent) by (destruct Hr as [(-> & -> & ->)|(-> & -> & ->)]; discriminate).
  rewrite run_alt by (destruct Hr as [(-> & -> & _)|(-> & -> & _)]; reflexivity).
  destruct Hx as [Hx|(Hw & Hnq & Ho & Hx)].
  - destruct (quoted_token_fwd rq k ctx0 p w s Hq) as (ch & ->);
      [destruct Hr as [(_ & _ & ->)|(_ & _ & ->)]; auto|reflexivity|apply (clean_quoted_quoted _ _ _ _ Hx)|exact Hv|].
    eexists. split; [reflexivity|]. intros n v.
    assert (E : label_step (n, v) (Node rq p (p + length w) ch) =
      (x <- unquote_clean unq src (Node rq p (p + length w) ch);; Ok (Some x, v))).
    { destruct Hr as [(-> & -> & _)|(-> & -> & _)]; reflexivity. }
    rewrite E, (unquote_clean_fwd unq src _ _ _ _ _ _ Hp Hx). reflexivity.
  - rewrite (proj2 (quoted_ahead_iff rq k ctx0 p (w ++ s) Hq ltac:(destruct Hr as [(_ & _ & ->)|(_ & _ & ->)]; reflexivity) Hv) Hnq).
    apply label_over_iff in Ho. rewrite (label_rule_fwd rn k) by assumption. eexists. split; [reflexivity|]. intros n v.
    assert (E : label_step (n, v) (Node rn p (p + length w) []) =
      (x <- parse_string unq src (Node rn p (p + length w) []);; Ok (Some x, v))).
    { destruct Hr as [(-> & -> & _)|(-> & -> & _)]; reflexivity. }
    rewrite E, (parse_string_fwd unq src _ _ _ _ _ _ Hp Hx). reflexivity.
Qed.

Lemma label_value_reads_fwd p w x s : label_value_reads unq p w s x -> valid_utf8 (w ++ s) = true -> pos p (w ++ s) ->
  exists t, run ctx0 (Alt (Call R_label_quoted_value) (Call R_label_value)) p (w ++ s) = Done (p + length w) s [t] /\
    forall n v, label_step (n, v) t = Ok (n, Some x).
Proof.
  intros Hx Hv Hp. rewrite run_alt by reflexivity. destruct Hx as [Hx|(Hw & Hnq & Ho & Hx)].
  - destruct (quoted_token_fwd R_label_quoted_value CompoundRule ctx0 p w s eq_refl) as (ch & ->);
      [auto|reflexivity|apply (clean_quoted_quoted _ _ _ _ Hx)|exact Hv|].
    eexists. split; [reflexivity|]. intros n v. cbn [SoundInstr.label_step t_rule].
    rewrite (unquote_clean_fwd unq src _ _ _ _ _ _ Hp Hx). reflexivity.
  - rewrite (proj2 (quoted_ahead_iff R_label_quoted_value CompoundRule ctx0 p (w ++ s) eq_refl eq_refl Hv) Hnq).
    rewrite (word_rule_over_fwd R_label_value CompoundRule); [|reflexivity|discriminate|assumption..].
    eexists. split; [reflexivity|]. intros n v. cbn [SoundInstr.label_step t_rule].
    rewrite (parse_string_fwd unq src _ _ _ _ _ _ Hp Hx). reflexivity.
Qed.

Lemma label_pair_reads_fwd p w x s : label_pair_reads unq p w s x -> valid_utf8 (w ++ s) = true -> pos p (w ++ s) ->
  exists t, run ctx0 (Call R_label_pair) p (w ++ s) = Done (p + length w) s [t] /\ t_rule t = R_label_pair /\
    label_of unq src t = Ok x.
Proof.
  intros (n & v & -> & Hn & Hval & Esp) Hv Hp. rewrite <- !app_assoc in *. cbn [app] in *.
  assert (Hv2 : valid_utf8 (v ++ s) = true).
  { rewrite (label_name_reads_valid _ _ _ _ Hn), valid_utf8_cons_ascii in Hv by reflexivity. exact Hv. }
  pose proof (pos_app _ _ _ _ Hp) as Hp1. pose proof (pos_app _ _ [EQUALS] _ Hp1) as Hp2. cbn [length] in Hp2.
  destruct (label_name_reads_fwd R_label_quoted_name R_label_name CompoundRule p n (lb_name x) (EQUALS :: v ++ s)
    ltac:(auto) Hn Hv Hp) as (t1 & E1 & H1).
  destruct (label_value_reads_fwd _ _ _ s Hval Hv2 Hp2) as (t2 & E2 & H2).
  eexists. split.
  { apply token_fwd; [discriminate|]. cbn [grammar fst snd rule_inner rule_outer].
    rewrite run_seq by reflexivity. rewrite E1. rewrite run_seq by reflexivity. rewrite class_str.
    change (EQUALS =? EQUALS)%N with true. cbn iota. rewrite E2.
    match goal with |- Done ?a _ _ = Done ?b _ _ => replace b with a by (rewrite !app_length; cbn [length]; lia) end. reflexivity. }
  split; [reflexivity|]. unfold label_of.
  match goal with |- context [for_each ?f _ (None, None)] => change f with label_step end.
  cbn [t_children app for_each]. rewrite H1. cbn [bind]. rewrite H2. cbn [bind ok_or].
  destruct x as [sp nm vl]. cbn in *. rewrite Esp. unfold span_of, at_. cbn [t_start t_stop].
  repeat f_equal; rewrite ?app_length; cbn [length]; lia.
Qed.

Lemma label_pair_reads_valid p w x s : label_pair_reads unq p w s x -> valid_utf8 (w ++ s) = valid_utf8 s.
Proof.
  intros (n & v & -> & Hn & Hval & _). rewrite <- app_assoc. cbn [app]. rewrite (label_name_reads_valid _ _ _ _ Hn).
  rewrite valid_utf8_cons_ascii by reflexivity. apply (label_value_reads_valid _ _ _ _ Hval).
Qed.

Lemma gap_before_valid g s : gap_before g s -> valid_utf8 (g ++ s) = true -> valid_utf8 s = true.
Proof.
  intros Hb Hv. destruct g as [|y g]; [exact Hv|].
  destruct (gap_before_fwd (y :: g) s 0 ltac:(discriminate) Hb Hv) as (f & E & _). exact (run_valid _ _ _ _ _ _ _ E Hv eq_refl).
Qed.

Lemma label_pairs_not_single p pairs l g s : spaced_reads (label_pair_reads unq) p pairs (g ++ s) l -> gap_before g s -> closed_end s ->
  valid_utf8 (pairs ++ g ++ s) = true -> pos p (pairs ++ g ++ s) -> run ctx0 (Call R_label_single) p (pairs ++ g ++ s) = Fail.
Proof.
  intros Hl Hb Hs Hv Hp. rewrite run_call. cbn [grammar fst snd rule_inner rule_outer]. rewrite run_seq by reflexivity.
  remember (g ++ s) as gs eqn:Egs. destruct Hl as [p s0|p k g1 w x w2 s0 l Hg Hne Ho Hx Hl]; subst s0.
  - cbn [app] in *. assert (Hvs : valid_utf8 s = true) by (eapply gap_before_valid; eassumption).
    assert (He : at_line_end s) by (apply ends_end; apply (over_stop g); [exact Hs|apply Hb]).
    destruct g as [|y g].
    + cbn [app]. rewrite gap_fails; [reflexivity|apply (gap_over_here _ _ (proj2 Hb))|exact Hvs].
    + destruct (gap_before_fwd (y :: g) s p ltac:(discriminate) Hb Hv) as (f & -> & _).
      rewrite run_seq by reflexivity. rewrite (label_name_at_end _ _ Normal) by (assumption || reflexivity). reflexivity.
  - rewrite <- !app_assoc in *. rewrite (valid_gap _ _ _ Hg) in Hv.
    destruct (gap_over_fwd k g1 _ p Hg Hne Ho Hv) as (f & -> & _).
    pose proof (pos_app _ _ _ _ Hp) as Hp1. destruct Hx as (n & v & -> & Hn & Hval & _).
    rewrite <- !app_assoc in *. cbn [app] in *. rewrite run_seq by reflexivity.
    destruct (label_name_reads_fwd R_label_single_quoted_name R_label_single_name Normal _ n (lb_name x) (EQUALS :: v ++ w2 ++ g ++ s)
      ltac:(auto) Hn Hv Hp1) as (t1 & -> & _).
    rewrite run_seq by reflexivity. rewrite gap_fails; [reflexivity|reflexivity|].
    rewrite (label_name_reads_valid _ _ _ _ Hn) in Hv. exact Hv.
Qed.

Lemma label_reads_fwd p w x s : label_reads unq p w s x -> closed_end s -> valid_utf8 (w ++ s) = true -> pos p (w ++ s) ->
  exists t, run ctx0 (Call R_label) p (w ++ s) = Done (p + length w) s [t] /\ t_rule t = R_label /\
    instruction_of unq src t = Ok (ILabel x).
Proof.
  intros (kw & r & -> & Hkw & Esp & H) Hs Hv Hp. rewrite <- !app_assoc in *.
  rewrite (Forward3.keyword_valid "label") in Hv by first [assumption | repeat constructor].
  pose proof (pos_app _ _ _ _ Hp) as Hp1.
  destruct H as [(lb & (j & g1 & n & k & g2 & v & -> & Hg1 & Hn1 & Hg2 & Hn2 & Ho1 & Hn & Ho2 & Hval & Elb) & El)|(pairs & g & -> & Hne & Hl & Hb)].
  - rewrite <- !app_assoc in *. rewrite (valid_gap _ _ _ Hg1) in Hv.
    assert (Hv1 : valid_utf8 (g2 ++ v ++ s) = true) by (rewrite (label_name_reads_valid _ _ _ _ Hn) in Hv; exact Hv).
    assert (Hv2 : valid_utf8 (v ++ s) = true) by (rewrite (valid_gap _ _ _ Hg2) in Hv1; exact Hv1).
    pose proof (pos_app _ _ _ _ Hp1) as Hp2. pose proof (pos_app _ _ _ _ Hp2) as Hp3. pose proof (pos_app _ _ _ _ Hp3) as Hp4.
    destruct (gap_over_fwd j g1 _ (p + length kw) Hg1 Hn1 Ho1 Hv) as (f1 & E1 & Hc1 & _).
    destruct (label_name_reads_fwd R_label_single_quoted_name R_label_single_name Normal _ n (lb_name lb) (g2 ++ v ++ s)
      ltac:(auto) Hn Hv Hp2) as (t1 & E2 & H2).
    destruct (gap_over_fwd k g2 _ (p + length kw + length g1 + length n) Hg2 Hn2 Ho2 Hv2) as (f3 & E3 & Hc3 & _).
    destruct (label_value_reads_fwd _ _ _ s Hval Hv2 Hp4) as (t4 & E4 & H4).
    assert (E : exists f, run ctx0 (Call R_label_single) (p + length kw) (g1 ++ n ++ g2 ++ v ++ s) =
        Done (p + length kw + length (g1 ++ n ++ g2 ++ v)) s
          [Node R_label_single (p + length kw) (p + length kw + length (g1 ++ n ++ g2 ++ v)) f] /\
        label_of unq src (Node R_label_single (p + length kw) (p + length kw + length (g1 ++ n ++ g2 ++ v)) f) = Ok lb).
    { eexists. split.
      - apply token_fwd; [discriminate|]. cbn [grammar fst snd rule_inner rule_outer].
        rewrite run_seq by reflexivity. rewrite E1. rewrite run_seq by reflexivity. rewrite E2.
        rewrite run_seq by reflexivity. rewrite E3, E4.
        match goal with |- Done ?a _ _ = Done ?b _ _ => replace b with a by (rewrite !app_length; lia) end. reflexivity.
      - unfold label_of.
        match goal with |- context [for_each ?f _ (None, None)] => change f with label_step end.
        cbn [t_children]. rewrite for_each_gap by (assumption || apply label_step_comments). cbn [app for_each].
        rewrite H2. cbn [bind]. rewrite for_each_gap by (assumption || apply label_step_comments). cbn [for_each].
        rewrite H4. cbn [bind ok_or]. destruct lb as [sp nm vl]. cbn [lb_span lb_name lb_value] in *. rewrite Elb. reflexivity. }
    destruct E as (f & E & Ef). eexists. split.
    { apply token_fwd; [discriminate|]. cbn [grammar fst snd rule_inner rule_outer].
      rewrite run_seq by reflexivity. rewrite keyword_fwd; [|exact Hkw|reflexivity].
      rewrite run_alt by reflexivity. rewrite E. rewrite (app_length kw), Nat.add_assoc. reflexivity. }
    split; [reflexivity|]. unfold instruction_of, label_instruction_of. cbn [t_rule t_children app for_each].
    cbn [app] in Ef. rewrite Ef. cbn [bind app]. destruct x as [sp ls]. cbn [label_labels label_span] in *. subst ls. rewrite Esp. unfold span_of, at_. cbn [t_start t_stop].
    repeat f_equal; cbn [app]; rewrite ?(app_length kw); lia.
  - rewrite <- !app_assoc in *.
    assert (Hvg : valid_utf8 (g ++ s) = true) by (rewrite (spaced_reads_valid _ label_pair_reads_valid _ _ _ _ Hl) in Hv; exact Hv).
    assert (Hvs : valid_utf8 s = true) by (eapply gap_before_valid; eassumption).
    assert (He : at_line_end s) by (apply ends_end; apply (over_stop g); [exact Hs|apply Hb]).
    destruct (gap_spaced_fwd src R_label_pair (label_pair_reads unq) (label_of unq src) labels_step (fun a x => a ++ [x]) eq_refl
      ltac:(intros a t Ht; unfold SoundInstr.labels_step; rewrite Ht; reflexivity)
      (labels_step_comments unq src) label_pair_reads_fwd label_pair_reads_valid _ _ _ _ _ Hl Hb Hvg Hp1 (fun q => label_pair_end q s He Hvs)) as (f1 & E1 & Hf1).
    eexists. split.
    { apply token_fwd; [discriminate|]. cbn [grammar fst snd rule_inner rule_outer].
      rewrite run_seq by reflexivity. rewrite keyword_fwd; [|exact Hkw|reflexivity].
      rewrite run_alt by reflexivity. rewrite (label_pairs_not_single _ _ _ _ _ Hl Hb Hs Hv Hp1).
      apply rep1_of_rep in E1; [|reflexivity|].
      - rewrite E1. match goal with |- Done ?a _ _ = Done ?b _ _ => replace b with a by (rewrite !app_length; lia) end. reflexivity.
      - intros K. apply Hne. destruct pairs; [destruct g; [reflexivity|]|]; cbn in K; lia. }
    split; [reflexivity|]. unfold instruction_of, label_instruction_of. cbn [t_rule t_children app].
    match goal with |- context [for_each ?f _ []] => change f with labels_step end.
    rewrite Hf1, fold_snoc. cbn [bind app]. destruct x as [sp ls]. cbn in *. rewrite Esp. unfold span_of, at_. cbn [t_start t_stop].
    repeat f_equal; rewrite ?app_length; lia.
Qed.

(** ** RUN, CMD, ENTRYPOINT *)

Lemma command_reads_fwd k r rx rs p w sp e s :
  grammar r = (Normal, Seq (Insens (bs k)) (Seq arg_ws (Alt (Call rx) (Call rs)))) ->
  good (Seq (Insens (bs k)) (Seq arg_ws (Alt (Call rx) (Call rs)))) = true ->
  grammar rx = (Normal, Call R_string_array) -> grammar rs = (AtomicRule, any_breakable) -> rx <> rs ->
  to_lower (bs k) = bs k -> Forall (fun c => is_alpha c = true) (bs k) ->
  command_reads unq k p w s sp e -> valid_utf8 (w ++ s) = true -> pos p (w ++ s) ->
  exists t, run ctx0 (Call r) p (w ++ s) = Done (p + length w) s [t] /\ t_rule t = r /\ span_of t = sp /\
    shell_or_exec_of unq src rx rs t = Ok e.
Proof.
  intros Hr G Hx Hsh Hxs Hlow Halpha (kw & g & cmd & -> & Hkw & Hg & Hne & Ho & He & ->) Hv Hp.
  pose proof (good_sub _ G) as [_ G1]. pose proof (good_sub _ G1) as [_ G2].
  rewrite <- !app_assoc in *. rewrite (Forward3.keyword_valid k), (valid_gap _ _ _ Hg) in Hv by assumption.
  pose proof (pos_app _ _ _ _ (pos_app _ _ _ _ Hp)) as Hp2.
  assert (M : exists t, run ctx0 (Alt (Call rx) (Call rs)) (p + length kw + length g) (cmd ++ s) =
      Done (p + length kw + length g + length cmd) s [t] /\
      ((t_rule t = rx /\ exists a, parse_string_array unq src t = Ok a /\ e = Exec a) \/
       (t_rule t = rs /\ exists a, parse_any_breakable src t = Ok a /\ e = Shell a))).
  { rewrite run_alt by exact G2. destruct e as [x|a].
    2: { assert (Hvs : valid_utf8 s = true) by (rewrite (array_valid unq _ _ _ _ He) in Hv; exact Hv).
      destruct (array_rule_fwd unq src rx _ cmd a s Hx He Hvs Hp2) as (ch & -> & E). eexists. split; [reflexivity|]. left. split; [reflexivity|]. eauto. }
    destruct He as [Hnb Hb]. rewrite (proj2 (list_here rx _ (cmd ++ s) Hx Hv) Hnb).
      destruct (breakable_reads_fwd src rs _ cmd x s Hsh Hb Hv Hp2) as (ch & -> & E). eexists. split; [reflexivity|]. right. split; [reflexivity|]. eauto. }
  destruct M as (t & E & Ht).
  destruct (gap_over_fwd 0 g (cmd ++ s) (p + length kw) Hg Hne Ho Hv) as (f1 & E1 & _ & Hf1).
  apply comments_none in Hf1. subst f1.
  eexists. split.
  { apply token_fwd; rewrite Hr; [discriminate|]. cbn [fst snd rule_inner rule_outer].
    rewrite run_seq by exact G. rewrite keyword_fwd by assumption. rewrite run_seq by exact G1. rewrite E1, E.
    match goal with |- Done ?a _ _ = Done ?b _ _ => replace b with a by (rewrite !app_length; lia) end. reflexivity. }
  split; [reflexivity|]. split; [unfold span_of, at_; cbn [t_start t_stop]; f_equal; rewrite !app_length; lia|].
  unfold shell_or_exec_of. cbn [t_children app]. destruct Ht as [(Ht & a & Ea & ->)|(Ht & a & Ea & ->)]; rewrite Ht.
  - destruct (rule_eq_dec rx rx) as [_|K]; [|congruence]. rewrite Ea. reflexivity.
  - destruct (rule_eq_dec rs rx) as [K|_]; [congruence|]. destruct (rule_eq_dec rs rs) as [_|K]; [|congruence]. rewrite Ea. reflexivity.
Qed.

Lemma run_reads_fwd p w x s : command_reads unq "run" p w s (run_span x) (run_expr x) ->
  valid_utf8 (w ++ s) = true -> pos p (w ++ s) ->
  exists t, run ctx0 (Call R_run) p (w ++ s) = Done (p + length w) s [t] /\ t_rule t = R_run /\
    instruction_of unq src t = Ok (IRun x).
Proof.
  intros H Hv Hp. apply (command_reads_fwd "run" R_run R_run_exec R_run_shell) in H; try reflexivity; try discriminate; try (repeat constructor; fail); try assumption.
  destruct H as (t & E & Ht & Esp & Ex). exists t. split; [exact E|]. split; [exact Ht|].
  unfold instruction_of, run_of. rewrite Ht, Ex, Esp. destruct x; reflexivity.
Qed.

Lemma entrypoint_reads_fwd p w x s : command_reads unq "entrypoint" p w s (entrypoint_span x) (entrypoint_expr x) ->
  valid_utf8 (w ++ s) = true -> pos p (w ++ s) ->
  exists t, run ctx0 (Call R_entrypoint) p (w ++ s) = Done (p + length w) s [t] /\ t_rule t = R_entrypoint /\
    instruction_of unq src t = Ok (IEntrypoint x).
Proof.
  intros H Hv Hp. apply (command_reads_fwd "entrypoint" R_entrypoint R_entrypoint_exec R_entrypoint_shell) in H; try reflexivity; try discriminate; try (repeat constructor; fail); try assumption.
  destruct H as (t & E & Ht & Esp & Ex). exists t. split; [exact E|]. split; [exact Ht|].
  unfold instruction_of, entrypoint_of. rewrite Ht, Ex, Esp. destruct x; reflexivity.
Qed.

Lemma cmd_reads_fwd p w x s : command_reads unq "cmd" p w s (cmd_span x) (cmd_expr x) ->
  valid_utf8 (w ++ s) = true -> pos p (w ++ s) ->
  exists t, run ctx0 (Call R_cmd) p (w ++ s) = Done (p + length w) s [t] /\ t_rule t = R_cmd /\
    instruction_of unq src t = Ok (ICmd x).
Proof.
  intros H Hv Hp. apply (command_reads_fwd "cmd" R_cmd R_cmd_exec R_cmd_shell) in H; try reflexivity; try discriminate; try (repeat constructor; fail); try assumption.
  destruct H as (t & E & Ht & Esp & Ex). exists t. split; [exact E|]. split; [exact Ht|].
  unfold instruction_of, cmd_of. rewrite Ht, Ex, Esp. destruct x; reflexivity.
Qed.

(** ** ENV *)

Lemma env_pair_reads_fwd p w x s : env_pair_reads unq p w s x -> valid_utf8 (w ++ s) = true -> pos p (w ++ s) ->
  exists t, run ctx0 (Call R_env_pair) p (w ++ s) = Done (p + length w) s [t] /\ t_rule t = R_env_pair /\
    env_pair_of unq src t = Ok x.
Proof.
  intros (n & v & -> & Hn & Ek & Hval & Esp) Hv Hp. rewrite <- !app_assoc in *. cbn [app] in *.
  assert (Hv2 : valid_utf8 (v ++ s) = true).
  { rewrite (Forward3.class_valid _ _ _ word_ascii (proj2 Hn)), valid_utf8_cons_ascii in Hv by reflexivity. exact Hv. }
  pose proof (pos_app _ _ _ _ Hp) as Hp1. pose proof (pos_app _ _ [EQUALS] _ Hp1) as Hp2. cbn [length] in Hp2.
  assert (E : exists t, run {| atom := true; look := false |} (Alt (Call R_env_pair_quoted_value) (Call R_env_pair_value)) (p + length n + 1) (v ++ s) =
    Done (p + length n + 1 + length v) s [t] /\ forall k, pair_step (k, None) t = Ok (k, Some (ev_value x))).
  { rewrite run_alt by reflexivity. destruct Hval as [(u & Hq & Hu & Hval)|(Hw & Hnq & Ho & Hval)].
    - destruct (quoted_token_fwd R_env_pair_quoted_value CompoundRule {| atom := true; look := false |} (p + length n + 1) v s eq_refl) as (ch & ->);
        [auto|reflexivity|exact Hq|exact Hv2|].
      eexists. split; [reflexivity|]. intros k. cbn [SoundInstr.pair_step t_rule]. rewrite (as_str_at src _ _ _ _ _ Hp2).
      unfold unquote. rewrite Hu. cbn [bind ok_or]. rewrite Hval. reflexivity.
    - rewrite (proj2 (quoted_ahead_iff R_env_pair_quoted_value CompoundRule {| atom := true; look := false |} (p + length n + 1) (v ++ s) eq_refl eq_refl Hv2) Hnq).
      eexists. split; [apply compound_fwd; [reflexivity|reflexivity|]; cbn [grammar snd]; apply word_over_fwd; assumption|].
      intros k. cbn [SoundInstr.pair_step t_rule]. rewrite (as_str_at src _ _ _ _ _ Hp2), Hval. reflexivity. }
  destruct E as (t & E & Ht). eexists. split.
  { apply token_fwd; [discriminate|]. cbn [grammar fst snd rule_inner rule_outer].
    rewrite run_seq by reflexivity. rewrite env_name_fwd; [|reflexivity|exact Hn|reflexivity].
    rewrite run_seq by reflexivity. rewrite class_str.
    change (EQUALS =? EQUALS)%N with true. cbn iota. change (atom ctx0) with false.
    match goal with |- context [run ?c (Alt _ _)] => change c with {| atom := true; look := false |} end. rewrite E.
    match goal with |- Done ?a _ _ = Done ?b _ _ => replace b with a by (rewrite !app_length; cbn [length]; lia) end. reflexivity. }
  split; [reflexivity|]. unfold env_pair_of.
  match goal with |- context [for_each ?f _ (None, None)] => change f with pair_step end.
  cbn [t_children app for_each]. cbn [SoundInstr.pair_step t_rule].
  rewrite (parse_string_plain unq src _ _ _ _ _ Hp) by (apply word_class_not_quoted; apply Hn). cbn [bind].
  rewrite Ht. cbn [bind ok_or]. destruct x as [sp nm vl]. cbn in *. rewrite Esp, Ek. unfold span_of, at_. cbn [t_start t_stop].
  repeat f_equal; rewrite ?app_length; cbn [length]; lia.
Qed.

Lemma env_pair_reads_valid p w x s : env_pair_reads unq p w s x -> valid_utf8 (w ++ s) = valid_utf8 s.
Proof.
  intros (n & v & -> & [_ Hn] & _ & Hval & _). rewrite <- app_assoc. rewrite (Forward3.class_valid _ _ _ word_ascii Hn). cbn [app].
  rewrite valid_utf8_cons_ascii by reflexivity. destruct Hval as [(u & Hq & _)|(Hw & _)]; [apply valid_quoted; exact Hq|apply Forward3.word_valid; exact Hw].
Qed.

Lemma env_pairs_not_single p pairs l g s : spaced_reads (env_pair_reads unq) p pairs (g ++ s) l -> gap_before g s -> closed_end s ->
  valid_utf8 (pairs ++ g ++ s) = true -> run ctx0 (Call R_env_single) p (pairs ++ g ++ s) = Fail.
Proof.
  intros Hl Hb Hs Hv. rewrite run_call. cbn [grammar fst snd rule_inner rule_outer]. rewrite run_seq by reflexivity.
  remember (g ++ s) as gs eqn:Egs. destruct Hl as [p s0|p k g1 w x w2 s0 l Hg Hne Ho Hx Hl]; subst s0.
  - cbn [app] in *. assert (Hvs : valid_utf8 s = true) by (eapply gap_before_valid; eassumption).
    assert (He : at_line_end s) by (apply ends_end; apply (over_stop g); [exact Hs|apply Hb]).
    destruct g as [|y g].
    + cbn [app]. rewrite gap_fails; [reflexivity|apply (gap_over_here _ _ (proj2 Hb))|exact Hvs].
    + destruct (gap_before_fwd (y :: g) s p ltac:(discriminate) Hb Hv) as (f & -> & _).
      rewrite run_seq by reflexivity. rewrite env_name_end by assumption. reflexivity.
  - rewrite <- !app_assoc in *. rewrite (valid_gap _ _ _ Hg) in Hv.
    destruct (gap_over_fwd k g1 _ p Hg Hne Ho Hv) as (f & -> & _).
    destruct Hx as (n & v & -> & Hn & _).
    rewrite <- !app_assoc in *. cbn [app] in *. rewrite run_seq by reflexivity.
    rewrite env_name_fwd; [|reflexivity|exact Hn|reflexivity].
    rewrite run_seq by reflexivity. rewrite gap_fails; [reflexivity|reflexivity|].
    rewrite (Forward3.class_valid _ _ _ word_ascii (proj2 Hn)) in Hv. exact Hv.
Qed.

Lemma env_reads_fwd p w x s : env_reads unq p w s x -> closed_end s -> valid_utf8 (w ++ s) = true -> pos p (w ++ s) ->
  exists t, run ctx0 (Call R_env) p (w ++ s) = Done (p + length w) s [t] /\ t_rule t = R_env /\
    instruction_of unq src t = Ok (IEnv x).
Proof.
  intros (kw & r & -> & Hkw & Esp & H) Hs Hv Hp. rewrite <- !app_assoc in *.
  rewrite (Forward3.keyword_valid "env") in Hv by first [assumption | repeat constructor].
  pose proof (pos_app _ _ _ _ Hp) as Hp1.
  destruct H as [(e & (j & g1 & n & k & g2 & v & -> & Hg1 & Hn1 & Hg2 & Hn2 & Hn & Ek & Ho2 & Hval & Eev) & El)|(pairs & g & -> & Hne & Hl & Hb)].
  - rewrite <- !app_assoc in *. rewrite (valid_gap _ _ _ Hg1) in Hv.
    assert (Hv2 : valid_utf8 (v ++ s) = true) by (rewrite (Forward3.class_valid _ _ _ word_ascii (proj2 Hn)), (valid_gap _ _ _ Hg2) in Hv; exact Hv).
    pose proof (pos_app _ _ _ _ Hp1) as Hp2. pose proof (pos_app _ _ _ _ (pos_app _ _ _ _ Hp2)) as Hp4.
    set (p4 := p + length kw + length g1 + length n + length g2) in *.
    assert (M : br_span (ev_value e) = at_ p4 v /\
      exists t, run ctx0 (Alt (Call R_env_single_quoted_value) (Call R_env_single_value)) p4 (v ++ s) =
      Done (p4 + length v) s [t] /\ forall k, single_step (k, None) t = Ok (k, Some (ev_value e))).
    { destruct Hval as [(u & Hq & Hu & Hval)|(Hnq & Hval)].
      - split; [rewrite Hval; reflexivity|]. rewrite run_alt by reflexivity.
        destruct (quoted_token_fwd R_env_single_quoted_value CompoundRule ctx0 p4 v s eq_refl) as (ch & ->);
          [auto|reflexivity|exact Hq|exact Hv2|].
        eexists. split; [reflexivity|]. intros k0. cbn [SoundInstr.single_step t_rule]. rewrite (as_str_at src _ _ _ _ _ Hp4).
        unfold unquote. rewrite Hu. cbn [bind ok_or]. rewrite Hval. reflexivity.
      - split; [destruct Hval as (? & _ & ->); reflexivity|]. rewrite run_alt by reflexivity.
        rewrite (proj2 (quoted_ahead_iff R_env_single_quoted_value CompoundRule ctx0 p4 (v ++ s) eq_refl eq_refl Hv2) Hnq).
        destruct (breakable_reads_fwd src R_env_single_value _ v _ s eq_refl Hval Hv2 Hp4) as (ch & -> & E).
        eexists. split; [reflexivity|]. intros k0. cbn [SoundInstr.single_step t_rule]. rewrite E. reflexivity. }
    destruct M as (Ebr & t & Et & Ht).
    destruct (gap_fwd j g1 _ (p + length kw) Hg1 Hn1 (class_stops is_word n (g2 ++ v ++ s) word_solid (proj1 Hn) (proj2 Hn)) Hv) as (f1 & E1 & Hc1 & _).
    destruct (gap_over_fwd k g2 _ (p + length kw + length g1 + length n) Hg2 Hn2 Ho2 Hv2) as (f3 & E3 & Hc3 & _).
    fold p4 in E3.
    eexists. split.
    { apply token_fwd; [discriminate|]. cbn [grammar fst snd rule_inner rule_outer].
      rewrite run_seq by reflexivity. rewrite keyword_fwd; [|exact Hkw|reflexivity].
      rewrite run_alt by reflexivity. rewrite run_call. cbn [grammar fst snd rule_inner rule_outer rule_tokens].
      rewrite run_seq by reflexivity. rewrite E1.
      rewrite run_seq by reflexivity. rewrite env_name_fwd; [|reflexivity|exact Hn|apply (gap_class _ k); [exact Hg2|exact Hn2|apply word_solid]].
      rewrite run_seq by reflexivity. rewrite E3, Et. unfold p4.
      match goal with |- Done ?a _ _ = Done ?b _ _ => replace b with a by (rewrite !app_length; lia) end. reflexivity. }
    split; [reflexivity|]. match goal with |- context [wrap ctx0 ?r ?a ?b ?f] => change (wrap ctx0 r a b f) with [Node r a b f] end.
    unfold instruction_of, env_of. cbn [t_rule t_children app]. unfold env_single_of.
    match goal with |- context [for_each ?f _ (None, None)] => change f with single_step end. cbn [t_children].
    rewrite for_each_gap by (assumption || apply single_step_comments). cbn [app for_each].
    cbn [SoundInstr.single_step t_rule].
    rewrite (parse_string_plain unq src _ _ _ _ _ Hp2) by (apply word_class_not_quoted; apply Hn). cbn [bind].
    rewrite for_each_gap by (assumption || apply single_step_comments). cbn [for_each].
    rewrite Ht. cbn [bind ok_or]. destruct e as [sp nm vl]. cbn [ev_key ev_value ev_span br_span ss_span] in *.
    destruct x as [xs xe]. cbn [env_vars env_span] in *. rewrite El, Ebr, Eev, Ek, Esp.
    unfold p4, span_of, at_. cbn [t_start t_stop s_start s_end ss_span]. rewrite ?app_length, ?Nat.add_assoc. reflexivity.
  - rewrite <- !app_assoc in *.
    assert (Hvg : valid_utf8 (g ++ s) = true) by (rewrite (spaced_reads_valid _ env_pair_reads_valid _ _ _ _ Hl) in Hv; exact Hv).
    assert (Hvs : valid_utf8 s = true) by (eapply gap_before_valid; eassumption).
    assert (He : at_line_end s) by (apply ends_end; apply (over_stop g); [exact Hs|apply Hb]).
    destruct (gap_spaced_fwd src R_env_pair (env_pair_reads unq) (env_pair_of unq src) pairs_step (fun a x => a ++ [x]) eq_refl
      ltac:(intros a t Ht; unfold SoundInstr.pairs_step; rewrite Ht; reflexivity)
      (pairs_step_comments unq src) env_pair_reads_fwd env_pair_reads_valid _ _ _ _ _ Hl Hb Hvg Hp1 (fun q => env_pair_end q s He)) as (f1 & E1 & Hf1).
    apply rep1_of_rep in E1; [|reflexivity|intros K; apply Hne; destruct pairs; [destruct g; [reflexivity|]|]; cbn in K; lia].
    eexists. split.
    { apply token_fwd; [discriminate|]. cbn [grammar fst snd rule_inner rule_outer].
      rewrite run_seq by reflexivity. rewrite keyword_fwd; [|exact Hkw|reflexivity].
      rewrite run_alt by reflexivity. rewrite (env_pairs_not_single _ _ _ _ _ Hl Hb Hs Hv).
      rewrite run_call. cbn [grammar fst snd rule_inner rule_outer rule_tokens]. rewrite E1.
      match goal with |- Done ?a _ _ = Done ?b _ _ => replace b with a by (rewrite !app_length; lia) end. reflexivity. }
    split; [reflexivity|]. match goal with |- context [wrap ctx0 ?r ?a ?b ?f] => change (wrap ctx0 r a b f) with [Node r a b f] end.
    unfold instruction_of, env_of. cbn [t_rule t_children app]. unfold env_pairs_of.
    match goal with |- context [for_each ?f _ []] => change f with pairs_step end. cbn [t_children].
    rewrite Hf1, fold_snoc. cbn [bind app]. destruct x as [sp ls]. cbn in *. rewrite Esp. unfold span_of, at_. cbn [t_start t_stop].
    repeat f_equal; rewrite ?app_length; lia.
Qed.

(** ** Any other name *)

Lemma misc_reads_fwd p w x s : misc_reads p w s x -> valid_utf8 (w ++ s) = true -> pos p (w ++ s) ->
  exists t, run ctx0 (Call R_misc) p (w ++ s) = Done (p + length w) s [t] /\ t_rule t = R_misc /\
    instruction_of unq src t = Ok (IMisc x).
Proof.
  intros (name & args & -> & Hn & Hhead & _ & En & Hargs & Esp) Hv Hp. rewrite <- !app_assoc in *.
  pose proof (pos_app _ _ _ _ Hp) as Hp1.
  assert (Hv1 : valid_utf8 (args ++ s) = true) by (rewrite (Forward3.class_valid _ _ _ alpha_ascii (proj2 Hn)) in Hv; exact Hv).
  destruct (breakable_reads_fwd src R_misc_arguments _ args _ s eq_refl Hargs Hv1 Hp1) as (ch & E & Ex).
  assert (Hs : at_line_end s) by (destruct Hargs as (l & Hl & _); apply ends_end; exact (shell_reads_ends _ _ _ _ Hl)).
  assert (Hhead2 : match args ++ s with y :: _ => is_alpha y = false | [] => True end).
  { destruct args as [|y args]; [|exact Hhead]. cbn [app]. apply closed_class; [apply at_line_end_closed; exact Hs|apply alpha_solid]. }
  eexists. split.
  { apply token_fwd; [discriminate|]. cbn [grammar fst snd rule_inner rule_outer].
    rewrite run_seq by reflexivity. rewrite letters_fwd; [|reflexivity|exact Hn|exact Hhead2]. rewrite E.
    match goal with |- Done ?a _ _ = Done ?b _ _ => replace b with a by (rewrite !app_length; lia) end. reflexivity. }
  split; [reflexivity|]. unfold instruction_of, misc_of. cbn [t_rule t_children app for_each].
  rewrite (parse_string_plain unq src _ _ _ _ _ Hp) by (apply letters_not_quoted; exact Hn). cbn [bind].
  rewrite Ex. cbn [bind ok_or]. destruct x as [sp nm ar]. cbn in *. rewrite Esp, En. unfold span_of, at_. cbn [t_start t_stop].
  repeat f_equal; rewrite ?app_length; lia.
Qed.
End Fwd.
