(** C68: texts that are no Dockerfile.  What is said here of a text holds wherever it begins
    at a line break, see C56_errors. *)

From Coq Require Import String.
From Verif Require Import Bytes BytesFacts Grammar Peg PegFacts Result Ast Splicer Image Convert Dockerfile Enquote SpecImage
  SpecSyntax SpecLayout SpecClear SpecJoin SpecParts PegRules PegTokens PegQuoted Sound SoundInstr Forward Forward2 Forward3 Forward4 Forward5 Shift Idle JoinDoc Local
  ListFacts PartsFacts ParseFacts DocFacts PropsDoc PropsParse PropsComplete PropsLocal PropsJoin PropsWrite PropsForm.
Local Open Scope nat_scope.

(** At most blanks up to the end of the line *)
Definition nothing_left (s : bytes) : Prop := exists b t, s = b ++ t /\ blanks b /\ line_over t.

(** The text is followed by something else than blanks and the end of the line. *)
Lemma something_left s : ~ nothing_left s -> exists c x t, s = c ++ x :: t /\ blanks c /\ is_blank x = false /\ is_newline_byte x = false.
Proof.
  induction s as [|x s IH]; intros N; [exfalso; apply N; exists [], []; repeat split; constructor|].
  destruct (is_blank x) eqn:B.
  - destruct IH as (c & y & t & -> & Hc & Hy & Hn).
    + intros (b & t & -> & Hb & Ht). apply N. exists (x :: b), t. split; [reflexivity|]. split; [constructor; assumption|exact Ht].
    + exists (x :: c), y, t. split; [reflexivity|]. split; [constructor; assumption|auto].
  - destruct (is_newline_byte x) eqn:E; [|exists [], x, s; repeat split; auto; constructor].
    exfalso. apply N. exists [], (x :: s). split; [reflexivity|]. split; [constructor|]. cbn. unfold is_newline_byte in E.
    apply orb_true_iff in E. rewrite !N.eqb_eq in E. exact E.
Qed.

Lemma nothing_left_closed s : nothing_left s -> closed_end s.
Proof. intros (b & t & -> & Hb & Ht). exists b, t. split; [reflexivity|]. split; [exact Hb|apply line_over_end; exact Ht]. Qed.

Lemma keyword_letters k kw : keyword k kw -> letters (bs k) -> letters kw.
Proof.
  intros Hkw [Hl1 Hl2]. unfold keyword in Hkw. rewrite <- Hkw in Hl1, Hl2. split; [intros ->; apply Hl1; reflexivity|].
  unfold to_lower in Hl2. rewrite Forall_map in Hl2. revert Hl2. apply Forall_impl. intros y. rewrite lower_is_alpha. auto.
Qed.

Lemma rules_letters k r : In (k, r) keyword_rules -> letters (bs k).
Proof.
  intros Hin. cbn in Hin. repeat (destruct Hin as [E|Hin]; [injection E as <- <-; split; [discriminate|repeat constructor]|]). contradiction.
Qed.

(** An instruction with a rule of its own that is followed by something *)
Lemma left_over unq k r b kw u q s f : In (k, r) keyword_rules -> blanks b -> keyword k kw -> no_letter u -> valid_utf8 u = true ->
  run ctx0 (Call r) (length b) (kw ++ u) = Done q s f -> ~ nothing_left s -> parse unq (b ++ kw ++ u) = Err EParse.
Proof.
  intros Hin Hb Hkw Hu Hv E N. pose proof (rules_letters _ _ Hin) as Hl. pose proof (keyword_letters _ _ Hkw Hl) as Hkl.
  assert (Hvk : valid_utf8 (kw ++ u) = true) by (rewrite (Forward3.keyword_valid k kw u Hkw (proj2 Hl)); exact Hv).
  destruct (something_left s N) as (c & x & t & -> & Hc & Hx & Hn).
  apply (goes_on unq b kw u q c x t f Hb Hkl Hvk Hc Hx Hn). apply (step_keyword k r); assumption.
Qed.

(** ** No instruction *)

(** A line that begins with something that is neither a letter nor [#] *)
Theorem C68_no_instruction unq b x t : blanks b -> is_blank x = false -> is_newline_byte x = false -> is_alpha x = false -> x <> HASH ->
  valid_utf8 (x :: t) = true -> parse unq (b ++ x :: t) = Err EParse.
Proof.
  intros Hb Hx Hnl Ha Hh Hv. rewrite parse_lines. unfold document_lines. rewrite run_seq by reflexivity.
  rewrite (run_call ctx0 R_meta_step).
  change (snd (grammar R_meta_step)) with (Seq (Rep ws) (Seq (Opt (Alt (Call R_step) comment)) (Rep ws))).
  change (fst (grammar R_meta_step)) with Silent. cbn [rule_inner rule_outer rule_tokens]. rewrite run_seq by reflexivity.
  rewrite blanks_fwd; [|exact Hb|exact Hx].
  rewrite run_seq by reflexivity. rewrite run_opt by reflexivity. rewrite run_alt by reflexivity. rewrite step_fails; [|exact Ha|exact Hv].
  rewrite run_comment by exact Hv. rewrite (proj2 (N.eqb_neq x HASH) Hh).
  change (x :: t) with ([] ++ x :: t) at 1. rewrite (blanks_fwd [] (x :: t)); [|constructor|exact Hx]. cbn [app].
  rewrite run_rep by reflexivity. rewrite run_seq by reflexivity. rewrite run_newline.
  rewrite (proj2 (strip_newline_none (x :: t)) Hnl). reflexivity.
Qed.

(** A name without anything after it, not even a blank *)
Theorem C68_no_arguments unq b name s : blanks b -> letters name -> line_over s -> valid_utf8 s = true ->
  parse unq (b ++ name ++ s) = Err EParse.
Proof.
  intros Hb Hn Hs Hv. apply line_over_end in Hs. pose proof (line_end_no_letter s Hs) as Hl.
  assert (Hvn : valid_utf8 (name ++ s) = true) by (rewrite (Forward3.class_valid _ _ _ alpha_ascii (proj2 Hn)); exact Hv).
  assert (Hhead : match name ++ s with x :: _ => is_alpha x = true | [] => False end).
  { destruct Hn as [Hne Ha]. destruct name as [|y name]; [congruence|]. inversion Ha; subst. assumption. }
  assert (Es : run ctx0 (Call R_step) (length b) (name ++ s) = Fail).
  { assert (Fk : forall k r e, grammar r = (Normal, Seq (Insens (bs k)) e) -> good (Seq (Insens (bs k)) e) = true -> needs_gap e ->
      to_lower (bs k) = bs k -> Forall (fun c => is_alpha c = true) (bs k) -> run ctx0 (Call r) (length b) (name ++ s) = Fail).
    { intros k r e Hr G He Hlow Hk. destruct (list_eq_dec N.eq_dec (to_lower name) (bs k)) as [E|E].
      - rewrite run_call, Hr. cbn [fst snd rule_inner rule_outer]. rewrite run_seq by exact G. rewrite keyword_fwd; [|exact E|exact Hlow].
        rewrite He; [reflexivity|apply line_end_gap_here; exact Hs|exact Hv].
      - apply (other_keyword r k e); try assumption. apply Hn. }
    rewrite run_call. change (snd (grammar R_step)) with
      (Alt (Call R_from) (Alt (Call R_run) (Alt (Call R_arg) (Alt (Call R_label) (Alt (Call R_copy)
        (Alt (Call R_entrypoint) (Alt (Call R_cmd) (Alt (Call R_env) (Call R_misc))))))))).
    change (fst (grammar R_step)) with Silent. cbn [rule_inner rule_outer rule_tokens].
    repeat (rewrite run_alt by reflexivity).
    rewrite (Fk "from"%string R_from _ eq_refl eq_refl ltac:(needs) eq_refl ltac:(repeat constructor)).
    rewrite (Fk "run"%string R_run _ eq_refl eq_refl ltac:(needs) eq_refl ltac:(repeat constructor)).
    rewrite (Fk "arg"%string R_arg _ eq_refl eq_refl ltac:(needs) eq_refl ltac:(repeat constructor)).
    rewrite (Fk "label"%string R_label _ eq_refl eq_refl ltac:(needs) eq_refl ltac:(repeat constructor)).
    rewrite (Fk "copy"%string R_copy _ eq_refl eq_refl ltac:(needs) eq_refl ltac:(repeat constructor)).
    rewrite (Fk "entrypoint"%string R_entrypoint _ eq_refl eq_refl ltac:(needs) eq_refl ltac:(repeat constructor)).
    rewrite (Fk "cmd"%string R_cmd _ eq_refl eq_refl ltac:(needs) eq_refl ltac:(repeat constructor)).
    rewrite (Fk "env"%string R_env _ eq_refl eq_refl ltac:(needs) eq_refl ltac:(repeat constructor)).
    rewrite run_call. cbn [grammar fst snd rule_inner rule_outer]. rewrite run_seq by reflexivity.
    rewrite (letters_fwd R_misc_instruction) by (reflexivity || assumption).
    rewrite run_call. cbn [grammar fst snd rule_inner rule_outer].
    rewrite breakable_fails by assumption. reflexivity. }
  destruct (name ++ s) as [|x t] eqn:Ex; [contradiction|].
  rewrite parse_lines. unfold document_lines. rewrite run_seq by reflexivity.
  rewrite (run_call ctx0 R_meta_step).
  change (snd (grammar R_meta_step)) with (Seq (Rep ws) (Seq (Opt (Alt (Call R_step) comment)) (Rep ws))).
  change (fst (grammar R_meta_step)) with Silent. cbn [rule_inner rule_outer rule_tokens]. rewrite run_seq by reflexivity.
  pose proof (letter_not_blank x Hhead) as Hx.
  rewrite blanks_fwd; [|exact Hb|exact Hx].
  rewrite run_seq by reflexivity. rewrite run_opt by reflexivity. rewrite run_alt by reflexivity. cbn [Nat.add]. rewrite Es.
  rewrite run_comment by exact Hvn. destruct (alpha_solid x Hhead) as (_ & Hnl & Hh & _). rewrite (proj2 (N.eqb_neq x HASH) Hh).
  change (x :: t) with ([] ++ x :: t) at 1. rewrite (blanks_fwd [] (x :: t)); [|constructor|exact Hx]. cbn [app].
  rewrite run_rep by reflexivity. rewrite run_seq by reflexivity. rewrite run_newline.
  rewrite (proj2 (strip_newline_none (x :: t)) Hnl). reflexivity.
Qed.

(** ** Something after an instruction *)

Lemma here p s : pos (repeat 0%N p ++ s) p s.
Proof. unfold pos. rewrite <- (repeat_length 0%N p) at 1. apply skipn_app_exact. Qed.

(** FROM and an image that is followed neither by the end of the line nor by a name for the
    stage and then the end of the line *)
Theorem C68_from unq u b kw fl l k g img s : blanks b -> keyword "from" kw -> spaced (clear_flag_at u) (length b + length kw) fl l ->
  gap k g -> g <> [] -> image_text img -> ~ begins_with DASH img ->
  match s with c :: _ => image_char c = false | [] => True end -> valid_utf8 s = true ->
  (forall p al x rest, s = al ++ rest -> alias_at p al x -> ~ nothing_left rest) ->
  parse unq (b ++ kw ++ fl ++ g ++ img ++ s) = Err EParse.
Proof.
  intros Hb Hkw Hfl Hg Hne [Hin Hi] Hd Hs Hv N.
  set (src := b ++ kw ++ fl ++ g ++ img ++ s).
  assert (Hvi : valid_utf8 (img ++ s) = true) by (rewrite (Forward3.class_valid _ _ _ image_ascii Hi); exact Hv).
  assert (Hvg : valid_utf8 (g ++ img ++ s) = true) by (rewrite (Forward.valid_gap _ _ _ Hg); exact Hvi).
  assert (Hvf : valid_utf8 (fl ++ g ++ img ++ s) = true) by (rewrite (Forward3.spaced_valid _ (Forward3.flag_valid u) _ _ _ _ Hfl); exact Hvg).
  assert (Hp : pos src (length b) (kw ++ fl ++ g ++ img ++ s)) by (unfold pos, src; apply skipn_app_exact).
  pose proof (pos_app _ _ _ _ Hp) as Hp1. pose proof (pos_app _ _ _ _ Hp1) as Hp2.
  pose proof (pos_app _ _ _ _ Hp2) as Hp3. pose proof (pos_app _ _ _ _ Hp3) as Hp4.
  assert (Hist : gap_stops (img ++ s)) by (apply (class_stops image_char); [apply image_solid|exact Hin|exact Hi]).
  assert (Hnf : run ctx0 (Seq arg_ws (Call R_from_flag)) (length b + length kw + length fl) (g ++ img ++ s) = Fail).
  { rewrite run_seq by reflexivity.
    destruct (gap_fwd k g (img ++ s) (length b + length kw + length fl) Hg Hne Hist Hvi) as (f2 & -> & _).
    rewrite (flag_fails R_from_flag (Seq (Call R_from_flag_name) (Seq (Str [EQUALS]) (Call R_from_flag_value))));
      [reflexivity|reflexivity|].
    intros t K. apply Hd. destruct img as [|y img]; [congruence|]. cbn [app] in K. injection K as -> _. exists img. reflexivity. }
  destruct (spaced_fwd src R_from_flag (clear_flag_at u) (from_flag_of u src) (from_step u src) add_flag eq_refl
    (from_flag_fwd u src) (flag_solid u) (Forward3.flag_valid u) ltac:(intros [[i a] l0] t Ht; unfold SoundInstr.from_step; rewrite Ht; reflexivity)
    (from_step_comments u src) _ _ _ Hfl (g ++ img ++ s) (gap_word_end _ _ _ Hg Hne) Hvg Hp1 Hnf) as (f1 & E1 & _).
  destruct (gap_fwd k g (img ++ s) (length b + length kw + length fl) Hg Hne Hist Hvi) as (f2 & E2 & _).
  set (p3 := length b + length kw + length fl + length g) in *.
  assert (E3 : run ctx0 (Call R_from_image) p3 (img ++ s) = Done (p3 + length img) s [Node R_from_image p3 (p3 + length img) []]).
  { apply token_fwd; [discriminate|]. cbn [grammar fst snd].
    apply (class_rep1_fwd _ image_char); [reflexivity|apply class_image|exact Hin|exact Hi|exact Hs]. }
  pose proof (run_total ctx0 (Opt (Call R_from_alias_outer)) (p3 + length img) s eq_refl) as T.
  destruct (run ctx0 (Opt (Call R_from_alias_outer)) (p3 + length img) s) as [q s' f4| |] eqn:E4; [|
    exfalso; rewrite run_opt in E4 by reflexivity; destruct (run ctx0 (Call R_from_alias_outer) (p3 + length img) s); discriminate E4|congruence].
  destruct (alias_inv u src _ _ _ _ _ Hv Hp4 E4) as (al & Eal & _ & x & Hal & _).
  apply (left_over unq "from" R_from b kw (fl ++ g ++ img ++ s) q s' [Node R_from (length b) q (f1 ++ f2 ++ [Node R_from_image p3 (p3 + length img) []] ++ f4)]);
    [cbn; tauto|exact Hb|exact Hkw| |exact Hvf| |exact (N _ _ _ _ Eal Hal)].
  - apply (spaced_no_letter _ _ _ _ _ Hfl). apply (gap_no_letter k); assumption.
  - apply token_fwd; [discriminate|]. cbn [grammar fst snd rule_inner rule_outer].
    rewrite run_seq by reflexivity. rewrite keyword_fwd; [|exact Hkw|reflexivity].
    rewrite run_seq by reflexivity. rewrite E1. rewrite run_seq by reflexivity. rewrite E2.
    rewrite run_seq by reflexivity. rewrite E3. rewrite E4. reflexivity.
Qed.

(** A value, with what follows it: a quoted string is read as one if that is possible. *)
Definition value_before (v rest : bytes) : Prop := quoted_text v \/ (word v /\ ~ quoted_ahead (v ++ rest)).

Lemma quoted_first r c p w : grammar r = (CompoundRule, string_) -> look c = false -> valid_utf8 w = true ->
  run c (Call r) p w = Fail -> ~ quoted_ahead w.
Proof.
  intros Hr Hc Hv HF. rewrite <- (app_nil_r w) in Hv, HF. exact (not_quoted_ahead r c p w [] Hr Hc Hv HF).
Qed.

(** What may follow the name of an ARG: nothing, or [=] and a value.  The value is not
    empty. *)
Definition arg_rest (w rest : bytes) : Prop := w = [] \/ exists value, w = EQUALS :: value /\ value_before value rest.

Lemma arg_name_run p name s : arg_name_text name -> match s with c :: _ => is_word c = false | [] => True end ->
  run ctx0 (Call R_arg_name) p (name ++ s) = Done (p + length name) s [Node R_arg_name p (p + length name) []].
Proof.
  intros (c0 & nt & -> & Hc0 & Hnt) Hs. apply token_fwd; [discriminate|]. cbn [grammar fst snd rule_inner rule_outer]. rewrite run_seq by reflexivity.
  rewrite class_alpha. cbn [app]. rewrite Hc0. rewrite (class_rep _ is_word); [|reflexivity|apply class_word].
  destruct (take_while_app is_word nt s Hnt Hs) as [K1 K2]. rewrite K1, K2. cbn [app length]. f_equal. lia.
Qed.

Theorem C68_arg unq b kw k g name s : blanks b -> keyword "arg" kw -> gap k g -> g <> [] -> arg_name_text name ->
  match s with c :: _ => is_word c = false | [] => True end -> valid_utf8 s = true ->
  (forall w rest, s = w ++ rest -> arg_rest w rest -> ~ nothing_left rest) ->
  parse unq (b ++ kw ++ g ++ name ++ s) = Err EParse.
Proof.
  intros Hb Hkw Hg Hne Hn Hs Hv N.
  assert (Hnw : Forall (fun c => is_word c = true) name).
  { destruct Hn as (c0 & nt & -> & Hc0 & Hnt). constructor; [apply is_alpha_word; exact Hc0|exact Hnt]. }
  assert (Hvn : valid_utf8 (name ++ s) = true) by (rewrite (Forward3.class_valid _ _ _ word_ascii Hnw); exact Hv).
  assert (Hvg : valid_utf8 (g ++ name ++ s) = true) by (rewrite (Forward.valid_gap _ _ _ Hg); exact Hvn).
  destruct (gap_fwd k g (name ++ s) (length b + length kw) Hg Hne) as (f1 & E1 & _);
    [destruct Hn as (c0 & nt & -> & Hc0 & _); cbn; apply alpha_solid; exact Hc0|exact Hvn|].
  pose proof (arg_name_run (length b + length kw + length g) name s Hn Hs) as E2.
  set (p3 := length b + length kw + length g + length name) in *.
  set (e := Opt (Seq (Str [EQUALS]) (Alt (Call R_arg_quoted_value) (Call R_arg_value)))).
  pose proof (run_total ctx0 e p3 s eq_refl) as T. pose proof (opt_not_fail ctx0 (Seq (Str [EQUALS]) (Alt (Call R_arg_quoted_value) (Call R_arg_value))) p3 s eq_refl) as T2.
  destruct (run ctx0 e p3 s) as [q s' f| |] eqn:E3; [|unfold e in E3; congruence|congruence].
  assert (Hr : ~ nothing_left s').
  { apply opt_inv in E3; [|reflexivity]. destruct E3 as [E3|(_ & _ & -> & _)]; [|apply (N [] s eq_refl); left; reflexivity].
    apply seq_inv in E3; [|reflexivity]. destruct E3 as (q1 & s1 & f2 & f3 & H1 & H2 & _).
    apply str_inv in H1. destruct H1 as (-> & _ & _).
    cbn [app] in Hv. rewrite valid_utf8_cons_ascii in Hv by reflexivity.
    apply alt_inv in H2; [|reflexivity]. destruct H2 as [H2|[HF H2]].
    - apply (quoted_rule_token_inv _ CompoundRule) in H2; [|reflexivity|discriminate|discriminate|exact Hv].
      destruct H2 as (w & ch & -> & _ & Hw & _). apply (N (EQUALS :: w) s' eq_refl). right. exists w. split; [reflexivity|left; exact Hw].
    - apply (word_rule_inv _ CompoundRule) in H2; [|reflexivity|discriminate|exact Hv].
      destruct H2 as (w & ch & -> & _ & Hw & _). apply (N (EQUALS :: w) s' eq_refl). right. exists w. split; [reflexivity|]. right. split; [exact Hw|].
      exact (quoted_first R_arg_quoted_value ctx0 _ _ eq_refl eq_refl Hv HF). }
  apply (left_over unq "arg" R_arg b kw (g ++ name ++ s) q s' [Node R_arg (length b) q (f1 ++ [Node R_arg_name (length b + length kw + length g) p3 []] ++ f)]);
    [cbn; tauto|exact Hb|exact Hkw|apply (gap_no_letter k); assumption|exact Hvg| |exact Hr].
  apply token_fwd; [discriminate|]. cbn [grammar fst snd rule_inner rule_outer].
  rewrite run_seq by reflexivity. rewrite keyword_fwd; [|exact Hkw|reflexivity].
  rewrite run_seq by reflexivity. rewrite E1. rewrite run_seq by reflexivity. rewrite E2. fold e. rewrite E3. reflexivity.
Qed.

(** ** Pairs *)

(** What begins neither with a blank nor with a backslash *)
Definition no_space (s : bytes) : Prop := match s with x :: _ => is_blank x = false /\ x <> BSLASH | [] => True end.

Lemma no_space_gap s : no_space s -> gap_here s = false.
Proof.
  destruct s as [|x s]; [reflexivity|]. intros [H1 H2]. cbn [gap_here]. rewrite H1. cbn [orb].
  destruct (continues (x :: s)) eqn:E; [|reflexivity]. apply continues_bslash in E. destruct E as [t E]. congruence.
Qed.

Lemma pairs_left {A} r (at1 : nat -> bytes -> A -> Prop) : good (Rep (Seq arg_ws (Opt (Call r)))) = true ->
  (forall p w x s, at1 p w x -> word_end s -> valid_utf8 (w ++ s) = true -> exists f, run ctx0 (Call r) p (w ++ s) = Done (p + length w) s f) ->
  (forall p w x s, at1 p w x -> gap_stops (w ++ s)) -> (forall p w x s, at1 p w x -> valid_utf8 (w ++ s) = valid_utf8 s) ->
  forall p w l, spaced at1 p w l -> forall k g u q s f0, gap k g -> g <> [] -> gap_stops u -> valid_utf8 u = true ->
  run ctx0 (Opt (Call r)) (p + length w + length g) u = Done q s f0 -> gap_here s = false ->
  exists f, run ctx0 (Rep (Seq arg_ws (Opt (Call r)))) p (w ++ g ++ u) = Done q s f.
Proof.
  intros G Hrun Hsol Hval. pose proof (proj1 (good_sub _ G)) as G1. pose proof (proj2 (good_sub _ G1)) as G2.
  induction 1 as [p|p j h w x w2 l Hh Hhne Hx Hl IH]; intros k g u q s f0 Hg Hne Hu Hv E Hs.
  - cbn [app length] in *. rewrite Nat.add_0_r in E. rewrite run_rep by exact G. rewrite run_seq by exact G1.
    destruct (gap_fwd k g u p Hg Hne Hu Hv) as (f1 & -> & _). rewrite E. rewrite run_rep by exact G. rewrite run_seq by exact G1.
    rewrite gap_fails; [eauto|exact Hs|]. exact (run_valid _ _ _ _ _ _ _ E Hv eq_refl).
  - rewrite <- !app_assoc. rewrite run_rep by exact G. rewrite run_seq by exact G1.
    assert (Hvg : valid_utf8 (g ++ u) = true) by (rewrite (Forward.valid_gap _ _ _ Hg); exact Hv).
    assert (Hv2 : valid_utf8 (w2 ++ g ++ u) = true) by (rewrite (Forward3.spaced_valid _ Hval _ _ _ _ Hl); exact Hvg).
    assert (Hv1 : valid_utf8 (w ++ w2 ++ g ++ u) = true) by (rewrite (Hval _ _ _ _ Hx); exact Hv2).
    destruct (gap_fwd j h (w ++ w2 ++ g ++ u) p Hh Hhne (Hsol _ _ _ _ Hx) Hv1) as (f1 & -> & _).
    rewrite run_opt by exact G2.
    destruct (Hrun _ _ _ (w2 ++ g ++ u) Hx) as (f2 & ->); [apply (Forward3.spaced_word_end at1 _ _ _ _ Hl); apply (gap_word_end k); assumption|exact Hv1|].
    destruct (IH k g u q s f0 Hg Hne Hu Hv) as (f3 & ->); [|exact Hs|eauto].
    rewrite !app_length, !Nat.add_assoc in E. exact E.
Qed.

(** *** ENV *)

Lemma env_pair_pieces p s q s' f : valid_utf8 s = true -> run ctx0 (Call R_env_pair) p s = Done q s' f ->
  exists n v, s = n ++ EQUALS :: v ++ s' /\ env_name_text n /\ value_before v s'.
Proof.
  intros Hv H. apply token_inv in H; [|discriminate]. destruct H as (f' & H & ->).
  cbn [grammar fst snd rule_inner rule_outer] in H. seq_open H Hv H1. seq_open H Hv0 H2.
  apply env_name_inv in H1; [|reflexivity]. destruct H1 as (n & c1 & -> & -> & Hn & ->).
  apply str_inv in H2. destruct H2 as (-> & -> & ->).
  apply alt_inv in H; [|reflexivity]. destruct H as [H|[HF H]].
  - apply compound_inv in H; [|reflexivity|reflexivity]. destruct H as (fq & H & ->). cbn [grammar snd] in H.
    apply string_inv in H; [|exact Hv1|reflexivity]. destruct H as (v & ch & -> & _ & Hq & _).
    exists n, v. split; [reflexivity|]. split; [exact Hn|left; exact Hq].
  - apply compound_inv in H; [|reflexivity|reflexivity]. destruct H as (fq & H & ->). cbn [grammar snd] in H.
    apply any_whitespace_inv in H; [|exact Hv1]. destruct H as (v & -> & _ & Hw & _).
    exists n, v. split; [reflexivity|]. split; [exact Hn|]. right. split; [exact Hw|].
    exact (quoted_first R_env_pair_quoted_value _ _ _ eq_refl (eq_refl : look {| atom := true; look := look ctx0 |} = false) Hv1 HF).
Qed.

Lemma env_left unq u b kw pairs l k g t : blanks b -> keyword "env" kw -> spaced (clear_env_pair_at u) (length b + length kw) pairs l ->
  gap k g -> g <> [] -> gap_stops t -> valid_utf8 t = true ->
  run ctx0 (Call R_env_single) (length b + length kw) (pairs ++ g ++ t) = Fail ->
  ~ nothing_left t -> (forall n v rest, t = n ++ EQUALS :: v ++ rest -> env_name_text n -> value_before v rest -> ~ nothing_left rest /\ no_space rest) ->
  parse unq (b ++ kw ++ pairs ++ g ++ t) = Err EParse.
Proof.
  intros Hb Hkw Hl Hg Hne Ht Hv Hsingle N Nv.
  assert (Hvg : valid_utf8 (g ++ t) = true) by (rewrite (Forward.valid_gap _ _ _ Hg); exact Hv).
  assert (Hvp : valid_utf8 (pairs ++ g ++ t) = true) by (rewrite (Forward3.spaced_valid _ (Forward4.env_pair_valid u) _ _ _ _ Hl); exact Hvg).
  set (p3 := length b + length kw + length pairs + length g).
  pose proof (run_total ctx0 (Opt (Call R_env_pair)) p3 t eq_refl) as T. pose proof (opt_not_fail ctx0 (Call R_env_pair) p3 t eq_refl) as T2.
  destruct (run ctx0 (Opt (Call R_env_pair)) p3 t) as [q s f| |] eqn:E; [|congruence|congruence].
  assert (Hr : ~ nothing_left s /\ gap_here s = false).
  { apply opt_inv in E; [|reflexivity]. destruct E as [E|(_ & _ & -> & _)]; [|split; [exact N|apply gap_stops_here; exact Ht]].
    apply env_pair_pieces in E; [|exact Hv]. destruct E as (n & v & E & Hn & Hval).
    destruct (Nv _ _ _ E Hn Hval) as [K1 K2]. split; [exact K1|apply no_space_gap; exact K2]. }
  destruct (pairs_left R_env_pair (clear_env_pair_at u) eq_refl) with (p := length b + length kw) (w := pairs) (l := l) (k := k) (g := g) (u := t) (q := q) (s := s) (f0 := f)
    as (f1 & E1); [|apply env_pair_solid|apply Forward4.env_pair_valid|exact Hl|exact Hg|exact Hne|exact Ht|exact Hv|exact E|apply Hr|].
  { intros p w x s0 Hx Hs0 Hv0. destruct (env_pair_fwd u (repeat 0%N p ++ w ++ s0) p w x s0 Hx Hs0 Hv0 (here _ _)) as (t0 & K & _). eauto. }
  apply rep1_of_rep in E1; [|reflexivity|].
  - apply (left_over unq "env" R_env b kw (pairs ++ g ++ t) q s [Node R_env (length b) q [Node R_env_pairs (length b + length kw) q f1]]);
      [cbn; tauto|exact Hb|exact Hkw| |exact Hvp| |apply Hr].
    { apply (spaced_no_letter _ _ _ _ _ Hl). apply (gap_no_letter k); assumption. }
    apply token_fwd; [discriminate|]. cbn [grammar fst snd rule_inner rule_outer].
    rewrite run_seq by reflexivity. rewrite keyword_fwd; [|exact Hkw|reflexivity].
    rewrite run_alt by reflexivity. rewrite Hsingle. rewrite run_call. cbn [grammar fst snd rule_inner rule_outer rule_tokens].
    rewrite E1. reflexivity.
  - pose proof (run_consumes _ _ _ _ _ _ _ E) as (w0 & _ & ->). assert (length g <> 0) by (destruct g; [congruence|discriminate]). unfold p3 in *. lia.
Qed.

Lemma env_single_pairs u p pairs l t : spaced (clear_env_pair_at u) p pairs l -> l <> [] -> valid_utf8 (pairs ++ t) = true ->
  run ctx0 (Call R_env_single) p (pairs ++ t) = Fail.
Proof.
  intros Hl Hn0 Hv. rewrite run_call. cbn [grammar fst snd rule_inner rule_outer].
  destruct Hl as [p|p k g w x w2 l Hg Hne Hx Hl]; [congruence|].
  rewrite <- !app_assoc in *. rewrite (Forward.valid_gap _ _ _ Hg) in Hv. rewrite run_seq by reflexivity.
  destruct (gap_fwd k g _ p Hg Hne (env_pair_solid u _ _ _ _ Hx) Hv) as (f & -> & _).
  destruct Hx as (n & v & -> & Hn & _). rewrite <- !app_assoc in *. cbn [app] in *. rewrite run_seq by reflexivity.
  rewrite env_name_fwd; [|reflexivity|exact Hn|reflexivity].
  rewrite run_seq by reflexivity. rewrite gap_fails; [reflexivity|reflexivity|].
  rewrite (Forward3.class_valid _ _ _ word_ascii (proj2 Hn)) in Hv. exact Hv.
Qed.

(** After a pair, something that is no pair *)
Theorem C68_env_word unq u b kw pairs l k g t : blanks b -> keyword "env" kw -> spaced (clear_env_pair_at u) (length b + length kw) pairs l ->
  l <> [] -> gap k g -> g <> [] -> gap_stops t -> valid_utf8 t = true ->
  ~ nothing_left t -> (forall n v rest, t = n ++ EQUALS :: v ++ rest -> env_name_text n -> value_before v rest -> False) ->
  parse unq (b ++ kw ++ pairs ++ g ++ t) = Err EParse.
Proof.
  intros Hb Hkw Hl Hn0 Hg Hne Ht Hv N Nv.
  apply (env_left unq u b kw pairs l k g t); try assumption; [|intros n v rest E Hn Hval; destruct (Nv n v rest E Hn Hval)].
  apply (env_single_pairs u _ _ l); [exact Hl|exact Hn0|].
  rewrite (Forward3.spaced_valid _ (Forward4.env_pair_valid u) _ _ _ _ Hl), (Forward.valid_gap _ _ _ Hg). exact Hv.
Qed.

Lemma class_split (P : N -> bool) a b s t : Forall (fun c => P c = true) a -> Forall (fun c => P c = true) b ->
  match s with c :: _ => P c = false | [] => True end -> match t with c :: _ => P c = false | [] => True end ->
  a ++ s = b ++ t -> a = b /\ s = t.
Proof.
  intros Ha. revert b. induction Ha as [|c a Hc Ha IH]; intros b Hb Hs Ht E.
  - destruct Hb as [|d b Hd Hb]; [auto|]. cbn [app] in E. subst s. congruence.
  - destruct Hb as [|d b Hd Hb]; [cbn [app] in E; subst t; congruence|]. cbn [app] in E. injection E as -> E.
    destruct (IH b Hb Hs Ht E) as [-> ->]. auto.
Qed.

Lemma solid_left s : gap_stops s -> s <> [] -> ~ nothing_left s.
Proof.
  intros H Hne (b & t & -> & Hb & Ht). destruct Hb as [|c b Hc Hb]; [|cbn in H; destruct H as [H _]; congruence].
  cbn [app] in *. destruct t as [|c t]; [congruence|]. cbn in H, Ht. destruct H as (_ & H & _). destruct Ht; subst; discriminate.
Qed.

Lemma env_single_end p n s : env_name_text n -> match s with c :: _ => is_word c = false | [] => True end -> valid_utf8 s = true ->
  nothing_left s \/ no_space s ->
  run ctx0 (Seq (Call R_env_name) (Seq arg_ws (Alt (Call R_env_single_quoted_value) (Call R_env_single_value)))) p (n ++ s) = Fail.
Proof.
  intros Hn Hs Hv Hc. rewrite run_seq by reflexivity. rewrite env_name_fwd; [|reflexivity|exact Hn|exact Hs].
  assert (E : run ctx0 (Seq arg_ws (Alt (Call R_env_single_quoted_value) (Call R_env_single_value))) (p + length n) s = Fail); [|rewrite E; reflexivity].
  destruct Hc as [Hc|Hc].
  - apply closed_seq_fails; [reflexivity|apply nothing_left_closed; exact Hc|exact Hv|]. intros q t Ht Hvt.
    rewrite run_alt by reflexivity. rewrite (quoted_token_fails R_env_single_quoted_value CompoundRule); [|reflexivity|apply quote_not_end; exact Ht].
    rewrite run_call. cbn [grammar fst snd]. rewrite breakable_fails; [reflexivity|exact Ht|exact Hvt].
  - rewrite run_seq by reflexivity. rewrite gap_fails; [reflexivity|apply no_space_gap; exact Hc|exact Hv].
Qed.

(** A name that is followed neither by [=] nor by a value, or no name at all *)
Theorem C68_env_name unq b kw k g n s : blanks b -> keyword "env" kw -> gap k g -> g <> [] ->
  Forall (fun c => is_word c = true) n -> gap_stops (n ++ s) -> valid_utf8 s = true -> ~ nothing_left (n ++ s) ->
  match s with c :: _ => is_word c = false /\ (n <> [] -> c <> EQUALS) | [] => True end -> (n = [] \/ nothing_left s \/ no_space s) ->
  parse unq (b ++ kw ++ g ++ n ++ s) = Err EParse.
Proof.
  intros Hb Hkw Hg Hne Hn Hst Hv N Hs Hc.
  assert (Hvn : valid_utf8 (n ++ s) = true) by (rewrite (Forward3.class_valid _ _ _ word_ascii Hn); exact Hv).
  assert (Hs1 : match s with c :: _ => is_word c = false | [] => True end) by (destruct s; [exact I|apply Hs]).
  apply (env_left unq unq b kw [] [] k g (n ++ s)); try assumption; [constructor| |].
  - cbn [app]. rewrite run_call. cbn [grammar fst snd rule_inner rule_outer]. rewrite run_seq by reflexivity.
    destruct (gap_fwd k g (n ++ s) (length b + length kw) Hg Hne Hst Hvn) as (f & -> & _).
    destruct n as [|c n].
    + cbn [app]. rewrite run_seq by reflexivity. rewrite run_call. cbn [grammar fst snd]. unfold rep1. rewrite run_seq by reflexivity. rewrite class_word.
      destruct s as [|c s]; [reflexivity|]. rewrite Hs1. reflexivity.
    + rewrite env_single_end; [reflexivity|split; [discriminate|exact Hn]|exact Hs1|exact Hv|]. destruct Hc as [Hc|Hc]; [discriminate|exact Hc].
  - intros n' v rest E [Hne' Hn'] _. exfalso. apply (class_split is_word) in E; [|exact Hn|exact Hn'|exact Hs1|reflexivity].
    destruct E as [-> ->]. destruct Hs as [_ Hs]. apply Hs; [exact Hne'|reflexivity].
Qed.

(** [=] without a value, or a quoted value that is followed by something else than a gap *)
Theorem C68_env_value unq u b kw pairs l k g n s : blanks b -> keyword "env" kw -> spaced (clear_env_pair_at u) (length b + length kw) pairs l ->
  gap k g -> g <> [] -> env_name_text n -> valid_utf8 s = true ->
  (forall v rest, s = v ++ rest -> value_before v rest -> ~ nothing_left rest /\ no_space rest) ->
  parse unq (b ++ kw ++ pairs ++ g ++ n ++ EQUALS :: s) = Err EParse.
Proof.
  intros Hb Hkw Hl Hg Hne Hn Hv Nv.
  assert (Hst : gap_stops (n ++ EQUALS :: s)).
  { destruct Hn as [Hn0 Hn]. apply (class_stops is_word); [apply word_solid|exact Hn0|exact Hn]. }
  assert (Hv1 : valid_utf8 (EQUALS :: s) = true) by (rewrite valid_utf8_cons_ascii by reflexivity; exact Hv).
  assert (Hv2 : valid_utf8 (n ++ EQUALS :: s) = true) by (rewrite (Forward3.class_valid _ _ _ word_ascii (proj2 Hn)); exact Hv1).
  apply (env_left unq u b kw pairs l k g (n ++ EQUALS :: s)); try assumption.
  - destruct l as [|x l].
    + inversion Hl; subst. cbn [app]. rewrite run_call. cbn [grammar fst snd rule_inner rule_outer]. rewrite run_seq by reflexivity.
      destruct (gap_fwd k g (n ++ EQUALS :: s) (length b + length kw) Hg Hne Hst Hv2) as (f & -> & _).
      rewrite env_single_end; [reflexivity|exact Hn|reflexivity|exact Hv1|]. right. split; [reflexivity|discriminate].
    + apply (env_single_pairs u _ _ (x :: l)); [exact Hl|discriminate|].
      rewrite (Forward3.spaced_valid _ (Forward4.env_pair_valid u) _ _ _ _ Hl), (Forward.valid_gap _ _ _ Hg). exact Hv2.
  - intros K. apply solid_left in K; [exact K|exact Hst|destruct Hn as [Hn0 _]; destruct n; [congruence|discriminate]].
  - intros n' v rest E [Hne' Hn'] Hval. apply (class_split is_word) in E; [|apply Hn|exact Hn'|reflexivity|reflexivity].
    destruct E as [<- E]. injection E as E. exact (Nv v rest E Hval).
Qed.

(** *** LABEL *)

(** A name, with what follows it *)
Definition name_before (n rest : bytes) : Prop := quoted_text n \/ (label_word n /\ ~ quoted_ahead (n ++ rest)).

Lemma label_pair_pieces p s q s' f : valid_utf8 s = true -> run ctx0 (Call R_label_pair) p s = Done q s' f ->
  exists n v, s = n ++ EQUALS :: v ++ s' /\ name_before n (EQUALS :: v ++ s') /\ value_before v s'.
Proof.
  intros Hv H. apply token_inv in H; [|discriminate]. destruct H as (f' & H & ->).
  cbn [grammar fst snd rule_inner rule_outer] in H. seq_open H Hv H1. seq_open H Hv0 H2.
  apply str_inv in H2. destruct H2 as (-> & -> & ->).
  assert (Hval : exists v, s1 = v ++ s' /\ value_before v s').
  { apply alt_inv in H; [|reflexivity]. destruct H as [H|[HF H]].
    - apply (quoted_rule_token_inv _ CompoundRule) in H; [|reflexivity|discriminate|discriminate|exact Hv1].
      destruct H as (w & ch & -> & _ & Hw & _). exists w. split; [reflexivity|left; exact Hw].
    - pose proof (quoted_first R_label_quoted_value ctx0 _ _ eq_refl eq_refl Hv1 HF) as Hq.
      apply (word_rule_inv _ CompoundRule) in H; [|reflexivity|discriminate|exact Hv1].
      destruct H as (w & ch & -> & _ & Hw & _). exists w. split; [reflexivity|right; auto]. }
  destruct Hval as (v & -> & Hval).
  apply alt_inv in H1; [|reflexivity]. destruct H1 as [H1|[HF H1]].
  - apply (quoted_rule_token_inv _ CompoundRule) in H1; [|reflexivity|discriminate|discriminate|exact Hv].
    destruct H1 as (w & ch & -> & _ & Hw & _). exists w, v. split; [reflexivity|]. split; [left; exact Hw|exact Hval].
  - pose proof (quoted_first R_label_quoted_name ctx0 _ _ eq_refl eq_refl Hv HF) as Hq.
    apply (equals_rule_inv _ CompoundRule) in H1; [|reflexivity|discriminate|exact Hv].
    destruct H1 as (w & ch & -> & _ & Hw & _). exists w, v. split; [reflexivity|]. split; [right; auto|exact Hval].
Qed.

Lemma label_left unq u b kw pairs l k g t q s f : blanks b -> keyword "label" kw -> spaced (clear_label_pair_at u) (length b + length kw) pairs l ->
  gap k g -> g <> [] -> gap_stops t -> valid_utf8 t = true ->
  run ctx0 (Call R_label_single) (length b + length kw) (pairs ++ g ++ t) = Fail ->
  run ctx0 (Opt (Call R_label_pair)) (length b + length kw + length pairs + length g) t = Done q s f ->
  ~ nothing_left s -> gap_here s = false ->
  parse unq (b ++ kw ++ pairs ++ g ++ t) = Err EParse.
Proof.
  intros Hb Hkw Hl Hg Hne Ht Hv Hsingle E N Hgap.
  assert (Hvg : valid_utf8 (g ++ t) = true) by (rewrite (Forward.valid_gap _ _ _ Hg); exact Hv).
  assert (Hvp : valid_utf8 (pairs ++ g ++ t) = true) by (rewrite (Forward3.spaced_valid _ (Forward4.label_pair_valid u) _ _ _ _ Hl); exact Hvg).
  destruct (pairs_left R_label_pair (clear_label_pair_at u) eq_refl) with (p := length b + length kw) (w := pairs) (l := l) (k := k) (g := g) (u := t) (q := q) (s := s) (f0 := f)
    as (f1 & E1); [|apply Forward4.label_pair_solid|apply Forward4.label_pair_valid|exact Hl|exact Hg|exact Hne|exact Ht|exact Hv|exact E|exact Hgap|].
  { intros p w x s0 Hx Hs0 Hv0. destruct (label_pair_fwd u (repeat 0%N p ++ w ++ s0) p w x s0 Hx Hs0 Hv0 (here _ _)) as (t0 & K & _). eauto. }
  apply rep1_of_rep in E1; [|reflexivity|].
  - apply (left_over unq "label" R_label b kw (pairs ++ g ++ t) q s [Node R_label (length b) q f1]);
      [cbn; tauto|exact Hb|exact Hkw| |exact Hvp| |exact N].
    { apply (spaced_no_letter _ _ _ _ _ Hl). apply (gap_no_letter k); assumption. }
    apply token_fwd; [discriminate|]. cbn [grammar fst snd rule_inner rule_outer].
    rewrite run_seq by reflexivity. rewrite keyword_fwd; [|exact Hkw|reflexivity].
    rewrite run_alt by reflexivity. rewrite Hsingle. rewrite E1. reflexivity.
  - pose proof (run_consumes _ _ _ _ _ _ _ E) as (w0 & _ & ->). assert (length g <> 0) by (destruct g; [congruence|discriminate]). lia.
Qed.

Lemma label_pair_opt p t : valid_utf8 t = true -> exists q s f, run ctx0 (Opt (Call R_label_pair)) p t = Done q s f /\
  (s = t \/ exists n v, t = n ++ EQUALS :: v ++ s /\ name_before n (EQUALS :: v ++ s) /\ value_before v s).
Proof.
  intros Hv. pose proof (run_total ctx0 (Opt (Call R_label_pair)) p t eq_refl) as T. pose proof (opt_not_fail ctx0 (Call R_label_pair) p t eq_refl) as T2.
  destruct (run ctx0 (Opt (Call R_label_pair)) p t) as [q s f| |] eqn:E; [|congruence|congruence]. exists q, s, f. split; [reflexivity|].
  apply opt_inv in E; [|reflexivity]. destruct E as [E|(_ & _ & -> & _)]; [right|left; reflexivity]. exact (label_pair_pieces _ _ _ _ _ Hv E).
Qed.

Lemma label_name_run rq rn k p n s :
  (rq = R_label_quoted_name /\ rn = R_label_name /\ k = CompoundRule \/
   rq = R_label_single_quoted_name /\ rn = R_label_single_name /\ k = Normal) ->
  quoted_text n \/ (label_word n /\ ~ begins_with_quote n /\ label_end s) -> valid_utf8 (n ++ s) = true ->
  exists f, run ctx0 (Alt (Call rq) (Call rn)) p (n ++ s) = Done (p + length n) s f.
Proof.
  intros Hr Hx Hv.
  assert (Hq : grammar rq = (k, string_)) by (destruct Hr as [(-> & -> & ->)|(-> & -> & ->)]; reflexivity).
  assert (Hn : grammar rn = (k, any_equals)) by (destruct Hr as [(-> & -> & ->)|(-> & -> & ->)]; reflexivity).
  assert (Hk : k <> Silent) by (destruct Hr as [(-> & -> & ->)|(-> & -> & ->)]; discriminate).
  rewrite run_alt by (destruct Hr as [(-> & -> & _)|(-> & -> & _)]; reflexivity).
  destruct Hx as [Hx|(Hw & Hnq & Hs)].
  - destruct (quoted_token_fwd rq k ctx0 p n s Hq) as (ch & ->);
      [destruct Hr as [(_ & _ & ->)|(_ & _ & ->)]; auto|reflexivity|exact Hx|exact Hv|]. eauto.
  - rewrite (quoted_token_fails rq k) by (assumption || (apply not_quote_app; [apply Hw|exact Hnq])).
    rewrite (label_rule_fwd rn k) by assumption. eauto.
Qed.

Lemma label_single_pairs u p pairs l t : spaced (clear_label_pair_at u) p pairs l -> l <> [] -> valid_utf8 (pairs ++ t) = true ->
  run ctx0 (Call R_label_single) p (pairs ++ t) = Fail.
Proof.
  intros Hl Hn0 Hv. rewrite run_call. cbn [grammar fst snd rule_inner rule_outer].
  destruct Hl as [p|p k g w x w2 l Hg Hne Hx Hl]; [congruence|].
  rewrite <- !app_assoc in *. rewrite (Forward.valid_gap _ _ _ Hg) in Hv. rewrite run_seq by reflexivity.
  destruct (gap_fwd k g _ p Hg Hne (Forward4.label_pair_solid u _ _ _ _ Hx) Hv) as (f & -> & _).
  destruct Hx as (n & v & -> & Hn & _). rewrite <- !app_assoc in *. cbn [app] in *. rewrite run_seq by reflexivity.
  destruct (label_name_run R_label_single_quoted_name R_label_single_name Normal (p + length g) n (EQUALS :: v ++ w2 ++ t)) as (f1 & ->); [auto| |exact Hv|].
  { destruct Hn as [(y & z & Hq & _)|(Hw & _ & Hnq & _)]; [left; exact Hq|right; repeat split; try assumption; apply Hw]. }
  rewrite run_seq by reflexivity. rewrite gap_fails; [reflexivity|reflexivity|].
  rewrite (Forward4.label_name_valid _ _ _ _ _ Hn) in Hv. exact Hv.
Qed.

(** After a pair, something that is no pair *)
Theorem C68_label_word unq u b kw pairs l k g t : blanks b -> keyword "label" kw -> spaced (clear_label_pair_at u) (length b + length kw) pairs l ->
  l <> [] -> gap k g -> g <> [] -> gap_stops t -> valid_utf8 t = true ->
  ~ nothing_left t -> (forall n v rest, t = n ++ EQUALS :: v ++ rest -> name_before n (EQUALS :: v ++ rest) -> value_before v rest -> False) ->
  parse unq (b ++ kw ++ pairs ++ g ++ t) = Err EParse.
Proof.
  intros Hb Hkw Hl Hn0 Hg Hne Ht Hv N Nv.
  destruct (label_pair_opt (length b + length kw + length pairs + length g) t Hv) as (q & s & f & E & [-> |(n & v & Et & Hn & Hval)]);
    [|destruct (Nv n v s Et Hn Hval)].
  apply (label_left unq u b kw pairs l k g t q t f); try assumption; [|apply gap_stops_here; exact Ht].
  apply (label_single_pairs u _ _ l); [exact Hl|exact Hn0|].
  rewrite (Forward3.spaced_valid _ (Forward4.label_pair_valid u) _ _ _ _ Hl), (Forward.valid_gap _ _ _ Hg). exact Hv.
Qed.

(** The name of a label, as it is read in front of [s] *)
Definition whole_name (n s : bytes) : Prop := quoted_text n \/ (label_word n /\ begins_solid n /\ ~ begins_with_quote n /\
  match s with c :: _ => is_blank c = true \/ is_newline_byte c = true \/ c = EQUALS | [] => True end).

Lemma whole_name_read n s : whole_name n s -> quoted_text n \/ (label_word n /\ ~ begins_with_quote n /\ label_end s).
Proof.
  intros [H|(Hw & _ & Hq & Hs)]; [left; exact H|]. right. split; [exact Hw|]. split; [exact Hq|].
  destruct s as [|c s]; [exact I|]. unfold label_end, label_stop. cbn [newline_here blank_here].
  destruct Hs as [Hs|[Hs|Hs]]; [rewrite Hs, orb_true_r; reflexivity| |subst; reflexivity].
  unfold is_newline_byte in Hs. apply orb_true_iff in Hs. rewrite !N.eqb_eq in Hs. destruct Hs; subst; reflexivity.
Qed.

Lemma whole_name_stops n s : whole_name n s -> n <> [] /\ gap_stops (n ++ s) /\ forall t, valid_utf8 (n ++ t) = valid_utf8 t.
Proof.
  intros [H|(Hw & Hs & _)].
  - split; [intros ->; apply quoted_len in H; cbn in H; lia|]. split; [apply quoted_solid; exact H|intros t; apply valid_quoted; exact H].
  - split; [apply Hw|]. split; [apply solid_stops; exact Hs|intros t; apply Forward3.label_word_valid; exact Hw].
Qed.

Lemma label_single_end p n s : whole_name n s -> valid_utf8 s = true -> nothing_left s \/ no_space s ->
  run ctx0 (Seq (Alt (Call R_label_single_quoted_name) (Call R_label_single_name)) (Seq arg_ws (Alt (Call R_label_quoted_value) (Call R_label_value)))) p (n ++ s) = Fail.
Proof.
  intros Hn Hv Hc. rewrite run_seq by reflexivity.
  destruct (label_name_run R_label_single_quoted_name R_label_single_name Normal p n s) as (f1 & ->);
    [auto|apply whole_name_read; exact Hn|rewrite (proj2 (proj2 (whole_name_stops _ _ Hn))); exact Hv|].
  assert (E : run ctx0 (Seq arg_ws (Alt (Call R_label_quoted_value) (Call R_label_value))) (p + length n) s = Fail); [|rewrite E; reflexivity].
  destruct Hc as [Hc|Hc].
  - apply closed_seq_fails; [reflexivity|apply nothing_left_closed; exact Hc|exact Hv|]. intros q t Ht Hvt.
    rewrite run_alt by reflexivity. rewrite (quoted_token_fails R_label_quoted_value CompoundRule); [|reflexivity|apply quote_not_end; exact Ht].
    rewrite run_call. cbn [grammar fst snd]. rewrite word_fails; [reflexivity|apply at_line_end_word; exact Ht|exact Hvt].
  - rewrite run_seq by reflexivity. rewrite gap_fails; [reflexivity|apply no_space_gap; exact Hc|exact Hv].
Qed.

(** A name that is followed neither by [=] nor by a value *)
Theorem C68_label_name unq b kw k g n s : blanks b -> keyword "label" kw -> gap k g -> g <> [] ->
  whole_name n s -> valid_utf8 s = true -> ~ begins_with EQUALS s -> (nothing_left s \/ no_space s) ->
  parse unq (b ++ kw ++ g ++ n ++ s) = Err EParse.
Proof.
  intros Hb Hkw Hg Hne Hn Hv He Hc. destruct (whole_name_stops _ _ Hn) as (Hn0 & Hst & Hvn).
  assert (Hv1 : valid_utf8 (n ++ s) = true) by (rewrite Hvn; exact Hv).
  apply (label_left unq unq b kw [] [] k g (n ++ s) (length b + length kw + 0 + length g) (n ++ s) []); try assumption; [constructor| | | |].
  - cbn [app]. rewrite run_call. cbn [grammar fst snd rule_inner rule_outer]. rewrite run_seq by reflexivity.
    destruct (gap_fwd k g (n ++ s) (length b + length kw) Hg Hne Hst Hv1) as (f & -> & _).
    rewrite label_single_end; [reflexivity|exact Hn|exact Hv|exact Hc].
  - rewrite run_opt by reflexivity. rewrite run_call. cbn [grammar fst snd rule_inner rule_outer]. rewrite run_seq by reflexivity.
    destruct (label_name_run R_label_quoted_name R_label_name CompoundRule (length b + length kw + 0 + length g) n s) as (f1 & E1);
      [auto|apply whole_name_read; exact Hn|exact Hv1|]. cbn [length]. rewrite E1.
    rewrite run_seq by reflexivity. rewrite class_str. destruct s as [|c s]; [reflexivity|].
    destruct (N.eqb_spec EQUALS c) as [<- |_]; [destruct He; exists s; reflexivity|reflexivity].
  - apply solid_left; [exact Hst|destruct n; [congruence|discriminate]].
  - apply gap_stops_here; exact Hst.
Qed.

(** [=] without a value, or a quoted value that is followed by something else than a gap *)
Theorem C68_label_value unq u b kw pairs l k g n s : blanks b -> keyword "label" kw -> spaced (clear_label_pair_at u) (length b + length kw) pairs l ->
  gap k g -> g <> [] -> whole_name n (EQUALS :: s) -> valid_utf8 s = true ->
  (forall v rest, s = v ++ rest -> value_before v rest -> ~ nothing_left rest /\ no_space rest) ->
  parse unq (b ++ kw ++ pairs ++ g ++ n ++ EQUALS :: s) = Err EParse.
Proof.
  intros Hb Hkw Hl Hg Hne Hn Hv Nv. destruct (whole_name_stops _ _ Hn) as (Hn0 & Hst & Hvn).
  assert (Hv1 : valid_utf8 (EQUALS :: s) = true) by (rewrite valid_utf8_cons_ascii by reflexivity; exact Hv).
  assert (Hv2 : valid_utf8 (n ++ EQUALS :: s) = true) by (rewrite Hvn; exact Hv1).
  set (p3 := length b + length kw + length pairs + length g).
  assert (E : exists q t f, run ctx0 (Opt (Call R_label_pair)) p3 (n ++ EQUALS :: s) = Done q t f /\ ~ nothing_left t /\ gap_here t = false).
  { destruct (label_pair_opt p3 (n ++ EQUALS :: s) Hv2) as (q & t & f & E & _). exists q, t, f. split; [exact E|].
    apply opt_inv in E; [|reflexivity]. destruct E as [E|(_ & _ & -> & _)].
    2: { split; [apply solid_left; [exact Hst|destruct n; [congruence|discriminate]]|apply gap_stops_here; exact Hst]. }
    apply token_inv in E; [|discriminate]. destruct E as (f' & E & ->). cbn [grammar fst snd rule_inner rule_outer] in E.
    apply seq_inv in E; [|reflexivity]. destruct E as (q1 & s1 & f2 & f3 & H1 & E & _).
    destruct (label_name_run R_label_quoted_name R_label_name CompoundRule p3 n (EQUALS :: s)) as (f1 & E1);
      [auto|apply whole_name_read; exact Hn|exact Hv2|]. rewrite E1 in H1. injection H1 as <- <- <-.
    apply seq_inv in E; [|reflexivity]. destruct E as (q2 & s2 & f4 & f5 & H2 & E & _).
    apply str_inv in H2. destruct H2 as (H2 & _ & _). cbn [app] in H2. injection H2 as <-.
    assert (K : exists v, s = v ++ t /\ value_before v t).
    { apply alt_inv in E; [|reflexivity]. destruct E as [E|[HF E]].
      - apply (quoted_rule_token_inv _ CompoundRule) in E; [|reflexivity|discriminate|discriminate|exact Hv].
        destruct E as (w & ch & -> & _ & Hw & _). exists w. split; [reflexivity|left; exact Hw].
      - pose proof (quoted_first R_label_quoted_value ctx0 _ _ eq_refl eq_refl Hv HF) as Hq.
        apply (word_rule_inv _ CompoundRule) in E; [|reflexivity|discriminate|exact Hv].
        destruct E as (w & ch & -> & _ & Hw & _). exists w. split; [reflexivity|right; auto]. }
    destruct K as (v & Es & Hval). destruct (Nv v t Es Hval) as [K1 K2]. split; [exact K1|apply no_space_gap; exact K2]. }
  destruct E as (q & t & f & E & N1 & N2).
  apply (label_left unq u b kw pairs l k g (n ++ EQUALS :: s) q t f); try assumption.
  destruct l as [|x l].
  - inversion Hl; subst. cbn [app]. rewrite run_call. cbn [grammar fst snd rule_inner rule_outer]. rewrite run_seq by reflexivity.
    destruct (gap_fwd k g (n ++ EQUALS :: s) (length b + length kw) Hg Hne Hst Hv2) as (f9 & -> & _).
    rewrite label_single_end; [reflexivity|exact Hn|exact Hv1|]. right. split; [reflexivity|discriminate].
  - apply (label_single_pairs u _ _ (x :: l)); [exact Hl|discriminate|].
    rewrite (Forward3.spaced_valid _ (Forward4.label_pair_valid u) _ _ _ _ Hl), (Forward.valid_gap _ _ _ Hg). exact Hv2.
Qed.

(** ** Instances *)

Lemma left_here b x t : blanks b -> is_blank x = false -> is_newline_byte x = false -> ~ nothing_left (b ++ x :: t).
Proof.
  intros Hb Hx Hn (c & s & E & Hc & Hs). revert c E Hc. induction Hb as [|y b Hy Hb IH]; intros c E Hc.
  - destruct Hc as [|z c Hz Hc]; cbn [app] in E; [subst s|injection E as -> _; congruence].
    cbn in Hs. destruct Hs; subst; discriminate.
  - destruct Hc as [|z c Hz Hc]; cbn [app] in E; [subst s|].
    + cbn in Hs. destruct Hs; subst; discriminate.
    + injection E as _ E. exact (IH c E Hc).
Qed.

(** FROM image, blanks, then anything that does not begin with an a *)
Lemma C68_from_instance unq b kw img c x t : blanks b -> keyword "from" kw -> image_text img -> ~ begins_with DASH img ->
  blanks c -> c <> [] -> solid x -> lower_byte x <> 97%N -> valid_utf8 (x :: t) = true ->
  parse unq (b ++ kw ++ [] ++ bs " " ++ img ++ c ++ x :: t) = Err EParse.
Proof.
  intros Hb Hkw Hi Hd Hc Hne Hx Ha Hv. pose proof Hx as (Hx1 & Hx2 & Hx3 & Hx4).
  apply (C68_from unq unq b kw [] [] 0 (bs " ") img (c ++ x :: t)); try assumption; [constructor|apply gap_blanks; reflexivity|discriminate| | |].
  - destruct Hc as [|y c Hy Hc]; [congruence|]. cbn. unfold is_blank in Hy. apply orb_true_iff in Hy. rewrite !N.eqb_eq in Hy. destruct Hy; subst; reflexivity.
  - rewrite valid_blanks by exact Hc. exact Hv.
  - intros p al y rest E [(-> & _)|(j & g1 & as_ & k & g2 & a & -> & Hg & _ & Has & _)].
    + cbn [app] in E. rewrite <- E. apply left_here; assumption.
    + exfalso. rewrite <- !app_assoc in E. clear Hne Hv. revert j g1 E Hg. induction Hc as [|z c Hz Hc IH]; intros j g1 E Hg.
      * destruct g1 as [|w g1].
        -- cbn [app] in E. destruct as_ as [|w as_]; [discriminate Has|]. cbn [app] in E. injection E as <- _.
           unfold keyword in Has. cbn in Has. injection Has as Has _. exact (Ha Has).
        -- cbn [app] in E. injection E as <- _. apply Forward.gap_head in Hg. destruct Hg; congruence.
      * destruct g1 as [|w g1].
        -- cbn [app] in E. destruct as_ as [|w as_]; [discriminate Has|]. cbn [app] in E. injection E as <- _.
           unfold keyword in Has. cbn in Has. injection Has as Has _. unfold is_blank in Hz. apply orb_true_iff in Hz. rewrite !N.eqb_eq in Hz. destruct Hz; subst; discriminate.
        -- cbn [app] in E. injection E as <- E. inversion Hg as [|k0 c0 w0 Hc0 Hw0|j0 k0 c0 l w0 Hc0 Hl Hw0 Hk0 E0]; subst; [exact (IH _ _ E Hw0)|].
           destruct Hc0 as (b0 & n0 & -> & _). injection E0 as <- _. discriminate.
Qed.

Example C68_from_case : parse enquote_unquote (bs "FROM a b") = Err EParse /\ parse enquote_unquote (bs "from a:1 -- x") = Err EParse /\
  parse enquote_unquote (bs "FROM a AS b c") = Err EParse.
Proof.
  split; [|split; vm_compute; reflexivity].
  apply (C68_from_instance enquote_unquote [] (bs "FROM") (bs "a") (bs " ") 98%N []); try discriminate; try reflexivity; repeat constructor; try discriminate.
  intros (t & K). discriminate.
Qed.

Example C68_arg_case : parse enquote_unquote (bs "ARG a b") = Err EParse /\ parse enquote_unquote (bs "ARG a=") = Err EParse.
Proof.
  split.
  - apply (C68_arg enquote_unquote [] (bs "ARG") 0 (bs " ") (bs "a") (bs " b")); try discriminate; try reflexivity; [constructor|apply gap_blanks; reflexivity| |].
    + exists 97%N, []. repeat constructor.
    + intros w rest E [-> |(v & -> & _)]; [|discriminate]. cbn [app] in E. rewrite <- E. apply (left_here (bs " ") 98%N []); repeat constructor.
  - apply (C68_arg enquote_unquote [] (bs "ARG") 0 (bs " ") (bs "a") (bs "=")); try discriminate; try reflexivity; [constructor|apply gap_blanks; reflexivity| |].
    + exists 97%N, []. repeat constructor.
    + intros w rest E [-> |(v & -> & Hv)].
      * cbn [app] in E. rewrite <- E. apply (left_here [] EQUALS []); repeat constructor.
      * cbn in E. injection E as E. symmetry in E. apply app_eq_nil in E. destruct E as [-> ->].
        destruct Hv as [Hv|[Hv _]]; [apply quoted_len in Hv; cbn in Hv; lia|exfalso; apply (proj1 Hv); reflexivity].
Qed.

Lemma env_pair_ab p : clear_env_pair_at enquote_unquote p (bs "a=b") (EnvVar (at_ p (bs "a=b")) (SpannedString (at_ p (bs "a")) (bs "a"))
  (BreakableString (at_ (p + 2) (bs "b")) [BString (SpannedString (at_ (p + 2) (bs "b")) (bs "b"))])).
Proof.
  exists (bs "a"), (bs "b"). split; [reflexivity|]. split; [split; [discriminate|repeat constructor]|]. split; [reflexivity|].
  split; [|reflexivity]. right.
  split; [split; [split; [discriminate|split; [repeat constructor|reflexivity]]|split]|].
  - intros [(t & K)|(t & K)]; discriminate.
  - apply not_backslash. reflexivity.
  - cbn [length]. rewrite <- Nat.add_assoc. reflexivity.
Qed.

(** A word behind which nothing comes is not read as a quoted value followed by something. *)
Lemma junk_after_quoted v rest : bs """b""c" = v ++ rest -> value_before v rest -> ~ nothing_left rest /\ no_space rest.
Proof.
  intros E Hv. destruct Hv as [(q & body & Hq & -> & _ & _)|[_ Hq]].
  - cbn [app] in E. injection E as <- E.
    destruct body as [|a [|a2 [|a3 body]]]; cbn [app] in E; try discriminate.
    + injection E as _ <-. split; [apply (left_here [] 99%N []); repeat constructor|split; [reflexivity|discriminate]].
    + destruct body; discriminate.
  - exfalso. apply Hq. rewrite <- E. exists (bs """b"""), (bs "c"). split; [reflexivity|]. apply (quoted_simple DQUOTE (bs "b")); [auto|reflexivity|reflexivity].
Qed.

Lemma no_value v rest : ([] : bytes) = v ++ rest -> value_before v rest -> ~ nothing_left rest /\ no_space rest.
Proof.
  intros E Hv. symmetry in E. apply app_eq_nil in E. destruct E as [-> ->].
  destruct Hv as [Hv|[Hv _]]; [apply quoted_len in Hv; cbn in Hv; lia|exfalso; apply (proj1 Hv); reflexivity].
Qed.

Example C68_env_case : parse enquote_unquote (bs "ENV a=b c") = Err EParse /\ parse enquote_unquote (bs "ENV a") = Err EParse /\
  parse enquote_unquote (bs "ENV a-b=c") = Err EParse /\ parse enquote_unquote (bs "ENV =c") = Err EParse /\
  parse enquote_unquote (bs "ENV a=b a=") = Err EParse /\ parse enquote_unquote (bs "ENV a=""b""c") = Err EParse.
Proof.
  assert (P : spaced (clear_env_pair_at enquote_unquote) 3 (bs " a=b") [EnvVar (at_ 4 (bs "a=b")) (SpannedString (at_ 4 (bs "a")) (bs "a"))
    (BreakableString (at_ (4 + 2) (bs "b")) [BString (SpannedString (at_ (4 + 2) (bs "b")) (bs "b"))])]).
  { apply (spaced_one _ 3 0 (bs " ") (bs "a=b") _ [] []); [apply gap_blanks; reflexivity|discriminate|apply (env_pair_ab 4)|constructor]. }
  split; [|split; [|split; [|split; [|split]]]].
  - apply (C68_env_word enquote_unquote enquote_unquote [] (bs "ENV") (bs " a=b") _ 0 (bs " ") (bs "c") ltac:(constructor) eq_refl P);
      try discriminate; try reflexivity; [apply gap_blanks; reflexivity|repeat split; discriminate|apply (left_here [] 99%N []); repeat constructor|].
    intros n v rest E _ _. assert (K : In EQUALS (bs "c")) by (rewrite E; apply in_or_app; right; left; reflexivity). cbn in K. destruct K as [K|[]]. discriminate.
  - apply (C68_env_name enquote_unquote [] (bs "ENV") 0 (bs " ") (bs "a") []); try discriminate; try reflexivity;
      [constructor|apply gap_blanks; reflexivity|repeat constructor|repeat split; discriminate|apply (left_here [] 97%N []); repeat constructor|].
    right. left. exists [], []. repeat split. constructor.
  - apply (C68_env_name enquote_unquote [] (bs "ENV") 0 (bs " ") (bs "a") (bs "-b=c")); try discriminate; try reflexivity;
      [constructor|apply gap_blanks; reflexivity|repeat constructor|repeat split; discriminate|apply (left_here [] 97%N (bs "-b=c")); repeat constructor| |].
    + split; [reflexivity|discriminate].
    + right. right. split; [reflexivity|discriminate].
  - apply (C68_env_name enquote_unquote [] (bs "ENV") 0 (bs " ") [] (bs "=c")); try discriminate; try reflexivity;
      [constructor|apply gap_blanks; reflexivity|constructor|repeat split; discriminate|apply (left_here [] EQUALS (bs "c")); repeat constructor| |left; reflexivity].
    split; [reflexivity|congruence].
  - apply (C68_env_value enquote_unquote enquote_unquote [] (bs "ENV") (bs " a=b") _ 0 (bs " ") (bs "a") [] ltac:(constructor) eq_refl P);
      try discriminate; try reflexivity; [apply gap_blanks; reflexivity|split; [discriminate|repeat constructor]|]. exact no_value.
  - apply (C68_env_value enquote_unquote enquote_unquote [] (bs "ENV") [] [] 0 (bs " ") (bs "a") (bs """b""c")); try discriminate; try reflexivity;
      [constructor|constructor|apply gap_blanks; reflexivity|split; [discriminate|repeat constructor]|]. exact junk_after_quoted.
Qed.

Example C68_label_case : parse enquote_unquote (bs "LABEL a=b c") = Err EParse /\ parse enquote_unquote (bs "LABEL a") = Err EParse /\
  parse enquote_unquote (bs "LABEL ""a""b c") = Err EParse /\
  parse enquote_unquote (bs "LABEL a=b a=") = Err EParse /\ parse enquote_unquote (bs "LABEL a=""b""c") = Err EParse.
Proof.
  assert (Q : forall p, clear_label_pair_at enquote_unquote p (bs "a=b") (Label (at_ p (bs "a=b")) (SpannedString (at_ p (bs "a")) (bs "a")) (SpannedString (at_ (p + 2) (bs "b")) (bs "b")))).
  { intros p. exists (bs "a"), (bs "b"). split; [reflexivity|]. split; [right|split; [right|reflexivity]].
    - split; [split; [discriminate|split; [repeat constructor; discriminate|reflexivity]]|]. split; [exists 97%N, []; repeat split; discriminate|].
      split; [intros [(t & K)|(t & K)]; discriminate|]. apply string_plain. reflexivity.
    - cbn [lb_value]. change (length (bs "a")) with 1. replace (p + 1 + 1) with (p + 2) by lia.
      split; [split; [split; [discriminate|split; [repeat constructor; discriminate|reflexivity]]|split; [intros [(t & K)|(t & K)]; discriminate|apply not_backslash; reflexivity]]|].
      apply string_plain. reflexivity. }
  assert (P : spaced (clear_label_pair_at enquote_unquote) 5 (bs " a=b") [Label (at_ 6 (bs "a=b")) (SpannedString (at_ 6 (bs "a")) (bs "a")) (SpannedString (at_ (6 + 2) (bs "b")) (bs "b"))]).
  { apply (spaced_one _ 5 0 (bs " ") (bs "a=b") _ [] []); [apply gap_blanks; reflexivity|discriminate|apply (Q 6)|constructor]. }
  assert (W : forall s, match s with c :: _ => is_blank c = true \/ is_newline_byte c = true \/ c = EQUALS | [] => True end -> whole_name (bs "a") s).
  { intros s Hs. right. split; [split; [discriminate|split; [repeat constructor; discriminate|reflexivity]]|]. split; [exists 97%N, []; repeat split; discriminate|].
    split; [intros [(t & K)|(t & K)]; discriminate|exact Hs]. }
  split; [|split; [|split; [|split]]].
  - apply (C68_label_word enquote_unquote enquote_unquote [] (bs "LABEL") (bs " a=b") _ 0 (bs " ") (bs "c") ltac:(constructor) eq_refl P);
      try discriminate; try reflexivity; [apply gap_blanks; reflexivity|repeat split; discriminate|apply (left_here [] 99%N []); repeat constructor|].
    intros n v rest E _ _. assert (K : In EQUALS (bs "c")) by (rewrite E; apply in_or_app; right; left; reflexivity). cbn in K. destruct K as [K|[]]. discriminate.
  - apply (C68_label_name enquote_unquote [] (bs "LABEL") 0 (bs " ") (bs "a") []); try discriminate; try reflexivity;
      [constructor|apply gap_blanks; reflexivity|apply W; exact I|intros (t & K); discriminate|]. left. exists [], []. repeat split. constructor.
  - apply (C68_label_name enquote_unquote [] (bs "LABEL") 0 (bs " ") (bs """a""") (bs "b c")); try discriminate; try reflexivity;
      [constructor|apply gap_blanks; reflexivity|left; apply (quoted_simple DQUOTE (bs "a")); [auto|reflexivity|reflexivity]|intros (t & K); discriminate|].
    right. split; [reflexivity|discriminate].
  - apply (C68_label_value enquote_unquote enquote_unquote [] (bs "LABEL") (bs " a=b") _ 0 (bs " ") (bs "a") [] ltac:(constructor) eq_refl P);
      try discriminate; try reflexivity; [apply gap_blanks; reflexivity|apply W; auto|]. exact no_value.
  - apply (C68_label_value enquote_unquote enquote_unquote [] (bs "LABEL") [] [] 0 (bs " ") (bs "a") (bs """b""c")); try discriminate; try reflexivity;
      [constructor|constructor|apply gap_blanks; reflexivity|apply W; auto|]. exact junk_after_quoted.
Qed.

(** Texts close to these that are accepted *)
Example C68_near_case : map (fun s => match parse enquote_unquote (bs s) with Ok _ => true | _ => false end)
  ["FROM a as b"; "ARG a=b"; "ARG a"; "ENV a=b c="""""; "ENV a b"; "ENV a=b a=b"; "LABEL a=b c=d"; "LABEL a b"; "HEALTHCHECK x"]%string =
  [true; true; true; true; true; true; true; true; true].
Proof. vm_compute. reflexivity. Qed.

Example C68_no_case : parse enquote_unquote (bs "-x") = Err EParse /\ parse enquote_unquote (bs " HEALTHCHECK") = Err EParse.
Proof. split; vm_compute; reflexivity. Qed.

Print Assumptions C68_no_instruction.
Print Assumptions C68_no_arguments.
Print Assumptions C68_from.
Print Assumptions C68_arg.
Print Assumptions C68_env_word.
Print Assumptions C68_env_name.
Print Assumptions C68_env_value.
Print Assumptions C68_label_word.
Print Assumptions C68_label_name.
Print Assumptions C68_label_value.
