(** C66: when a text whose syntax is accepted is not parsed. *)

From Coq Require Import String.
From Verif Require Import Bytes BytesFacts Grammar Peg PegFacts Result Ast Splicer Image Convert Dockerfile Enquote EnquoteFacts SpecImage
  SpecSyntax SpecClear SpecParts PegRules PegTokens PegQuoted Sound SoundInstr Forward Forward2 Forward3 Forward4 Forward5 Shift Idle JoinDoc PartsFacts SpecLayout
  ImageFacts Oracle ConvertSame DocFacts ParseFacts PropsDoc PropsParse PropsComplete PropsJoin PropsQuoted.
Local Open Scope nat_scope.

(** [u] accepts less than [v] and otherwise does the same. *)
Definition stricter (u v : bytes -> option bytes) : Prop := forall w c, u w = Some c -> v w = Some c.

Section Strict.
Variables u v : bytes -> option bytes.
Hypothesis U : stricter u v.

Definition below {A} (a b : outcome A) : Prop := a = b \/ a = Err EUnescape.

Lemma below_refl {A} (a : outcome A) : below a a.
Proof. left. reflexivity. Qed.
Lemma below_bind {A B} (o o' : outcome A) (k k' : A -> outcome B) : below o o' -> (forall x, below (k x) (k' x)) -> below (bind o k) (bind o' k').
Proof. intros [->| ->] K; [|right; reflexivity]. destruct o' as [x|e| |]; cbn [bind]; [apply K|left; reflexivity..]. Qed.
Lemma below_for_each {S} (step step' : S -> tree -> outcome S) l : (forall st t, below (step st t) (step' st t)) ->
  forall st, below (for_each step l st) (for_each step' l st).
Proof. intros H. induction l as [|t l IH]; intros st; cbn [for_each]; [apply below_refl|]. apply below_bind; auto. Qed.
Lemma below_unquote w : below (unquote u w) (unquote v w).
Proof. unfold unquote. destruct (u w) as [c|] eqn:E; [rewrite (U w c E); left|right]; reflexivity. Qed.

Ltac step :=
  first [apply below_refl | apply below_unquote | assumption | apply below_bind; [|intros ?] | apply below_for_each; intros ? ?
        | match goal with |- below (match ?x with _ => _ end) _ => destruct x end
        | match goal with |- below ((let '(_, _) := ?x in _) _) _ => destruct x; cbn beta iota end].

Lemma below_string src t : below (parse_string u src t) (parse_string v src t).
Proof. unfold parse_string. repeat step. Qed.
Lemma below_clean src t : below (unquote_clean u src t) (unquote_clean v src t).
Proof. unfold unquote_clean. repeat step. Qed.
Lemma below_array src t : below (parse_string_array u src t) (parse_string_array v src t).
Proof. unfold parse_string_array. repeat first [apply below_string|step]. Qed.
Lemma below_command src r1 r2 t : below (shell_or_exec_of u src r1 r2 t) (shell_or_exec_of v src r1 r2 t).
Proof. unfold shell_or_exec_of. repeat first [apply below_array|step]. Qed.
Lemma below_label src t : below (label_of u src t) (label_of v src t).
Proof. unfold label_of. repeat first [apply below_string|apply below_clean|step]. Qed.
Lemma below_pair src t : below (env_pair_of u src t) (env_pair_of v src t).
Proof. unfold env_pair_of. repeat first [apply below_string|step]. Qed.
Lemma below_env src t : below (env_of u src t) (env_of v src t).
Proof. unfold env_of, env_pairs_of, env_single_of. repeat first [apply below_string|apply below_pair|step]. Qed.
Lemma below_from_flag src t : below (from_flag_of u src t) (from_flag_of v src t).
Proof. unfold from_flag_of. repeat first [apply below_string|step]. Qed.
Lemma below_copy_flag src t : below (copy_flag_of u src t) (copy_flag_of v src t).
Proof. unfold copy_flag_of. repeat first [apply below_string|step]. Qed.
Lemma below_instruction src t : below (instruction_of u src t) (instruction_of v src t).
Proof.
  unfold instruction_of, from_of, arg_of, label_instruction_of, run_of, entrypoint_of, cmd_of, copy_of, misc_of.
  repeat first [apply below_string|apply below_from_flag|apply below_copy_flag|apply below_label|apply below_command|apply below_env|step].
Qed.
Lemma below_doc_step src st t : below (doc_step u src st t) (doc_step v src st t).
Proof. unfold doc_step. repeat first [apply below_instruction|step]. Qed.
Lemma below_parse src : below (parse u src) (parse v src).
Proof. unfold parse. repeat first [apply below_doc_step|step]. Qed.

End Strict.

(** The texts of a parse result that are to be unescaped: the written strings that begin
    with a quote (in a LABEL, without their escaped line breaks) and the values of
    variables of ENV that are quoted strings *)
Definition to_unescape (d : dockerfile) (w : bytes) : Prop :=
  exists i, In i (d_instructions d) /\
  ((exists x, In x (written_strings i) /\ begins_quoted (text_at (d_content d) (ss_span x)) /\
     ((exists l, i = ILabel l) /\ without_breaks (text_at (d_content d) (ss_span x)) w \/
      ~ (exists l, i = ILabel l) /\ w = text_at (d_content d) (ss_span x))) \/
   (exists e y, i = IEnv e /\ In y (env_vars e) /\ w = text_at (d_content d) (br_span (ev_value y)) /\ quoted_text w)).

(** Unescaping with a stricter function changes the result to an error, or not at all. *)
Theorem C66_stricter u v input : stricter u v -> parse u input = parse v input \/ parse u input = Err EUnescape.
Proof. intros U. apply below_parse. exact U. Qed.

Lemma breaks_unique w a : without_breaks w a -> forall b, without_breaks w b -> a = b.
Proof.
  induction 1 as [|w a H IH|c w a Hc H IH]; intros b Hb.
  - inversion Hb; reflexivity.
  - inversion Hb as [|w0 a0 H0|c0 w0 a0 Hc0 H0]; subst; [auto|]. exfalso. apply (Hc0 w). reflexivity.
  - inversion Hb as [|w0 a0 H0|c0 w0 a0 Hc0 H0]; subst; [exfalso; apply (Hc w0); reflexivity|]. f_equal. auto.
Qed.

(** Only these texts matter: two functions that agree on them give the same result. *)
Theorem C66_only_these u v input d : valid_utf8 input = true -> parse v input = Ok d ->
  (forall w, to_unescape d w -> u w = v w) -> parse u input = Ok d.
Proof.
  intros V E H. apply (parse_fine u v input d V E). apply Forall_forall. intros i Hi.
  rewrite <- (parse_content _ _ _ E).
  assert (Plain : forall x, ~ (exists l, i = ILabel l) -> In x (written_strings i) -> fine_string u v (d_content d) x).
  { intros x Hl Hx Hq. apply H. exists i. split; [exact Hi|]. left. exists x. split; [exact Hx|]. split; [apply (starts_quoted_spec u []); exact Hq|]. right. auto. }
  assert (Label : forall x, (exists l, i = ILabel l) -> In x (written_strings i) -> fine_in_label u v (d_content d) x).
  { intros x Hl Hx Hq. apply H. exists i. split; [exact Hi|]. left. exists x. split; [exact Hx|]. split; [apply (starts_quoted_spec u []); exact Hq|].
    left. split; [exact Hl|]. apply remove_breaks_spec. }
  assert (Flags : ~ (exists l, i = ILabel l) -> Forall (fine_flag u v (d_content d)) (flags_of i)).
  { intros Hl. apply Forall_forall. intros f Hf. apply Plain; [exact Hl|]. apply in_or_app. left. apply in_map. exact Hf. }
  assert (Exec : ~ (exists l, i = ILabel l) -> forall e, written_strings i = match as_exec e with Some a => sa_elements a | None => [] end ->
    fine_command u v (d_content d) e).
  { intros Hl e Ee. destruct e as [e|e]; [exact I|]. apply Forall_forall. intros x Hx. apply Plain; [exact Hl|]. rewrite Ee. exact Hx. }
  destruct i as [x|x|x|x|x|x|x|x|x]; cbn [fine_instruction].
  - apply Flags. intros (? & K). discriminate K.
  - destruct (arg_value x) as [y|] eqn:Ey; [|exact I]. apply Plain; [intros (? & K); discriminate K|]. cbn. rewrite Ey. left. reflexivity.
  - apply Forall_forall. intros l Hl. split; apply Label; try (exists x; reflexivity);
      (apply in_or_app; right; apply in_flat_map; exists l; split; [exact Hl|cbn; tauto]).
  - apply Exec; [intros (? & K); discriminate K|reflexivity].
  - apply Exec; [intros (? & K); discriminate K|reflexivity].
  - apply Exec; [intros (? & K); discriminate K|reflexivity].
  - split; [apply Flags; intros (? & K); discriminate K|].
    assert (K : Forall (fine_string u v (d_content d)) (copy_sources x ++ [copy_destination x])).
    { apply Forall_forall. intros y Hy. apply Plain; [intros (? & K); discriminate K|]. apply in_or_app. right. exact Hy. }
    apply Forall_app in K. destruct K as [K1 K2]. split; [exact K1|]. apply Forall_inv in K2. exact K2.
  - apply Forall_forall. intros y Hy Hq. apply H. exists (IEnv x). split; [exact Hi|]. right. exists x, y. auto.
  - exact I.
Qed.

(** Where a lenient function gives a result, a stricter one gives the same result exactly
    if it accepts all these texts, and an unescape error otherwise. *)
Theorem C66_unescape u v input d : valid_utf8 input = true -> stricter u v -> parse v input = Ok d ->
  (parse u input = Ok d \/ parse u input = Err EUnescape) /\
  (parse u input = Ok d <-> forall w, to_unescape d w -> u w <> None).
Proof.
  intros V U E. split; [rewrite <- E; apply C66_stricter; exact U|]. split.
  - clear E U v. intros E w (i & Hi & [(x & Hx & Hq & Hw)|(e & y & -> & Hy & -> & Hw)]) K.
    + pose proof (C63_read u input d i x V E Hi Hx) as R. destruct R as [[R _]|(_ & c & R & Ec)]; [contradiction|].
      assert (c = w) as ->; [|congruence]. destruct Hw as [[Hl Hw]|[Hl ->]], R as [[Hl' R]|[Hl' ->]]; try contradiction; [|reflexivity].
      eapply breaks_unique; eassumption.
    + destruct (C63_env u input d e y V E Hi Hy Hw) as (c & Ec & _). congruence.
  - intros H. apply (C66_only_these u v input d V E). intros w Hw. specialize (H w Hw). destruct (u w) as [c|] eqn:Eu; [|congruence].
    symmetry. apply U. exact Eu.
Qed.

(** ** The first instruction is not accepted *)

Lemma first_step unq b name s q r t f e : blanks b -> letters name ->
  run ctx0 (Call R_step) (length b) (name ++ s) = Done q r (t :: f) ->
  doc_step unq (b ++ name ++ s) (DocState [] [] false 0) t = Err e ->
  parse unq (b ++ name ++ s) = Err EParse \/ parse unq (b ++ name ++ s) = Err e.
Proof.
  intros Hb (Hne & Hn) E He. rewrite parse_lines. unfold document_lines. rewrite run_seq by reflexivity.
  rewrite (run_call ctx0 R_meta_step).
  change (snd (grammar R_meta_step)) with (Seq (Rep ws) (Seq (Opt (Alt (Call R_step) comment)) (Rep ws))).
  change (fst (grammar R_meta_step)) with Silent. cbn [rule_inner rule_outer rule_tokens]. rewrite run_seq by reflexivity.
  rewrite blanks_fwd; [|exact Hb|]. 2:{ destruct Hn as [|x name Hx _]; [congruence|]. cbn [app]. apply letter_not_blank. exact Hx. }
  rewrite run_seq by reflexivity. rewrite run_opt by reflexivity. rewrite run_alt by reflexivity. cbn [Nat.add]. rewrite E.
  pose proof (run_total ctx0 (Rep ws) q r eq_refl) as T1. destruct (run ctx0 (Rep ws) q r) as [q1 r1 f1| |]; [|left; reflexivity|congruence].
  pose proof (run_total ctx0 (Rep line) q1 r1 eq_refl) as T2. destruct (run ctx0 (Rep line) q1 r1) as [q2 r2 f2| |]; [|left; reflexivity|congruence].
  destruct r2 as [|x r2]; [right|left; reflexivity]. cbn [app for_each]. rewrite He. reflexivity.
Qed.

(** A comment between RUN, CMD or ENTRYPOINT and the command is not accepted, whatever the
    command is and whatever follows. *)
Theorem C66_comment unq k b kw n g s : In k ["run"; "cmd"; "entrypoint"]%string -> blanks b -> keyword k kw -> gap (S n) g ->
  begins_solid s -> valid_utf8 s = true ->
  parse unq (b ++ kw ++ g ++ s) = Err EParse \/ parse unq (b ++ kw ++ g ++ s) = Err (EGeneric (MUnexpected R_comment)).
Proof.
  intros Hk Hb Hkw Hg Hso Hv.
  assert (Hne : g <> []).
  { intros ->. inversion Hg as [| |j m c l w Hc Hl Hw Ej E]. destruct Hc as (b0 & nl & -> & _). discriminate E. }
  assert (K : exists r rx rs, In (k, r) keyword_rules /\ grammar r = (Normal, Seq (Insens (bs k)) (Seq arg_ws (Alt (Call rx) (Call rs)))) /\
    good (Seq (Insens (bs k)) (Seq arg_ws (Alt (Call rx) (Call rs)))) = true /\
    grammar rx = (Normal, Call R_string_array) /\ grammar rs = (AtomicRule, any_breakable) /\
    to_lower (bs k) = bs k /\ letters (bs k) /\
    forall src st p q t l, t_rule t = R_comment -> doc_step unq src st (Node r p q (t :: l)) = Err (EGeneric (MUnexpected R_comment))).
  { destruct Hk as [<-|[<-|[<-|[]]]];
      [exists R_run, R_run_exec, R_run_shell|exists R_cmd, R_cmd_exec, R_cmd_shell|exists R_entrypoint, R_entrypoint_exec, R_entrypoint_shell];
      (split; [cbn; tauto|]); repeat (split; [reflexivity|]); (split; [split; [discriminate|repeat constructor]|]);
      intros src st p q t l Ht; unfold doc_step, instruction_of, run_of, cmd_of, entrypoint_of, shell_or_exec_of; cbn [t_rule t_children];
      rewrite Ht; reflexivity. }
  destruct K as (r & rx & rs & Hin & Hr & G & Hx & Hs & Hlow & Hlet & Hdoc).
  assert (Hkl : letters kw).
  { destruct Hlet as [Hl1 Hl2]. unfold keyword in Hkw. rewrite <- Hkw in Hl1, Hl2. split; [intros ->; apply Hl1; reflexivity|].
    unfold to_lower in Hl2. rewrite Forall_map in Hl2. revert Hl2. apply Forall_impl. intros x. rewrite lower_is_alpha. auto. }
  assert (Hvg : valid_utf8 (g ++ s) = true) by (rewrite (Forward.valid_gap _ _ _ Hg); exact Hv).
  assert (Hvk : valid_utf8 (kw ++ g ++ s) = true) by (rewrite (Forward3.class_valid _ _ _ alpha_ascii (proj2 Hkl)); exact Hvg).
  pose proof (good_sub _ G) as [_ G1]. pose proof (good_sub _ G1) as [_ G2].
  assert (Hst : gap_stops s) by (rewrite <- (app_nil_r s); apply solid_stops; exact Hso).
  destruct (gap_fwd (S n) g s (length b + length kw) Hg Hne Hst Hv) as (f1 & E1 & Hc & Hl).
  destruct f1 as [|c f1]; [discriminate Hl|]. apply Forall_inv in Hc.
  assert (Er : exists q s' f, run ctx0 (Call r) (length b) (kw ++ g ++ s) = Done q s' [Node r (length b) q (c :: f)]).
  { assert (Ea : exists q s' f, run ctx0 (Alt (Call rx) (Call rs)) (length b + length kw + length g) s = Done q s' f).
    { rewrite run_alt by exact G2. pose proof (run_total ctx0 (Call rx) (length b + length kw + length g) s (proj1 (good_sub _ G2))) as T.
      destruct (run ctx0 (Call rx) _ s) as [q1 s1 f2| |]; [eauto| |congruence].
      rewrite run_call, Hs. cbn [fst snd].
      pose proof (run_total (rule_inner AtomicRule ctx0) any_breakable (length b + length kw + length g) s eq_refl) as T2.
      destruct (run _ any_breakable _ s) as [q1 s1 f2| |] eqn:E; [eauto| |congruence].
      apply breakable_failed in E; [|exact Hv|apply gap_stops_here; exact Hst]. exfalso.
      destruct Hso as (x & t & -> & Hxs). destruct Hxs as (H1 & H2 & H3 & H4). destruct E as [E|E]; [discriminate E|].
      cbn [newline_here] in E. congruence. }
    destruct Ea as (q & s' & f & Ea). exists q, s', (f1 ++ f). apply token_fwd; rewrite Hr; [discriminate|]. cbn [fst snd rule_inner rule_outer].
    rewrite run_seq by exact G. rewrite keyword_fwd by assumption. rewrite run_seq by exact G1. rewrite E1, Ea. reflexivity. }
  destruct Er as (q & s' & f & Er).
  eapply (first_step unq b kw (g ++ s) q s' _ []); [exact Hb|exact Hkl| |apply Hdoc; exact Hc].
  apply (step_keyword k r); [exact Hin|exact Hkw|apply (gap_no_letter (S n)); assumption|exact Hvk|exact Er].
Qed.

(** FROM with an image whose digest is not accepted, whatever follows *)
Theorem C66_digest unq b kw fl l k g img s : blanks b -> keyword "from" kw -> spaced (clear_flag_at unq) (length b + length kw) fl l ->
  gap k g -> g <> [] -> bad_digest img -> ~ begins_with DASH img ->
  match s with c :: _ => image_char c = false | [] => True end -> valid_utf8 s = true ->
  parse unq (b ++ kw ++ fl ++ g ++ img ++ s) = Err EParse \/
  parse unq (b ++ kw ++ fl ++ g ++ img ++ s) = Err (EGeneric (MText "image reference digest is invalid")).
Proof.
  intros Hb Hkw Hfl Hg Hne ([Hin Hi] & r & h & Hr & Hh & Hbad) Hd Hs Hv.
  set (src := b ++ kw ++ fl ++ g ++ img ++ s).
  assert (Hvi : valid_utf8 (img ++ s) = true) by (rewrite (Forward3.class_valid _ _ _ image_ascii Hi); exact Hv).
  assert (Hvg : valid_utf8 (g ++ img ++ s) = true) by (rewrite (Forward.valid_gap _ _ _ Hg); exact Hvi).
  assert (Hvf : valid_utf8 (fl ++ g ++ img ++ s) = true) by (rewrite (Forward3.spaced_valid _ (Forward3.flag_valid unq) _ _ _ _ Hfl); exact Hvg).
  assert (Hvk : valid_utf8 (kw ++ fl ++ g ++ img ++ s) = true) by (rewrite (Forward3.keyword_valid "from"); [exact Hvf|exact Hkw|repeat constructor]).
  assert (Hp : pos src (length b) (kw ++ fl ++ g ++ img ++ s)) by (unfold pos, src; apply skipn_app_exact).
  pose proof (pos_app _ _ _ _ Hp) as Hp1. pose proof (pos_app _ _ _ _ Hp1) as Hp2.
  pose proof (pos_app _ _ _ _ Hp2) as Hp3. pose proof (pos_app _ _ _ _ Hp3) as Hp4.
  assert (Hist : gap_stops (img ++ s)) by (apply (class_stops image_char); [apply image_solid|exact Hin|exact Hi]).
  assert (Hnf : run ctx0 (Seq arg_ws (Call R_from_flag)) (length b + length kw + length fl) (g ++ img ++ s) = Fail).
  { rewrite run_seq by reflexivity.
    destruct (gap_fwd k g (img ++ s) (length b + length kw + length fl) Hg Hne Hist Hvi) as (f2 & -> & _).
    rewrite (flag_fails R_from_flag (Seq (Call R_from_flag_name) (Seq (Str [EQUALS]) (Call R_from_flag_value))));
      [reflexivity|reflexivity|].
    intros t K. apply Hd. destruct img as [|y img]; [congruence|]. cbn [app] in K. injection K as -> _. exists img. reflexivity. }
  destruct (spaced_fwd src R_from_flag (clear_flag_at unq) (from_flag_of unq src) (from_step unq src) add_flag eq_refl
    (from_flag_fwd unq src) (flag_solid unq) (Forward3.flag_valid unq) ltac:(intros [[i a] l0] t Ht; unfold SoundInstr.from_step; rewrite Ht; reflexivity)
    (from_step_comments unq src) _ _ _ Hfl (g ++ img ++ s) (gap_word_end _ _ _ Hg Hne) Hvg Hp1 Hnf) as (f1 & E1 & Hf1).
  destruct (gap_fwd k g (img ++ s) (length b + length kw + length fl) Hg Hne Hist Hvi) as (f2 & E2 & Hc2 & _).
  set (p3 := length b + length kw + length fl + length g) in *.
  assert (E3 : run ctx0 (Call R_from_image) p3 (img ++ s) = Done (p3 + length img) s [Node R_from_image p3 (p3 + length img) []]).
  { apply token_fwd; [discriminate|]. cbn [grammar fst snd].
    apply (class_rep1_fwd _ image_char); [reflexivity|apply class_image|exact Hin|exact Hi|exact Hs]. }
  pose proof (run_total ctx0 (Opt (Call R_from_alias_outer)) (p3 + length img) s eq_refl) as T.
  destruct (run ctx0 (Opt (Call R_from_alias_outer)) (p3 + length img) s) as [q s' f4| |] eqn:E4; [|
    exfalso; rewrite run_opt in E4 by reflexivity; destruct (run ctx0 (Call R_from_alias_outer) (p3 + length img) s); discriminate E4|congruence].
  destruct (alias_inv unq src _ _ _ _ _ Hv Hp4 E4) as (al & _ & _ & x & _ & Hal).
  assert (Er : run ctx0 (Call R_from) (length b) (kw ++ fl ++ g ++ img ++ s) =
    Done q s' [Node R_from (length b) q (f1 ++ f2 ++ [Node R_from_image p3 (p3 + length img) []] ++ f4)]).
  { apply token_fwd; [discriminate|]. cbn [grammar fst snd rule_inner rule_outer].
    rewrite run_seq by reflexivity. rewrite keyword_fwd; [|exact Hkw|reflexivity].
    rewrite run_seq by reflexivity. rewrite E1. rewrite run_seq by reflexivity. rewrite E2.
    rewrite run_seq by reflexivity. rewrite E3. rewrite E4. reflexivity. }
  assert (Hkl : letters kw).
  { unfold keyword in Hkw. assert (Hl : letters (bs "from")) by (split; [discriminate|repeat constructor]).
    destruct Hl as [Hl1 Hl2]. rewrite <- Hkw in Hl1, Hl2. split; [intros ->; apply Hl1; reflexivity|].
    unfold to_lower in Hl2. rewrite Forall_map in Hl2. revert Hl2. apply Forall_impl. intros y. rewrite lower_is_alpha. auto. }
  eapply (first_step unq b kw (fl ++ g ++ img ++ s) q s' _ []); [exact Hb|exact Hkl| |].
  - apply (step_keyword "from" R_from); [cbn; tauto|exact Hkw| |exact Hvk|exact Er].
    apply (spaced_no_letter _ _ _ _ _ Hfl). apply (gap_no_letter k); assumption.
  - fold src. unfold doc_step, instruction_of. cbn [t_rule]. unfold from_of.
    match goal with |- context [for_each ?f _ (None, None, [])] => change f with (from_step unq src) end.
    cbn [t_children]. rewrite for_each_app, Hf1, fold_add_flag. cbn [bind app].
    rewrite for_each_gap by (assumption || apply from_step_comments). cbn [app for_each].
    change (from_step unq src (None, None, l) (Node R_from_image p3 (p3 + length img) []))
      with (Ok (Some (Node R_from_image p3 (p3 + length img) []), @None tree, l)).
    cbn [bind]. rewrite (proj1 (Hal _ l)). cbn [bind].
    rewrite (parse_string_plain unq src _ _ _ _ _ Hp3) by (apply (class_not_quoted image_char img Hi); reflexivity).
    cbn [bind ss_content]. rewrite (proj2 (image_parse_spec img _) Hr), Hh.
    destruct (digest_ok h) eqn:Ed; [|reflexivity]. apply digest_ok_spec in Ed. contradiction.
Qed.

(** ** Cases *)

Definition any_unquote (w : bytes) : option bytes := Some (match enquote_unquote w with Some c => c | None => [] end).
Lemma enquote_stricter : stricter enquote_unquote any_unquote.
Proof. intros w c E. unfold any_unquote. rewrite E. reflexivity. Qed.

(** An escape that the grammar admits and that unescaping does not *)
Definition odd_escape : bytes := bs "FROM x" ++ [LF] ++ bs "LABEL a=""b\/c""".
Example C66_unescape_case : valid_utf8 odd_escape = true /\ how_many (parse any_unquote odd_escape) = Some 2 /\
  enquote_unquote (bs """b\/c""") = None /\ parse enquote_unquote odd_escape = Err EUnescape /\
  how_many (parse enquote_unquote (bs "FROM x" ++ [LF] ++ bs "LABEL a=""b\nc""")) = Some 2.
Proof. repeat split; vm_compute; reflexivity. Qed.

Definition comment_first : bytes := [BSLASH; LF] ++ bs "# why" ++ [LF].
Example C66_comment_case : gap 1 comment_first /\ begins_solid (bs "echo") /\
  parse enquote_unquote (bs "run " ++ comment_first ++ bs "echo") = Err (EGeneric (MUnexpected R_comment)) /\
  parse enquote_unquote (bs "RUN " ++ comment_first ++ bs "echo" ++ [LF] ++ bs "FROM") = Err EParse.
Proof.
  split.
  { apply (gap_continue 1 0 [BSLASH; LF] (bs "# why" ++ [LF]) []); [exists [], [LF]; repeat constructor| |constructor].
    apply (skipped_comment 0 [] (bs "# why") [LF] []); [constructor| |constructor|constructor].
    exists (bs " why"). split; [reflexivity|]. repeat constructor. }
  split; [eexists _, _; split; [reflexivity|]; repeat split; discriminate|]. split; vm_compute; reflexivity.
Qed.

Example C66_digest_case : bad_digest (bs "a@sha256:1") /\
  parse enquote_unquote (bs "FROM --platform=p a@sha256:1 AS b" ++ [LF] ++ bs "RUN x") = Err (EGeneric (MText "image reference digest is invalid")).
Proof.
  split; [|vm_compute; reflexivity]. split; [split; [discriminate|repeat constructor]|].
  exists (image_parse (bs "a@sha256:1")), (bs "sha256:1"). split; [apply image_parse_spec; reflexivity|]. split; [reflexivity|].
  intros K. apply digest_ok_spec in K. discriminate K.
Qed.

Print Assumptions C66_stricter.
Print Assumptions C66_only_these.
Print Assumptions C66_unescape.
Print Assumptions C66_comment.
Print Assumptions C66_digest.
