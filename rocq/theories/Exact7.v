(** The choice of the instruction, lines and documents, from runs of the grammar to readings: see SpecExact.v. *)

From Coq Require Import String.
From Verif Require Import Bytes BytesFacts Grammar Peg Result Ast Splicer Image Convert ImageFacts Dockerfile SpecDoc DocFacts
  PegFacts SpecImage SpecSyntax SpecClear SpecExact PegRules PegTokens PegQuoted Sound SoundRules SoundInstr SoundDoc
  Forward Forward2 Forward3 ListFacts Forward4 Forward5 Idle Exact Exact2 Exact3 Exact4 Exact5 Exact6.
Local Open Scope nat_scope.

(** All the rules with a keyword are tried before the one with any name. *)
Lemma step_others p name u q s' f : letters name -> no_letter u -> valid_utf8 u = true ->
  (forall k, keyword k name -> passed_over k u) ->
  run ctx0 (Call R_misc) p (name ++ u) = Done q s' f -> run ctx0 (Call R_step) p (name ++ u) = Done q s' f.
Proof.
  intros Hn Hs Hv Hp Hrun. assert (Hvn : valid_utf8 (name ++ u) = true) by (rewrite (Forward3.class_valid _ _ _ alpha_ascii (proj2 Hn)); exact Hv).
  destruct (others_fail p name u (proj2 Hn) Hs Hvn) as (H1 & H2 & H3 & H4 & H5 & H6 & H7 & H8). unfold others in *.
  assert (K : forall k r, In (k, r) keyword_rules -> (to_lower name <> bs k -> run ctx0 (Call r) p (name ++ u) = Fail) ->
    run ctx0 (Call r) p (name ++ u) = Fail).
  { intros k r Hin H. destruct (list_eq_dec N.eq_dec (to_lower name) (bs k)) as [E|E]; [|apply H; exact E].
    apply (rule_passed k r p name u Hin E Hv). apply Hp. exact E. }
  assert (I : forall n x, nth_error keyword_rules n = Some x -> In x keyword_rules) by (intros n x; apply nth_error_In).
  pose proof (K _ _ (I 0 _ eq_refl) H1) as F1. pose proof (K _ _ (I 1 _ eq_refl) H2) as F2.
  pose proof (K _ _ (I 2 _ eq_refl) H3) as F3. pose proof (K _ _ (I 3 _ eq_refl) H4) as F4.
  pose proof (K _ _ (I 4 _ eq_refl) H5) as F5. pose proof (K _ _ (I 5 _ eq_refl) H6) as F6.
  pose proof (K _ _ (I 6 _ eq_refl) H7) as F7. pose proof (K _ _ (I 7 _ eq_refl) H8) as F8.
  rewrite run_call. change (snd (grammar R_step)) with
    (Alt (Call R_from) (Alt (Call R_run) (Alt (Call R_arg) (Alt (Call R_label) (Alt (Call R_copy)
      (Alt (Call R_entrypoint) (Alt (Call R_cmd) (Alt (Call R_env) (Call R_misc))))))))).
  change (fst (grammar R_step)) with Silent. cbn [rule_inner rule_outer rule_tokens].
  repeat (rewrite run_alt by reflexivity). rewrite F1, F2, F3, F4, F5, F6, F7, F8. rewrite Hrun. reflexivity.
Qed.

Section Doc.
Variable unq : bytes -> option bytes.
Variable src : bytes.
Notation yields := (yields unq src).
Notation pos := (Sound.pos src).
Notation gives := (gives unq src).
Notation adds := (adds unq src).

(** ** From runs to readings *)

Lemma misc_exact p s q s' f : valid_utf8 s = true -> pos p s -> run ctx0 (Call R_misc) p s = Done q s' f ->
  (forall k r, In (k, r) keyword_rules -> run ctx0 (Call r) p s = Fail) ->
  exists w t, s = w ++ s' /\ q = p + length w /\ f = [t] /\ t_rule t = R_misc /\
    yields (fun x => closed_end s' -> misc_reads p w s' x) (misc_of unq src t).
Proof.
  intros Hv Hp H Hfail. apply token_inv in H; [|discriminate]. destruct H as (f' & H & ->).
  cbn [grammar fst snd rule_inner rule_outer] in H. seq_open H Hv H1.
  apply letters_rule_inv in H1; [|reflexivity]. destruct H1 as (name & c1 & -> & -> & Hn & -> & Hnext).
  pose proof (pos_app _ _ _ _ Hp) as Hp1.
  apply (breakable_rule_exact unq src) in H; [|reflexivity|exact Hv0|exact Hp1].
  destruct H as (w & t & x & -> & -> & -> & Ht & Hy & _ & Hx & Hnb).
  eexists (name ++ w), _. split; [rewrite <- app_assoc; reflexivity|]. split; [rewrite !app_length; lia|].
  split; [reflexivity|]. split; [reflexivity|]. unfold misc_of. cbn [t_children app for_each t_rule].
  rewrite (parse_string_plain unq src _ _ _ _ _ Hp) by (apply letters_not_quoted; exact Hn).
  cbn [bind]. rewrite Ht, Hy. cbn. intros Hcl. exists name, w. split; [reflexivity|]. split; [exact Hn|].
  split; [destruct w as [|c w]; [exact I|exact Hnext]|]. split.
  { intros k Hk. destruct (In_reserved_dec k) as [Hin|Hin]; [|apply not_keyword_passed; exact Hin].
    apply reserved_rule in Hin. destruct Hin as (r & Hin). apply (rule_passed k r p name (w ++ s') Hin Hk Hv0). apply (Hfail k). exact Hin. }
  split; [reflexivity|]. split; [apply Hx, closed_stop; assumption|]. cbn. span_eq.
Qed.

Lemma step_exact p s q s' f : valid_utf8 s = true -> pos p s -> run ctx0 (Call R_step) p s = Done q s' f ->
  exists w t, s = w ++ s' /\ q = p + length w /\ f = [t] /\ t_rule t <> R_EOI /\ t_rule t <> R_comment /\
    yields (fun i => closed_end s' -> instruction_reads unq p w s' i) (instruction_of unq src t).
Proof.
  intros Hv Hp H. call_open H. cbn [grammar fst snd rule_inner rule_outer rule_tokens] in *.
  apply alt_inv in H; [|reflexivity]. destruct H as [H|[F1 H]].
  { apply (from_inv unq src) in H; [|exact Hv|exact Hp]. destruct H as (w & t & -> & -> & -> & Ht & Hy).
    exists w, t. repeat split; try congruence. unfold instruction_of. rewrite Ht.
    eapply yields_bind; [apply Hy|]. intros i Hi Hc. exact Hi. }
  apply alt_inv in H; [|reflexivity]. destruct H as [H|[F2 H]].
  { apply (command_exact unq src "run" _ R_run_exec R_run_shell) in H; try reflexivity; try discriminate; auto.
    destruct H as (w & t & -> & -> & -> & Ht & Hsp & Hy).
    exists w, t. repeat split; try congruence. unfold instruction_of, run_of. rewrite Ht, Hsp.
    eapply yields_bind with (P := fun i => exists e, (closed_end s' -> command_reads unq "run" p w s' (at_ p w) e) /\ i = RunInstruction (at_ p w) e).
    - eapply yields_bind; [apply Hy|]. intros e He. exists e. auto.
    - intros i (e & He & ->) Hc. exact (He Hc). }
  apply alt_inv in H; [|reflexivity]. destruct H as [H|[F3 H]].
  { apply (arg_exact unq src) in H; [|exact Hv|exact Hp]. destruct H as (w & t & -> & -> & -> & Ht & Hy).
    exists w, t. repeat split; try congruence. unfold instruction_of. rewrite Ht.
    eapply yields_bind; [apply Hy|]. intros i Hi Hc. exact Hi. }
  apply alt_inv in H; [|reflexivity]. destruct H as [H|[F4 H]].
  { apply (label_exact unq src) in H; [|exact Hv|exact Hp]. destruct H as (w & t & -> & -> & -> & Ht & Hy).
    exists w, t. repeat split; try congruence. unfold instruction_of. rewrite Ht.
    eapply yields_bind; [apply Hy|]. intros i Hi Hc. exact Hi. }
  apply alt_inv in H; [|reflexivity]. destruct H as [H|[F5 H]].
  { apply (copy_exact unq src) in H; [|exact Hv|exact Hp]. destruct H as (w & t & -> & -> & -> & Ht & Hy).
    exists w, t. repeat split; try congruence. unfold instruction_of. rewrite Ht.
    eapply yields_bind; [apply Hy|]. intros i Hi Hc. exact Hi. }
  apply alt_inv in H; [|reflexivity]. destruct H as [H|[F6 H]].
  { apply (command_exact unq src "entrypoint" _ R_entrypoint_exec R_entrypoint_shell) in H; try reflexivity; try discriminate; auto.
    destruct H as (w & t & -> & -> & -> & Ht & Hsp & Hy).
    exists w, t. repeat split; try congruence. unfold instruction_of, entrypoint_of. rewrite Ht, Hsp.
    eapply yields_bind with (P := fun i => exists e, (closed_end s' -> command_reads unq "entrypoint" p w s' (at_ p w) e) /\ i = EntrypointInstruction (at_ p w) e).
    - eapply yields_bind; [apply Hy|]. intros e He. exists e. auto.
    - intros i (e & He & ->) Hc. exact (He Hc). }
  apply alt_inv in H; [|reflexivity]. destruct H as [H|[F7 H]].
  { apply (command_exact unq src "cmd" _ R_cmd_exec R_cmd_shell) in H; try reflexivity; try discriminate; auto.
    destruct H as (w & t & -> & -> & -> & Ht & Hsp & Hy).
    exists w, t. repeat split; try congruence. unfold instruction_of, cmd_of. rewrite Ht, Hsp.
    eapply yields_bind with (P := fun i => exists e, (closed_end s' -> command_reads unq "cmd" p w s' (at_ p w) e) /\ i = CmdInstruction (at_ p w) e).
    - eapply yields_bind; [apply Hy|]. intros e He. exists e. auto.
    - intros i (e & He & ->) Hc. exact (He Hc). }
  apply alt_inv in H; [|reflexivity]. destruct H as [H|[F8 H]].
  { apply (env_exact unq src) in H; [|exact Hv|exact Hp]. destruct H as (w & t & -> & -> & -> & Ht & Hy).
    exists w, t. repeat split; try congruence. unfold instruction_of. rewrite Ht.
    eapply yields_bind; [apply Hy|]. intros i Hi Hc. exact (Hi Hc). }
  { apply misc_exact in H; [|exact Hv|exact Hp|].
    2:{ intros k r Hin. cbn in Hin. repeat (destruct Hin as [E|Hin]; [injection E as <- <-; assumption|]). contradiction. }
    destruct H as (w & t & -> & -> & -> & Ht & Hy).
    exists w, t. repeat split; try congruence. unfold instruction_of. rewrite Ht.
    eapply yields_bind; [apply Hy|]. intros i Hi Hc. exact (Hi Hc). }
Qed.

Lemma doc_step_exact p w s t st : t_rule t <> R_EOI -> t_rule t <> R_comment ->
  yields (fun i => closed_end s -> instruction_reads unq p w s i) (instruction_of unq src t) ->
  yields (fun st' => exists i, (closed_end s -> instruction_reads unq p w s i) /\ ds_instructions st' = ds_instructions st ++ [i])
    (doc_step unq src st t).
Proof.
  intros H1 H2 Hy.
  assert (E : doc_step unq src st t = (instruction <- instruction_of unq src t;;
    match instruction with
    | IFrom f =>
      Ok (DocState (ds_instructions st ++ [IFrom (set_index f (ds_from_index st))])
                   (ds_global_args st) true (S (ds_from_index st)))
    | IArg a =>
      Ok (DocState (ds_instructions st ++ [IArg a])
                   (if ds_from_found st then ds_global_args st else ds_global_args st ++ [a])
                   (ds_from_found st) (ds_from_index st))
    | i =>
      Ok (DocState (ds_instructions st ++ [i])
                   (ds_global_args st) (ds_from_found st) (ds_from_index st))
    end)).
  { unfold doc_step. destruct (t_rule t); congruence || reflexivity. }
  rewrite E. eapply yields_bind; [exact Hy|]. intros i Hi.
  destruct i; cbn [Sound.yields]; (eexists; split; [|cbn [ds_instructions]; reflexivity]); try exact Hi.
Qed.

Lemma line_exact p s q s' f : valid_utf8 s = true -> pos p s -> run ctx0 (Call R_meta_step) p s = Done q s' f ->
  exists w, s = w ++ s' /\ q = p + length w /\
    forall st, yields (fun st' => exists l, (ends_here s' -> line_reads unq p w s' l) /\ ds_instructions st' = ds_instructions st ++ l)
      (for_each (doc_step unq src) f st).
Proof.
  intros Hv Hp H. call_open H. cbn [grammar fst snd rule_inner rule_outer rule_tokens] in *.
  seq_open H Hv H1. seq_open H Hv0 H2.
  apply blanks_inv in H1. destruct H1 as (b & Hb & -> & -> & -> & _).
  apply blanks_inv in H. destruct H as (b2 & Hb2 & -> & -> & -> & _).
  pose proof (pos_app _ _ _ _ Hp) as Hp1. rewrite app_nil_r. cbn [app].
  apply opt_inv in H2; [|reflexivity]. destruct H2 as [H|(_ & -> & <- & ->)].
  - apply alt_inv in H; [|reflexivity]. destruct H as [H|[_ H]].
    + apply step_exact in H; [|exact Hv0|exact Hp1].
      destruct H as (w & t & -> & -> & -> & Ht1 & Ht2 & Hy).
      exists (b ++ w ++ b2). rewrite <- !app_assoc, !app_length. split; [reflexivity|]. split; [lia|].
      intros st. cbn [for_each].
      eapply yields_bind; [apply doc_step_exact; [exact Ht1|exact Ht2|exact Hy]|].
      intros st' (i & Hi & E). cbn. exists [i]. split; [|exact E]. intros He. constructor; try assumption.
      apply Hi. exists b2, s'. split; [reflexivity|]. split; [exact Hb2|apply ends_end; exact He].
    + apply comment_inv in H; [|exact Hv0]. destruct H as (t & Ht & -> & -> & -> & Hnl).
      assert (b2 = []).
      { destruct b2 as [|x b2]; [reflexivity|]. exfalso. cbn [app] in Hnl. inversion Hb2 as [|? ? Hx]. subst.
        cbn in Hnl. clear - Hx Hnl. unfold is_blank in Hx. unfold is_newline_byte in Hnl.
        apply orb_true_iff in Hx. rewrite !N.eqb_eq in Hx. destruct Hx; subst; discriminate. }
      subst b2. exists (b ++ t). rewrite <- !app_assoc, !app_length. split; [reflexivity|]. split; [cbn; lia|].
      intros st. cbn. exists []. split; [intros He; constructor; assumption|rewrite app_nil_r; reflexivity].
  - exists (b ++ b2). rewrite <- !app_assoc, !app_length. split; [reflexivity|]. split; [lia|].
    intros st. cbn. exists []. split; [intros He; constructor; [apply Forall_app; split; assumption|exact He]|rewrite app_nil_r; reflexivity].
Qed.

Lemma newline_exact c p s q s' f : run c NEWLINE p s = Done q s' f ->
  exists n, newline n /\ s = n ++ s' /\ q = p + length n /\ f = [] /\ (n = [CR] -> ~ begins_with LF s').
Proof.
  intros H. pose proof H as H0. apply newline_inv in H. destruct H as (n & Hn & -> & -> & ->).
  exists n. repeat split; auto. intros -> [t ->]. cbn [app] in H0. rewrite run_newline in H0. cbn in H0.
  injection H0 as _ E. apply (f_equal (@length N)) in E. cbn in E. lia.
Qed.

Lemma lines_exact p s q s' f : valid_utf8 s = true -> pos p s ->
  run ctx0 (Rep (Seq NEWLINE (Call R_meta_step))) p s = Done q s' f ->
  exists w, s = w ++ s' /\ q = p + length w /\
    forall st, yields (fun st' => exists l, ds_instructions st' = ds_instructions st ++ l /\
      forall p0 w0 l0, s' = [] -> (ends_here w -> line_reads unq p0 w0 w l0) -> p = p0 + length w0 -> document_reads unq p0 (w0 ++ w) (l0 ++ l))
      (for_each (doc_step unq src) f st).
Proof.
  intros Hv Hp H.
  destruct (rep_ind ctx0 (Seq NEWLINE (Call R_meta_step)) (fun p w f s' => valid_utf8 (w ++ s') = true -> pos p (w ++ s') ->
    forall st, yields (fun st' => exists l, ds_instructions st' = ds_instructions st ++ l /\
      forall p0 w0 l0, s' = [] -> (ends_here w -> line_reads unq p0 w0 w l0) -> p = p0 + length w0 -> document_reads unq p0 (w0 ++ w) (l0 ++ l))
      (for_each (doc_step unq src) f st))) with (4 := H) as (w & -> & -> & K).
  - reflexivity.
  - intros p0 s0 _ _ _ st. cbn. exists []. rewrite app_nil_r. split; [reflexivity|].
    intros p1 w1 l1 _ Hl _. rewrite !app_nil_r. constructor. apply Hl. exact I.
  - clear H Hv Hp. intros p0 w1 s1 f1 w2 f2 s0' H -> _ IH Hv Hp st. rewrite <- app_assoc in Hv, Hp.
    pose proof (run_valid _ _ _ _ _ _ _ H Hv eq_refl) as Hv1. specialize (IH Hv1 (pos_app _ _ _ _ Hp)).
    seq_open H Hv H1. apply newline_exact in H1. destruct H1 as (n & Hn & E & -> & -> & Hcr). rewrite E in Hp.
    pose proof (pos_app _ _ _ _ Hp) as Hp1.
    apply line_exact in H; [|exact Hv0|exact Hp1]. destruct H as (w & -> & Eq & Hy).
    assert (w1 = n ++ w). { apply (app_inv_tail (w2 ++ s0')). rewrite E, <- app_assoc. reflexivity. }
    subst w1. cbn [app]. rewrite for_each_app. eapply yields_bind; [apply Hy|]. intros st1 (l1 & Hl1 & E1).
    eapply yields_impl; [apply IH|]. intros st2 (l2 & E2 & Hd). exists (l1 ++ l2).
    split; [rewrite E2, E1, <- app_assoc; reflexivity|].
    intros p1 wp lp Es Hp0 Ep. subst s0'. rewrite !app_nil_r in *. rewrite <- app_assoc in *. apply reads_more.
    + apply Hp0. apply ends_end. apply newline_line_end. exact Hn.
    + exact Hn.
    + exact Hcr.
    + rewrite <- Ep. apply Hd; [reflexivity|exact Hl1|]. rewrite app_length. lia.
  - exists w. split; [reflexivity|]. split; [reflexivity|]. apply K; assumption.
Qed.
End Doc.

Lemma accepted_exact unq input d : valid_utf8 input = true -> parse unq input = Ok d ->
  reading unq input (d_instructions d).
Proof.
  intros Hv Hok. destruct (pest_parse R_dockerfile input) as [q s' f| |] eqn:E;
    [|unfold parse in Hok; rewrite E in Hok; discriminate..].
  unfold parse in Hok. rewrite E in Hok.
  rewrite pest_parse_run in E. apply token_inv in E; [|discriminate]. destruct E as (f' & H & ->).
  cbn [grammar fst snd rule_inner rule_outer] in H. seq_open H Hv H1. seq_open H Hv0 H2. seq_open H Hv1 H3.
  rewrite run_soi in H1. cbn in H1. injection H1 as <- <- <-.
  apply (line_exact unq input) in H2; [|exact Hv|reflexivity]. destruct H2 as (w & Ei & -> & Hy1).
  assert (Hp : Sound.pos input (0 + length w) s0) by (apply pos_app; rewrite <- Ei; reflexivity).
  apply (lines_exact unq input) in H3; [|exact Hv1|exact Hp]. destruct H3 as (w2 & -> & -> & Hy2).
  apply token_inv in H; [|discriminate]. destruct H as (fe & H & ->). cbn [grammar fst snd] in H. rewrite run_eoi in H.
  match type of H with match ?x with _ => _ end = _ => destruct x; [|discriminate] end. injection H as <- <- <-.
  rewrite app_nil_r in *. cbn [t_children] in Hok.
  match type of Hok with context [for_each (doc_step unq input) ?f ?st0] =>
    assert (K : Sound.yields unq input (fun st => reading unq input (ds_instructions st))
      (for_each (doc_step unq input) f st0)) end.
  { cbn [app]. rewrite for_each_app. eapply yields_bind; [apply Hy1|]. intros st (l & Hl & E1). cbn [ds_instructions app] in E1.
    rewrite for_each_app. eapply yields_bind; [apply Hy2|]. intros st2 (l2 & E2 & Hd).
    cbn. rewrite E2, E1. unfold reading. rewrite Ei at 1. apply Hd; [reflexivity|exact Hl|reflexivity]. }
  match type of K with Sound.yields _ _ _ ?o => destruct o as [st|e| |] end; cbn in *; try discriminate.
  injection Hok as <-. exact K.
Qed.
