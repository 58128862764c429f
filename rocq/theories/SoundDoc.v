(** Soundness of a whole document: see Sound.v. *)

From Coq Require Import String.
From Verif Require Import Bytes BytesFacts Grammar Peg Result Ast Splicer Image Convert Dockerfile
  PegFacts SpecImage ImageFacts SpecSyntax PegRules PegTokens PegQuoted Sound SoundRules SoundInstr.
Local Open Scope nat_scope.

Section Doc.
Variable unq : bytes -> option bytes.
Variable src : bytes.

Notation yields := (yields unq src).
Notation pos := (pos src).

Lemma renumbered p w f n : instruction_at unq p w (IFrom f) -> instruction_at unq p w (IFrom (set_index f n)).
Proof. intros H. exact H. Qed.

Lemma doc_step_at p w t st : t_rule t <> R_EOI -> t_rule t <> R_comment ->
  yields (fun i => instruction_at unq p w i) (instruction_of unq src t) ->
  yields (fun st' => exists i, instruction_at unq p w i /\ ds_instructions st' = ds_instructions st ++ [i])
    (doc_step unq src st t).
Proof.
  intros H1 H2 Hy.
  assert (E : doc_step unq src st t = (instruction <- instruction_of unq src t;;
    match instruction with
    | IFrom f =>
      Ok (DocState (ds_instructions st ++ [IFrom (set_index f (ds_from_index st))])
                   (ds_global_args st) true (S (ds_from_index st)))
    | IArg a =>
      Ok (DocState (ds_instructions st ++ [IArg a])
                   (if ds_from_found st then ds_global_args st else ds_global_args st ++ [a])
                   (ds_from_found st) (ds_from_index st))
    | i =>
      Ok (DocState (ds_instructions st ++ [i])
                   (ds_global_args st) (ds_from_found st) (ds_from_index st))
    end)).
  { unfold doc_step. destruct (t_rule t); congruence || reflexivity. }
  rewrite E. eapply yields_bind; [exact Hy|]. intros i Hi.
  destruct i; cbn [Sound.yields]; (eexists; split; [|cbn [ds_instructions]; reflexivity]); try exact Hi.
Qed.

Lemma meta_step_inv p s q s' f : valid_utf8 s = true -> pos p s -> run ctx0 (Call R_meta_step) p s = Done q s' f ->
  exists w, s = w ++ s' /\ q = p + length w /\
    forall st, yields (fun st' => exists l, line_at unq p w l /\ ds_instructions st' = ds_instructions st ++ l)
      (for_each (doc_step unq src) f st).
Proof.
  intros Hv Hp H. call_open H. cbn [grammar fst snd rule_inner rule_outer rule_tokens] in *.
  seq_open H Hv H1. seq_open H Hv0 H2.
  apply blanks_inv in H1. destruct H1 as (b & Hb & -> & -> & -> & _).
  apply blanks_inv in H. destruct H as (b2 & Hb2 & -> & -> & -> & _).
  pose proof (pos_app _ _ _ _ Hp) as Hp1. rewrite app_nil_r. cbn [app].
  apply opt_inv in H2; [|reflexivity]. destruct H2 as [H|(_ & -> & <- & ->)].
  - apply alt_inv in H; [|reflexivity]. destruct H as [H|[_ H]].
    + apply (step_inv unq src) in H; [|exact Hv0|exact Hp1].
      destruct H as (w & t & -> & -> & -> & Ht1 & Ht2 & Hy).
      exists (b ++ w ++ b2). rewrite <- !app_assoc, !app_length. split; [reflexivity|]. split; [lia|].
      intros st. cbn [for_each].
      eapply yields_bind; [apply doc_step_at; [exact Ht1|exact Ht2|exact Hy]|].
      intros st' (i & Hi & E). cbn. exists [i]. split; [constructor; assumption|exact E].
    + apply comment_inv in H; [|exact Hv0]. destruct H as (t & Ht & -> & -> & -> & Hnl).
      assert (b2 = []).
      { destruct b2 as [|x b2]; [reflexivity|]. exfalso. cbn [app] in Hnl. inversion Hb2 as [|? ? Hx]. subst.
        cbn in Hnl. clear - Hx Hnl. unfold is_blank in Hx. unfold is_newline_byte in Hnl.
        apply orb_true_iff in Hx. rewrite !N.eqb_eq in Hx. destruct Hx; subst; discriminate. }
      subst b2. exists (b ++ t). rewrite <- !app_assoc, !app_length. split; [reflexivity|]. split; [cbn; lia|].
      intros st. cbn. exists []. split; [constructor; assumption|rewrite app_nil_r; reflexivity].
  - exists (b ++ b2). rewrite <- !app_assoc, !app_length. split; [reflexivity|]. split; [lia|].
    intros st. cbn. exists []. split; [constructor; apply Forall_app; split; assumption|rewrite app_nil_r; reflexivity].
Qed.

Lemma lines_inv p s q s' f : valid_utf8 s = true -> pos p s ->
  run ctx0 (Rep (Seq NEWLINE (Call R_meta_step))) p s = Done q s' f ->
  exists w, s = w ++ s' /\ q = p + length w /\
    forall st, yields (fun st' => exists l, ds_instructions st' = ds_instructions st ++ l /\
      forall p0 w0 l0, line_at unq p0 w0 l0 -> p = p0 + length w0 -> document_at unq p0 (w0 ++ w) (l0 ++ l))
      (for_each (doc_step unq src) f st).
Proof.
  intros Hv Hp H.
  destruct (rep_ind ctx0 (Seq NEWLINE (Call R_meta_step)) (fun p w f s' => valid_utf8 (w ++ s') = true -> pos p (w ++ s') ->
    forall st, yields (fun st' => exists l, ds_instructions st' = ds_instructions st ++ l /\
      forall p0 w0 l0, line_at unq p0 w0 l0 -> p = p0 + length w0 -> document_at unq p0 (w0 ++ w) (l0 ++ l))
      (for_each (doc_step unq src) f st))) with (4 := H) as (w & -> & -> & K).
  - reflexivity.
  - intros p0 s0 _ _ _ st. cbn. exists []. rewrite app_nil_r. split; [reflexivity|].
    intros p1 w1 l1 Hl _. rewrite !app_nil_r. constructor. exact Hl.
  - clear H Hv Hp. intros p0 w1 s1 f1 w2 f2 s0' H -> _ IH Hv Hp st. rewrite <- app_assoc in Hv, Hp.
    pose proof (run_valid _ _ _ _ _ _ _ H Hv eq_refl) as Hv1. specialize (IH Hv1 (pos_app _ _ _ _ Hp)).
    seq_open H Hv H1. apply newline_inv in H1. destruct H1 as (n & Hn & E & -> & ->). rewrite E in Hp.
    pose proof (pos_app _ _ _ _ Hp) as Hp1.
    apply meta_step_inv in H; [|exact Hv0|exact Hp1]. destruct H as (w & -> & Eq & Hy).
    assert (w1 = n ++ w). { apply (app_inv_tail (w2 ++ s0')). rewrite E, <- app_assoc. reflexivity. }
    subst w1. cbn [app]. rewrite for_each_app. eapply yields_bind; [apply Hy|]. intros st1 (l1 & Hl1 & E1).
    eapply yields_impl; [apply IH|]. intros st2 (l2 & E2 & Hd). exists (l1 ++ l2).
    split; [rewrite E2, E1, <- app_assoc; reflexivity|].
    intros p1 wp lp Hp0 Ep. rewrite <- app_assoc. constructor; [exact Hp0|exact Hn|].
    rewrite <- Ep. apply Hd; [exact Hl1|]. rewrite app_length. lia.
  - exists w. split; [reflexivity|]. split; [reflexivity|]. apply K; assumption.
Qed.

End Doc.

(** ** The theorem *)

Lemma accepted_sound unq input q s' f : valid_utf8 input = true -> pest_parse R_dockerfile input = Done q s' f ->
  match parse unq input with
  | Ok d => d_content d = input /\ document unq input (d_instructions d)
  | Err e => cause unq input e
  | Panic | Diverge => False
  end.
Proof.
  intros Hv E. unfold parse. rewrite E.
  rewrite pest_parse_run in E. apply token_inv in E; [|discriminate]. destruct E as (f' & H & ->).
  cbn [grammar fst snd rule_inner rule_outer] in H. seq_open H Hv H1. seq_open H Hv0 H2. seq_open H Hv1 H3.
  rewrite run_soi in H1. cbn in H1. injection H1 as <- <- <-.
  apply (meta_step_inv unq input) in H2; [|exact Hv|reflexivity]. destruct H2 as (w & Ei & -> & Hy1).
  assert (Hp : Sound.pos input (0 + length w) s0) by (apply pos_app; rewrite <- Ei; reflexivity).
  apply (lines_inv unq input) in H3; [|exact Hv1|exact Hp]. destruct H3 as (w2 & -> & -> & Hy2).
  apply token_inv in H; [|discriminate]. destruct H as (fe & H & ->). cbn [grammar fst snd] in H. rewrite run_eoi in H.
  match type of H with match ?x with _ => _ end = _ => destruct x; [|discriminate] end. injection H as <- <- <-.
  rewrite app_nil_r in Ei. cbn [t_children].
  match goal with |- context [for_each (doc_step unq input) ?f ?st0] =>
    assert (K : Sound.yields unq input (fun st => document unq input (ds_instructions st))
      (for_each (doc_step unq input) f st0)) end.
  { cbn [app]. rewrite for_each_app. eapply yields_bind; [apply Hy1|]. intros st (l & Hl & E1). cbn [ds_instructions app] in E1.
    rewrite for_each_app. eapply yields_bind; [apply Hy2|]. intros st2 (l2 & E2 & Hd).
    cbn. rewrite E2, E1, Ei. apply Hd; [exact Hl|reflexivity]. }
  match type of K with Sound.yields _ _ _ ?o => destruct o as [st|e| |] end; cbn in *; auto.
Qed.

Theorem parse_sound unq input : valid_utf8 input = true ->
  match parse unq input with
  | Ok d => d_content d = input /\ document unq input (d_instructions d)
  | Err e => e = EParse \/ cause unq input e
  | Panic | Diverge => False
  end.
Proof.
  intros Hv. pose proof (pest_parse_total R_dockerfile input) as Ht.
  destruct (pest_parse R_dockerfile input) as [q s' f| |] eqn:E; [| |congruence].
  - pose proof (accepted_sound unq input q s' f Hv E) as K. destruct (parse unq input); auto.
  - unfold parse. rewrite E. left. reflexivity.
Qed.
